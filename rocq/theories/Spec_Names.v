(** * What each property name means, written only with the entries of the adjacency matrix and lists.
    Nothing here refers to the reductions, masks or keys of the model of the cache. *)
From Verif Require Import Base Model_Graph Model_Cache.

(** the present ones among [f 0], ..., [f (n-1)] *)
Definition present (n : nat) (f : nat -> option Z) : list Z :=
  flat_map (fun i => match f i with Some x => [x] | None => [] end) (seq 0 n).

(** [r] is the reduction of the values [l]; there is none when there are no values *)
Definition reduced (o : rop) (l : list Z) (r : option Z) : Prop :=
  match r with
  | None => l = []
  | Some x =>
      l <> [] /\
      match o with
      | RCount => x = Z.of_nat (List.length l)
      | RPlus => x = fold_right Z.add 0%Z l
      | RTimes => x = fold_right Z.mul 1%Z l
      | RMin => In x l /\ forall y, In y l -> (x <= y)%Z
      | RMax => In x l /\ forall y, In y l -> (y <= x)%Z
      | RAny => In x l
      end
  end.
(** a count, absent when it is zero *)
Definition counted (k : nat) (r : option Z) : Prop :=
  (k = 0 /\ r = None) \/ (k <> 0 /\ r = Some (Z.of_nat k)).

Section Names.
Variable G : graph.
Notation n := (nrows (g_A G)).

(** the weight of the edge i->j; with "-" ([SM]) self-edges do not count *)
Definition wt (sg : sgn) (i j : nat) : option Z :=
  match sg with
  | SM => if i =? j then None else mget (g_A G) i j
  | SP => mget (g_A G) i j
  end.
Definition is_edge (sg : sgn) (i j : nat) : bool := match wt sg i j with Some _ => true | None => false end.
(** the weights of the edges out of [i], into [j], of all edges, of the self-edges *)
Definition out_weights (sg : sgn) (i : nat) : list Z := present n (fun j => wt sg i j).
Definition in_weights (sg : sgn) (j : nat) : list Z := present n (fun i => wt sg i j).
Definition all_weights (sg : sgn) : list Z := flat_map (out_weights sg) (seq 0 n).
Definition self_weights : list Z := present n (fun i => mget (g_A G) i i).
(** the nodes joined to [i] in both directions *)
Definition both_ways (sg : sgn) (i : nat) : list nat :=
  filter (fun j => is_edge sg i j && is_edge sg j i) (seq 0 n).

(** a vector over the nodes whose unmasked entries satisfy [P], the others being absent *)
Definition vector (mask : mask_t) (v : vec Z) (P : nat -> option Z -> Prop) : Prop :=
  List.length v = n /\
  forall i, i < n -> match mask with
                     | Some p => if p i then P i (vget v i) else vget v i = None
                     | None => P i (vget v i)
                     end.
(** a square matrix over the nodes with the entries [f] *)
Definition matrix (m : mat Z) (f : nat -> nat -> option Z) : Prop :=
  nrows m = n /\ ncols m = n /\ forall i j, i < n -> j < n -> mget m i j = f i j.
(** a boolean that tells whether [P] *)
Definition tells (b : bool) (P : Prop) : Prop := b = true <-> P.

(** [denotes nm mask v]: [v] is what [G.get_property(nm, mask=mask)] has to return *)
Definition denotes (nm : pname) (mask : mask_t) (v : pval) : Prop :=
  match nm, v with
  | NA, PMat m => matrix m (fun i j => mget (g_A G) i j)
  | NAT, PMat m => matrix m (fun i j => mget (g_A G) j i)
  | Noffdiag, PMat m => matrix m (fun i j => if i =? j then None else mget (g_A G) i j)
  | NU SP, PMat m => matrix m (fun i j => if i <=? j then mget (g_A G) i j else None)
  | NU SM, PMat m => matrix m (fun i j => if i <? j then mget (g_A G) i j else None)
  | NL SP, PMat m => matrix m (fun i j => if j <=? i then mget (g_A G) i j else None)
  | NL SM, PMat m => matrix m (fun i j => if j <? i then mget (g_A G) i j else None)
  | Ndiag, PVec v => vector mask v (fun i r => r = mget (g_A G) i i)
  | Nred Row o sg, PVec v => vector mask v (fun i r => reduced o (out_weights sg i) r)
  | Nred Col o sg, PVec v => vector mask v (fun j r => reduced o (in_weights sg j) r)
  | Ndegrees sg, PVec v | Nrow_degrees sg, PVec v => vector mask v (fun i r => counted (List.length (out_weights sg i)) r)
  | Ncolumn_degrees sg, PVec v => vector mask v (fun j r => counted (List.length (in_weights sg j)) r)
  | Nrecip_degrees sg, PVec v => vector mask v (fun i r => counted (List.length (both_ways sg i)) r)
  | Ntotal_degrees sg, PVec v =>
      vector mask v (fun i r => counted (List.length (out_weights sg i) + List.length (in_weights sg i)) r)
  | Ntotal_recip sg, PInt z =>
      z = Z.of_nat (List.length (flat_map (both_ways sg) (seq 0 n)))
  | Nelement o sg, PScal r => reduced o (all_weights sg) r
  | Ndiagonal o, PScal r => reduced o self_weights r
  | Nnegdiag, PBool b => tells b (exists i x, mget (g_A G) i i = Some x /\ (x < 0)%Z)
  | Nnegedges sg, PBool b => tells b (exists i j x, wt sg i j = Some x /\ (x < 0)%Z)
  | Nself, PBool b => tells b (exists i x, mget (g_A G) i i = Some x)
  | Nis_iso, PBool b => b = g_iso G
  | Niso_value, PIso None => g_iso G = false
  | Niso_value, PIso (Some r) => g_iso G = true /\
      match r with
      | None => all_weights SP = []
      | Some x => all_weights SP <> [] /\ forall y, In y (all_weights SP) -> y = x
      end
  | _, _ => False
  end.
End Names.
