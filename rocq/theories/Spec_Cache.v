(** * What the property names denote, written directly on the adjacency matrix's entries *)
From Verif Require Import Base Model_Graph Model_Cache.

Section Den.
Variable G : graph.
Notation A := (g_A G).
Notation n := (nrows (g_A G)).

(** the entry of edge i->j; with SM self-edges do not count *)
Definition ent (s : sgn) (i j : nat) : option Z :=
  match s with
  | SP => mget A i j
  | SM => if i =? j then None else mget A i j
  end.
(** fold the present values (each replaced by 1 for "count") *)
Definition rfold (o : rop) (f : nat -> option Z) : option Z :=
  ored (rbin o) n (fun i => omap (rmap o) (f i)).
(** number of self-edges *)
Definition dcount : nat := cnt n (fun i => has (mget A i i)).
(** a count, absent when zero *)
Definition onz (k : nat) : option Z := if k =? 0 then None else Some (Z.of_nat k).

Definition msel (k : mkey) (i j : nat) : bool :=
  match k with
  | KAT => true
  | KOff => negb (i =? j)
  | KU SP => i <=? j | KU SM => i <? j
  | KL SP => j <=? i | KL SM => j <? i
  end.
Definition den_mat (k : mkey) : mat Z :=
  match k with
  | KAT => mbuild n n (fun i j => mget A j i)
  | k => mbuild n n (fun i j => if msel k i j then mget A i j else None)
  end.
Definition outdeg (s : sgn) (i : nat) : nat := cnt n (fun j => has (ent s i j)).
Definition indeg (s : sgn) (j : nat) : nat := cnt n (fun i => has (ent s i j)).
Definition recipdeg (s : sgn) (i : nat) : nat := cnt n (fun j => has (ent s i j) && has (ent s j i)).
Definition den_red (a : ax) (o : rop) (s : sgn) : vec Z :=
  match a with
  | Row => vbuild n (fun i => rfold o (fun j => ent s i j))
  | Col => vbuild n (fun j => rfold o (fun i => ent s i j))
  end.
Definition den_vec (k : vkey) : vec Z :=
  match k with
  | KDiag => vbuild n (fun i => mget A i i)
  | KRed a o s => den_red a o s
  | KAliasRow s | KAliasDeg s => den_red Row RCount s
  | KAliasCol s => den_red Col RCount s
  | KRecip s => vbuild n (fun i => onz (recipdeg s i))
  | KTotal s => vbuild n (fun i => onz (outdeg s i + indeg s i))
  end.
Definition den_scal (k : skey) : option Z :=
  match k with
  | KElem o s => ored (rbin o) n (fun i => rfold o (fun j => ent s i j))
  | KDiagRed o => rfold o (fun i => mget A i i)
  end.
Definition den_int (s : sgn) : Z := Z.of_nat (nsum n (recipdeg s)).
Definition negent (s : sgn) : bool :=
  existsb (fun i => existsb (fun j => match ent s i j with Some x => (x <? 0)%Z | None => false end)
                            (seq 0 n)) (seq 0 n).
Definition den_bool (k : bkey) : bool :=
  match k with
  | KSelf => negb (dcount =? 0)
  | KNegDiag => existsb (fun i => match mget A i i with Some x => (x <? 0)%Z | None => false end) (seq 0 n)
  | KNeg s => negent s
  | KIsIso => g_iso G
  end.
Definition den_iso : option (option Z) :=
  if g_iso G then Some (den_scal (KElem RAny SP)) else None.

(** the value a property name denotes; [None]: not a property of this kind of graph, KeyError *)
Definition den_name (nm : pname) : option pval :=
  match nm with
  | NA => Some (PMat A)
  | NAT => Some (PMat (den_mat KAT))
  | Noffdiag => Some (PMat (den_mat KOff))
  | NU s => Some (PMat (den_mat (KU s)))
  | NL s => Some (PMat (den_mat (KL s)))
  | Ndiag => Some (PVec (den_vec KDiag))
  | Nred a o s => Some (PVec (den_red a o s))
  | Ndegrees s => if g_dir G then None else Some (PVec (den_red Row RCount s))
  | Nrow_degrees s => Some (PVec (den_red Row RCount s))
  | Ncolumn_degrees s => Some (PVec (den_red Col RCount s))
  | Nrecip_degrees s => if g_dir G then Some (PVec (den_vec (KRecip s))) else None
  | Ntotal_degrees s => if g_dir G then Some (PVec (den_vec (KTotal s))) else None
  | Ntotal_recip s => if g_dir G then Some (PInt (den_int s)) else None
  | Nelement o s => Some (PScal (den_scal (KElem o s)))
  | Ndiagonal o => Some (PScal (den_scal (KDiagRed o)))
  | Nnegdiag => Some (PBool (den_bool KNegDiag))
  | Nnegedges s => Some (PBool (den_bool (KNeg s)))
  | Nself => Some (PBool (den_bool KSelf))
  | Nis_iso => Some (PBool (den_bool KIsIso))
  | Niso_value => Some (PIso den_iso)
  end.
(** a mask restricts vectors and is ignored by the other kinds *)
Definition pmask (mask : mask_t) (v : pval) : pval :=
  match v with PVec v => PVec (msk mask v) | v => v end.

(** consistency of a cache: everything stored is what its name denotes.
    "count_element±" is excluded (see C01_count_element_refuted); [i_cnt], [i_rcnt], [i_off] say
    that whoever stored a self-edge-free count or "offdiag" also recorded has_self_edges.
    "has_negative_diagonal" may have been stored as True although no self-edge is negative, but only in
    a graph that has self-edges and negative edges (see C05_negative_diagonal_refuted for the defect and
    Spec_Cache.nd_safe for the states where the answer is right); no other property is affected by that.
    With [strict] the cache must not be in the state where DiGraph.has_self_edges answers from
    total_degrees+ alone (digraph.py 367-368), an answer that is always False
    (see C02_has_self_edges_refuted). *)
Record InvF (strict : bool) (s : st) : Prop := {
  i_mat : forall k m, c_mat s k = Some m -> m = den_mat k;
  i_vec : forall k v, c_vec s k = Some v -> v = den_vec k;
  i_scal : forall k x, c_scal s k = Some x -> (forall sg, k <> KElem RCount sg) -> x = den_scal k;
  i_int : forall k x, c_int s k = Some x -> x = den_int k;
  i_bool : forall k b, c_bool s k = Some b -> b = den_bool k \/
             (k = KNegDiag /\ b = true /\ den_bool KSelf = true /\ den_bool (KNeg SP) = true);
  i_iso : forall x, c_iso s = Some x -> x = den_iso;
  i_cnt : has (c_scal s (KElem RCount SM)) = true -> has (c_bool s KSelf) = true;
  i_rcnt : forall a, has (c_vec s (KRed a RCount SM)) = true -> has (c_bool s KSelf) = true;
  i_off : has (c_mat s KOff) = true -> has (c_bool s KSelf) = true;
  i_tot : strict = true -> den_bool KSelf = true -> has (c_vec s (KTotal SP)) = true ->
          has (c_bool s KSelf) = true }.
Definition Inv : st -> Prop := InvF true.

(** has_negative_diagonal is answered correctly from state [s] (the code's shortcut is sound) *)
Definition nd_safe (s : st) : Prop :=
  c_bool s KNegDiag = Some (den_bool KNegDiag) \/
  (c_bool s KNegDiag = None /\
   (nonneg_dtype (g_dt G) = true \/ c_bool s KSelf = Some false \/
    has (c_scal s (KElem RMin SM)) = true \/ c_bool s (KNeg SM) = Some false \/
    (c_bool s (KNeg SP) <> Some true /\
     match c_scal s (KElem RMin SP) with Some (Some x) => (0 <= x)%Z | _ => True end))).
(** caching total_degrees+ does no harm in state [s] *)
Definition td_safe (s : st) : Prop := den_bool KSelf = false \/ has (c_bool s KSelf) = true.
(** the calls after which the cache is still consistent: has_negative_diagonal may answer wrongly in a graph with
    self-edges without harming later calls; without self-edges a wrong answer would mislead has_self_edges *)
Definition safe_call (s : st) (c : call) : Prop :=
  (fst c = Nnegdiag -> nd_safe s \/ den_bool KSelf = true) /\
  (fst c = Ntotal_degrees SP -> snd c = None -> td_safe s).
(** the calls whose own answer is right as well *)
Definition exact_call (s : st) (c : call) : Prop := fst c = Nnegdiag -> nd_safe s.
End Den.

(** keys are never removed from a cache *)
Definition ext (s s' : st) : Prop :=
  (forall k, has (c_mat s k) = true -> has (c_mat s' k) = true) /\
  (forall k, has (c_vec s k) = true -> has (c_vec s' k) = true) /\
  (forall k, has (c_scal s k) = true -> has (c_scal s' k) = true) /\
  (forall k, has (c_int s k) = true -> has (c_int s' k) = true) /\
  (forall k, has (c_bool s k) = true -> has (c_bool s' k) = true) /\
  (has (c_iso s) = true -> has (c_iso s') = true).
