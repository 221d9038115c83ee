(** * Specification vocabulary for triangles and clustering, in terms of node keys *)
From Verif Require Import Base Model_Graph Model_Keys Spec Spec_Count Model_Cluster.
From Coq Require Import QArith Qcanon.
Open Scope nat_scope.

(** an edge between two different nodes *)
Definition nbr (G : graph) (u v : nkey) : bool := negb (nkey_eqb u v) && has_edge G u v.
(** number of neighbours (successors, predecessors) other than oneself *)
Definition deg0 (G : graph) (u : nkey) : nat := count (nbr G u) (gnodes G).
Definition indeg0 (G : graph) (u : nkey) : nat := count (fun v => nbr G v u) (gnodes G).
(** neighbours in both directions *)
Definition recip0 (G : graph) (u : nkey) : nat := count (fun v => nbr G u v && nbr G v u) (gnodes G).
(** unordered pairs of neighbours of v that are adjacent: the triangles v is in *)
Definition triangles_at (G : graph) (v : nkey) : nat :=
  count (fun p => nbr G v (fst p) && nbr G v (snd p) && nbr G (fst p) (snd p)) (upairs (gnodes G)).

(** integers as rationals; sums of rationals *)
Definition qz (z : Z) : Qc := Q2Qc (inject_Z z).
Definition qtotal {X} (f : X -> Qc) (l : list X) : Qc := fold_right Qcplus 0%Qc (map f l).
(** m is the largest weight of an edge between two different nodes *)
Definition max_weight (G : graph) (m : Z) : Prop :=
  (exists u v, nbr G u v = true /\ weight G u v = Some m) /\
  forall u v, nbr G u v = true -> (weight0 G u v <= m)%Z.
(** the contribution of the edge u->v to a triangle: 1, or the cube root of its normalised weight *)
Definition coef (G : graph) (cbrt : Qc -> Qc) (mx : option Z) (u v : nkey) : Qc :=
  if nbr G u v then
    match mx with None => 1%Qc | Some m => cbrt (qz (weight0 G u v) / qz m)%Qc end
  else 0%Qc.
(** undirected clustering coefficient for edge contributions [c]: the triangles at v (every pair of
    neighbours counted in both orders), over the ordered pairs of neighbours *)
Definition cc (G : graph) (c : nkey -> nkey -> Qc) (v : nkey) : Qc :=
  if deg0 G v <=? 1 then 0%Qc else
  (qtotal (fun p => c v (fst p) * c v (snd p) * c (fst p) (snd p)) (pairs (gnodes G))
   / qz (Z.of_nat (deg0 G v) * (Z.of_nat (deg0 G v) - 1)))%Qc.
(** directed: every one of the eight orientations of a triangle v,x,y counts; pairs (x,y) in both orders *)
Definition ccd (G : graph) (c : nkey -> nkey -> Qc) (v : nkey) : Qc :=
  let td := Z.of_nat (deg0 G v + indeg0 G v) in
  (qtotal (fun p => (c v (fst p) + c (fst p) v) * (c v (snd p) + c (snd p) v) * (c (fst p) (snd p) + c (snd p) (fst p)))
     (pairs (gnodes G))
   / qz (2 * (td * (td - 1) - 2 * Z.of_nat (recip0 G v))))%Qc.
(** the clustering coefficient of a graph of either kind *)
Definition clustering_at (G : graph) (c : nkey -> nkey -> Qc) (v : nkey) : Qc :=
  if g_dir G then ccd G c v else cc G c v.
(** transitivity: closed pairs of neighbours over pairs of neighbours, both summed over the nodes *)
Definition pairs_at (G : graph) (v : nkey) : Z := (Z.of_nat (deg0 G v) * (Z.of_nat (deg0 G v) - 1))%Z.
Definition closed_pairs (G : graph) (v : nkey) : nat :=
  count (fun p => nbr G v (fst p) && nbr G v (snd p) && nbr G (fst p) (snd p)) (pairs (gnodes G)).
(** the sums over all nodes *)
Definition transitivity_of (G : graph) : Qc :=
  let closed := total (fun v => Z.of_nat (closed_pairs G v)) (gnodes G) in
  if (closed =? 0)%Z then 0%Qc else (qz closed / qz (total (pairs_at G) (gnodes G)))%Qc.
(** is v in some triangle, whatever the directions of its edges *)
Definition adj (G : graph) (u v : nkey) : bool := nbr G u v || nbr G v u.
Definition in_triangle (G : graph) (v : nkey) : bool :=
  existsb (fun p => adj G v (fst p) && adj G v (snd p) && adj G (fst p) (snd p)) (pairs (gnodes G)).
(** the mean of [f] over the nodes [l]; with [count_zeros = false] only over those in a triangle *)
Definition mean_count (G : graph) (count_zeros : bool) (l : list nkey) : nat :=
  if count_zeros then List.length l else count (in_triangle G) l.
Definition mean (G : graph) (count_zeros : bool) (f : nkey -> Qc) (l : list nkey) : Qc :=
  (qtotal f l / qz (Z.of_nat (mean_count G count_zeros l)))%Qc.

(** ** calls *)
(** the nodes a NodeMap answer is about *)
Definition wanted (G : graph) (a : nodes_arg) (k : nkey) : Prop :=
  match a with AllNodes => node G k | Nodes l => In k l | OneNode _ => False end.
(** the normalisation in use: none, or the largest weight *)
Definition scale (G : graph) (weighted : bool) (mx : option Z) : Prop :=
  match mx with None => weighted = false | Some m => weighted = true /\ max_weight G m end.
(** the reasons why a weighted call raises: there is no edge between different nodes to normalise by
    (graphblas' EmptyObject), or the self-loop defect of "max_element-" (C21_weighted_self_loop_refuted) *)
Definition weigh_fail (G : graph) (mhr : bool) (e : exn) : Prop :=
  (e = EValue /\ forall u v, nbr G u v = false) \/ (e = EAttr /\ mhr = false /\ ~ loop_free G).

(** ** square clustering, for an adjacency [e] *)
Section Square.
Variable G : graph.
Variable e : nkey -> nkey -> bool.
Definition valency (u : nkey) : Z := Z.of_nat (count (e u) (gnodes G)).
(** common neighbours of u and w other than v: the squares v-u-x-w *)
Definition squares_with (v u w : nkey) : Z :=
  Z.of_nat (count (fun x => negb (nkey_eqb x v) && e u x && e w x) (gnodes G)).
(** the squares that the pair u, w could be in *)
Definition possible_with (v u w : nkey) : Z :=
  let m := (squares_with v u w + 1 + (if e u w then 1 else 0))%Z in
  ((valency u - m) + (valency w - m) + squares_with v u w)%Z.
(** sum over the unordered pairs of different neighbours of v *)
Definition over_pairs (v : nkey) (f : nkey -> nkey -> Z) : Z :=
  total (fun p => if negb (nkey_eqb (fst p) (snd p)) && e v (fst p) && e v (snd p) then f (fst p) (snd p) else 0%Z) (upairs (gnodes G)).
Definition squares_at (v : nkey) : Z := over_pairs v (squares_with v).
Definition possible_at (v : nkey) : Z := over_pairs v (possible_with v).
(** existing over possible squares; 0 when none is possible *)
Definition square_at (v : nkey) : Qc :=
  if (possible_at v =? 0)%Z then 0%Qc else (qz (squares_at v) / qz (possible_at v))%Qc.
End Square.

(** ** generalized degree *)
(** the triangles that the edge v-u lies in *)
Definition tri_edge (G : graph) (v u : nkey) : nat := count (fun x => nbr G v x && nbr G u x) (gnodes G).
(** the neighbours u of v such that the edge v-u lies in exactly k triangles *)
Definition gdeg (G : graph) (v : nkey) (k : nat) : nat := count (fun u => nbr G v u && (tri_edge G v u =? k)) (gnodes G).

(** ** k-truss *)
(** the symmetric sub-relation E of the adjacency, self-loops dropped, has each of its edges in k-2 or more
    of its own triangles *)
Definition truss (G : graph) (k : Z) (E : nkey -> nkey -> bool) : Prop :=
  (forall u v, E u v = true -> nbr G u v = true) /\ (forall u v, E u v = E v u) /\
  forall u v, E u v = true -> (k - 2 <= Z.of_nat (count (fun x => E u x && E v x) (gnodes G)))%Z.
