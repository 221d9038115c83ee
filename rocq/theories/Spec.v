(** * Specification vocabulary: nodes, edges, walks and distances, in terms of node keys *)
From Verif Require Import Base Model_Graph Model_Keys.
From Coq Require Import Permutation.

(** [node G u]: u is a node of G *)
Definition node (G : graph) (u : nkey) : Prop := In u (gnodes G).
(** weight of the edge u->v, if there is one *)
Definition weight (G : graph) (u v : nkey) : option Z :=
  match kid G u, kid G v with Some i, Some j => mget (g_A G) i j | _, _ => None end.
Definition edge (G : graph) (u v : nkey) : Prop := exists w, weight G u v = Some w.
(** the same on internal ids, used to state facts about intermediate results *)
Definition iedge (G : graph) (i j : nat) : Prop := exists w, mget (g_A G) i j = Some w.

(** walks with d steps *)
Inductive walk {X : Type} (E : X -> X -> Prop) (x : X) : nat -> X -> Prop :=
| walk_nil : walk E x 0 x
| walk_snoc d y z : walk E x d y -> E y z -> walk E x (S d) z.
Definition reach {X} (E : X -> X -> Prop) (x y : X) : Prop := exists d, walk E x d y.
(** d is the least number of steps from x to y *)
Definition dist {X} (E : X -> X -> Prop) (x y : X) (d : nat) : Prop :=
  walk E x d y /\ forall d', walk E x d' y -> d <= d'.
(** the least number of steps from the nearest of several sources *)
Definition dist_from {X} (E : X -> X -> Prop) (S : X -> Prop) (y : X) (d : nat) : Prop :=
  (exists x, S x /\ walk E x d y) /\ forall x d', S x -> walk E x d' y -> d <= d'.
Definition rev {X} (E : X -> X -> Prop) (x y : X) : Prop := E y x.
Definition sym {X} (E : X -> X -> Prop) (x y : X) : Prop := E x y \/ E y x.

(** ** What a returned container is, as seen through its methods *)
(** the NodeSet [S] is the set [P]: membership, iteration (each element once) and length agree *)
Definition is_set (S : nodeset) (P : nkey -> Prop) : Prop :=
  (forall k, ns_contains S k = Val true <-> P k) /\
  exists l, ns_iter S = Val l /\ NoDup l /\ ns_len S = List.length l /\ forall k, In k l <-> P k.
(** the NodeMap [m] is the finite map with graph [R] *)
Definition is_map {V} (m : nodemap V) (R : nkey -> V -> Prop) : Prop :=
  (forall k x, nm_getitem m k = Val x <-> R k x) /\
  exists l, nm_iter m = Val l /\ NoDup l /\ nm_len m = List.length l /\ forall k, In k l <-> exists x, R k x.
(** d steps are within the cutoff; without one every d is (a negative cutoff behaves like 0) *)
Definition within (cutoff : option Z) (d : nat) : Prop :=
  match cutoff with None => True | Some c => (Z.of_nat d <= Z.max 0 c)%Z end.
(** a numbering of n nodes *)
Definition kok (d : kidmap) (n : nat) : Prop := NoDup (map fst d) /\ Permutation (map snd d) (seq 0 n).
