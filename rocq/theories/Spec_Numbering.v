(** * Specification vocabulary for C70: one graph, two numberings *)
From Verif Require Import Base Model_Graph Model_Keys Spec Spec_Cache.
From Coq Require Import Permutation.

(** [G] and [H] have the same nodes and weighted edges; the node numbers (key_to_id and its order),
    the matrix built from them, the dtype and the iso flag may differ *)
Definition same_graph (G H : graph) : Prop :=
  g_dir G = g_dir H /\ (forall u, node G u <-> node H u) /\ forall u v, weight G u v = weight H u v.

(** two containers nobody can tell apart by lookups, length, or iteration up to order *)
Definition same_set (a b : nodeset) : Prop :=
  (forall k, ns_contains a k = Val true <-> ns_contains b k = Val true) /\ ns_len a = ns_len b /\
  exists l l', ns_iter a = Val l /\ ns_iter b = Val l' /\ Permutation l l'.
Definition same_map {V} (a b : nodemap V) : Prop :=
  (forall k x, nm_getitem a k = Val x <-> nm_getitem b k = Val x) /\ nm_len a = nm_len b /\
  exists l l', nm_iter a = Val l /\ nm_iter b = Val l' /\ Permutation l l'.
(** values related by [R], or the same exception *)
Definition same_outcome {X} (R : X -> X -> Prop) (o o' : outcome X) : Prop :=
  match o, o' with Val a, Val b => R a b | Raise e, Raise e' => e = e' | _, _ => False end.
(** the same call [f] on both graphs, after any (separate) histories of calls *)
Definition alike {X} (G H : graph) (f : graph -> M X) (R : X -> X -> Prop) : Prop :=
  forall s t, Inv G s -> Inv H t -> same_outcome R (fst (f G s)) (fst (f H t)).
