(** * How the laws relating several calls are stated *)
From Verif Require Import Base Model_Graph Model_Cache Spec_Cache Spec_Run Spec_Session Model_Keys Spec.

(** [seen G m o]: the call [m] on [G], made after some session of earlier calls on [G], has outcome [o].
    A law with several [seen] hypotheses is about calls made at arbitrary, unrelated points of arbitrary sessions *)
Definition seen (G : graph) {X} (m : M X) (o : outcome X) : Prop :=
  exists mhr s, reached mhr G s /\ fst (m s) = o.
(** the same for the calls that need has_negative_diagonal to be answered correctly (C05) *)
Definition seen_nd (G : graph) {X} (m : M X) (o : outcome X) : Prop :=
  exists mhr s, reached mhr G s /\ nd_ok G s /\ fst (m s) = o.
(** two graphs that no function of nodes and edges tells apart *)
Definition same_graph (R R' : graph) : Prop :=
  g_dir R = g_dir R' /\ (forall k, node R k <-> node R' k) /\ forall u v, weight R u v = weight R' u v.

(** ** counting *)
From Verif Require Import Spec_Count.
(** the unordered pairs and triples of different positions of a list *)
Fixpoint spairs {X} (l : list X) : list (X * X) :=
  match l with [] => [] | x :: l' => map (pair x) l' ++ spairs l' end.
Fixpoint triples {X} (l : list X) : list (X * (X * X)) :=
  match l with [] => [] | x :: l' => map (pair x) (spairs l') ++ triples l' end.
(** the sum of the values that a NodeMap holds for the given keys *)
Definition map_total (m : nodemap Z) (l : list nkey) : Z :=
  total (fun k => match nm_getitem m k with Val x => x | Raise _ => 0%Z end) l.
