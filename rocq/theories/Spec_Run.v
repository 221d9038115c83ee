(** * How property theorems speak about a call *)
From Verif Require Import Base Model_Graph Model_Cache Spec_Cache.

(** [answers G m R]: the call [m] on graph [G], made in any consistent cache state (in particular
    after any history of earlier calls), ends with an outcome satisfying [R] and leaves a consistent
    cache behind.  [Inv] is defined in Spec_Cache. *)
Definition answers (G : graph) {X} (m : M X) (R : outcome X -> Prop) : Prop :=
  forall s, Inv G s -> R (fst (m s)) /\ Inv G (snd (m s)).
(** the call returns a value satisfying [R] (it does not raise) *)
Definition returns (G : graph) {X} (m : M X) (R : X -> Prop) : Prop :=
  answers G m (fun o => exists x, o = Val x /\ R x).
(** the call raises [e] *)
Definition raises (G : graph) {X} (m : M X) (e : exn) : Prop :=
  answers G m (fun o => o = Raise e).

(** calls that read "total_degrees+": the answer is right in every cache state that is consistent in
    the weaker sense [InvF G false] (so also after the history that confuses has_self_edges, see
    C02_has_self_edges_refuted); full consistency is kept from the states where caching
    total_degrees+ does no harm *)
Definition answers_td (G : graph) {X} (m : M X) (R : outcome X -> Prop) : Prop :=
  forall s, InvF G false s ->
    R (fst (m s)) /\ InvF G false (snd (m s)) /\ (Inv G s -> td_safe G s -> Inv G (snd (m s))).

(** has_negative_diagonal will be answered correctly from state [s]: the code's shortcut for it is
    unsound in some states (C05_negative_diagonal_refuted), but not for iso-valued graphs, not
    without self-edges, and not in the states described by [nd_safe] (such as a fresh cache) *)
Definition nd_ok (G : graph) (s : st) : Prop := g_iso G = true \/ den_bool G KSelf = false \/ nd_safe G s.
(** calls whose answer repeats has_negative_diagonal, so that it is right only where [nd_ok] holds *)
Definition answers_ndok (G : graph) {X} (m : M X) (R : outcome X -> Prop) : Prop :=
  forall s, Inv G s -> nd_ok G s -> R (fst (m s)) /\ Inv G (snd (m s)).
