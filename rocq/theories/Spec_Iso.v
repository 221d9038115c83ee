(** * Calls that read "iso_value" *)
From Verif Require Import Base Model_Graph Model_Cache Spec_Cache.

(** "iso_value" can be asked for: "is_iso" was not answered False on its own before.  The code looks the
    missing "iso_value" up instead of computing it in that case (graph.py 238-239) and raises KeyError,
    see C57_history_refuted. *)
Definition iso_known (s : st) : Prop := c_bool s KIsIso = Some false -> c_iso s <> None.
(** the call, made in a consistent state of that kind, ends as described and leaves such a state behind *)
Definition answers_iso (G : graph) {X} (m : M X) (R : outcome X -> Prop) : Prop :=
  forall s, Inv G s -> iso_known s -> R (fst (m s)) /\ Inv G (snd (m s)) /\ iso_known (snd (m s)).
