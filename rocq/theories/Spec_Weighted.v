(** * Specification vocabulary: weighted walks, shortest weights, negative cycles *)
From Verif Require Import Base.

Section W.
Context {X : Type}.
(** [W x y] is the weight of the edge x->y, if there is one *)
Variable W : X -> X -> option Z.
(** walks from x with d steps and total weight w *)
Inductive wwalk (x : X) : nat -> Z -> X -> Prop :=
| ww_nil : wwalk x 0 0 x
| ww_snoc d w y v z : wwalk x d w y -> W y z = Some v -> wwalk x (S d) (w + v) z.
Definition wreach (x y : X) : Prop := exists d w, wwalk x d w y.
(** w is the least total weight of a walk from x to y *)
Definition shortest (x y : X) (w : Z) : Prop :=
  (exists d, wwalk x d w y) /\ forall d w', wwalk x d w' y -> (w <= w')%Z.
(** y lies on a closed walk of negative total weight *)
Definition neg_cycle (y : X) : Prop := exists d w, wwalk y d w y /\ (w < 0)%Z.
Definition neg_cycle_from (x : X) : Prop := exists y, wreach x y /\ neg_cycle y.
(** consecutive elements of l are joined by edges of total weight w *)
Inductive wpath : list X -> Z -> Prop :=
| wp_one x : wpath [x] 0
| wp_cons x y l v w : W x y = Some v -> wpath (y :: l) w -> wpath (x :: y :: l) (v + w).
End W.
