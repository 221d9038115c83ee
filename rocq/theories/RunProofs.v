(** * Rules for [answers] *)
From Verif Require Import Base BaseProofs Model_Graph Model_Cache Spec_Cache CacheMath CacheProofs CacheProofs2
  Model_Keys Spec_Run.

Section R.
Variable G : graph.
Notation ans := (answers G).
Lemma answers_ret {X} (x : X) (R : outcome X -> Prop) : R (Val x) -> ans (ret x) R.
Proof. intros H s HI. split; assumption. Qed.
Lemma answers_raise {X} e (R : outcome X -> Prop) : R (Raise e) -> ans (raise e : M X) R.
Proof. intros H s HI. split; assumption. Qed.
Lemma answers_lifto {X} (o : outcome X) (R : outcome X -> Prop) : R o -> ans (lifto o) R.
Proof. intros H s HI. split; assumption. Qed.
Lemma answers_GV {X} (m : M X) v P (R : outcome X -> Prop) : GV G true m v P -> R (Val v) -> ans m R.
Proof.
  intros H HR s HI. specialize (H s HI). unfold wp in H. destruct (m s) as [o s'].
  destruct H as (-> & H & _). split; assumption.
Qed.
Lemma answers_GO {X} (m : M X) (R R' : outcome X -> Prop) : GO G true m R -> (forall o, R o -> R' o) -> ans m R'.
Proof.
  intros H HR s HI. specialize (H s HI). unfold wp in H. destruct (m s) as [o s'].
  destruct H as (H0 & H & _). split; auto.
Qed.
Lemma answers_conseq {X} (m : M X) (R R' : outcome X -> Prop) : ans m R -> (forall o, R o -> R' o) -> ans m R'.
Proof. intros H HR s HI. destruct (H s HI). split; auto. Qed.
Lemma answers_bind {X Y} (m : M X) (f : X -> M Y) (R : outcome X -> Prop) (R' : outcome Y -> Prop) : ans m R ->
  (forall x, R (Val x) -> ans (f x) R') -> (forall e, R (Raise e) -> R' (Raise e)) -> ans (bind m f) R'.
Proof.
  intros H Hv He s HI. destruct (H s HI) as [H1 H2]. unfold bind. destruct (m s) as [[x|e] s']; simpl in *.
  - apply Hv; assumption.
  - split; auto.
Qed.
Lemma answers_bind_v {X Y} (m : M X) (f : X -> M Y) v (R' : outcome Y -> Prop) : ans m (eq (Val v)) ->
  ans (f v) R' -> ans (bind m f) R'.
Proof.
  intros H Hv. eapply answers_bind; [exact H| |]; simpl.
  - intros x [= <-]. assumption.
  - discriminate.
Qed.
Lemma answers_bind_e {X Y} (m : M X) (f : X -> M Y) e (R' : outcome Y -> Prop) : ans m (eq (Raise e)) ->
  R' (Raise e) -> ans (bind m f) R'.
Proof.
  intros H Hv. eapply answers_bind; [exact H| |]; simpl.
  - discriminate.
  - intros x [= <-]. assumption.
Qed.
Lemma answers_bind_GV {X Y} (m : M X) (f : X -> M Y) v P (R' : outcome Y -> Prop) : GV G true m v P ->
  ans (f v) R' -> ans (bind m f) R'.
Proof. intros H. apply answers_bind_v. eapply answers_GV; [exact H|reflexivity]. Qed.
Lemma answers_idx {X Y} (o : option X) (f : X -> M Y) (R : outcome Y -> Prop) :
  (forall x, o = Some x -> ans (f x) R) -> (o = None -> R (Raise EKey)) -> ans (bind (idx o) f) R.
Proof.
  intros H1 H2. destruct o as [x|]; simpl.
  - eapply answers_bind_v; [apply answers_ret; reflexivity|auto].
  - eapply answers_bind_e; [apply answers_raise; reflexivity|auto].
Qed.
Lemma answers_if {X} (b : bool) (m m' : M X) R : (b = true -> ans m R) -> (b = false -> ans m' R) -> ans (if b then m else m') R.
Proof. destruct b; auto. Qed.
Lemma answers_try {X} (m : M X) e h (R : outcome X -> Prop) (R0 : outcome X -> Prop) : ans m R0 ->
  (forall x, R0 (Val x) -> R (Val x)) -> (forall e', R0 (Raise e') -> exn_eqb e' e = false -> R (Raise e')) ->
  (forall e', R0 (Raise e') -> exn_eqb e' e = true -> ans h R) -> ans (try_except m e h) R.
Proof.
  intros H Hv He Hh s HI. destruct (H s HI) as [H1 H2]. unfold try_except. destruct (m s) as [[x|e'] s']; simpl in *.
  - split; auto.
  - destruct (exn_eqb e' e) eqn:E; [|split; [apply He; assumption|assumption]]. eapply Hh; eassumption.
Qed.
Lemma answers_assoc {X Y Z'} (m : M X) (f : X -> M Y) (g : Y -> M Z') R :
  ans (bind m (fun x => bind (f x) g)) R -> ans (bind (bind m f) g) R.
Proof.
  intros H s HI. specialize (H s HI). unfold bind in *. destruct (m s) as [[x|e] s']; exact H.
Qed.
Lemma answers_ret_bind {X Y} (x : X) (f : X -> M Y) R : ans (f x) R -> ans (bind (ret x) f) R.
Proof. intros H. exact H. Qed.
End R.

(** ** Rules for [answers_td] *)
Lemma InvF_weak G s : Inv G s -> InvF G false s.
Proof. intros [H1 H2 H3 H4 H5 H6 H7 H8 H9 H10]. constructor; auto; discriminate. Qed.
Section TD.
Variable G : graph.
Lemma td_lifto {X} (o : outcome X) (R : outcome X -> Prop) : R o -> answers_td G (lifto o) R.
Proof. intros H s HI. split; [exact H|]. split; [exact HI|]. intros HI' _. exact HI'. Qed.
Lemma td_ret {X} (x : X) (R : outcome X -> Prop) : R (Val x) -> answers_td G (ret x) R.
Proof. apply (td_lifto (Val x)). Qed.
Lemma td_raise {X} e (R : outcome X -> Prop) : R (Raise e) -> answers_td G (raise e : M X) R.
Proof. apply (td_lifto (Raise e)). Qed.
Lemma td_pure {X Y} (m : M X) (f : X -> outcome Y) (x : X) (R : outcome Y -> Prop) :
  answers_td G m (eq (Val x)) -> R (f x) -> answers_td G (bind m (fun y => lifto (f y))) R.
Proof.
  intros H HR s HI. destruct (H s HI) as (H1 & H2 & H3). unfold bind. destruct (m s) as [o s']. cbn [fst snd] in *.
  subst o. cbn. auto.
Qed.
Lemma td_conseq {X} (m : M X) (R R' : outcome X -> Prop) : answers_td G m R -> (forall o, R o -> R' o) -> answers_td G m R'.
Proof. intros H HR s HI. destruct (H s HI) as (H1 & H2 & H3). auto. Qed.
End TD.
