(** * Rules for [answers_iso] *)
From Verif Require Import Base BaseProofs Model_Graph Model_Cache Spec_Cache CacheMath CacheProofs CacheProofs2 Model_Keys Spec_Run RunProofs Spec_Iso.

(** ** calls that leave what is known about iso values alone *)
Definition skept (s s' : st) : Prop := c_bool s' KIsIso = c_bool s KIsIso /\ c_iso s' = c_iso s.
Definition skeeps {X} (m : M X) : Prop := forall s, skept s (snd (m s)).
Lemma skept_refl s : skept s s. Proof. split; reflexivity. Qed.
Lemma skept_trans a b c : skept a b -> skept b c -> skept a c.
Proof. intros [H1 H2] [H3 H4]. split; congruence. Qed.
Lemma skeeps_bind {X Y} (m : M X) (f : X -> M Y) : skeeps m -> (forall x, skeeps (f x)) -> skeeps (bind m f).
Proof.
  intros H Hf s. unfold bind. specialize (H s). destruct (m s) as [[x|e] s']; cbn [snd] in *; [|assumption].
  eapply skept_trans; [eassumption|apply Hf].
Qed.
Lemma skeeps_idx {X} (o : option X) : skeeps (idx o). Proof. intros s. destruct o; apply skept_refl. Qed.
Lemma skeeps_lifto {X} (o : outcome X) : skeeps (lifto o). Proof. intros s. destruct o; apply skept_refl. Qed.
Ltac skp :=
  repeat first
  [ assumption
  | lazymatch goal with
    | |- skeeps (bind _ _) => apply skeeps_bind; [|intros ?]
    | |- skeeps (when ?b _) => destruct b; unfold when
    | |- skeeps (if ?b then _ else _) => destruct b
    | |- skeeps (match ?x with _ => _ end) => destruct x
    | |- skeeps (let _ := _ in _) => cbv zeta
    | |- skeeps (lifto _) => apply skeeps_lifto
    | |- skeeps (lk_mat ?k) => intros ?s; apply (skeeps_idx (c_mat s k))
    | |- skeeps (lk_vec ?k) => intros ?s; apply (skeeps_idx (c_vec s k))
    | |- skeeps (lk_int ?k) => intros ?s; apply (skeeps_idx (c_int s k))
    | |- skeeps (lk_bool ?k) => intros ?s; apply (skeeps_idx (c_bool s k))
    | |- skeeps (lk_scal ?k) => intros ?s; apply (skeeps_idx (c_scal s k))
    | |- skeeps _ => intros ?s; split; reflexivity
    end ].
Lemma skeeps_resolve G a o s : skeeps (resolve G a o s).
Proof. unfold resolve. skp. Qed.
Lemma skeeps_red_plus G a o m : skeeps (get_red_plus G a o m).
Proof. unfold get_red_plus. apply skeeps_bind; [apply skeeps_resolve|]. intros a'. unfold red_plus. skp. Qed.

Section R.
Variable G : graph.
Notation ais := (answers_iso G).
Lemma iso_keep {X} (m : M X) R : skeeps m -> answers G m R -> ais m R.
Proof.
  intros K H s HI Hk. destruct (H s HI) as [H1 H2]. split; [assumption|]. split; [assumption|]. destruct (K s) as [K1 K2].
  unfold iso_known. rewrite K1, K2. exact Hk.
Qed.
Lemma iso_ret {X} (x : X) (R : outcome X -> Prop) : R (Val x) -> ais (ret x) R.
Proof. intros H s HI Hk. auto. Qed.
Lemma iso_raise {X} e (R : outcome X -> Prop) : R (Raise e) -> ais (raise e : M X) R.
Proof. intros H s HI Hk. auto. Qed.
Lemma iso_lifto {X} (o : outcome X) (R : outcome X -> Prop) : R o -> ais (lifto o) R.
Proof. intros H s HI Hk. auto. Qed.
Lemma iso_conseq {X} (m : M X) (R R' : outcome X -> Prop) : ais m R -> (forall o, R o -> R' o) -> ais m R'.
Proof. intros H HR s HI Hk. destruct (H s HI Hk) as (H1 & H2 & H3). auto. Qed.
Lemma iso_bind {X Y} (m : M X) (f : X -> M Y) (R : outcome X -> Prop) (R' : outcome Y -> Prop) : ais m R ->
  (forall x, R (Val x) -> ais (f x) R') -> (forall e, R (Raise e) -> R' (Raise e)) -> ais (bind m f) R'.
Proof.
  intros H Hv He s HI Hk. destruct (H s HI Hk) as (H1 & H2 & H3). unfold bind. destruct (m s) as [[x|e] s']; cbn [fst snd] in *.
  - apply Hv; assumption.
  - auto.
Qed.
Lemma iso_bind_v {X Y} (m : M X) (f : X -> M Y) v (R' : outcome Y -> Prop) : ais m (eq (Val v)) -> ais (f v) R' -> ais (bind m f) R'.
Proof. intros H Hv. eapply iso_bind; [exact H| |]; cbn; [intros x [= <-]; assumption|discriminate]. Qed.
Lemma iso_bind_e {X Y} (m : M X) (f : X -> M Y) e (R' : outcome Y -> Prop) : ais m (eq (Raise e)) -> R' (Raise e) -> ais (bind m f) R'.
Proof. intros H Hv. eapply iso_bind; [exact H| |]; cbn; [discriminate|intros x [= <-]; assumption]. Qed.
Hypothesis wf : gwf G.
Lemma iso_get : ais (get_iso_value G) (eq (Val (den_iso G))).
Proof.
  intros s HI Hk. pose proof (get_iso_value_ok G wf true s HI) as H. unfold wp in H.
  destruct (get_iso_value G s) as [o s'] eqn:E. destruct H as (Ho & HI' & _). cbn [fst snd].
  assert (X : o = Val (den_iso G) /\ iso_known s').
  { revert E. unfold get_iso_value, bind, get_st. destruct (c_iso s) as [v|] eqn:Ei; cbn [has negb when ret].
    - rewrite Ei. cbn [idx ret]. intros [= <- <-]. split; [|unfold iso_known; congruence]. destruct Ho as [Ho|[Ho _]]; [assumption|discriminate].
    - unfold when, modify. destruct (c_bool s KIsIso) as [[|]|] eqn:Eb.
      + cbn. intros [= <- <-]. split; [destruct Ho as [Ho|[Ho _]]; [assumption|discriminate]|]. unfold iso_known. cbn. discriminate.
      + destruct (Hk Eb Ei).
      + destruct (g_iso G); cbn; intros [= <- <-]; (split; [destruct Ho as [Ho|[Ho _]]; [assumption|discriminate]|]; unfold iso_known; cbn; discriminate). }
  destruct X as [-> X]. auto.
Qed.
Lemma iso_known_st0 : iso_known st0.
Proof. unfold iso_known. discriminate. Qed.
End R.
