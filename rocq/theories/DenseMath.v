(** * Floyd-Warshall: why the update is right *)
From Verif Require Import Base BaseProofs Spec_Weighted WeightedMath.
Open Scope nat_scope.

Section FW.
Variable W : nat -> nat -> option Z.
(** walks with at least one step whose intermediate nodes satisfy L *)
Inductive iw (L : nat -> Prop) (a : nat) : Z -> nat -> Prop :=
| iw_one v b : W a b = Some v -> iw L a v b
| iw_snoc w k v b : iw L a w k -> L k -> W k b = Some v -> iw L a (w + v)%Z b.
Lemma iw_wwalk L a w b : iw L a w b -> exists m, wwalk W a m w b.
Proof.
  induction 1 as [v b H|w k v b _ [m IH] _ H]; [exists 1; apply wwalk_one; assumption|]. exists (S m). econstructor; eassumption.
Qed.
Lemma iw_in L a w b : iw L a w b -> exists k v, W k b = Some v.
Proof. destruct 1; eauto. Qed.
Lemma iw_mono (L L' : nat -> Prop) a w b : (forall k, L k -> L' k) -> iw L a w b -> iw L' a w b.
Proof. intros HL. induction 1; [constructor; assumption|eapply iw_snoc; eauto]. Qed.
Lemma wwalk_iw (L : nat -> Prop) a m w b : (forall k p v q x, W p k = Some v -> W k q = Some x -> L k) -> wwalk W a (S m) w b -> iw L a w b.
Proof.
  intros HL. revert w b. induction m as [|m IH]; intros w b H; inversion H as [|d w1 y v z H1 H2]; subst.
  - inversion H1; subst. constructor. assumption.
  - apply IH in H1. destruct (iw_in _ _ _ _ H1) as (p & x & Hp). eapply iw_snoc; [exact H1| |exact H2]. eapply HL; eassumption.
Qed.
Hypothesis Hneg : forall y, ~ neg_cycle W y.
Lemma closed_nonneg m w y : wwalk W y m w y -> (0 <= w)%Z.
Proof. intros H. destruct (Z_lt_ge_dec w 0) as [Hw|]; [|lia]. destruct (Hneg y). exists m, w. auto. Qed.
Lemma iw_split L i a w b : iw (fun k => k = i \/ L k) a w b ->
  (exists w', (w' <= w)%Z /\ iw L a w' b) \/ (exists w1 w2, iw L a w1 i /\ iw L i w2 b /\ (w1 + w2 <= w)%Z).
Proof.
  induction 1 as [v b H|w k v b _ IH Hk H].
  - left. exists v. split; [lia|]. constructor. assumption.
  - destruct IH as [(w' & Hw & IH)|(w1 & w2 & H1 & H2 & Hw)]; destruct Hk as [->|Hk].
    + right. exists w', v. split; [assumption|]. split; [constructor; assumption|lia].
    + left. exists (w' + v)%Z. split; [lia|]. eapply iw_snoc; eassumption.
    + right. exists w1, v. split; [assumption|]. split; [constructor; assumption|]. destruct (iw_wwalk _ _ _ _ H2) as [m Hm]. apply closed_nonneg in Hm. lia.
    + right. exists w1, (w2 + v)%Z. split; [assumption|]. split; [eapply iw_snoc; eassumption|lia].
Qed.
Definition fstep (D : nat -> nat -> option Z) (i a b : nat) : option Z :=
  if a =? b then None else omerge Z.min (D a b) (oboth Z.add (D a i) (D i b)).
Record FI (L : nat -> Prop) (D : nat -> nat -> option Z) : Prop := {
  fi_diag : forall a, D a a = None;
  fi_walk : forall a b x, D a b = Some x -> exists m, wwalk W a m x b;
  fi_low : forall a b w, a <> b -> iw L a w b -> exists x, D a b = Some x /\ (x <= w)%Z }.
Lemma FI_ext L D D' : (forall a b, D' a b = D a b) -> FI L D -> FI L D'.
Proof.
  intros HE [H1 H2 H3]. constructor; [intros; rewrite HE; auto|intros a b x; rewrite HE; eauto|].
  intros a b w Hab H. rewrite HE. eauto.
Qed.
Lemma FI_start : (forall a, W a a = None) -> FI (fun _ => False) W.
Proof.
  intros H. constructor; [assumption|intros a b x Hx; exists 1; apply wwalk_one; assumption|].
  intros a b w Hab Hw. inversion Hw; subst; [exists w; split; [assumption|lia]|contradiction].
Qed.
Lemma omin_le (x y : option Z) z : (exists v, x = Some v /\ (v <= z)%Z) \/ (exists v, y = Some v /\ (v <= z)%Z) ->
  exists v, omerge Z.min x y = Some v /\ (v <= z)%Z.
Proof.
  intros [(v & -> & Hv)|(v & -> & Hv)]; [destruct y as [y|]|destruct x as [x|]]; simpl; eexists; (split; [reflexivity|lia]).
Qed.
Lemma FI_step L i D : FI L D -> FI (fun k => k = i \/ L k) (fstep D i).
Proof.
  intros [H1 H2 H3]. constructor.
  - intros a. unfold fstep. rewrite Nat.eqb_refl. reflexivity.
  - intros a b x Hx. unfold fstep in Hx. destruct (a =? b); [discriminate|].
    assert (Hc : D a b = Some x \/ exists x1 x2, D a i = Some x1 /\ D i b = Some x2 /\ x = (x1 + x2)%Z).
    { destruct (D a b) as [y|], (D a i) as [x1|], (D i b) as [x2|]; simpl in Hx; try discriminate; injection Hx as <-; auto;
        try (right; exists x1, x2; auto; fail). destruct (Z.min_dec y (x1 + x2)) as [E|E]; rewrite E; [auto|right; eauto]. }
    destruct Hc as [Hc|(x1 & x2 & Ha & Hb & ->)]; [eauto|]. destruct (H2 _ _ _ Ha) as [m1 W1], (H2 _ _ _ Hb) as [m2 W2].
    exists (m1 + m2). eapply wwalk_app; eassumption.
  - intros a b w Hab Hw. unfold fstep. replace (a =? b) with false by (symmetry; apply Nat.eqb_neq; assumption). apply omin_le.
    destruct (iw_split _ _ _ _ _ Hw) as [(w' & Hw' & Hi)|(w1 & w2 & Ha & Hb & Hle)].
    + left. destruct (H3 _ _ _ Hab Hi) as (x & Hx & Hxw). exists x. split; [assumption|lia].
    + destruct (Nat.eq_dec a i) as [->|Hai].
      { left. destruct (H3 _ _ _ Hab Hb) as (x & Hx & Hxw). exists x. split; [assumption|]. destruct (iw_wwalk _ _ _ _ Ha) as [m Hm]. apply closed_nonneg in Hm. lia. }
      destruct (Nat.eq_dec b i) as [->|Hbi].
      { left. destruct (H3 _ _ _ Hab Ha) as (x & Hx & Hxw). exists x. split; [assumption|]. destruct (iw_wwalk _ _ _ _ Hb) as [m Hm]. apply closed_nonneg in Hm. lia. }
      right. destruct (H3 _ _ _ Hai Ha) as (x1 & E1 & L1), (H3 i b _ ltac:(auto) Hb) as (x2 & E2 & L2). rewrite E1, E2. simpl. eexists. split; [reflexivity|lia].
Qed.
Lemma FI_final (L : nat -> Prop) D a b : (forall k p v q x, W p k = Some v -> W k q = Some x -> L k) -> FI L D -> a <> b ->
  (forall x, D a b = Some x <-> shortest W a b x) /\ (wreach W a b -> has (D a b) = true).
Proof.
  intros HL [_ H2 H3] Hab.
  assert (Hlow : forall m w, wwalk W a m w b -> exists x, D a b = Some x /\ (x <= w)%Z).
  { intros [|m] w H; [inversion H; subst; contradiction|]. apply H3; [assumption|]. eapply wwalk_iw; eassumption. }
  split.
  - intros x. split.
    + intros Hx. split; [eauto|]. intros m w Hw. destruct (Hlow _ _ Hw) as (y & Hy & Hle). rewrite Hx in Hy. injection Hy as <-. assumption.
    + intros [[m Hm] Hmin]. destruct (Hlow _ _ Hm) as (y & Hy & Hle). rewrite Hy. f_equal. destruct (H2 _ _ _ Hy) as [m' Hm']. apply Hmin in Hm'. lia.
  - intros (m & w & H). destruct (Hlow _ _ H) as (y & Hy & _). rewrite Hy. reflexivity.
Qed.
Lemma shortest_diag a x : shortest W a a x <-> x = 0%Z.
Proof.
  assert (H0 : shortest W a a 0%Z). { split; [exists 0; constructor|]. intros m w H. eapply closed_nonneg; eassumption. }
  split; [intros H; eapply shortest_unique; eassumption|intros ->; assumption].
Qed.
(** ** Predecessors *)
Definition pstep (D : nat -> nat -> option Z) (P : nat -> nat -> option nat) (i a b : nat) : option nat :=
  if a =? b then P a b else
  match oboth Z.add (D a i) (D i b) with
  | None => P a b
  | Some x => match D a b with
              | Some y => if (x <? y)%Z then P i b else P a b
              | None => P i b
              end
  end.
(** P a b is the last stop before b on a walk of the weight D a b *)
Definition PI (D : nat -> nat -> option Z) (P : nat -> nat -> option nat) : Prop :=
  forall a b, match D a b with
              | None => P a b = None
              | Some x => exists p v m y, P a b = Some p /\ W p b = Some v /\ wwalk W a m y p /\ x = (y + v)%Z
              end.
Lemma PI_start : PI W (fun a b => omap (fun _ => a) (W a b)).
Proof.
  intros a b. destruct (W a b) as [x|] eqn:E; [|reflexivity]. exists a, x, 0, 0%Z. repeat split; [assumption|constructor].
Qed.
Lemma PI_ext D D' P P' : (forall a b, D' a b = D a b) -> (forall a b, P' a b = P a b) -> PI D P -> PI D' P'.
Proof. intros H1 H2 H a b. rewrite H1, H2. apply H. Qed.
Lemma PI_step L i D P : FI L D -> PI D P -> PI (fstep D i) (pstep D P i).
Proof.
  intros HF HP a b. unfold fstep, pstep. pose proof (HP a b) as Hab. destruct (Nat.eqb_spec a b) as [->|Hne].
  - rewrite (fi_diag _ _ HF) in Hab. assumption.
  - destruct (oboth Z.add (D a i) (D i b)) as [x|] eqn:Eo.
    + assert (Hnew : exists p v m y, P i b = Some p /\ W p b = Some v /\ wwalk W a m y p /\ x = (y + v)%Z).
      { destruct (D a i) as [x1|] eqn:E1; [|discriminate]. destruct (D i b) as [x2|] eqn:E2; [|discriminate]. injection Eo as <-.
        pose proof (HP i b) as Hib. rewrite E2 in Hib. destruct Hib as (p & v & m & y & H1 & H2 & H3 & ->).
        destruct (fi_walk _ _ HF _ _ _ E1) as [m1 W1]. exists p, v, (m1 + m), (x1 + y)%Z. repeat split; [assumption|assumption|eapply wwalk_app; eassumption|lia]. }
      destruct (D a b) as [y|]; simpl; [|assumption]. destruct (Z.ltb_spec x y).
      * replace (Z.min y x) with x by lia. assumption.
      * replace (Z.min y x) with y by lia. assumption.
    + rewrite omerge_none_r. assumption.
Qed.
End FW.
