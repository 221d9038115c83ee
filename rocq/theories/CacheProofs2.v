(** * Remaining getters: diagonal reductions, negativity, iso values, reciprocal and total degrees *)
From Verif Require Import Base BaseProofs Model_Graph Model_Cache Spec_Cache CacheMath CacheProofs.

Section P3.
Variable mhr : bool.
Variable G : graph.
Hypothesis wf : gwf G.
Variable b : bool.
Notation I := (InvF G b).
Notation self := (den_bool G KSelf).
Notation A := (g_A G).
Notation GV := (GV G b).
Notation GO := (GO G b).
Hypothesis Hb : b = true.
Ltac hse := call (has_self_edges_ok G wf b Hb).
Ltac gdiag m := call (get_diag_ok G wf b m).

Lemma diag_red_ok o : GV (diag_red G o) (den_scal G (KDiagRed o)) any.
Proof.
  start. unfold diag_red.
  repeat (stp || hse || gdiag (@None (nat -> bool))); fin; cbn [msk].
  all: intros; auto using noself_diagred, red_diag.
  all: try (match goal with H : _ -> ?x = _ |- Val ?x = _ => rewrite H by discriminate; reflexivity end).
Qed.

(** *** negative weights *)
Definition dflt (o : option (option Z)) : option Z := match o with Some v => v | None => Some 0%Z end.
Lemma wp_getd {Y} k (f : option Z -> M Y) s Q : wp (f (dflt (c_scal s k))) s Q -> wp (bind (getd k) f) s Q.
Proof. exact id. Qed.
Lemma dflt_neg s k : I s -> (forall sg, k <> KElem RCount sg) -> slt (dflt (c_scal s k)) (Some 0%Z) = true ->
  (oz (den_scal G k) <? 0)%Z = true.
Proof.
  intros HI Hk H. destruct (c_scal s k) as [x|] eqn:E; [|discriminate].
  rewrite <- (i_scal _ _ _ HI _ _ E Hk). destruct x; [exact H|discriminate].
Qed.
Lemma negp_of_negm : den_bool G (KNeg SM) = true -> true = den_bool G (KNeg SP).
Proof. intros H. rewrite neg_split, H by assumption. reflexivity. Qed.
Lemma negp_of_negd : den_bool G KNegDiag = true -> true = den_bool G (KNeg SP).
Proof. intros H. rewrite neg_split, H by assumption. symmetry. apply orb_true_r. Qed.
Lemma has_negative_edgesp_ok : GV (has_negative_edgesp G) (den_bool G (KNeg SP)) any.
Proof.
  start. unfold has_negative_edgesp.
  apply wp_in_bool. destruct (has (c_bool s (KNeg SP))) eqn:E0; [repeat stp; fin|].
  unfold when at 1. cbn [negb]. apply wp_bind. apply wp_is_True. do 3 apply wp_getd.
  apply wp_is_True, wp_is_False, wp_get_st.
  destruct (nonneg_dtype (g_dt G)) eqn:Edt.
  { repeat stp; fin. symmetry. apply nonneg_neg; assumption. }
  match goal with |- wp (if ?c then _ else _) _ _ => destruct c eqn:Ec end.
  { assert (true = den_bool G (KNeg SP)).
    { rewrite !orb_true_iff in Ec. destruct Ec as [[[[H|H]|H]|H]|H].
      - apply negp_of_negm. apply (isT_den _ _ _ _ HI H). discriminate.
      - apply dflt_neg in H; [|assumption|discriminate]. rewrite neg_elem_min in H. auto.
      - apply dflt_neg in H; [|assumption|discriminate]. rewrite neg_elem_min in H. apply negp_of_negm, H.
      - apply dflt_neg in H; [|assumption|discriminate]. rewrite neg_diag_min in H. apply negp_of_negd, H.
      - symmetry. apply (isT_nd _ wf _ _ HI H). }
    repeat stp; fin. }
  clear Ec.
  assert (Else : wp (if isF (c_bool s (KNeg SM))
       then m <- diag_red G RMin;; modify (set_bool (KNeg SP) (oz m <? 0)%Z)
       else m <- elem_plus G RMin;; modify (set_bool (KNeg SP) (oz m <? 0)%Z)) s
    (fun o s' => match o with
      | Val _ => wp (lk_bool (KNeg SP)) s' (fun o0 s'0 => o0 = Val (den_bool G (KNeg SP)) /\ I s'0 /\ ext s0 s'0 /\ any s'0)
      | Raise e => Raise e = Val (den_bool G (KNeg SP)) /\ I s' /\ ext s0 s' /\ any s' end)).
  { repeat (stp || call (diag_red_ok RMin) ||
     (eapply (wp_GO _ _ _ _ _ _ (elem_plus_ok G wf b RMin)); [eassumption|intros ? ? ? ? (? & -> & Hx); adv])); fin.
    - rewrite neg_diag_min, neg_split by assumption. 
      match goal with H : den_bool G (KNeg SM) = false |- _ => rewrite H end. reflexivity.
    - rewrite (Hx ltac:(discriminate)). apply neg_elem_min. }
  destruct (c_iso s) as [[iv|]|] eqn:Ei; [|exact Else|exact Else].
  repeat stp; fin.
  pose proof (i_iso _ _ _ HI _ Ei) as Hi. unfold den_iso in Hi. destruct (g_iso G) eqn:Eiso; [|discriminate].
  injection Hi as ->. apply iso_max_neg; assumption.
Qed.
Definition boolval_m (v : bool) (r : outcome bool) : Prop :=
  r = Val v \/ (r = Raise EAttr /\ mhr = false /\ self = true).
Lemma has_negative_edgesm_ok : GO (has_negative_edgesm mhr G) (boolval_m (den_bool G (KNeg SM))).
Proof.
  apply GO_intro. intros s0 s HI Hext. unfold has_negative_edgesm.
  repeat (stp || (eapply (wp_GO _ _ _ _ _ _ (elem_minus_ok mhr G wf b Hb RMin)); 
     [eassumption|intros ? ? ? ? [(? & -> & Hx)|(-> & ? & ? & ?)]; adv])); fino; try (left; reflexivity); try (right; auto; fail).
  - symmetry. apply nonneg_neg; assumption.
  - rewrite neg_split in * by assumption. rewrite noself_negdiag in * by assumption. rewrite orb_false_r in *. auto.
  - rewrite neg_split in * by assumption. match goal with H : den_bool G KNegDiag = false |- _ => rewrite H in * end. rewrite orb_false_r in *. auto.
  - rewrite (Hx ltac:(discriminate)). apply neg_elem_min.
  - rewrite (Hx ltac:(discriminate)). apply neg_elem_min.
Qed.
Lemma elem_min_spec sg m : den_scal G (KElem RMin sg) = Some m ->
  (exists i j, ent G sg i j = Some m) /\ forall i j x, ent G sg i j = Some x -> (m <= x)%Z.
Proof.
  simpl. intros H. apply ored_min_some in H as [(i & Hi & Hf) Hm].
  assert (E : forall i, rfold G RMin (fun j => ent G sg i j) = ored Z.min (nrows A) (fun j => ent G sg i j)).
  { intros k. unfold rfold. apply ored_ext. intros j _. destruct (ent G sg k j); reflexivity. }
  split.
  - rewrite E in Hf. apply ored_min_some in Hf as [(j & Hj & Hf) _]. exists i, j. assumption.
  - intros k l x Hx.
    assert (Hx' : mget A k l = Some x) by (destruct sg; simpl in Hx; [|destruct (k =? l)]; congruence).
    destruct (mget_some_lt _ _ _ _ (gw_mwf _ wf) Hx') as [Hk Hl]. rewrite (gw_sq _ wf) in Hl.
    destruct (ored Z.min (nrows A) (fun j => ent G sg k j)) as [y|] eqn:Ey.
    + assert (m <= y)%Z by (apply (Hm k y Hk); rewrite E; assumption).
      apply ored_min_some in Ey as [_ Hy]. specialize (Hy l x Hl Hx). lia.
    + rewrite ored_none in Ey. rewrite Ey in Hx by assumption. discriminate.
Qed.
Lemma has_negative_diagonal_ok s : I s -> nd_safe G s ->
  wp (has_negative_diagonal G) s (fun o s' => o = Val (den_bool G KNegDiag) /\ I s' /\ ext s s').
Proof.
  intros HI [Hs|[E0 Hs]].
  { unfold wp, has_negative_diagonal, bind, in_bool, when, lk_bool, idx, ret. rewrite Hs. cbn. rewrite Hs. cbn. auto using ext_refl. }
  pose proof (ext_refl s) as Hext. revert Hext. generalize s at 1 4. intros s0 Hext. unfold has_negative_diagonal.
  apply wp_in_bool. rewrite E0. cbn [has].
  assert (Fin : forall v s1, I s1 -> ext s0 s1 -> v = den_bool G KNegDiag ->
    wp (lk_bool KNegDiag) (set_bool KNegDiag v s1) (fun o s' => o = Val (den_bool G KNegDiag) /\ I s' /\ ext s0 s')).
  { intros v s1 H1 H2 ->. destruct (Inv_set_bool G b KNegDiag _ s1 H1 eq_refl) as (H3 & H4 & _).
    unfold wp, lk_bool, idx. cbn. split; [reflexivity|]. split; [exact H3|exact (ext_trans _ _ _ H2 H4)]. }
  unfold when at 1. cbn [negb]. apply wp_bind. apply wp_is_False, wp_is_True, wp_is_False. do 2 apply wp_getd.
  destruct (nonneg_dtype (g_dt G)) eqn:Edt.
  { apply Fin; auto. symmetry. apply nonneg_negdiag; assumption. }
  cbn [orb]. apply wp_if; intros Ef.
  { apply (isF_self _ _ _ HI) in Ef as [Ef _]. apply Fin; auto. symmetry. apply noself_negdiag; assumption. }
  match goal with |- wp (if ?c then _ else _) _ _ => destruct c eqn:Ec end.
  - assert (true = den_bool G KNegDiag).
    { assert (N1 : den_bool G (KNeg SP) = true -> den_bool G (KNeg SM) = false -> true = den_bool G KNegDiag).
      { intros H1 H2. rewrite neg_split, H2 in H1 by assumption. auto. }
      assert (Hsm : forall x, c_scal s (KElem RMin SM) = Some x -> x = den_scal G (KElem RMin SM)).
      { intros x Hx. apply (i_scal _ _ _ HI _ _ Hx). discriminate. }
      assert (Hsp : forall x, c_scal s (KElem RMin SP) = Some x -> x = den_scal G (KElem RMin SP)).
      { intros x Hx. apply (i_scal _ _ _ HI _ _ Hx). discriminate. }
      assert (Nge : den_bool G (KNeg SP) = true -> forall x, den_scal G (KElem RMin SM) = Some x -> (0 <= x)%Z -> true = den_bool G KNegDiag).
      { intros H1 x Hx Hge. apply N1; [assumption|]. rewrite <- neg_elem_min, Hx. simpl. apply Z.ltb_ge. assumption. }
      rewrite !orb_true_iff, !andb_true_iff in Ec. destruct Ec as [[[H1 H2]|[H1 H2]]|[H1 H2]].
      - apply N1; [apply (isT_den _ _ _ _ HI H1 ltac:(discriminate))|apply (isF_den _ _ _ _ HI H2)].
      - apply (isT_den _ _ _ _ HI) in H1 as H1'; [|discriminate].
        destruct (c_scal s (KElem RMin SM)) as [x|] eqn:Em.
        + specialize (Hsm x eq_refl). subst x. cbn [dflt] in H2. destruct (den_scal G (KElem RMin SM)) as [x|] eqn:Ed; [|discriminate].
          apply (Nge H1' x eq_refl). apply Z.leb_le. exact H2.
        + destruct Hs as [H|[H|[H|[H|[H _]]]]]; try congruence.
          * rewrite H in Ef. discriminate.
          * discriminate.
          * apply N1; [assumption|]. symmetry. apply (i_boolx _ _ _ _ _ HI H ltac:(discriminate)).
          * exfalso. apply H. unfold isT in H1. destruct (c_bool s (KNeg SP)) as [[|]|]; congruence.
      - apply dflt_neg in H1 as H1'; [|assumption|discriminate]. rewrite neg_elem_min in H1'.
        destruct (c_scal s (KElem RMin SM)) as [x|] eqn:Em.
        + specialize (Hsm x eq_refl). subst x. cbn [dflt] in H2.
          destruct (c_scal s (KElem RMin SP)) as [y|] eqn:Ep; [|discriminate].
          specialize (Hsp y eq_refl). subst y. cbn [dflt] in H1, H2.
          destruct (den_bool G KNegDiag) eqn:End; [reflexivity|]. exfalso.
          (* no negative self-edge: the minimum over all edges is reached off the diagonal *)
          destruct (den_scal G (KElem RMin SP)) as [p|] eqn:Edp; [|discriminate].
          destruct (den_scal G (KElem RMin SM)) as [m|] eqn:Edm; [|discriminate].
          simpl in H1, H2. apply Z.ltb_lt in H1, H2.
          apply elem_min_spec in Edp as [(i & j & Eij) _]. apply elem_min_spec in Edm as [_ Hm].
          destruct (Nat.eqb_spec i j) as [->|Hne].
          * assert (den_bool G KNegDiag = true) by (apply negdiag_true_iff; [assumption|eauto]). congruence.
          * assert (ent G SM i j = Some p) as Eij'.
            { simpl. apply Nat.eqb_neq in Hne. rewrite Hne. exact Eij. }
            specialize (Hm _ _ _ Eij'). lia.
        + destruct Hs as [H|[H|[H|[H|[H Hm]]]]]; try congruence.
          * rewrite H in Ef. discriminate.
          * discriminate.
          * apply N1; [assumption|]. symmetry. apply (i_boolx _ _ _ _ _ HI H ltac:(discriminate)).
          * exfalso. destruct (c_scal s (KElem RMin SP)) as [[y|]|]; try discriminate.
            simpl in H1. apply Z.ltb_lt in H1. lia. }
    apply Fin; auto.
  - clear Ec. apply wp_bind. call (diag_red_ok RMin). apply Fin; auto. apply neg_diag_min.
Qed.

Lemma nd_safe_dec s : nd_safe G s \/ ~ nd_safe G s.
Proof.
  unfold nd_safe. destruct (c_bool s KNegDiag) as [v|] eqn:E0.
  { destruct (Bool.bool_dec v (den_bool G KNegDiag)) as [->|Hne]; [left; left; reflexivity|right; intros [H|[H _]]; congruence]. }
  destruct (nonneg_dtype (g_dt G)); [auto 10|].
  destruct (c_bool s KSelf) as [[|]|] eqn:E1; [| auto 10 |].
  all: destruct (has (c_scal s (KElem RMin SM))); [left; right; tauto|].
  all: destruct (c_bool s (KNeg SM)) as [[|]|] eqn:E2; [|left; right; tauto|].
  all: destruct (c_bool s (KNeg SP)) as [[|]|] eqn:E3; [right; intuition congruence| |].
  all: destruct (c_scal s (KElem RMin SP)) as [[x|]|]; try (left; right; split; [reflexivity|do 4 right; split; [discriminate|exact Logic.I]]).
  all: destruct (Z.le_gt_cases 0 x); [left; right; split; [reflexivity|do 4 right; split; [discriminate|assumption]]|].
  all: right; intros [H0|[_ [H0|[H0|[H0|[H0|[_ H0]]]]]]]; try discriminate; lia.
Qed.
(** where [nd_safe] fails the answer is True, and the graph has negative edges *)
Lemma nd_unsafe s : I s -> ~ nd_safe G s -> fst (has_negative_diagonal G s) = Val true /\ den_bool G (KNeg SP) = true /\
  (snd (has_negative_diagonal G s) = s \/ snd (has_negative_diagonal G s) = set_bool KNegDiag true s).
Proof.
  intros HI Hs. unfold nd_safe in Hs. destruct (c_bool s KNegDiag) as [v|] eqn:E0'.
  { destruct (i_bool _ _ _ HI _ _ E0') as [->|(_ & -> & _ & Hn)]; [destruct Hs; auto|].
    unfold has_negative_diagonal, bind, in_bool, when, lk_bool, idx, ret. rewrite E0'. cbn. rewrite E0'. auto. }
  destruct (nonneg_dtype (g_dt G)) eqn:E1; [destruct Hs; tauto|].
  destruct (c_scal s (KElem RMin SM)) eqn:E3; [destruct Hs; cbn; tauto|].
  assert (E2 : isF (c_bool s KSelf) = false) by (destruct (c_bool s KSelf) as [[|]|]; [reflexivity|destruct Hs; tauto|reflexivity]).
  assert (Hn : c_bool s (KNeg SP) = Some true \/ exists x, c_scal s (KElem RMin SP) = Some (Some x) /\ (x < 0)%Z).
  { destruct (c_bool s (KNeg SP)) as [[|]|] eqn:E4; [auto| |]; right.
    all: destruct (c_scal s (KElem RMin SP)) as [[x|]|] eqn:E5; [|exfalso; apply Hs; right; split; [reflexivity|]; do 4 right; split; [discriminate|exact Logic.I]..].
    all: exists x; split; [reflexivity|]; destruct (Z.lt_ge_cases x 0); [assumption|]; exfalso; apply Hs; right; split; [reflexivity|]; do 4 right; split; [discriminate|assumption]. }
  assert (Hneg : den_bool G (KNeg SP) = true).
  { destruct Hn as [Hn|(x & Hn & Hx)]; [symmetry; apply (i_boolx _ _ _ _ _ HI Hn ltac:(discriminate))|].
    assert (Hd := i_scal _ _ _ HI _ _ Hn ltac:(discriminate)). rewrite <- neg_elem_min, <- Hd. simpl. apply Z.ltb_lt. assumption. }
  assert (Er : has_negative_diagonal G s = (Val true, set_bool KNegDiag true s)).
  { unfold has_negative_diagonal, bind, in_bool, when, is_False, is_True, getd, modify, lk_bool, idx, ret. rewrite E0'. cbn [has negb].
    change (match c_bool s KSelf with Some false => true | _ => false end) with (isF (c_bool s KSelf)). rewrite E2, E1, E3. cbn [orb].
    destruct Hn as [Hn|(x & Hn & Hx)]; rewrite Hn.
    - cbn. rewrite orb_true_r. reflexivity.
    - cbn. rewrite (proj2 (Z.ltb_lt x 0) Hx). cbn. rewrite orb_true_r. reflexivity. }
  rewrite Er. auto.
Qed.
(** in every consistent state of a graph with self-edges, or where [nd_safe] holds *)
Lemma has_negative_diagonal_any s : I s -> nd_safe G s \/ self = true ->
  wp (has_negative_diagonal G) s (fun o s' => exists v, o = Val v /\ (den_bool G KNegDiag = true -> v = true) /\
    (nd_safe G s -> v = den_bool G KNegDiag) /\ I s' /\ ext s s').
Proof.
  intros HI Hor. destruct (nd_safe_dec s) as [Hs|Hs].
  - eapply wp_conseq; [apply (has_negative_diagonal_ok s HI Hs)|]. intros o s' (-> & H1 & H2). eexists. split; [reflexivity|]. auto.
  - destruct Hor as [H|Hself]; [contradiction|]. destruct (nd_unsafe s HI Hs) as (E & Hn & Es). unfold wp. rewrite E. exists true. split; [reflexivity|].
    split; [auto|]. split; [intros H; contradiction|]. destruct Es as [->| ->]; [split; [assumption|apply ext_refl]|].
    destruct (Inv_set_boolw G b KNegDiag true s HI) as (H1 & H2 & _); [right; auto|]. auto.
Qed.

(** *** iso values *)
Lemma is_iso_ok : GV (is_iso G) (den_bool G KIsIso) any.
Proof.
  start. unfold is_iso. apply wp_in_bool. destruct (has (c_bool s KIsIso)) eqn:E0; [repeat stp; fin|].
  unfold when at 1. cbn [negb]. apply wp_bind, wp_get_st. destruct (c_iso s) as [v|] eqn:Ei.
  - repeat stp; fin. rewrite (i_iso _ _ _ HI _ Ei). unfold den_iso. simpl. destruct (g_iso G); reflexivity.
  - repeat stp; fin.
Qed.
Definition isoval (r : outcome (option (option Z))) : Prop :=
  r = Val (den_iso G) \/ (r = Raise EKey /\ g_iso G = false).
Lemma get_iso_value_ok : GO (get_iso_value G) isoval.
Proof.
  apply GO_intro. intros s0 s HI Hext. unfold get_iso_value. apply wp_get_st.
  destruct (c_iso s) as [x|] eqn:Ei; cbn [has negb when].
  - unfold wp, bind, ret, get_st, idx. cbn. rewrite Ei. cbn. rewrite (i_iso _ _ _ HI _ Ei). split; [left; reflexivity|split; assumption].
  - assert (Hiso : forall s1 v, I s1 -> ext s0 s1 -> v = den_iso G ->
      wp (s' <- get_st ;; idx (c_iso s')) (set_iso v s1) (fun o s' => isoval o /\ I s' /\ ext s0 s')).
    { intros s1 v H1 H2 ->. destruct (Inv_set_iso G b _ s1 H1 eq_refl) as [H3 H4].
      unfold wp, bind, get_st, idx. cbn.
      split; [left; reflexivity|split; [exact H3|exact (ext_trans _ _ _ H2 H4)]]. }
    assert (Eval : iso_scalar A = den_scal G (KElem RAny SP)) by (apply red_mat_A; assumption).
    apply wp_bind. destruct (c_bool s KIsIso) as [[|]|] eqn:Eb.
    + pose proof (i_boolx _ _ _ _ _ HI Eb ltac:(discriminate)) as Hg. simpl in Hg.
      apply Hiso; auto. unfold den_iso. rewrite <- Hg, Eval. reflexivity.
    + apply wp_raise. split; [|split]; auto. right. split; [reflexivity|]. symmetry. apply (i_boolx _ _ _ _ _ HI Eb ltac:(discriminate)).
    + destruct (g_iso G) eqn:Eg; apply wp_bind.
      * change (wp (s' <- get_st ;; idx (c_iso s')) (set_iso (Some (iso_scalar A)) (set_bool KIsIso true s)) (fun o s' => isoval o /\ I s' /\ ext s0 s')).
        destruct (Inv_set_bool G b KIsIso true s HI) as (H1 & H2 & _); [simpl; auto|].
        apply Hiso; auto. { eapply ext_trans; eassumption. } unfold den_iso. rewrite Eg, Eval. reflexivity.
      * change (wp (s' <- get_st ;; idx (c_iso s')) (set_iso None (set_bool KIsIso false s)) (fun o s' => isoval o /\ I s' /\ ext s0 s')).
        destruct (Inv_set_bool G b KIsIso false s HI) as (H1 & H2 & _); [simpl; auto|].
        apply Hiso; auto. { eapply ext_trans; eassumption. } unfold den_iso. rewrite Eg. reflexivity.
Qed.

(** *** reciprocal degrees *)
Lemma AT_val s : I s -> match c_mat s KAT with Some m => m | None => mtrans A end = den_mat G KAT.
Proof. intros HI. destruct (c_mat s KAT) eqn:E; [apply (i_mat _ _ _ HI _ _ E)|apply trans_A; assumption]. Qed.
Lemma ne_recip : (nvals (den_vec G (KRecip SP)) =? nvals (den_vec G (KRecip SM))) = false -> true = self.
Proof.
  intros H. destruct self eqn:E; [reflexivity|]. rewrite (noself_recip G wf E), Nat.eqb_refl in H. discriminate.
Qed.
Lemma ne_recip' : (nvals (den_vec G (KRecip SM)) =? nvals (den_vec G (KRecip SP))) = false -> true = self.
Proof. rewrite Nat.eqb_sym. apply ne_recip. Qed.
Lemma recip_plus_ok mask : GV (recip_plus G mask) (msk mask (den_vec G (KRecip SP))) any.
Proof.
  start. unfold recip_plus. apply wp_get_st. cbv zeta. rewrite (AT_val s HI).
  pose proof (recip_A G wf) as EA. pose proof (recip_add_diag G) as ED.
  destruct mask as [p|]; repeat (stp || hse); fin; eauto using ne_recip', noself_recip.
  all: try (rewrite noself_recip by assumption; reflexivity).
  all: try (rewrite ED; reflexivity).
  all: try (rewrite EA; reflexivity).
  all: try (symmetry; apply noself_recip; assumption).
Qed.

Lemma recip_minus_ok mask : GV (recip_minus G mask) (msk mask (den_vec G (KRecip SM))) any.
Proof.
  start. unfold recip_minus. apply wp_get_st. cbv zeta.
  set (AT := match c_mat s KAT with Some m => m | None => match c_mat s KOff with Some o => mtrans o | None => mtrans A end end).
  assert (HAT : AT = den_mat G KAT \/ (AT = mtrans (den_mat G KOff) /\ has (c_mat s KOff) = true)).
  { unfold AT. destruct (c_mat s KAT) eqn:E1; [left; apply (i_mat _ _ _ HI _ _ E1)|].
    destruct (c_mat s KOff) eqn:E2; [right; split; [f_equal; apply (i_mat _ _ _ HI _ _ E2)|reflexivity]|left; apply trans_A; assumption]. }
  assert (HO : pair_red (den_mat G KOff) AT = den_vec G (KRecip SM)).
  { destruct HAT as [->|[-> _]]; [apply recip_off_AT|apply recip_off_offT]; assumption. }
  assert (HN : has (c_mat s KOff) = true \/ AT = den_mat G KAT) by tauto.
  clearbody AT. clear HAT.
  assert (EM : forall m, drop0 (msk m (vminus (den_vec G (KRecip SP)) (vones (den_vec G KDiag)))) = msk m (den_vec G (KRecip SM)))
    by (intros; apply drop0_minus; assumption).
  destruct HN as [HN|HN].
  - destruct mask as [p|]; repeat (stp || hse || call (recip_plus_ok None) || call (recip_plus_ok (Some p)));
    fin; eauto using ne_recip', noself_recip.
    all: try (rewrite noself_recip by assumption; reflexivity).
    all: try (symmetry; apply noself_recip; assumption).
    all: try (rewrite HO; reflexivity).
    all: try (rewrite EM; reflexivity).
    all: try (apply (EM None)).
  - subst AT. pose proof (recip_LU_AT G) as HLU. pose proof (recip_A G wf) as EA.
    assert (HM : forall m, drop0 (vminus (msk m (pair_red A (den_mat G KAT))) (vones (msk m (den_vec G KDiag)))) = msk m (den_vec G (KRecip SM))).
    { intros m. rewrite EA, msk_vones, msk_vminus, EM; [reflexivity|]. unfold vones. rewrite vsize_vmap. simpl. rewrite !vsize_vbuild. reflexivity. }
    assert (HL : forall m, vunion Z.add (msk m (pair_red (den_mat G (KL SM)) (den_mat G KAT))) (msk m (pair_red (den_mat G (KU SM)) (den_mat G KAT))) = msk m (den_vec G (KRecip SM))).
    { intros m. rewrite msk_vunion, HLU; [reflexivity|]. unfold pair_red, mred_row. rewrite !vsize_vbuild. unfold minter. simpl. rewrite !nrows_mbuild. reflexivity. }
    destruct mask as [p|]; repeat (stp || hse || call (recip_plus_ok None) || call (recip_plus_ok (Some p)) || gdiag (@None (nat -> bool)) || gdiag (Some p));
    fin; eauto using ne_recip', noself_recip.
    all: try (rewrite noself_recip by assumption; reflexivity).
    all: try (symmetry; apply noself_recip; assumption).
    all: try (rewrite HO; reflexivity).
    all: try (rewrite EM; reflexivity).
    all: try (apply (EM None)).
    all: try (apply (HM None)).
    all: try (apply (HL None)).
    all: try (rewrite HM; reflexivity).
    all: try (rewrite HL; reflexivity).
Qed.
Lemma get_recip_ok sg mask : GV (get_recip G sg mask) (msk mask (den_vec G (KRecip sg))) any.
Proof. destruct sg; [apply recip_plus_ok|apply recip_minus_ok]. Qed.

(** *** total degrees *)
Lemma ne_total : (nvals (den_vec G (KTotal SP)) =? nvals (den_vec G (KTotal SM))) = false -> true = self.
Proof.
  intros H. destruct self eqn:E; [reflexivity|]. rewrite (noself_total G wf E), Nat.eqb_refl in H. discriminate.
Qed.
Lemma ne_total' : (nvals (den_vec G (KTotal SM)) =? nvals (den_vec G (KTotal SP))) = false -> true = self.
Proof. rewrite Nat.eqb_sym. apply ne_total. Qed.
Lemma get_total_m_ok mask : GV (get_total G SM mask) (msk mask (den_vec G (KTotal SM))) any.
Proof.
  start. unfold get_total.
  destruct mask as [p|]; repeat (stp || call (get_red_ok G wf b Hb Row RCount SM (Some p)) ||
     call (get_red_ok G wf b Hb Col RCount SM (Some p)) || call (get_red_ok G wf b Hb Row RCount SM None) ||
     call (get_red_ok G wf b Hb Col RCount SM None)); fin; eauto using ne_total', noself_total.
  all: try (rewrite noself_total by assumption; reflexivity).
  all: try (symmetry; apply noself_total; assumption).
  all: try (intros _ _; assumption).
  all: try (change (vrestrict p) with (msk (Some p)); rewrite msk_vunion by (rewrite !vsize_den_red; reflexivity)).
  all: try (rewrite (total_sum G); reflexivity).
  all: try (apply (total_sum G)).
Qed.
(** *** total reciprocated edges *)
Lemma total_recip_plus_ok : GV (total_recip_plus G) (den_int G SP) any.
Proof.
  start. unfold total_recip_plus.
  pose proof (total_recip_A G wf) as EA.
  apply wp_in_int. destruct (has (c_int s SP)) eqn:E0.
  - repeat stp; fin; eauto using self_int, noself_int. all: try (symmetry; auto using self_int).
  - unfold when at 1. cbn [negb]. apply wp_bind. apply wp_in_int, wp_is_False, wp_in_vec, wp_get_st.
    cbv zeta. rewrite (AT_val s HI).
    repeat stp; fin; eauto using self_int, noself_int, vsum_recip. all: try (symmetry; auto using self_int, noself_int).
Qed.
Lemma total_recip_minus_ok : GV (total_recip_minus G) (den_int G SM) any.
Proof.
  start. unfold total_recip_minus.
  repeat (stp || call (recip_minus_ok None)); fin; eauto using self_int, noself_int, vsum_recip.
  all: try (symmetry; auto using self_int, noself_int).
  all: try apply vsum_recip; try assumption.
Qed.
End P3.

Section P4.
Variable G : graph.
Hypothesis wf : gwf G.
Variable b : bool.
Notation I := (InvF G b).
Notation self := (den_bool G KSelf).
(** total_degrees+ : never harmful by itself when [b = false] *)
Lemma get_total_p_ok mask s : I s -> (b = true -> mask = None -> self = true -> has (c_bool s KSelf) = true) ->
  wp (get_total G SP mask) s (fun o s' => o = Val (msk mask (den_vec G (KTotal SP))) /\ I s' /\ ext s s').
Proof.
  intros HI Hs. pose proof (ext_refl s) as Hext. revert Hext. generalize s at 1 4. intros s0 Hext.
  unfold get_total. destruct mask as [p|].
  - repeat (stp || call (get_red_plus_ok G wf b Row RCount (Some p)) || call (get_red_plus_ok G wf b Col RCount (Some p))); fino.
    all: try (rewrite noself_total by assumption; reflexivity).
    all: try (symmetry; apply noself_total; assumption).
    all: try (intros _ _; assumption).
    all: try (change (vrestrict p) with (msk (Some p)); rewrite msk_vunion by (rewrite !vsize_den_red; reflexivity)).
    all: try (rewrite (total_sum G); reflexivity).
  - assert (Hk : self = false \/ b = false \/ has (c_bool s KSelf) = true).
    { destruct self, b; auto. }
    clear Hs.
    destruct Hk as [Hk|[Hk|Hk]];
    repeat (stp || call (get_red_plus_ok G wf b Row RCount None) || call (get_red_plus_ok G wf b Col RCount None)); fino;
      eauto using (ne_total G wf).
    all: try (rewrite noself_total by assumption; reflexivity).
    all: try (symmetry; apply noself_total; assumption).
    all: try (apply noself_total; assumption).
    all: try (apply (total_sum G)).
    all: try (intros H1 H2; congruence).
    all: try (intros H1 H2; assumption).
Qed.
End P4.
