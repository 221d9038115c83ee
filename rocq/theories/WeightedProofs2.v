(** * Bellman-Ford on a graph: keys, caches, iso-valued shortcuts *)
From Verif Require Import Base BaseProofs Model_Graph Model_Cache Model_Keys Model_Utils Model_Bfs Model_Weighted Spec Spec_Cache Spec_Run Spec_Weighted
  CacheMath CacheProofs CacheProofs2 RunProofs NdProofs BfsProofs BfsProofs2 WeightedMath KeyProofs WeightedProofs Walks.

Section K.
Variable G : graph.
Hypothesis wf : gwf G.
Notation n := (nrows (g_A G)).
Notation F := (mget (g_A G)).
Notation A := (den_mat G KOff).
Notation W := (mget (den_mat G KOff)).
Lemma off_get i j : W i j = if i =? j then None else F i j.
Proof.
  cbn [den_mat]. rewrite mget_mbuild. simpl. destruct (Nat.eqb_spec i j) as [Hij|Hij]; simpl; [destruct ((i <? n) && (j <? n)); reflexivity|].
  destruct (Nat.ltb_spec i n) as [Hi|Hi], (Nat.ltb_spec j n) as [Hj|Hj]; simpl; try reflexivity; symmetry; apply mget_out; try apply wf; auto.
  right. rewrite (gw_sq _ wf). assumption.
Qed.
Lemma F_lt a b v : F a b = Some v -> a < n /\ b < n.
Proof. intros H. apply mget_some_lt in H; [|apply wf]. rewrite (gw_sq _ wf) in H. assumption. Qed.
(** ** keys *)
Lemma weight_ids u v i j : kid G u = Some i -> kid G v = Some j -> weight G u v = F i j.
Proof. intros H1 H2. unfold weight. rewrite H1, H2. reflexivity. Qed.
Lemma wwalk_lift u i d w v : kid G u = Some i -> (wwalk (weight G) u d w v <-> exists j, kid G v = Some j /\ wwalk F i d w j).
Proof.
  intros Hu. split.
  - induction 1 as [|d w y x z _ (j & Hj & IH) Hx]; [exists i; split; [assumption|constructor]|].
    unfold weight in Hx. rewrite Hj in Hx. destruct (kid G z) as [k|] eqn:Ek; [|discriminate]. exists k. split; [reflexivity|]. econstructor; eassumption.
  - intros (j & Hj & H). revert v Hj. induction H as [|d w y x z _ IH Hx]; intros v Hj.
    + rewrite (kid_inj G wf _ _ _ Hu Hj). constructor.
    + destruct (kid_key G wf y) as [k Hk]; [apply (F_lt _ _ _ Hx)|]. econstructor; [apply IH; eassumption|]. rewrite (weight_ids _ _ _ _ Hk Hj). assumption.
Qed.
Lemma wreach_lift u i v : kid G u = Some i -> (wreach (weight G) u v <-> exists j, kid G v = Some j /\ wreach F i j).
Proof.
  intros Hu. unfold wreach. split.
  - intros (d & w & H). apply (wwalk_lift u i) in H as (j & Hj & H); [|assumption]. eauto.
  - intros (j & Hj & d & w & H). exists d, w. apply (wwalk_lift u i); eauto.
Qed.
Lemma shortest_lift u i v w : kid G u = Some i -> (shortest (weight G) u v w <-> exists j, kid G v = Some j /\ shortest F i j w).
Proof.
  intros Hu. unfold shortest. split.
  - intros ((d & H) & Hm). apply (wwalk_lift u i) in H as (j & Hj & H); [|assumption]. exists j. split; [assumption|]. split; [eauto|].
    intros d' w' H'. apply (Hm d'). apply (wwalk_lift u i); eauto.
  - intros (j & Hj & (d & H) & Hm). split; [exists d; apply (wwalk_lift u i); eauto|]. intros d' w' H'.
    apply (wwalk_lift u i) in H' as (j' & Hj' & H'); [|assumption]. rewrite Hj in Hj'. injection Hj' as <-. eauto.
Qed.
Lemma negc_lift u i : kid G u = Some i -> (neg_cycle (weight G) u <-> neg_cycle F i).
Proof.
  intros Hu. unfold neg_cycle. split; intros (d & w & H & Hn); exists d, w; (split; [|assumption]).
  - apply (wwalk_lift u i) in H as (j & Hj & H); [|assumption]. rewrite Hu in Hj. injection Hj as <-. assumption.
  - apply (wwalk_lift u i); eauto.
Qed.
Lemma wreach_lt i j : i < n -> wreach F i j -> j < n.
Proof. intros Hi (d & w & H). destruct H; [assumption|]. apply (F_lt _ _ _ H0). Qed.
Lemma negf_lift u i : kid G u = Some i -> (neg_cycle_from (weight G) u <-> neg_cycle_from F i).
Proof.
  intros Hu. unfold neg_cycle_from. split.
  - intros (y & Hr & Hn). apply (wreach_lift u i) in Hr as (j & Hj & Hr); [|assumption]. exists j. split; [assumption|]. apply (negc_lift y); assumption.
  - intros (j & Hr & Hn). destruct (kid_key G wf j) as [y Hy]; [eapply wreach_lt; [eapply kid_lt; eassumption|eassumption]|].
    exists y. split; [apply (wreach_lift u i); eauto|]. apply (negc_lift y j); assumption.
Qed.
(** ** the general algorithm *)
Lemma dot_neg (d : vec Z) : vsize d = n ->
  has (vdot op_any op_pairb d (negsel (den_vec G KDiag))) = true <-> exists j v, has (vget d j) = true /\ F j j = Some v /\ (v < 0)%Z.
Proof.
  intros Hd. unfold vdot. rewrite has_ored_true. rewrite Hd. unfold negsel, vselectv. cbn [den_vec]. rewrite vsize_vbuild. split.
  - intros (j & Hj & H). rewrite vget_vbuild_lt in H by assumption. rewrite vget_vbuild_lt in H by assumption. cbv beta in H.
    destruct (vget d j) eqn:E; [|discriminate]. destruct (F j j) as [v|] eqn:E'; [|discriminate]. destruct (Z.ltb_spec v 0); [|discriminate].
    exists j, v. rewrite E. auto.
  - intros (j & v & H1 & H2 & H3). exists j. assert (Hj : j < n) by (apply (F_lt _ _ _ H2)). split; [assumption|].
    rewrite vget_vbuild_lt by assumption. rewrite vget_vbuild_lt by assumption. rewrite H2. apply Z.ltb_lt in H3. rewrite H3.
    destruct (vget d j); [reflexivity|discriminate].
Qed.
Definition ss_ok (src : nat) (o : outcome (vec Z)) : Prop :=
  match o with
  | Val d => vsize d = n /\ ~ neg_cycle_from F src /\ (forall j x, vget d j = Some x <-> shortest F src j x) /\
             forall j, wreach F src j -> has (vget d j) = true
  | Raise e => e = EUnbounded /\ neg_cycle_from F src
  end.
Lemma ss_strip src d : src < n -> vsize d = n -> ~ neg_cycle_from W src -> (forall j x, vget d j = Some x <-> shortest W src j x) ->
  (forall j, wreach W src j -> has (vget d j) = true) ->
  (has (vdot op_any op_pairb d (negsel (den_vec G KDiag))) = true -> neg_cycle_from F src) /\
  (has (vdot op_any op_pairb d (negsel (den_vec G KDiag))) = false \/ den_bool G KNegDiag = false -> ss_ok src (Val d)).
Proof.
  intros Hs Hd H1 H2 H3. split.
  - rewrite dot_neg by assumption. intros (j & v & H & Hv & Hneg). apply (neg_strip F W off_get). right. exists j, v. split; [|auto].
    destruct (vget d j) as [x|] eqn:E; [|discriminate]. apply H2 in E as [(m & Hm) _]. do 2 eexists; eassumption.
  - intros Hno. assert (Hb : ~ bad F W src).
    { intros (z & v & Hr & Hv & Hneg). destruct Hno as [Hno|Hno].
      - apply eq_true_false_abs in Hno; [assumption|]. apply dot_neg; [assumption|]. exists z, v. auto.
      - apply eq_true_false_abs in Hno; [assumption|]. apply negdiag_true_iff; eauto. }
    split; [assumption|]. split; [rewrite (neg_strip F W off_get); tauto|]. split.
    + intros j x. rewrite (shortest_strip F W off_get) by assumption. apply H2.
    + intros j Hr. apply H3. apply (wreach_strip F W off_get). assumption.
Qed.
Lemma bf_core_ok src : src < n -> answers G (bf_core G src None None) (ss_ok src).
Proof.
  intros Hs. unfold bf_core.
  assert (P : forall nd s, Inv G s -> (nd = true \/ den_bool G KNegDiag = false) ->
    let m := (neg <- ret false ;; let n := nrows A in let d := vset (vempty n) src 0%Z in
      let '(completed, cutoff, d, cur) := bf_loop A None (negb neg) (n - 1) None d d in
      if completed && bf_check A None cutoff d cur then raise EUnbounded else
      if nd : bool then diag <- get_diag G None ;; if has (vdot op_any op_pairb d (negsel diag)) then raise EUnbounded else ret d
      else ret d) in
    ss_ok src (fst (m s)) /\ Inv G (snd (m s))).
  { intros nd s HI Hnd. cbv zeta. change (bind (ret false) ?f) with (f false). cbv beta. cbn [negb].
    pose proof (bf_single_ok A (off_wf G) (off_sq G) src ltac:(rewrite off_rows; assumption) true) as H. fold (d0 A src).
    destruct (bf_loop A None true (nrows A - 1) None (d0 A src) (d0 A src)) as [[[b c'] d] cur]. destruct H as (Hd & H1 & H2). rewrite off_rows in Hd.
    destruct (b && bf_check A None c' d cur).
    - split; [|exact HI]. split; [reflexivity|]. apply (neg_strip F W off_get). left. auto.
    - destruct (H2 eq_refl) as (H3 & H4 & H5). destruct (ss_strip src d Hs Hd H3 H4 H5) as [H6 H7]. destruct nd.
      + eapply answers_bind_GV; [apply (get_diag_ok G wf true None)| |exact HI]. cbn [msk].
        destruct (has (vdot op_any op_pairb d (negsel (den_vec G KDiag)))).
        * apply answers_raise. split; [reflexivity|]. auto.
        * apply answers_ret. auto.
      + split; [|exact HI]. apply H7. right. destruct Hnd; [discriminate|assumption]. }
  apply nd_glue; [assumption|]. intros nd s HI Ho Hnd. exact (P nd s HI Hnd).
Qed.
(** ** iso-valued graphs *)
Hypothesis iso_edge : g_iso G = true -> exists i j x, F i j = Some x.
Lemma iso_den : g_iso G = true -> exists z, den_iso G = Some (Some z) /\ (forall i j x, F i j = Some x -> x = z) /\ den_bool G (KNeg SP) = (z <? 0)%Z.
Proof.
  intros Hi. destruct (iso_edge Hi) as (i & j & x & Hx).
  unfold den_iso. rewrite Hi. destruct (den_scal G (KElem RAny SP)) as [z|] eqn:E.
  - exists z. split; [reflexivity|].
    destruct (iso_elem_in G z E) as (a & b & Hz).
    assert (Hall : forall i j x, F i j = Some x -> x = z) by (intros; eapply (gw_iso _ wf Hi); eassumption).
    split; [assumption|]. apply eq_true_iff_eq. rewrite (neg_true_iff G wf), Z.ltb_lt. split.
    + intros (a' & b' & y & Hy & Hneg). rewrite <- (Hall _ _ _ Hy). assumption.
    + intros Hneg. exists a, b, z. auto.
  - exfalso. simpl in E. rewrite ored_none in E. specialize (E i (proj1 (F_lt _ _ _ Hx))). unfold rfold in E. rewrite ored_none in E.
    specialize (E j (proj2 (F_lt _ _ _ Hx))). simpl in E. rewrite Hx in E. discriminate.
Qed.
Lemma iso_walk z x d w y : (forall i j x, F i j = Some x -> x = z) -> wwalk F x d w y <-> walk (iedge G) x d y /\ w = (Z.of_nat d * z)%Z.
Proof.
  intros Hz. split.
  - induction 1 as [|d w y v k _ [IH ->] Hv]; [split; [constructor|lia]|].
    split; [econstructor; [eassumption|exists v; assumption]|]. apply Hz in Hv. subst. lia.
  - intros [H ->]. induction H as [|d y k _ IH (v & Hv)]; [replace (Z.of_nat 0 * z)%Z with 0%Z by lia; constructor|].
    replace (Z.of_nat (S d) * z)%Z with (Z.of_nat d * z + v)%Z by (rewrite (Hz _ _ _ Hv); lia). econstructor; eassumption.
Qed.
Lemma iso_shortest z src j x : src < n -> (0 <= z)%Z -> (forall i j x, F i j = Some x -> x = z) ->
  shortest F src j x <-> exists d, dist (iedge G) src j d /\ x = (Z.of_nat d * z)%Z.
Proof.
  intros Hs Hz0 Hz. split.
  - intros [(d & H) Hm]. apply (iso_walk z) in H as [H ->]; [|assumption].
    assert (Hr : has (vget (plain_val G false [src] None) j) = true) by (apply (plain_val_reach1 G wf false src Hs); exists d; exact H).
    assert (Hd : exists d', dist (iedge G) src j d').
    { apply (plain_val_dist1 G wf false src None Hs) in Hr as (d' & Hd' & _). eauto. }
    destruct Hd as (d' & Hd'). exists d'. split; [assumption|]. pose proof (proj2 Hd' _ H) as Hle.
    pose proof (proj2 (iso_walk z src d' (Z.of_nat d' * z) j Hz) (conj (proj1 Hd') eq_refl)) as H2. apply Hm in H2. nia.
  - intros (d & [H Hm] & ->). split; [exists d; apply (iso_walk z); auto|]. intros d' w' H'. apply (iso_walk z) in H' as [H' ->]; [|assumption].
    apply Hm in H'. nia.
Qed.
Lemma iso_nocycle z src : (0 <= z)%Z -> (forall i j x, F i j = Some x -> x = z) -> ~ neg_cycle_from F src.
Proof. intros Hz0 Hz (y & _ & d & w & H & Hn). apply (iso_walk z) in H as [_ ->]; [|assumption]. nia. Qed.
Definition iso_out (src : nat) (o : outcome (option (vec Z))) : Prop :=
  match o with
  | Val (Some d) => ss_ok src (Val d)
  | Val None => True
  | Raise e => ss_ok src (Raise e)
  end.
Lemma bf_iso_ok u src : kid G u = Some src -> g_iso G = true -> answers G (bf_iso G u src None None None) (iso_out src).
Proof.
  intros Hu Hi. assert (Hs : src < n) by (eapply kid_lt; eassumption).
  destruct (iso_den Hi) as (z & Hz & Hall & Hneg). unfold bf_iso.
  eapply answers_bind_GV; [apply (has_negative_edgesp_ok G wf true eq_refl)|]. rewrite Hneg.
  eapply answers_bind_v; [eapply answers_GO; [apply (get_iso_value_ok G wf true)|]; intros o [->|[_ Hf]]; [reflexivity|congruence]|].
  rewrite Hz. cbn [isoz]. destruct (Z.ltb_spec z 0) as [Hz0|Hz0]; cbn [negb].
  - destruct (has (F src src)) eqn:E1.
    + apply answers_raise. split; [reflexivity|]. destruct (F src src) as [v|] eqn:E; [|discriminate]. exists src. split; [apply wreach_refl|].
      exists 1, v. split; [apply wwalk_one; assumption|]. rewrite (Hall _ _ _ E). assumption.
    + destruct (negb (g_dir G) && (0 <? nvals (mrow (g_A G) src))) eqn:E2; [|apply answers_ret; exact I].
      apply andb_true_iff in E2 as [E2 E3]. apply negb_true_iff in E2. apply Nat.ltb_lt, nvals_pos in E3 as (j & v & Hv).
      change (F src j = Some v) in Hv. assert (Hv' : F j src = Some v) by (rewrite (gw_sym _ wf E2); assumption).
      apply answers_raise. split; [reflexivity|]. exists src. split; [apply wreach_refl|].
      exists (1 + 1), (v + v)%Z. split; [eapply wwalk_app; apply wwalk_one; eassumption|]. rewrite (Hall _ _ _ Hv). lia.
  - apply answers_ret_bind. eapply answers_bind_GV; [apply (bfs_level_ok G wf true u src false None Hu)|]. apply answers_ret_bind. apply answers_ret.
    cbn [iso_out]. destruct (level_val_lev G false src None Hs) as [Hsz _].
    assert (Hv : forall j x, vget (if (z =? 1)%Z then level_val G false src None else vmap (fun x => (x * z)%Z) (level_val G false src None)) j = Some x <->
       exists d, x = (Z.of_nat d * z)%Z /\ dist (iedge G) src j d).
    { intros j x. pose proof (level_val_spec G wf false src None Hs j) as HL. destruct (Z.eqb_spec z 1) as [->|Hz1].
      - rewrite HL. split; [intros (d & -> & H & _); exists d; split; [lia|exact H]|]. intros (d & -> & H). exists d. split; [lia|]. split; [exact H|exact I].
      - rewrite vget_vmap. split.
        + destruct (vget (level_val G false src None) j) as [y|] eqn:E; [|discriminate]. simpl. intros [= <-].
          destruct (proj1 (HL y) eq_refl) as (d & -> & H & _). eauto.
        + intros (d & -> & H). assert (E : vget (level_val G false src None) j = Some (Z.of_nat d)) by (apply HL; exists d; split; [reflexivity|split; [exact H|exact I]]).
          rewrite E. reflexivity. }
    split; [|split; [|split]].
    + destruct (z =? 1)%Z; [|rewrite vsize_vmap]; assumption.
    + apply (iso_nocycle z); [lia|assumption].
    + intros j x. rewrite Hv. rewrite (iso_shortest z) by (try assumption; lia). split; intros (d & H1 & H2); exists d; auto.
    + intros j (m & w & Hw). apply (iso_walk z) in Hw as [Hw _]; [|assumption].
      assert (Hr : has (vget (plain_val G false [src] None) j) = true) by (apply (plain_val_reach1 G wf false src Hs); exists m; exact Hw).
      apply (plain_val_dist1 G wf false src None Hs) in Hr as (d' & Hd' & _).
      rewrite (proj2 (Hv j (Z.of_nat d' * z)%Z)); [reflexivity|]. exists d'. split; [reflexivity|exact Hd'].
Qed.
(** ** the whole call *)
Lemma single_source_ok u : answers G (single_source_bf G u None) (fun o =>
  match kid G u with Some src => ss_ok src o | None => o = Raise EKey end).
Proof.
  unfold single_source_bf, bf_lengths. destruct (kid G u) as [src|] eqn:Hu; cbn [idx].
  2:{ apply answers_raise. reflexivity. }
  change (bind (ret src) ?f) with (f src). cbv beta. change (bind (ret None) ?f) with (f None). cbv beta.
  assert (Hs : src < n) by (eapply kid_lt; eassumption).
  eapply answers_bind_GV; [apply (is_iso_ok G true)|].
  simpl den_bool. destruct (Bool.bool_dec (g_iso G) true) as [Hi|Hi]; [|apply not_true_is_false in Hi]; rewrite Hi.
  - eapply answers_bind; [exact ((bf_iso_ok u src Hu Hi))| |].
    + intros [d|] Hd; [apply answers_ret; exact Hd|]. apply bf_core_ok. assumption.
    + intros e He. exact He.
  - change (bind (ret None) ?f) with (f (None : option (vec Z))). cbv beta. apply bf_core_ok. assumption.
Qed.

(** ** With a target *)
Definition tg_ok (src t : nat) (o : outcome (vec Z)) : Prop :=
  match o with
  | Val d => (forall x, vget d t = Some x -> exists m, wwalk F src m x t) /\
             (~ neg_cycle_from F src -> forall x, vget d t = Some x <-> shortest F src t x) /\
             (wreach F src t -> has (vget d t) = true)
  | Raise e => (e = EUnbounded /\ neg_cycle_from F src) \/ (e = ENoPath /\ ~ wreach F src t)
  end.
Lemma nonneg_off : den_bool G (KNeg SM) = false -> forall a b v, W a b = Some v -> (0 <= v)%Z.
Proof.
  intros H a b v Hv. destruct (Z.lt_ge_cases v 0) as [Hlt|]; [|assumption]. exfalso. apply eq_true_false_abs in H; [assumption|].
  apply (neg_true_iff G wf). exists a, b, v. split; [|assumption]. simpl. rewrite <- off_get. assumption.
Qed.
Lemma bf_core_target src t : src < n -> answers G (bf_core G src (Some t) None) (tg_ok src t).
Proof.
  intros Hs. unfold bf_core.
  assert (P : forall nd s, Inv G s -> has (c_mat s KOff) = true -> (nd = true \/ den_bool G KNegDiag = false) ->
    let m := (neg <- has_negative_edgesm false G ;; let n := nrows A in let d := vset (vempty n) src 0%Z in
      let '(completed, cutoff, d, cur) := bf_loop A (Some t) (negb neg) (n - 1) None d d in
      if completed && bf_check A (Some t) cutoff d cur then raise EUnbounded else
      if nd : bool then diag <- get_diag G None ;; if has (vdot op_any op_pairb d (negsel diag)) then raise EUnbounded else ret d
      else ret d) in
    tg_ok src t (fst (m s)) /\ Inv G (snd (m s))).
  { intros nd s HI Ho Hnd. cbv zeta. destruct (negm_ok G wf s HI Ho) as (E1 & HI' & _). unfold bind at 1. unfold bind at 2.
    destruct (has_negative_edgesm false G s) as [o s']. cbn [fst snd] in E1, HI'. subst o. clear HI Ho s.
    set (lim := negb (den_bool G (KNeg SM))).
    pose proof (bf_target_ok A (off_wf G) (off_sq G) src ltac:(rewrite off_rows; assumption) t lim None) as H.
    specialize (H ltac:(intros [C|C]; [congruence|]; apply nonneg_off; apply negb_true_iff; assumption)). fold (d0 A src).
    destruct (bf_loop A (Some t) lim (nrows A - 1) None (d0 A src) (d0 A src)) as [[[b c'] d] cur].
    destruct H as (Hd & _ & Hsnd & H1 & H2 & _ & H3 & H4). rewrite off_rows in Hd.
    destruct (b && bf_check A (Some t) c' d cur).
    - split; [|exact HI']. left. split; [reflexivity|]. apply (neg_strip F W off_get). left. auto.
    - assert (Hok : tg_ok src t (Val d)).
      { split; [|split].
        - intros x Hx. destruct (Hsnd _ _ Hx) as (m & Hm). exists m. apply (wwalk_full F W off_get). assumption.
        - intros Hno. rewrite (neg_strip F W off_get) in Hno. intros x. rewrite (shortest_strip F W off_get) by tauto.
          split; [intros Hx; apply H3; [tauto|assumption|exact I]|apply H2; [tauto|exact I]].
        - intros Hr. apply H4; [reflexivity|]. apply (wreach_strip F W off_get). assumption. }
      destruct nd; [|split; assumption].
      eapply answers_bind_GV; [apply (get_diag_ok G wf true None)| |exact HI']. cbn [msk].
      destruct (has (vdot op_any op_pairb d (negsel (den_vec G KDiag)))) eqn:E; [|apply answers_ret; assumption].
      apply answers_raise. left. split; [reflexivity|]. apply dot_neg in E as (j & v & E & Hv & Hneg); [|assumption].
      destruct (vget d j) as [x|] eqn:Ej; [|discriminate]. destruct (Hsnd _ _ Ej) as (m & Hm).
      apply (neg_strip F W off_get). right. exists j, v. split; [|auto]. do 2 eexists; eassumption. }
  apply nd_glue; [assumption|]. intros nd s HI Ho Hnd. exact (P nd s HI Ho Hnd).
Qed.
Lemma level_target u src v t : kid G u = Some src -> kid G v = Some t -> 
  answers G (bfs_level G u (Some v) None false) (fun o => exists d, o = Val d /\ 
    forall x, vget d t = Some x <-> exists k, x = Z.of_nat k /\ dist (iedge G) src t k).
Proof.
  intros Hu Hv. assert (Hs : src < n) by (eapply kid_lt; eassumption).
  unfold bfs_level. rewrite Hu. cbn [idx]. apply answers_ret_bind. rewrite Hv. cbn [idx]. apply answers_assoc. apply answers_ret_bind. apply answers_ret_bind.
  eapply answers_bind_GV; [apply (bfs_matrix_ok G wf true false)|]. apply answers_ret. eexists. split; [reflexivity|]. rewrite Bm_rows. intros x.
  assert (Hl : forall x, In x [src] -> x < n) by (intros ? [<-|[]]; assumption).
  pose proof (bfs_level_loop_dst (Bm G false) (Bm_wf G false) (Bm_cols G false) (fun a => existsb (Nat.eqb a) [src])) as H.
  rewrite Bm_rows in H. specialize (H (src_lt G [src] Hl) t (range1 (get_cutoff n None)) 0 (vset (vempty n) src 0%Z) (vset (vempty n) src true)).
  change (Z.of_nat 1) with 1%Z in H. rewrite H.
  - rewrite (level_spec_gen G wf false src None t x Hs). split; [intros (k & H1 & H2 & _); eauto|intros (k & H1 & H2); exists k; split; [assumption|split; [assumption|exact I]]].
  - rewrite vsize_vset. apply vsize_vempty.
  - rewrite vsize_vset. apply vsize_vempty.
  - intros j. rewrite lev0_src, src1. apply has_vset_empty. assumption.
  - intros j. rewrite fresh0_src, src1, has_vset_empty by assumption. destruct (j =? src); reflexivity.
Qed.
Lemma bf_iso_target u src v t : kid G u = Some src -> kid G v = Some t -> g_iso G = true ->
  answers G (bf_iso G u src (Some v) (Some t) None) (fun o =>
    match o with Val (Some d) => tg_ok src t (Val d) | Val None => True | Raise e => tg_ok src t (Raise e) end).
Proof.
  intros Hu Hv Hi. assert (Hs : src < n) by (eapply kid_lt; eassumption).
  destruct (iso_den Hi) as (z & Hz & Hall & Hneg). unfold bf_iso.
  eapply answers_bind_GV; [apply (has_negative_edgesp_ok G wf true eq_refl)|]. rewrite Hneg.
  eapply answers_bind_v; [eapply answers_GO; [apply (get_iso_value_ok G wf true)|]; intros o [->|[_ Hf]]; [reflexivity|congruence]|].
  rewrite Hz. cbn [isoz]. destruct (Z.ltb_spec z 0) as [Hz0|Hz0]; cbn [negb].
  - destruct (has (F src src)) eqn:E1.
    + apply answers_raise. left. split; [reflexivity|]. destruct (F src src) as [x|] eqn:E; [|discriminate]. exists src. split; [apply wreach_refl|].
      exists 1, x. split; [apply wwalk_one; assumption|]. rewrite (Hall _ _ _ E). assumption.
    + destruct (negb (g_dir G) && (0 <? nvals (mrow (g_A G) src))) eqn:E2; [|apply answers_ret; exact I].
      apply andb_true_iff in E2 as [E2 E3]. apply negb_true_iff in E2. apply Nat.ltb_lt, nvals_pos in E3 as (j & x & Hx).
      change (F src j = Some x) in Hx. assert (Hx' : F j src = Some x) by (rewrite (gw_sym _ wf E2); assumption).
      apply answers_raise. left. split; [reflexivity|]. exists src. split; [apply wreach_refl|].
      exists (1 + 1), (x + x)%Z. split; [eapply wwalk_app; apply wwalk_one; eassumption|]. rewrite (Hall _ _ _ Hx). lia.
  - apply answers_ret_bind. eapply answers_bind; [apply (level_target u src v t Hu Hv)| |intros e (d & C & _); discriminate].
    intros d (d' & [= <-] & Hd).
    assert (Hre : wreach F src t <-> exists k, dist (iedge G) src t k).
    { split.
      - intros (m & w & Hw). apply (iso_walk z) in Hw as [Hw _]; [|assumption].
        assert (Hr : has (vget (plain_val G false [src] None) t) = true) by (apply (plain_val_reach1 G wf false src Hs); exists m; exact Hw).
        apply (plain_val_dist1 G wf false src None Hs) in Hr as (d' & Hd' & _). exists d'. exact Hd'.
      - intros (k & Hk & _). exists k, (Z.of_nat k * z)%Z. apply (iso_walk z); auto. }
    destruct (vget d t) as [y|] eqn:Ey; cbn [has].
    + apply answers_ret_bind. apply answers_ret. cbn [tg_ok].
      assert (Hv2 : forall x, vget (if (z =? 1)%Z then d else vmap (fun x => (x * z)%Z) d) t = Some x <-> exists k, dist (iedge G) src t k /\ x = (Z.of_nat k * z)%Z).
      { destruct (proj1 (Hd y) eq_refl) as (k & -> & Hk). intros x.
        assert (E : vget (if (z =? 1)%Z then d else vmap (fun x => (x * z)%Z) d) t = Some (Z.of_nat k * z)%Z).
        { destruct (Z.eqb_spec z 1) as [->|]; [rewrite Ey; f_equal; lia|]. rewrite vget_vmap, Ey. reflexivity. }
        rewrite E. split; [intros [= <-]; eauto|]. intros (k' & Hk' & ->). assert (k = k').
        { destruct Hk as [A1 A2], Hk' as [B1 B2]. apply A2 in B1. apply B2 in A1. lia. }
        subst. reflexivity. }
      split; [|split].
      * intros x Hx. apply Hv2 in Hx as (k & [Hk _] & ->). exists k. apply (iso_walk z); auto.
      * intros _ x. rewrite Hv2. symmetry. apply (iso_shortest z); [assumption|lia|assumption].
      * intros Hr. apply Hre in Hr as (k & Hk). rewrite (proj2 (Hv2 (Z.of_nat k * z)%Z)); eauto.
    + eapply answers_bind_e; [apply answers_raise; reflexivity|]. right. split; [reflexivity|]. rewrite Hre. intros (k & Hk).
      assert (C : None = Some (Z.of_nat k)) by (apply Hd; eauto). discriminate.
Qed.
Lemma path_length_ok u v : answers G (bf_path_length G u v) (fun o =>
  match kid G u, kid G v with
  | Some src, Some t =>
      match o with
      | Val x => (exists m, wwalk F src m x t) /\ (~ neg_cycle_from F src -> shortest F src t x)
      | Raise e => (e = EUnbounded /\ neg_cycle_from F src) \/ (e = ENoPath /\ ~ wreach F src t)
      end
  | _, _ => o = Raise EKey
  end).
Proof.
  unfold bf_path_length, bf_lengths. destruct (kid G u) as [src|] eqn:Hu; cbn [idx].
  2:{ intros s HI. split; [reflexivity|exact HI]. }
  change (bind (ret src) ?f) with (f src). cbv beta.
  destruct (kid G v) as [t|] eqn:Hv; cbn [idx].
  2:{ intros s HI. split; [reflexivity|exact HI]. }
  change (bind (bind (ret t) ?f) ?g) with (g (Some t)). cbv beta. change (bind (ret t) ?f) with (f t). cbv beta.
  assert (Hs : src < n) by (eapply kid_lt; eassumption).
  assert (H : answers G (iso <- is_iso G ;; r <- (if iso : bool then bf_iso G u src (Some v) (Some t) None else ret None) ;;
                            match r with Some d => ret d | None => bf_core G src (Some t) None end) (tg_ok src t)).
  { eapply answers_bind_GV; [apply (is_iso_ok G true)|].
    simpl den_bool. destruct (Bool.bool_dec (g_iso G) true) as [Hi|Hi]; [|apply not_true_is_false in Hi]; rewrite Hi.
    - eapply answers_bind; [exact ((bf_iso_target u src v t Hu Hv Hi))| |].
      + intros [d|] Hd; [apply answers_ret; exact Hd|]. apply bf_core_target. assumption.
      + intros e He. exact He.
    - change (bind (ret None) ?f) with (f (None : option (vec Z))). cbv beta. apply bf_core_target. assumption. }
  assert (E : forall d, (match vget d t with Some x => ret x | None => raise ENoPath end : M Z) = lifto (match vget d t with Some x => Val x | None => Raise ENoPath end))
    by (intros d; destruct (vget d t); reflexivity).
  intros s HI. specialize (H s HI). unfold bind at 1 in H. unfold bind at 1.
  match goal with |- context [bind (bind (is_iso G) ?f) ?g] => idtac | _ => idtac end.
  revert H. unfold bind. destruct (is_iso G s) as [[iso|e] s1]; cbn [fst snd]; [|intros [H H']; split; [exact H|exact H']].
  destruct ((if iso then bf_iso G u src (Some v) (Some t) None else ret None) s1) as [[r|e] s2]; cbn [fst snd]; [|intros [H H']; split; [exact H|exact H']].
  destruct (match r with Some d => ret d | None => bf_core G src (Some t) None end s2) as [[d|e] s3]; cbn [fst snd]; [|intros [H H']; split; [exact H|exact H']].
  intros [(H1 & H2 & H3) H']. destruct (vget d t) as [x|] eqn:Ex; cbn.
  - split; [|assumption]. split; [auto|]. intros Hno. apply H2; auto.
  - split; [|assumption]. right. split; [reflexivity|]. intros Hr. apply H3 in Hr. discriminate.
Qed.
End K.
