(** * Bellman-Ford paths: the parents found spell shortest paths *)
From Verif Require Import Base BaseProofs Model_Graph Model_Cache Model_Keys Model_Utils Model_Bfs Model_Weighted Spec Spec_Cache Spec_Run Spec_Weighted
  CacheMath CacheProofs CacheProofs2 RunProofs NdProofs Bfs BfsProofs BfsProofs2 BfsProofs3 WeightedMath KeyProofs WeightedProofs WeightedProofs2 WeightedProofs3 Walks.

Lemma ored_minn m f x : ored Nat.min m f = Some x -> exists k, k < m /\ f k = Some x.
Proof.
  revert x. induction m as [|m IH]; intros x; simpl; [discriminate|].
  destruct (ored Nat.min m f) as [y|] eqn:Ey; destruct (f m) as [z|] eqn:Ez; simpl; intros H; try discriminate; injection H as <-.
  - destruct (Nat.min_dec y z) as [E0|E0]; rewrite E0.
    + destruct (IH y eq_refl) as (k & Hk & Hf). exists k. split; [lia|assumption].
    + exists m. split; [lia|assumption].
  - destruct (IH y eq_refl) as (k & Hk & Hf). exists k. split; [lia|assumption].
  - exists m. split; [lia|assumption].
Qed.
Section R.
Variable n : nat.
Variable W : nat -> nat -> option Z.
Hypothesis Wlt : forall a b v, W a b = Some v -> a < n /\ b < n.
Variable src : nat.
Variable p : vec nat.
Variable pot : nat -> option Z.
Variable t : nat -> nat.
Hypothesis Hpar : forall j x, pot j = Some x -> j <> src -> exists i v y, vget p j = Some i /\ W i j = Some v /\ pot i = Some y /\ (y + v <= x)%Z /\ ((y + v)%Z = x -> t i < t j).
Hypothesis Hsrc : pot src = Some 0%Z.
Hypothesis Hreach : forall j x, pot j = Some x -> wreach W src j.
Hypothesis Hno : ~ neg_cycle_from W src.
(** following m parents from j leads to i *)
Definition anc (i m j : nat) : Prop := exists w x y, wwalk W i m w j /\ pot j = Some x /\ pot i = Some y /\ (y + w <= x)%Z /\ (0 < m -> (y + w)%Z = x -> t i < t j).
Lemma anc_irr m j : 0 < m -> ~ anc j m j.
Proof.
  intros Hm (w & x & y & Hw & Hx & Hy & Hle & Ht). rewrite Hx in Hy. injection Hy as <-.
  destruct (Z.eq_dec (x + w) x) as [E|E]; [specialize (Ht Hm E); lia|]. apply Hno. exists j. split; [eapply Hreach; eassumption|].
  exists m, w. split; [assumption|lia].
Qed.
Lemma anc_step i' v i m j y : W i' i = Some v -> pot i' = Some y -> (forall z, pot i = Some z -> (y + v <= z)%Z /\ ((y + v)%Z = z -> t i' < t i)) ->
  anc i m j -> anc i' (S m) j.
Proof.
  intros Hv Hy Hz (w & x & z & Hw & Hx & Hi & Hle & Ht). destruct (Hz z Hi) as [H1 H2]. exists (v + w)%Z, x, y.
  split; [apply (wwalk_app _ _ 1 v _ _ _ _ (wwalk_one _ _ _ _ Hv) Hw)|]. split; [assumption|]. split; [assumption|]. split; [lia|].
  intros _ E. assert (E1 : (y + v)%Z = z) by lia. specialize (H2 E1). destruct m as [|m].
  - inversion Hw; subst. assumption.
  - specialize (Ht ltac:(lia) ltac:(lia)). lia.
Qed.
Lemma recon_gen dst x : pot dst = Some x -> forall fuel cur acc y w, n <= fuel + List.length acc -> cur < n -> pot cur = Some y ->
  wpath W (cur :: acc) w -> (y + w <= x)%Z -> List.last (cur :: acc) cur = dst -> NoDup acc -> (forall a, In a acc -> a < n /\ exists m, 0 < m /\ anc cur m a) ->
  exists l w', recon fuel p src cur acc = Some (Val (src :: l)) /\ wpath W (src :: l) w' /\ (w' <= x)%Z /\ List.last (src :: l) src = dst.
Proof.
  intros Hx. induction fuel as [|fuel IH]; intros cur acc y w Hf Hc Hy Hw Hle Hl Hnd Hanc; cbn [recon]; destruct (Nat.eqb_spec cur src) as [->|Hne].
  1,3: exists acc, w; rewrite Hsrc in Hy; injection Hy as <-; repeat split; [assumption|lia|assumption].
  - exfalso. assert (HN : NoDup (cur :: acc)).
    { constructor; [|assumption]. intros Hin. destruct (Hanc cur Hin) as (_ & m & Hm & Ha). exact (anc_irr m cur Hm Ha). }
    assert (HI : incl (cur :: acc) (seq 0 n)).
    { intros a Ha. apply in_seq. destruct Ha as [<-|Ha]; [lia|]. destruct (Hanc a Ha). lia. }
    apply NoDup_incl_length in HI; [|assumption]. rewrite seq_length in HI. cbn [List.length] in HI. lia.
  - destruct (Hpar cur y Hy Hne) as (i & v & z & Hi & Hv & Hz & Hzv & Ht). rewrite Hi.
    assert (Hst : forall a m, anc cur m a -> anc i (S m) a).
    { intros a m. apply (anc_step i v cur m a z Hv Hz). intros z' Hz'. rewrite Hy in Hz'. injection Hz' as <-. auto. }
    apply (IH i (cur :: acc) z (v + w)%Z).
    + cbn [List.length]. lia.
    + apply (Wlt _ _ _ Hv).
    + assumption.
    + econstructor; eassumption.
    + lia.
    + rewrite <- Hl. destruct acc; [reflexivity|]. cbn [List.last]. clear. revert n0. induction acc as [|b acc IH]; intros c; [reflexivity|]. apply IH.
    + constructor; [|assumption]. intros Hin. destruct (Hanc cur Hin) as (_ & m & Hm & Ha). exact (anc_irr m cur Hm Ha).
    + intros a [<-|Ha].
      * split; [assumption|]. exists 1. split; [lia|]. apply Hst. exists 0%Z, y, y. split; [constructor|]. repeat split; try assumption; lia.
      * destruct (Hanc a Ha) as (Hlt & m & Hm & Ha'). split; [assumption|]. exists (S m). split; [lia|]. auto.
Qed.
Lemma recon_ok fuel dst x : n <= fuel -> dst < n -> pot dst = Some x ->
  exists l w, recon fuel p src dst [] = Some (Val (src :: l)) /\ wpath W (src :: l) w /\ (w <= x)%Z /\ List.last (src :: l) src = dst.
Proof.
  intros Hf Hd Hx. apply (recon_gen dst x Hx fuel dst [] x 0%Z); try assumption; try lia; try reflexivity.
  - constructor.
  - constructor.
  - intros a [].
Qed.
End R.

Section P.
Variable A : mat Z.
Hypothesis Awf : mwf A.
Hypothesis Asq : ncols A = nrows A.
Notation n := (nrows A).
Notation W := (mget A).
Variable src : nat.
Hypothesis Hsrc : src < n.
Hypothesis Hno : ~ neg_cycle_from W src.
(** the distances of the two loops agree *)
Lemma bfp_proj dst lim k : forall c d p prev, exists p',
  bfp_loop A dst lim k c d p prev = let '(b, c', d', cur) := bf_loop A (Some dst) lim k c d prev in (b, c', d', p', cur).
Proof.
  induction k as [|k IH]; intros c d p prev; cbn [bfp_loop bf_loop]; [eexists; reflexivity|].
  destruct (nvals (bf_keep (bf_cand A c prev) d) =? 0); [eexists; reflexivity|]. apply IH.
Qed.
Definition PI (k : nat) (d : vec Z) (p : vec nat) (prev : vec Z) : Prop := 
  vsize d = n /\ vsize prev = n /\ vsize p = n /\ vget d src = Some 0%Z /\ vget p src = Some src /\
  (forall j, has (vget p j) = has (vget d j)) /\
  (forall j x, vget d j = Some x -> exists m, wwalk W src m x j) /\
  (forall j x, vget prev j = Some x -> vget d j = Some x) /\
  exists t : nat -> nat, (forall i, has (vget prev i) = true -> t i = k) /\ (forall i, t i <= k) /\
  forall j x, vget d j = Some x -> j <> src -> exists i v y, vget p j = Some i /\ W i j = Some v /\ vget d i = Some y /\ (y + v <= x)%Z /\ ((y + v)%Z = x -> t i < t j).
Lemma PI0 : PI 0 (d0 A src) (vset (vempty n) src src) (d0 A src).
Proof.
  assert (S0 : vsize (vset (vempty (V := nat) n) src src) = n) by (rewrite vsize_vset; apply vsize_vempty).
  assert (G0 : forall j, vget (vset (vempty n) src src) j = if j =? src then Some src else None).
  { intros j. unfold vset. rewrite vget_vbuild, vsize_vempty. destruct (Nat.ltb_spec j n).
    - destruct (j =? src); [reflexivity|]. apply vget_vempty.
    - destruct (Nat.eqb_spec j src); [lia|reflexivity]. }
  split; [apply d0_size|]. split; [apply d0_size|]. split; [exact S0|].
  split; [rewrite (d0_get A src Hsrc); apply one0_src|]. split; [rewrite G0, Nat.eqb_refl; reflexivity|].
  split; [intros j; rewrite G0, (d0_get A src Hsrc); unfold one0; destruct (j =? src); reflexivity|].
  split; [intros j x; rewrite (d0_get A src Hsrc); intros H; apply one0_inv in H as [-> ->]; exists 0; constructor|].
  split; [auto|]. exists (fun _ => 0). repeat split; auto. intros j x. rewrite (d0_get A src Hsrc). intros H. apply one0_inv in H as [-> _]. congruence.
Qed.
(** a parent of every improved node is found in the round *)
Lemma parents_get prev cur j : vsize cur = n -> vget (bfp_parents A prev cur) j =
  ored Nat.min n (fun i => match vget prev i, mget A i j, vget cur j with Some x, Some v, Some c => if (x + v =? c)%Z then Some i else None | _, _, _ => None end).
Proof.
  intros Hc. unfold bfp_parents, mred_col. rewrite vget_vbuild. cbn [ncols mbuild].
  destruct (Nat.ltb_spec j n) as [Hj|Hj].
  2:{ symmetry. apply ored_none. intros i Hi. rewrite (vget_out cur) by lia. destruct (vget prev i); [destruct (mget A i j)|]; reflexivity. }
  unfold nrows at 1. cbn [rows mbuild]. rewrite map_length, seq_length. apply ored_ext. intros i Hi.
  rewrite mget_mbuild. unfold mselectv. rewrite mget_mbuild. unfold mv_inter. rewrite mget_mbuild. unfold vm_inter. rewrite mget_mbuild. rewrite mget_mbuild.
  rewrite ?nrows_mbuild, ?ncols_mbuild. apply Nat.ltb_lt in Hi. apply Nat.ltb_lt in Hj. rewrite Hi, Hj. cbn [andb].
  destruct (vget prev i) as [x|]; cbn; [|reflexivity]. destruct (vget cur j) as [c|]; cbn.
  - destruct (mget A i j) as [v|]; cbn; [|reflexivity]. destruct (x + v =? c)%Z; reflexivity.
  - destruct (mget A i j); reflexivity.
Qed.
Lemma parents_size prev cur : vsize (bfp_parents A prev cur) = n.
Proof. unfold bfp_parents, mred_col. rewrite vsize_vbuild. reflexivity. Qed.
Lemma PI_step k c d p prev : PI k d p prev ->
  let cur := bf_keep (bf_cand A c prev) d in let ind := bfp_parents A prev cur in
  PI (S k) (vwrite (mS cur) false d cur) (vwrite (mS ind) false p ind) cur.
Proof.
  intros (Sd & Sp & Spp & Hds & Hps & Hdom & Hw & Hpd & t & Ht1 & Ht2 & Hpar). cbv zeta.
  set (cur := bf_keep (bf_cand A c prev) d). set (ind := bfp_parents A prev cur).
  assert (Sc : vsize cur = n) by (unfold cur; rewrite keep_size; apply cand_size; assumption).
  assert (Gc : forall j, vget cur j = better (cand n W c (vget prev) j) (vget d j)).
  { intros j. unfold cur. rewrite keep_get by (rewrite cand_size, Sd by assumption; reflexivity). rewrite cand_get by assumption. reflexivity. }
  assert (Gd : forall j, vget (vwrite (mS cur) false d cur) j = onew (vget cur j) (vget d j)) by (intros j; apply (upd_get A Asq); rewrite Sc, Sd; reflexivity).
  assert (Hcur : forall j x, vget cur j = Some x -> exists i y v, i < n /\ vget prev i = Some y /\ W i j = Some v /\ x = (y + v)%Z /\ forall z, vget d j = Some z -> (x < z)%Z).
  { intros j x H. rewrite Gc in H. apply better_some in H as [H H']. apply cand_from in H as (_ & i & y & v & Hi & H1 & H2 & H3). exists i, y, v. auto. }
  assert (Hind : forall j x, vget cur j = Some x -> exists i y v, vget ind j = Some i /\ vget prev i = Some y /\ W i j = Some v /\ x = (y + v)%Z).
  { intros j x H. unfold ind. rewrite parents_get by assumption. destruct (ored _ _ _) as [i|] eqn:E.
    - apply ored_minn in E as (i' & Hi' & E). rewrite H in E. destruct (vget prev i') as [y|] eqn:Ey; [|discriminate].
      destruct (W i' j) as [v|] eqn:Ev; [|discriminate]. destruct (Z.eqb_spec (y + v) x) as [Eq|]; [|discriminate]. injection E as <-.
      exists i', y, v. auto.
    - exfalso. rewrite ored_none in E. destruct (Hcur j x H) as (i & y & v & Hi & Hy & Hv & -> & _). specialize (E i Hi). rewrite Hy, Hv, H, Z.eqb_refl in E. discriminate. }
  assert (Hind0 : forall j, vget cur j = None -> vget ind j = None).
  { intros j H. unfold ind. rewrite parents_get by assumption. apply ored_none. intros i Hi. rewrite H. destruct (vget prev i); [destruct (W i j)|]; reflexivity. }
  assert (Gp : forall j, vget (vwrite (mS ind) false p ind) j = match vget cur j with Some _ => vget ind j | None => vget p j end).
  { intros j. rewrite vget_vwrite, Spp. unfold mS. destruct (Nat.ltb_spec j n) as [Hj|Hj].
    - destruct (vget cur j) as [x|] eqn:E; [destruct (Hind j x E) as (i & _ & _ & -> & _); reflexivity|]. rewrite (Hind0 j E). reflexivity.
    - rewrite (vget_out cur), (vget_out p) by lia. reflexivity. }
  assert (Hcs : vget cur src = None).
  { destruct (vget cur src) as [x|] eqn:E; [|reflexivity]. exfalso. destruct (Hcur src x E) as (i & y & v & Hi & Hy & Hv & -> & Hlt).
    specialize (Hlt _ Hds). apply Hpd in Hy. destruct (Hw _ _ Hy) as (m & Hm). apply Hno. exists src. split; [apply wreach_refl|].
    exists (S m), (y + v)%Z. split; [econstructor; eassumption|assumption]. }
  split; [rewrite vsize_vwrite; assumption|]. split; [assumption|]. split; [rewrite vsize_vwrite; assumption|].
  split; [rewrite Gd, Hcs; assumption|]. split; [rewrite Gp, Hcs; assumption|]. split; [|split; [|split]].
  - intros j. rewrite Gd, Gp. destruct (vget cur j) as [x|] eqn:E; [|apply Hdom]. destruct (Hind j x E) as (i & y & v & -> & _). reflexivity.
  - intros j x. rewrite Gd. destruct (vget cur j) as [x'|] eqn:E; [|apply Hw]. simpl. intros [= <-].
    destruct (Hcur j x' E) as (i & y & v & Hi & Hy & Hv & -> & _). apply Hpd in Hy. destruct (Hw _ _ Hy) as (m & Hm). exists (S m). econstructor; eassumption.
  - intros j x H. rewrite Gd, H. reflexivity.
  - exists (fun i => if has (vget cur i) then S k else t i). split; [intros i ->; reflexivity|]. split; [intros i; destruct (has (vget cur i)); [lia|]; specialize (Ht2 i); lia|].
    assert (Hdec : forall i y, vget d i = Some y -> exists y', vget (vwrite (mS cur) false d cur) i = Some y' /\ (y' <= y)%Z /\ (y' = y -> vget cur i = None)).
    { intros i y Hy. rewrite Gd. destruct (vget cur i) as [y'|] eqn:E.
      - exists y'. split; [reflexivity|]. destruct (Hcur i y' E) as (_ & _ & _ & _ & _ & _ & _ & Hlt). specialize (Hlt _ Hy). split; [lia|]. intros ->. lia.
      - exists y. split; [assumption|]. split; [lia|reflexivity]. }
    intros j x Hx Hne. rewrite Gd in Hx. rewrite Gp. destruct (vget cur j) as [x'|] eqn:E; simpl in Hx.
    + injection Hx as <-. destruct (Hind j x' E) as (i & y & v & Hi & Hy & Hv & ->). pose proof (Hpd _ _ Hy) as Hyd.
      destruct (Hdec i y Hyd) as (y' & Hy' & Hle & Hnone). exists i, v, y'. split; [assumption|]. split; [assumption|]. split; [assumption|]. split; [lia|].
      intros E2. cbn [has]. rewrite (Hnone ltac:(lia)). cbn [has]. rewrite (Ht1 i) by (rewrite Hy; reflexivity). lia.
    + destruct (Hpar j x Hx Hne) as (i & v & y & Hi & Hv & Hy & Hle & Ht). destruct (Hdec i y Hy) as (y' & Hy' & Hle' & Hnone).
      exists i, v, y'. split; [assumption|]. split; [assumption|]. split; [assumption|]. split; [lia|]. intros E2.
      cbn [has]. rewrite (Hnone ltac:(lia)). cbn [has]. apply Ht. lia.
Qed.
Lemma bfp_loop_PI dst lim k : forall m c d p prev, PI m d p prev ->
  let '(b, c', d', p', cur) := bfp_loop A dst lim k c d p prev in exists m' pr, PI m' d' p' pr.
Proof.
  induction k as [|k IH]; intros m c d p prev H; cbn [bfp_loop]; [eauto|].
  destruct (nvals (bf_keep (bf_cand A c prev) d) =? 0); [eauto|]. apply (IH (S m)). apply PI_step. assumption.
Qed.
Lemma A_lt' : forall a b v, W a b = Some v -> a < n /\ b < n.
Proof. intros a b v. apply A_lt; assumption. Qed.
Lemma bfp_ok dst lim fuel : dst < n -> n <= fuel -> (lim = true -> forall a b v, W a b = Some v -> (0 <= v)%Z) ->
  let '(b, c', d, p, cur) := bfp_loop A dst lim (n - 1) None (d0 A src) (vset (vempty n) src src) (d0 A src) in
  b && mVb (vinter Z.ltb (bf_cand A c' cur) d) dst = false /\
  (vget p dst = None <-> ~ wreach W src dst) /\
  (vget p dst <> None -> exists l w, recon fuel p src dst [] = Some (Val (src :: l)) /\ wpath W (src :: l) w /\ shortest W src dst w /\ List.last (src :: l) src = dst).
Proof.
  intros Hd Hf Hnn. 
  pose proof (bfp_loop_PI dst lim (n - 1) 0 None (d0 A src) (vset (vempty n) src src) (d0 A src) PI0) as HP.
  destruct (bfp_proj dst lim (n - 1) None (d0 A src) (vset (vempty n) src src) (d0 A src)) as (p' & E). rewrite E in *.
  pose proof (bf_target_ok A Awf Asq src Hsrc dst lim None ltac:(intros [C|C]; [congruence|apply Hnn; exact C])) as H.
  destruct (bf_loop A (Some dst) lim (n - 1) None (d0 A src) (d0 A src)) as [[[b c'] d] cur].
  destruct H as (_ & _ & _ & H1 & _ & _ & H3 & H4). destruct HP as (m & pr & (Sd & Sp & Spp & Hds & Hps & Hdom & Hw & Hpd & t & Ht1 & Ht2 & Hpar)).
  split; [|split].
  - apply not_true_is_false. intros Hc. apply Hno. apply H1. exact Hc.
  - specialize (Hdom dst). split.
    + intros Hn Hr. rewrite Hn in Hdom. rewrite (H4 eq_refl Hr) in Hdom. discriminate.
    + intros Hr. destruct (vget p' dst); [|reflexivity]. exfalso. apply Hr. destruct (vget d dst) as [x|] eqn:Ex; [|discriminate].
      destruct (Hw _ _ Ex) as (m' & Hm'). do 2 eexists; eassumption.
  - intros Hn. specialize (Hdom dst). destruct (vget p' dst) as [q|]; [|congruence]. destruct (vget d dst) as [x|] eqn:Ex; [|discriminate].
    destruct (recon_ok n W A_lt' src p' (vget d) t Hpar Hds ltac:(intros j y Hy; destruct (Hw _ _ Hy) as (m' & ?); do 2 eexists; eassumption) Hno fuel dst x Hf Hd Ex)
      as (l & w & R1 & R2 & R3 & R4).
    pose proof (H3 Hno x eq_refl I) as Hs. assert (w = x). { pose proof (wpath_wwalk W l w src dst R2 R4) as Hwk. apply (proj2 Hs) in Hwk. lia. }
    subst. exists l, x. auto.
Qed.
End P.

Section K.
Variable G : graph.
Hypothesis wf : gwf G.
Notation n := (nrows (g_A G)).
Notation F := (mget (g_A G)).
Notation W := (mget (den_mat G KOff)).
(** paths of ids are paths of keys *)
Lemma wpath_lift l : forall i u w, kid G u = Some i -> wpath F (i :: l) w ->
  exists ks, mapO (ikey (g_kid G)) (i :: l) = Some (u :: ks) /\ wpath (weight G) (u :: ks) w /\
    forall v, kid G v = Some (List.last (i :: l) i) -> List.last (u :: ks) u = v.
Proof.
  induction l as [|j l IH]; intros i u w Hu H.
  - exists []. assert (Hu' : ikey (g_kid G) i = Some u) by (apply kid_inv; assumption). cbn [mapO]. rewrite Hu'. split; [reflexivity|].
    inversion H; subst. split; [constructor|]. intros v Hv. simpl in Hv. simpl. eapply kid_inj; eassumption.
  - inversion H as [|? ? ? x w' Hx Hw]; subst. destruct (F_lt G wf _ _ _ Hx) as [Li Lj]. destruct (kid_key G wf j Lj) as [k Hk].
    destruct (IH j k w' Hk Hw) as (ks & H1 & H2 & H3). exists (k :: ks).
    assert (Hu' : ikey (g_kid G) i = Some u) by (apply kid_inv; assumption). cbn [mapO] in *. rewrite Hu'. rewrite H1. split; [reflexivity|].
    split; [econstructor; [rewrite (weight_ids G u k i j Hu Hk); assumption|assumption]|].
    assert (E : forall {Y} (a b : Y) r d d', List.last (a :: b :: r) d = List.last (b :: r) d') by
      (intros Y a b r; revert b; induction r as [|c r IHr]; intros b d d'; [reflexivity|]; apply (IHr c)).
    intros v Hv. rewrite (E _ _ _ _ _ j) in Hv. rewrite (E _ _ _ _ _ k). apply H3. assumption.
Qed.
(** breadth-first parents *)
Lemma bfs_parent_target u src v t : kid G u = Some src -> kid G v = Some t ->
  answers G (bfs_parent G u (Some v) None false) (fun o => exists p, o = Val p /\ has (vget p src) = true /\
    (has (vget p t) = true <-> exists d, dist (iedge G) src t d) /\
    forall j, has (vget p j) = true -> j <> src -> exists i e, vget p j = Some i /\ has (vget p i) = true /\ iedge G i j /\ dist (iedge G) src i e /\ dist (iedge G) src j (S e)).
Proof.
  intros Hu Hv. assert (Hs : src < n) by (eapply kid_lt; eassumption).
  unfold bfs_parent. rewrite Hu. cbn [idx]. apply answers_ret_bind. rewrite Hv. cbn [idx]. apply answers_assoc. apply answers_ret_bind. apply answers_ret_bind.
  eapply answers_bind_GV; [apply (bfs_matrix_ok G wf true false)|]. apply answers_ret. eexists. split; [reflexivity|]. rewrite Bm_rows.
  assert (Hl : forall x, In x [src] -> x < n) by (intros ? [<-|[]]; assumption).
  pose proof (bfs_parent_loop_ok (Bm G false) (Bm_wf G false) (Bm_cols G false) (fun a => existsb (Nat.eqb a) [src])) as H.
  rewrite Bm_rows in H. specialize (H (BfsProofs2.src_lt G [src] Hl) (Some t) (range1 (get_cutoff n None)) 0 (vset (vempty n) src src) (vset (vempty n) src src)).
  assert (G0 : forall j, vget (vset (vempty n) src src) j = if j =? src then Some src else None).
  { intros j. unfold vset. rewrite vget_vbuild, vsize_vempty. destruct (Nat.ltb_spec j n).
    - destruct (j =? src); [reflexivity|]. apply vget_vempty.
    - destruct (Nat.eqb_spec j src); [lia|reflexivity]. }
  assert (S0 : vsize (vset (vempty n) src src) = n) by (rewrite vsize_vset; apply vsize_vempty).
  destruct H as (m & Hm & HP & _ & Ht).
  - constructor.
    + rewrite Bm_rows. assumption.
    + intros j. rewrite G0. rewrite Bm_rows. rewrite seen1_src, src1. destruct (j =? src); reflexivity.
    + intros j p. rewrite G0. destruct (Nat.eqb_spec j src) as [->|]; [|discriminate]. intros [= <-]. left. split; [reflexivity|]. rewrite src1. apply Nat.eqb_refl.
  - assumption.
  - intros j. rewrite G0. rewrite fresh0_src, src1. destruct (Nat.eqb_spec j src) as [->|]; reflexivity.
  - set (p := bfs_parent_loop _ _ _ _ _) in *. destruct HP as [P1 P2 P3]. rewrite Bm_rows in P1, P2. rewrite Nat.add_0_l in *.
    assert (F1 : forall d j, fresh n (EA (Bm G false)) (fun a => existsb (Nat.eqb a) [src]) d j = true <-> dist (iedge G) src j d) by (intros d j; apply (fresh_dist1 G wf false src d j Hs)).
    assert (Hsrc : has (vget p src) = true).
    { rewrite P2. apply seen_true. exists 0. split; [lia|]. cbn [wb]. rewrite src1. apply Nat.eqb_refl. }
    split; [assumption|]. split.
    + rewrite (Ht t eq_refl). change (1 + range1 (get_cutoff n None)) with (horizon n None). rewrite (seen_dist G wf false [src] None t Hl).
      split; intros (d & Hd).
      * exists d. destruct Hd as [Hd _]. apply F1. apply (fresh_ids G wf false [src] d t Hl). exact Hd.
      * exists d. split; [|exact I]. apply (fresh_ids G wf false [src] d t Hl). apply F1. assumption.
    + intros j Hj Hne. destruct (vget p j) as [i|] eqn:Ei; [|discriminate]. destruct (P3 j i Ei) as [[_ C]|(e & He & H1 & H2 & H3)].
      * exfalso. rewrite src1 in C. apply Nat.eqb_eq in C. contradiction.
      * rewrite Bm_rows in H1, H2. exists i, e. split; [reflexivity|]. split; [|split; [apply (Bm_EA G wf false i j); assumption|split; apply F1; assumption]].
        rewrite P2. apply seen_fresh. exists e. split; [lia|assumption].
Qed.
Lemma dist_fun {X} (E : X -> X -> Prop) a b d d' : dist E a b d -> dist E a b d' -> d = d'.
Proof. intros [A1 A2] [B1 B2]. apply A2 in B1. apply B2 in A1. lia. Qed.
Lemma iso_recon fuel src t p : (forall i j i' j' x x', F i j = Some x -> F i' j' = Some x' -> x = x') -> (forall i j x, F i j = Some x -> (0 <= x)%Z) ->
  n <= fuel -> src < n -> t < n -> has (vget p src) = true -> has (vget p t) = true ->
  (forall j, has (vget p j) = true -> j <> src -> exists i e, vget p j = Some i /\ has (vget p i) = true /\ iedge G i j /\ dist (iedge G) src i e /\ dist (iedge G) src j (S e)) ->
  exists l w, recon fuel p src t [] = Some (Val (src :: l)) /\ wpath F (src :: l) w /\ shortest F src t w /\ List.last (src :: l) src = t.
Proof.
  intros Hiso Hnn Hf Hs Ht Hps Hpt Hpar.
  assert (Hz : exists z, (0 <= z)%Z /\ forall i j x, F i j = Some x -> x = z).
  { destruct (Nat.eq_dec t src) as [->|Hne].
    - destruct (den_scal G (KElem RAny SP)) as [z|] eqn:E.
      + destruct (iso_elem_in G z E) as (a & b & Hz). exists z. split; [eapply Hnn; eassumption|]. intros. eapply Hiso; eassumption.
      + exists 0%Z. split; [lia|]. intros i j x Hx. exfalso. simpl in E. rewrite ored_none in E. specialize (E i (proj1 (F_lt G wf _ _ _ Hx))). unfold rfold in E.
        rewrite ored_none in E. specialize (E j (proj2 (F_lt G wf _ _ _ Hx))). simpl in E. rewrite Hx in E. discriminate.
    - destruct (Hpar t Hpt Hne) as (i & e & _ & _ & (x & Hx) & _). exists x. split; [eapply Hnn; eassumption|]. intros. eapply Hiso; eassumption. }
  destruct Hz as (z & Hz0 & Hz).
  pose proof (level_val_spec G wf false src None Hs) as HL.
  set (pot := fun j => if has (vget p j) then omap (fun x => (x * z)%Z) (vget (level_val G false src None) j) else None).
  assert (Hpot : forall j d, has (vget p j) = true -> dist (iedge G) src j d -> pot j = Some (Z.of_nat d * z)%Z).
  { intros j d Hj Hd. unfold pot. rewrite Hj. rewrite (proj2 (HL j (Z.of_nat d)) ltac:(exists d; split; [reflexivity|split; [exact Hd|exact I]])). reflexivity. }
  assert (Hpot' : forall j x, pot j = Some x -> has (vget p j) = true /\ exists d, dist (iedge G) src j d /\ x = (Z.of_nat d * z)%Z).
  { intros j x H. unfold pot in H. destruct (has (vget p j)); [|discriminate]. split; [reflexivity|].
    destruct (vget (level_val G false src None) j) as [y|] eqn:E; [|discriminate]. injection H as <-. apply HL in E as (d & -> & Hd & _). exists d. auto. }
  assert (D0 : dist (iedge G) src src 0) by (split; [constructor|intros; lia]).
  assert (Dt : exists d, dist (iedge G) src t d) by (destruct (Nat.eq_dec t src) as [->|Hne]; [eauto|]; destruct (Hpar t Hpt Hne) as (_ & e & _ & _ & _ & _ & Hd); eauto).
  destruct Dt as (d & Hd).
  destruct (recon_ok n F (F_lt G wf) src p pot (fun j => match vget (level_val G false src None) j with Some x => Z.to_nat x | None => 0 end)) with (fuel := fuel) (dst := t) (x := (Z.of_nat d * z)%Z)
    as (l & w & R1 & R2 & R3 & R4); try assumption.
  - intros j x Hx Hne. destruct (Hpot' j x Hx) as (Hj & dj & Hdj & ->). destruct (Hpar j Hj Hne) as (i & e & Hi & Hpi & (y & Hy) & Hdi & Hdj').
    rewrite (dist_fun _ _ _ _ _ Hdj Hdj') in *. pose proof (Hz _ _ _ Hy). subst y. exists i, z, (Z.of_nat e * z)%Z.
    split; [assumption|]. split; [assumption|]. split; [apply Hpot; assumption|]. split; [lia|]. intros _.
    rewrite (proj2 (HL i (Z.of_nat e)) ltac:(exists e; split; [reflexivity|split; [exact Hdi|exact I]])).
    rewrite (proj2 (HL j (Z.of_nat (S e))) ltac:(exists (S e); split; [reflexivity|split; [exact Hdj'|exact I]])). lia.
  - rewrite (Hpot src 0 Hps D0). reflexivity.
  - intros j x Hx. destruct (Hpot' j x Hx) as (_ & dj & [Hdj _] & _). exists dj, (Z.of_nat dj * z)%Z. apply (iso_walk G z); auto.
  - apply (iso_nocycle G z); assumption.
  - apply Hpot; assumption.
  - exists l, w. split; [assumption|]. split; [assumption|]. split; [|assumption].
    assert (Hsh : shortest F src t (Z.of_nat d * z)) by (apply (iso_shortest G wf z); eauto).
    pose proof (wpath_wwalk F l w src t R2 R4) as Hwk. pose proof (proj2 Hsh _ _ Hwk). replace w with (Z.of_nat d * z)%Z by lia. assumption.
Qed.
Lemma ndok_off3 {Y} (f : mat Z -> bool -> bool -> M Y) (R : outcome Y -> Prop) :
  answers G (f (den_mat G KOff) (den_bool G KNegDiag) (den_bool G (KNeg SM))) R ->
  answers_ndok G (A <- get_offdiag G ;; nd <- has_negative_diagonal G ;; neg <- has_negative_edgesm false G ;; f A nd neg) R.
Proof.
  intros Hf. apply (ndok_glue G wf (fun A nd => neg <- has_negative_edgesm false G ;; f A nd neg)). intros s HI Ho.
  destruct (negm_ok G wf s HI Ho) as (H4 & H5 & _). unfold bind. destruct (has_negative_edgesm false G s) as [o s3]; cbn [fst snd] in *; subst o.
  apply Hf. assumption.
Qed.
Definition path_ok (u v : nkey) (src t : nat) (o : outcome (option (list nkey))) : Prop :=
  (o = Val (Some []) /\ ~ wreach F src t) \/
  exists l w, o = Val (Some (u :: l)) /\ List.last (u :: l) u = v /\ wpath (weight G) (u :: l) w /\ shortest F src t w.
Lemma reconstruct_ok fuel u v src t p : kid G u = Some src -> kid G v = Some t -> (vget p t = None -> ~ wreach F src t) ->
  (vget p t <> None -> exists l w, recon fuel p src t [] = Some (Val (src :: l)) /\ wpath F (src :: l) w /\ shortest F src t w /\ List.last (src :: l) src = t) ->
  exists l, reconstruct fuel G p src t = Some (Val l) /\ path_ok u v src t (Val (Some l)).
Proof.
  intros Hu Hv H1 H2. unfold reconstruct. destruct (vget p t) as [q|]; cbn [has].
  - destruct H2 as (l & w & E & Hw & Hs & Hl); [discriminate|]. rewrite E. destruct (wpath_lift l src u w Hu Hw) as (ks & E1 & E2 & E3). rewrite E1.
    exists (u :: ks). split; [reflexivity|]. right. exists ks, w. split; [reflexivity|]. split; [apply E3; rewrite Hl; assumption|]. auto.
  - exists []. split; [reflexivity|]. left. auto.
Qed.
Lemma bf_path_ok fuel u v src t : kid G u = Some src -> kid G v = Some t -> n <= fuel -> ~ neg_cycle_from F src -> den_bool G KNegDiag = false ->
  (g_iso G = true -> forall i j x, F i j = Some x -> (0 <= x)%Z) ->
  answers_ndok G (bf_path fuel G u v) (path_ok u v src t).
Proof.
  intros Hu Hv Hf Hno Hnd Hin. assert (Hs : src < n) by (eapply kid_lt; eassumption). assert (Ht : t < n) by (eapply kid_lt; eassumption).
  unfold bf_path. rewrite Hu, Hv. cbn [idx]. change (bind (ret src) ?f) with (f src). cbv beta. change (bind (ret t) ?f) with (f t). cbv beta zeta.
  eapply (ndok_bind_GV G); [apply (is_iso_ok G true)|apply keeps_is_iso|].
  simpl den_bool. destruct (Bool.bool_dec (g_iso G) true) as [Hi|Hi]; [|apply not_true_is_false in Hi]; rewrite Hi.
  - specialize (Hin Hi). apply ndok_answers. intros s HI.
    assert (HA : answers G (neg <- has_negative_edgesp G;; (if negb neg then p <- bfs_parent G u (Some v) None false;;
        match reconstruct fuel G p src t with Some (Val l) => ret (Some l) | Some (Raise e) => raise e | None => ret None end else raise EUnbounded)) (path_ok u v src t)).
    { eapply answers_bind_GV; [apply (has_negative_edgesp_ok G wf true eq_refl)|].
      assert (E : den_bool G (KNeg SP) = false).
      { apply not_true_is_false. rewrite (neg_true_iff G wf). intros (a & b & y & Hy & Hneg). apply Hin in Hy. lia. }
      rewrite E. cbn [negb]. eapply answers_bind; [apply (bfs_parent_target u src v t Hu Hv)| |intros e (p & C & _); discriminate].
      intros p (p' & [= <-] & Hps & Hpt & Hpar).
      destruct (reconstruct_ok fuel u v src t p Hu Hv) as (l & El & Hl).
      - intros Hn Hr. rewrite Hn in Hpt. cbn [has] in Hpt. destruct Hr as (m & w & Hw).
        assert (Hwk : walk (iedge G) src m t) by (apply wwalk_walk in Hw; exact Hw).
        assert (Hd : exists d, dist (iedge G) src t d).
        { assert (Hr : has (vget (plain_val G false [src] None) t) = true) by (apply (plain_val_reach1 G wf false src Hs); exists m; exact Hwk).
          apply (plain_val_dist1 G wf false src None Hs) in Hr as (d' & Hd' & _). exists d'. exact Hd'. }
        apply Hpt in Hd. discriminate.
      - intros Hn. apply iso_recon; try assumption.
        + intros i j i' j' a b Ha Hb. eapply (gw_iso _ wf Hi); eassumption.
        + destruct (vget p t); [reflexivity|congruence].
      - rewrite El. apply answers_ret. assumption. }
    exact (HA s HI).
  - eapply ndok_off3 with (f := fun A nd neg => _). cbv beta.
    pose proof (bfp_ok (den_mat G KOff) (off_wf G) (off_sq G) src) as HB. rewrite off_rows in *.
    assert (Hno' : ~ neg_cycle_from W src) by (intros C; apply Hno; apply (neg_strip F W (off_get G wf)); left; exact C).
    specialize (HB Hs Hno' t (negb (den_bool G (KNeg SM))) fuel Ht Hf ltac:(intros C; apply (nonneg_off G wf); apply negb_true_iff; exact C)).
    unfold d0 in HB. rewrite off_rows in HB.
    destruct (bfp_loop _ _ _ _ _ _ _ _) as [[[[b c'] d] p] cur]. destruct HB as (B1 & B2 & B3).
    assert (Hnb : ~ bad F W src).
    { intros Hb. apply Hno. apply (neg_strip F W (off_get G wf)). right. exact Hb. }
    destruct (reconstruct_ok fuel u v src t p Hu Hv) as (l & El & Hl).
    + intros Hn Hr. apply B2 in Hn. apply Hn. apply (wreach_strip F W (off_get G wf)). assumption.
    + intros Hn. destruct (B3 Hn) as (l & w & E & Hw & Hsh & Hla). exists l, w. split; [exact E|]. split; [|split; [|exact Hla]].
      * clear -Hw wf. induction Hw; econstructor; [eapply (W_F F W (off_get G wf)); eassumption|assumption].
      * apply (shortest_strip F W (off_get G wf)); assumption.
    + assert (E : b && mVb (vinter Z.ltb (if b then bf_cand (den_mat G KOff) c' cur else cur) d) t = false) by (destruct b; [exact B1|reflexivity]).
      rewrite E, El, Hnd. cbn [andb]. apply answers_ret. assumption.
Qed.
End K.
