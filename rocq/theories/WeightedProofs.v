(** * Bellman-Ford: the loops compute what WeightedMath describes *)
From Verif Require Import Base BaseProofs Model_Graph Model_Cache Model_Keys Model_Bfs Model_Weighted Spec Spec_Cache Spec_Weighted
  CacheMath CacheProofs BfsProofs BfsProofs2 WeightedMath KeyProofs.

(** ** Vectors *)
Section L.
Variable A : mat Z.
Hypothesis Awf : mwf A.
Hypothesis Asq : ncols A = nrows A.
Notation n := (nrows A).
Notation W := (mget A).
Lemma A_lt a b v : W a b = Some v -> a < n /\ b < n.
Proof. intros H. apply mget_some_lt in H; [|assumption]. rewrite Asq in H. assumption. Qed.
Lemma cutsel_get c v j : vget (cutsel c v) j = cutf c (vget v j).
Proof.
  destruct c as [c|]; simpl; [|destruct (vget v j); reflexivity].
  unfold vselectv. rewrite vget_vbuild. destruct (Nat.ltb_spec j (vsize v)); [destruct (vget v j); reflexivity|].
  rewrite (vget_out v) by assumption. reflexivity.
Qed.
Lemma cutsel_size c v : vsize (cutsel c v) = vsize v.
Proof. destruct c; simpl; [apply vsize_vbuild|reflexivity]. Qed.
Lemma cand_get c cur j : vget (bf_cand A c cur) j = cand n W c (vget cur) j.
Proof.
  unfold bf_cand. rewrite cutsel_get. unfold cand. f_equal. unfold vxm. rewrite vget_vbuild, Asq.
  destruct (Nat.ltb_spec j n) as [Hj|Hj]; [reflexivity|]. symmetry. apply ored_none. intros i Hi.
  rewrite (mget_out A) by (try assumption; right; rewrite Asq; assumption). destruct (vget cur i); reflexivity.
Qed.
Lemma cand_size c cur : vsize (bf_cand A c cur) = n.
Proof. unfold bf_cand. rewrite cutsel_size. unfold vxm. rewrite vsize_vbuild. assumption. Qed.
Lemma keep_size cur d : vsize (bf_keep cur d) = vsize cur.
Proof. apply vsize_vbuild. Qed.
Lemma keep_get cur d j : vsize cur = vsize d -> vget (bf_keep cur d) j = better (vget cur j) (vget d j).
Proof.
  intros Hs. unfold bf_keep, vwrite. rewrite vget_vbuild. destruct (Nat.ltb_spec j (vsize cur)) as [Hj|Hj].
  - unfold mVb, bf_mask, vunion, vmap, vinter. rewrite !vsize_vbuild, !vget_vbuild.
    apply Nat.ltb_lt in Hj. rewrite Hj. destruct (vget cur j) as [x|], (vget d j) as [y|]; simpl; try reflexivity.
  - rewrite (vget_out cur) by assumption. destruct (vget d j); reflexivity.
Qed.
Lemma upd_get d cur j : vsize cur = vsize d -> vget (vwrite (mS cur) false d cur) j = onew (vget cur j) (vget d j).
Proof.
  intros Hs. rewrite vget_vwrite. unfold mS, onew. destruct (Nat.ltb_spec j (vsize d)) as [Hj|Hj].
  - destruct (vget cur j); reflexivity.
  - rewrite (vget_out cur), (vget_out d) by lia. reflexivity.
Qed.
Variable S0 : nat -> option Z.
Hypothesis S0lt : forall i z, S0 i = Some z -> i < n.
Notation BIn := (BI W S0).
Lemma BI_ext c0 c k d d' cur cur' : (forall j, d j = d' j) -> (forall j, cur j = cur' j) -> BIn c0 c k d cur -> BIn c0 c k d' cur'.
Proof.
  intros H1 H2 [B1 B2 B3 B4 B5]. constructor; auto.
  - intros j x Hj. apply B2. rewrite H1. assumption.
  - intros m w j Hm Hb. rewrite <- H1. eapply B3; eassumption.
  - intros i x Hx. rewrite <- H1. apply B4. rewrite H2. assumption.
  - intros i x j v Hi Hc. rewrite <- (H1 j). apply B5; [rewrite H1|rewrite H2]; assumption.
Qed.
(** one round *)
Lemma round_ok c0 c m d cur : vsize d = n -> vsize cur = n -> BIn c0 c m (vget d) (vget cur) ->
  let cur' := bf_keep (bf_cand A c cur) d in
  vsize cur' = n /\ vsize (vwrite (mS cur') false d cur') = n /\
  (forall j, vget cur' j = better (cand n W c (vget cur) j) (vget d j)) /\
  BIn c0 c (S m) (vget (vwrite (mS cur') false d cur')) (vget cur').
Proof.
  intros Hd Hc HB cur'.
  assert (E1 : forall j, vget cur' j = better (cand n W c (vget cur) j) (vget d j)).
  { intros j. unfold cur'. rewrite keep_get by (rewrite cand_size; congruence). rewrite cand_get. reflexivity. }
  assert (Hs : vsize cur' = n) by (unfold cur'; rewrite keep_size; apply cand_size).
  split; [assumption|]. split; [rewrite vsize_vwrite; assumption|]. split; [assumption|].
  eapply BI_ext; [| |apply (BI_step n W A_lt S0); exact HB].
  - intros j. rewrite upd_get by congruence. rewrite E1. reflexivity.
  - intros j. rewrite E1. reflexivity.
Qed.
(** the target's value becomes the cutoff; sound when no weight is negative *)
Definition limc (dst : option nat) (lim : bool) (c0 c : option Z) (d : vec Z) : Prop :=
  c = c0 \/ (lim = true /\ exists t x, dst = Some t /\ c = Some x /\ vget d t = Some x).
Lemma limit_ok dst lim c0 c m d cur : vsize d = n -> vsize cur = n -> BIn c0 c m (vget d) (vget cur) -> limc dst lim c0 c d ->
  let cur' := bf_keep (bf_cand A c cur) d in let d' := vwrite (mS cur') false d cur' in
  BIn c0 (bf_limit lim dst cur' c) (S m) (vget d') (vget cur') /\ limc dst lim c0 (bf_limit lim dst cur' c) d'.
Proof.
  intros Hd Hc HB HL cur' d'. destruct (round_ok c0 c m d cur Hd Hc HB) as (Hs & Hs' & E1 & HB'). fold cur' d' in Hs, Hs', E1, HB'.
  assert (E2 : forall j, vget d' j = onew (vget cur' j) (vget d j)) by (intros; unfold d'; apply upd_get; congruence).
  assert (HL0 : lim = true -> forall t, dst = Some t -> vget cur' t = None -> limc dst lim c0 c d').
  { intros -> t -> Et. destruct HL as [->|(_ & t' & x & [= <-] & -> & Hx)]; [left; reflexivity|].
    right. split; [reflexivity|]. exists t, x. rewrite E2, Et. auto. }
  unfold bf_limit. destruct lim, dst as [t|]; try (split; [assumption|]; destruct HL as [->|(H & t' & x & H' & _)]; [left; reflexivity|discriminate]).
  destruct (vget cur' t) as [x|] eqn:Et; [|split; [assumption|exact (HL0 eq_refl t eq_refl Et)]]. split.
  - apply BI_cut with (c := c); [|assumption]. intros y Hy. simpl in Hy. pose proof (E1 t) as E3. rewrite Et in E3. symmetry in E3.
    apply better_some in E3 as [E3 _]. unfold cand in E3. apply cutf_some in E3 as [_ E3]. destruct c; simpl in *; [lia|exact I].
  - right. split; [reflexivity|]. exists t, x. rewrite E2, Et. auto.
Qed.
Lemma bf_loop_ok dst lim c0 k : forall m c d cur, vsize d = n -> vsize cur = n ->
  BIn c0 c m (vget d) (vget cur) -> limc dst lim c0 c d ->
  let '(b, c', d', cur') := bf_loop A dst lim k c d cur in
  vsize d' = n /\ vsize cur' = n /\ limc dst lim c0 c' d' /\
  (b = true -> BIn c0 c' (m + k) (vget d') (vget cur')) /\
  (b = false -> nvals cur' = 0 /\ closed W S0 c' (vget d') /\ exists m' cur'', BIn c0 c' m' (vget d') cur'').
Proof.
  induction k as [|k IH]; intros m c d cur Hd Hc HB HL.
  - simpl. rewrite Nat.add_0_r. repeat (split; [assumption|]). split; [auto|discriminate].
  - cbn [bf_loop]. destruct (round_ok c0 c m d cur Hd Hc HB) as (Hs & Hs' & E1 & HB').
    set (cur' := bf_keep (bf_cand A c cur) d) in *. destruct (Nat.eqb_spec (nvals cur') 0) as [E0|E0].
    + split; [assumption|]. split; [assumption|]. split; [assumption|]. split; [discriminate|]. intros _. split; [assumption|]. split; [|eauto].
      apply (BI_break n W A_lt S0 c0 c m (vget d) (vget cur)); [assumption|]. intros j. rewrite <- E1. apply nvals_zero. assumption.
    + destruct (limit_ok dst lim c0 c m d cur Hd Hc HB HL) as [HB2 HL2]. fold cur' in HB2, HL2.
      specialize (IH (S m) (bf_limit lim dst cur' c) (vwrite (mS cur') false d cur') cur' Hs' Hs HB2 HL2).
      rewrite Nat.add_succ_r. exact IH.
Qed.
(** the check of the else clause *)
Lemma check_get c d cur j : vsize d = n -> vget (vinter Z.ltb (bf_cand A c cur) d) j = oboth Z.ltb (cand n W c (vget cur) j) (vget d j).
Proof. intros Hd. rewrite vget_vinter by (rewrite cand_size; congruence). rewrite cand_get. reflexivity. Qed.
Lemma ored_orb_true m (f : nat -> option bool) :
  match ored orb m f with Some b => b | None => false end = true <-> exists j, j < m /\ f j = Some true.
Proof.
  induction m as [|m IH]; simpl; [split; [discriminate|intros (j & Hj & _); lia]|].
  destruct (f m) as [b|] eqn:E.
  - destruct (ored orb m f) as [b'|] eqn:E'; simpl; rewrite ?orb_true_iff.
    + split.
      * intros [->| ->]; [destruct (proj1 IH eq_refl) as (j & Hj & H); exists j; split; [lia|assumption]|]. exists m. split; [lia|assumption].
      * intros (j & Hj & H). destruct (Nat.eq_dec j m) as [->|]; [right; congruence|]. left. apply IH. exists j. split; [lia|assumption].
    + split.
      * intros ->. exists m. split; [lia|assumption].
      * intros (j & Hj & H). destruct (Nat.eq_dec j m) as [->|]; [congruence|]. exfalso. assert (false = true); [|discriminate]. apply IH. exists j. split; [lia|assumption].
  - rewrite omerge_none_r. rewrite IH. split; intros (j & Hj & H); exists j; (split; [|assumption]); [lia|]. destruct (Nat.eq_dec j m) as [->|]; [congruence|lia].
Qed.
Lemma check_none c d cur : vsize d = n -> bf_check A None c d cur = true <-> exists j, improves (cand n W c (vget cur) j) (vget d j) = true.
Proof.
  intros Hd. unfold bf_check, vreduce. rewrite vsize_vinter, cand_size, ored_orb_true. split.
  - intros (j & _ & H). rewrite check_get in H by assumption. exists j.
    destruct (cand n W c (vget cur) j), (vget d j); simpl in *; congruence.
  - intros (j & H). exists j. rewrite check_get by assumption. assert (j < n).
    { destruct (vget d j) eqn:E; [apply vget_some_lt in E; lia|]. destruct (cand n W c (vget cur) j); discriminate. }
    split; [assumption|]. destruct (cand n W c (vget cur) j), (vget d j); simpl in *; congruence.
Qed.
Lemma check_some t c d cur : vsize d = n -> bf_check A (Some t) c d cur = improves (cand n W c (vget cur) t) (vget d t).
Proof.
  intros Hd. unfold bf_check, mVb. rewrite check_get by assumption. destruct (cand n W c (vget cur) t), (vget d t); reflexivity.
Qed.
End L.

(** ** One source *)
Section S1.
Variable A : mat Z.
Hypothesis Awf : mwf A.
Hypothesis Asq : ncols A = nrows A.
Notation n := (nrows A).
Notation W := (mget A).
Variable src : nat.
Hypothesis Hsrc : src < n.
Definition one0 (i : nat) : option Z := if i =? src then Some 0%Z else None.
Lemma one0_lt i z : one0 i = Some z -> i < n.
Proof. unfold one0. destruct (Nat.eqb_spec i src); [subst; auto|discriminate]. Qed.
Lemma one0_src : one0 src = Some 0%Z. Proof. unfold one0. rewrite Nat.eqb_refl. reflexivity. Qed.
Lemma one0_inv i z : one0 i = Some z -> i = src /\ z = 0%Z.
Proof. unfold one0. destruct (Nat.eqb_spec i src); [intros [= <-]; auto|discriminate]. Qed.
Lemma bw_one m w j : bw W one0 None m w j <-> wwalk W src m w j.
Proof.
  split.
  - intros H. apply bw_wwalk in H as (i & z & w' & Hi & Hw & ->). apply one0_inv in Hi as [-> ->]. assumption.
  - intros H. apply (wwalk_bw W one0 src 0%Z m w j one0_src) in H. assumption.
Qed.
Lemma smin_one j x : smin W one0 j x <-> shortest W src j x.
Proof.
  unfold smin, shortest. split; intros [(m & H) H']; (split; [exists m; apply bw_one; assumption|]); intros d w Hw; apply (H' d); apply bw_one; assumption.
Qed.
Lemma S0neg_one : S0neg W one0 <-> neg_cycle_from W src.
Proof.
  split.
  - intros (i & z & Hi & H). apply one0_inv in Hi as [-> _]. assumption.
  - intros H. exists src, 0%Z. split; [apply one0_src|assumption].
Qed.
Definition d0 : vec Z := vset (vempty n) src 0%Z.
Lemma d0_size : vsize d0 = n. Proof. unfold d0. rewrite vsize_vset. apply vsize_vempty. Qed.
Lemma d0_get j : vget d0 j = one0 j.
Proof. unfold d0. rewrite has_vset_empty by assumption. reflexivity. Qed.
Lemma BI_start c : BI W one0 c c 0 (vget d0) (vget d0).
Proof. eapply BI_ext; [| |apply BI0]; intros j; symmetry; apply d0_get. Qed.
(** all distances from src; [Some]: no negative cycle *)
Lemma bf_single_ok lim : 
  let '(b, c', d, cur) := bf_loop A None lim (n - 1) None d0 d0 in
  vsize d = n /\ 
  (b && bf_check A None c' d cur = true -> neg_cycle_from W src) /\
  (b && bf_check A None c' d cur = false -> ~ neg_cycle_from W src /\ (forall j x, vget d j = Some x <-> shortest W src j x) /\ forall j, wreach W src j -> has (vget d j) = true).
Proof.
  pose proof (bf_loop_ok A Awf Asq one0 None lim None (n - 1) 0 None d0 d0 d0_size d0_size (BI_start None) (or_introl eq_refl)) as H.
  destruct (bf_loop A None lim (n - 1) None d0 d0) as [[[b c'] d] cur]. destruct H as (Hd & Hc & HL & H1 & H2).
  assert (c' = None) by (destruct HL as [->|(_ & t & x & ? & _)]; [reflexivity|discriminate]). subst c'.
  assert (P : closed W one0 None (vget d) -> (exists m cur', BI W one0 None None m (vget d) cur') -> ~ neg_cycle_from W src /\ (forall j x, vget d j = Some x <-> shortest W src j x) /\ forall j, wreach W src j -> has (vget d j) = true).
  { intros Hcl (m & cur' & HB). split.
    - rewrite <- S0neg_one. apply (closed_noneg _ _ _ Hcl).
    - split; [intros j x; rewrite <- smin_one; eapply closed_smin; eassumption|]. intros j (m' & w & Hw). apply bw_one in Hw.
      destruct (closed_low _ _ _ _ Hcl _ _ _ Hw) as (x & Hx & _). rewrite Hx. reflexivity. }
  split; [assumption|]. destruct b; cbn [andb].
  - specialize (H1 eq_refl). split.
    + intros Hk. apply (check_none A Awf Asq) in Hk as (j & Hj); [|assumption]. apply S0neg_one.
      eapply (BI_improves n W (A_lt A Awf Asq) one0 one0_lt None (0 + (n - 1))); [lia|exact H1|exact Hj].
    + intros Hk. apply P; [|eauto]. eapply (BI_else n W (A_lt A Awf Asq) one0 one0_lt (0 + (n - 1))); [lia|exact H1|].
      intros j. apply not_true_is_false. intros Hj. assert (bf_check A None None d cur = true); [|congruence]. apply (check_none A Awf Asq); [assumption|]. eauto.
  - split; [discriminate|]. intros _. destruct (H2 eq_refl) as (_ & Hcl & HB). apply P; assumption.
Qed.

(** walks all of whose weights are nonnegative never exceed their total *)
Lemma nonneg_bw c m w j : (forall a b v, W a b = Some v -> (0 <= v)%Z) -> okc c w -> wwalk W src m w j -> bw W one0 c m w j.
Proof.
  intros Hnn Hc H. revert Hc. induction H as [|m w i v j H IH Hv]; intros Hc.
  - constructor. apply one0_src.
  - econstructor; [|exact Hv|exact Hc]. apply IH. apply Hnn in Hv. destruct c; simpl in *; lia.
Qed.
Lemma bf_target_ok t lim c0 : (c0 <> None \/ lim = true -> forall a b v, W a b = Some v -> (0 <= v)%Z) ->
  let '(b, c', d, cur) := bf_loop A (Some t) lim (n - 1) c0 d0 d0 in
  vsize d = n /\ (b = false -> nvals cur = 0) /\
  (forall j x, vget d j = Some x -> exists m, wwalk W src m x j) /\
  (b && bf_check A (Some t) c' d cur = true -> neg_cycle_from W src) /\
  (~ neg_cycle_from W src -> forall x, okc c0 x -> shortest W src t x -> vget d t = Some x) /\
  (~ neg_cycle_from W src -> forall x, vget d t = Some x -> t <> src -> okc c0 x) /\
  (~ neg_cycle_from W src -> forall x, vget d t = Some x -> okc c0 x -> shortest W src t x) /\
  (c0 = None -> wreach W src t -> has (vget d t) = true).
Proof.
  intros Hnn.
  pose proof (bf_loop_ok A Awf Asq one0 (Some t) lim c0 (n - 1) 0 c0 d0 d0 d0_size d0_size (BI_start c0) (or_introl eq_refl)) as H.
  destruct (bf_loop A (Some t) lim (n - 1) c0 d0 d0) as [[[b c'] d] cur]. destruct H as (Hd & Hc & HL & H1 & H2).
  assert (HB : exists m cur', BI W one0 c0 c' m (vget d) cur').
  { destruct b; [specialize (H1 eq_refl); eauto|]. destruct (H2 eq_refl) as (_ & _ & m & cur' & HB). eauto. }
  assert (Hsound : forall j x, vget d j = Some x -> exists m, wwalk W src m x j).
  { intros j x Hx. destruct HB as (m & cur' & HB). destruct (b_sound _ _ _ _ _ _ _ HB _ _ Hx) as (m' & _ & Hb).
    exists m'. apply bw_one. eapply bw_mono; [|exact Hb]. intros; exact I. }
  (* every short enough walk has been relaxed *)
  assert (Hlow : forall m w j, (~ neg_cycle_from W src) -> bw W one0 c' m w j -> exists x, vget d j = Some x /\ (x <= w)%Z).
  { intros m w j Hno Hb. destruct b.
    - destruct (bw_cut n W (A_lt A Awf Asq) one0 one0_lt c' m w j Hb) as [Hneg|(m' & w' & Hm' & Hle & Hb')]; [destruct Hno; apply S0neg_one; assumption|].
      destruct (b_low _ _ _ _ _ _ _ (H1 eq_refl) m' w' j ltac:(lia) Hb') as (x & Hx & Hle'). exists x. split; [assumption|lia].
    - destruct (H2 eq_refl) as (_ & Hcl & _). eapply closed_low; eassumption. }
  assert (Hlow' : forall m w, ~ neg_cycle_from W src -> okc c0 w -> wwalk W src m w t -> exists x, vget d t = Some x /\ (x <= w)%Z).
  { intros m w Hno Hok Hw. destruct HL as [->|(Hl & t' & y & [= <-] & -> & Hy)].
    - destruct c0 as [c|]; [|apply bw_one in Hw; eapply Hlow; eassumption].
      eapply Hlow; [assumption|]. eapply nonneg_bw; [apply Hnn; left; discriminate|exact Hok|exact Hw].
    - destruct (Z.le_gt_cases y w) as [Hle|Hgt]; [exists y; auto|].
      eapply Hlow; [assumption|]. eapply nonneg_bw; [apply Hnn; auto|simpl; lia|exact Hw]. }
  split; [assumption|]. split; [intros E; apply (H2 E)|]. split; [assumption|]. split; [|split; [|split; [|split]]].
  - destruct b; [|discriminate]. cbn [andb]. rewrite (check_some A Awf Asq) by assumption. intros Hk. specialize (H1 eq_refl).
    destruct HL as [->|(Hl & t' & y & [= <-] & -> & Hy)].
    + apply S0neg_one. eapply (BI_improves n W (A_lt A Awf Asq) one0 one0_lt c0 (0 + (n - 1))); [lia|exact H1|exact Hk].
    + destruct (cand n W (Some y) (vget cur) t) as [x|] eqn:E; [|discriminate]. rewrite Hy in Hk. simpl in Hk. apply Z.ltb_lt in Hk.
      apply cand_from in E as (Ho & i & x' & v & _ & Hx' & Hv & ->). apply (b_cur _ _ _ _ _ _ _ H1) in Hx'. destruct (Hsound _ _ Hx') as (m & Hm).
      exfalso. assert (Hno : ~ neg_cycle_from W src).
      { intros (z & _ & m' & w' & Hw' & Hneg). apply (wwalk_nonneg W) in Hw'; [lia|]. apply Hnn; auto. }
      destruct (Hlow (S m) (x' + v)%Z t Hno) as (u & Hu & Hle); [|rewrite Hy in Hu; injection Hu as <-; lia].
      eapply nonneg_bw; [apply Hnn; auto|exact Ho|]. econstructor; eassumption.
  - intros Hno x Hok [(m & Hm) Hmin]. destruct (Hlow' m x Hno Hok Hm) as (y & Hy & Hle). destruct (Hsound _ _ Hy) as (m' & Hm').
    apply Hmin in Hm'. assert (x = y) by lia. congruence.
  - intros Hno x Hx Hts. destruct HB as (m & cur' & HB). destruct (b_sound _ _ _ _ _ _ _ HB _ _ Hx) as (m' & _ & Hb).
    inversion Hb as [j z Hz|m2 w2 i v j Hb' Hv Hc2]; subst; [apply one0_inv in Hz as [? _]; congruence|assumption].
  - intros Hno x Hx Hok. split; [apply Hsound; assumption|]. intros m w Hw.
    destruct (Z.le_gt_cases x w) as [Hle|Hgt]; [assumption|].
    destruct (Hlow' m w Hno) as (y & Hy & Hle); [destruct c0; simpl in *; lia|assumption|]. rewrite Hx in Hy. injection Hy as <-. assumption.
  - intros -> (m & w & Hw). destruct HL as [->|(_ & t' & y & [= <-] & _ & Hy)]; [|rewrite Hy; reflexivity].
    apply bw_one in Hw. destruct b.
    + apply (bw_reach_cut n W (A_lt A Awf Asq) one0 one0_lt) in Hw as (m' & w' & Hm' & Hw).
      destruct (b_low _ _ _ _ _ _ _ (H1 eq_refl) m' w' t ltac:(lia) Hw) as (x & Hx & _). rewrite Hx. reflexivity.
    + destruct (H2 eq_refl) as (_ & Hcl & _). destruct (closed_low _ _ _ _ Hcl _ _ _ Hw) as (x & Hx & _). rewrite Hx. reflexivity.
Qed.
(** a cutoff, no target: weights are nonnegative *)
Lemma bf_cutoff_ok c : (forall a b v, W a b = Some v -> (0 <= v)%Z) -> (0 <= c)%Z ->
  let '(b, c', d, cur) := bf_loop A None true (n - 1) (Some c) d0 d0 in
  vsize d = n /\ b && bf_check A None c' d cur = false /\
  forall j x, vget d j = Some x <-> shortest W src j x /\ (x <= c)%Z.
Proof.
  intros Hnn Hc0.
  pose proof (bf_loop_ok A Awf Asq one0 None true (Some c) (n - 1) 0 (Some c) d0 d0 d0_size d0_size (BI_start (Some c)) (or_introl eq_refl)) as H.
  destruct (bf_loop A None true (n - 1) (Some c) d0 d0) as [[[b c'] d] cur]. destruct H as (Hd & Hc & HL & H1 & H2).
  assert (c' = Some c) by (destruct HL as [->|(_ & t & x & ? & _)]; [reflexivity|discriminate]). subst c'.
  assert (Hno : ~ neg_cycle_from W src).
  { intros (z & _ & m' & w' & Hw' & Hneg). apply (wwalk_nonneg W) in Hw'; [lia|assumption]. }
  assert (HB : exists m cur', BI W one0 (Some c) (Some c) m (vget d) cur').
  { destruct b; [specialize (H1 eq_refl); eauto|]. destruct (H2 eq_refl) as (_ & _ & m & cur' & HB). eauto. }
  assert (Hsound : forall j x, vget d j = Some x -> (exists m, wwalk W src m x j) /\ (x <= c)%Z).
  { intros j x Hx. destruct HB as (m & cur' & HB). destruct (b_sound _ _ _ _ _ _ _ HB _ _ Hx) as (m' & _ & Hb). split.
    - exists m'. apply bw_one. eapply bw_mono; [|exact Hb]. intros; exact I.
    - inversion Hb as [j' z Hz|m2 w2 i v j' Hb' Hv Hc2]; subst; [apply one0_inv in Hz as [_ ->]; assumption|assumption]. }
  assert (Hlow : forall m w j, bw W one0 (Some c) m w j -> exists x, vget d j = Some x /\ (x <= w)%Z).
  { intros m w j Hb. destruct b.
    - destruct (bw_cut n W (A_lt A Awf Asq) one0 one0_lt (Some c) m w j Hb) as [Hneg|(m' & w' & Hm' & Hle & Hb')]; [destruct Hno; apply S0neg_one; assumption|].
      destruct (b_low _ _ _ _ _ _ _ (H1 eq_refl) m' w' j ltac:(lia) Hb') as (x & Hx & Hle'). exists x. split; [assumption|lia].
    - destruct (H2 eq_refl) as (_ & Hcl & _). eapply closed_low; eassumption. }
  split; [assumption|]. split.
  - apply not_true_is_false. intros Hk. apply andb_true_iff in Hk as [-> Hk]. specialize (H1 eq_refl).
    apply (check_none A Awf Asq) in Hk as (j & Hj); [|assumption]. apply Hno, S0neg_one.
    eapply (BI_improves n W (A_lt A Awf Asq) one0 one0_lt (Some c) (0 + (n - 1))); [lia|exact H1|exact Hj].
  - intros j x. split.
    + intros Hx. destruct (Hsound _ _ Hx) as [Hw Hle]. split; [|assumption]. split; [assumption|]. intros m w Hm.
      destruct (Z.le_gt_cases x w) as [Hle'|Hgt]; [assumption|].
      destruct (Hlow m w j) as (y & Hy & Hle'); [apply nonneg_bw; [assumption|simpl; lia|assumption]|]. rewrite Hx in Hy. injection Hy as <-. assumption.
    + intros [[(m & Hm) Hmin] Hle]. destruct (Hlow m x j) as (y & Hy & Hle'); [apply nonneg_bw; assumption|].
      destruct (Hsound _ _ Hy) as [(m' & Hm') _]. apply Hmin in Hm'. assert (x = y) by lia. congruence.
Qed.
End S1.

(** ** Self-loops: the loops run on the matrix without its diagonal *)
Section Strip.
Variable F W : nat -> nat -> option Z.
Hypothesis HW : forall i j, W i j = if i =? j then None else F i j.
Definition bad (x : nat) : Prop := exists z v, wreach W x z /\ F z z = Some v /\ (v < 0)%Z.
Lemma W_F a b v : W a b = Some v -> F a b = Some v.
Proof. rewrite HW. destruct (a =? b); [discriminate|auto]. Qed.
Lemma wwalk_full x d w y : wwalk W x d w y -> wwalk F x d w y.
Proof. apply wwalk_mono, W_F. Qed.
Lemma wwalk_strip x d w y : wwalk F x d w y -> wreach W x y /\ (bad x \/ exists d' w', (w' <= w)%Z /\ wwalk W x d' w' y).
Proof.
  induction 1 as [|d w y v z _ [IH1 IH2] Hv]; [split; [apply wreach_refl|right; exists 0, 0%Z; split; [lia|constructor]]|].
  destruct (Nat.eqb_spec y z) as [->|Hne].
  - split; [assumption|]. destruct (Z.lt_ge_cases v 0) as [Hlt|Hge]; [left; exists z, v; auto|].
    destruct IH2 as [?|(d' & w' & Hle & H)]; [left; assumption|]. right. exists d', w'. split; [lia|assumption].
  - assert (Hv' : W y z = Some v) by (rewrite HW; apply Nat.eqb_neq in Hne; rewrite Hne; assumption).
    split; [eapply wreach_trans; [exact IH1|exists 1, v; apply wwalk_one; assumption]|].
    destruct IH2 as [?|(d' & w' & Hle & H)]; [left; assumption|]. right. exists (S d'), (w' + v)%Z. split; [lia|econstructor; eassumption].
Qed.
Lemma wreach_strip x y : wreach F x y <-> wreach W x y.
Proof.
  split; intros (d & w & H); [apply wwalk_strip in H; tauto|]. exists d, w. apply wwalk_full. assumption.
Qed.
Lemma neg_strip x : neg_cycle_from F x <-> neg_cycle_from W x \/ bad x.
Proof.
  split.
  - intros (y & Hr & d & w & Hw & Hneg). apply wreach_strip in Hr. apply wwalk_strip in Hw as [_ [(z & v & Hz & Hv)|(d' & w' & Hle & Hw)]].
    + right. exists z, v. split; [eapply wreach_trans; eassumption|assumption].
    + left. exists y. split; [assumption|]. exists d', w'. split; [assumption|lia].
  - intros [(y & Hr & d & w & Hw & Hneg)|(z & v & Hz & Hv & Hneg)].
    + exists y. split; [apply wreach_strip; assumption|]. exists d, w. split; [apply wwalk_full; assumption|assumption].
    + exists z. split; [apply wreach_strip; assumption|]. exists 1, v. split; [apply wwalk_one; assumption|assumption].
Qed.
Lemma shortest_strip x y w : ~ bad x -> shortest F x y w <-> shortest W x y w.
Proof.
  intros Hb. split.
  - intros [(d & H) Hmin]. pose proof (proj2 (wwalk_strip _ _ _ _ H)) as [?|(d' & w' & Hle & Hw)]; [contradiction|].
    pose proof (wwalk_full _ _ _ _ Hw) as Hw2. apply Hmin in Hw2. assert (w' = w) by lia. subst.
    split; [eauto|]. intros d2 w2 H2. eapply Hmin, wwalk_full, H2.
  - intros [(d & H) Hmin]. split; [exists d; apply wwalk_full; assumption|]. intros d' w' H'.
    pose proof (proj2 (wwalk_strip _ _ _ _ H')) as [?|(d2 & w2 & Hle & Hw)]; [contradiction|]. apply Hmin in Hw. lia.
Qed.
End Strip.

