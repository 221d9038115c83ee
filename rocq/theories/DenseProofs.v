(** * The Floyd-Warshall rounds on matrices *)
From Verif Require Import Base BaseProofs Model_Graph Model_Cache Model_Keys Model_Bfs Model_Weighted Model_Dense Spec_Weighted WeightedMath DenseMath.
Open Scope nat_scope.

(** undirected graphs keep the strict upper triangle only *)
Definition view {V} (dir : bool) (X : mat V) (a b : nat) : option V :=
  if dir then mget X a b else if a <? b then mget X a b else mget X b a.
Lemma mwrite_get {V} m r (C T : mat V) i j : mwf C -> mwf T -> nrows T = nrows C -> ncols T = ncols C ->
  mget (mwrite m r C T) i j = if m i j then mget T i j else if r then None else mget C i j.
Proof.
  intros HC HT Hr Hc. rewrite mget_mwrite. destruct (Nat.ltb_spec i (nrows C)), (Nat.ltb_spec j (ncols C)); simpl; try reflexivity;
    rewrite (mget_out C), (mget_out T) by (auto; lia); destruct (m i j), r; reflexivity.
Qed.
Section V.
Variable dir : bool.
Variable pk : nat -> nat -> nat -> bool.
Variable n : nat.
Record shaped {V} (X : mat V) : Prop := {
  sh_wf : mwf X; sh_r : nrows X = n; sh_c : ncols X = n;
  sh_sel : forall a b, has (mget X a b) = true -> fw_sel dir a b = true }.
Lemma sh_lt {V} (X : mat V) a b x : shaped X -> mget X a b = Some x -> a < n /\ b < n.
Proof. intros HX H. apply mget_some_lt in H; [|apply HX]. rewrite (sh_r _ HX), (sh_c _ HX) in H. assumption. Qed.
Lemma sh_out {V} (X : mat V) a b : shaped X -> n <= a \/ n <= b -> mget X a b = None.
Proof. intros HX H. destruct (mget X a b) eqn:E; [|reflexivity]. apply sh_lt in E; [|assumption]. lia. Qed.
Lemma sh_not {V} (X : mat V) a b : shaped X -> fw_sel dir a b = false -> mget X a b = None.
Proof. intros HX H. destruct (mget X a b) eqn:E; [|reflexivity]. pose proof (sh_sel _ HX a b) as H'. rewrite E in H'. rewrite H' in H; [discriminate|reflexivity]. Qed.
Lemma sh_diag {V} (X : mat V) a : shaped X -> mget X a a = None.
Proof. intros HX. apply sh_not; [assumption|]. unfold fw_sel. destruct dir; [rewrite Nat.eqb_refl; reflexivity|apply Nat.ltb_irrefl]. Qed.
Lemma view_diag {V} (X : mat V) a : shaped X -> view dir X a a = None.
Proof. intros HX. unfold view. destruct dir eqn:E; [|rewrite Nat.ltb_irrefl]; apply sh_diag; assumption. Qed.
Lemma view_out {V} (X : mat V) a b : shaped X -> n <= a \/ n <= b -> view dir X a b = None.
Proof. intros HX H. unfold view. destruct dir eqn:E; [|destruct (a <? b)]; apply sh_out; try assumption; tauto. Qed.
Lemma view_sym {V} (X : mat V) a b : dir = false -> view dir X a b = view dir X b a.
Proof. intros ->. unfold view. destruct (Nat.ltb_spec a b), (Nat.ltb_spec b a); try reflexivity; try lia. replace a with b by lia. reflexivity. Qed.
Lemma view_merge {V} (X : mat V) r a b : shaped X -> dir = false -> omerge (anyz (pk r a b)) (mget X a b) (mget X b a) = view dir X a b.
Proof.
  intros HX Hd. assert (Hs : forall a b, b <= a -> mget X a b = None).
  { intros a' b' H. apply sh_not; [assumption|]. rewrite Hd. simpl. apply Nat.ltb_ge. assumption. }
  unfold view. rewrite Hd. destruct (Nat.ltb_spec a b).
  - rewrite (Hs b a) by lia. apply omerge_none_r.
  - rewrite (Hs a b) by lia. reflexivity.
Qed.
Lemma row_view {V} (X : mat V) r i j : shaped X -> vget (fw_row dir pk n r i X) j = view dir X i j.
Proof.
  intros HX. unfold fw_row. rewrite vget_vbuild. destruct (Nat.ltb_spec j n) as [Hj|Hj].
  - destruct dir eqn:Hd; [reflexivity|]. pose proof (view_merge X r i j HX) as H. rewrite Hd in H. apply H. reflexivity.
  - symmetry. apply view_out; auto.
Qed.
Lemma col_view {V} (X : mat V) r i k : shaped X -> vget (fw_col dir pk n r i X) k = view dir X k i.
Proof.
  intros HX. unfold fw_col. destruct dir eqn:Hd.
  - rewrite vget_vbuild. destruct (Nat.ltb_spec k n) as [Hk|Hk]; [reflexivity|]. simpl. symmetry. pose proof (sh_out X k i HX) as H. apply H. auto.
  - rewrite <- Hd. rewrite row_view by assumption. apply view_sym. assumption.
Qed.
Lemma outer_get D r i k j : shaped D -> mget (fw_outer dir pk n r i D) k j = oboth Z.add (view dir D k i) (view dir D i j).
Proof.
  intros HD. unfold fw_outer. rewrite mget_mbuild, col_view, row_view by assumption.
  destruct (Nat.ltb_spec k n) as [Hk|Hk], (Nat.ltb_spec j n) as [Hj|Hj]; simpl; try reflexivity.
  - rewrite (view_out D i j) by auto. destruct (view dir D k i); reflexivity.
  - rewrite (view_out D k i) by auto. reflexivity.
  - rewrite (view_out D k i) by auto. reflexivity.
Qed.
Lemma outer_dims D r i : mwf (fw_outer dir pk n r i D) /\ nrows (fw_outer dir pk n r i D) = n /\ ncols (fw_outer dir pk n r i D) = n.
Proof. split; [apply mwf_mbuild|]. split; [apply nrows_mbuild|apply ncols_mbuild]. Qed.
Lemma dist_mget D r i a b : shaped D -> mget (fw_dist dir pk n r i D) a b =
  if fw_sel dir a b then omerge Z.min (mget D a b) (oboth Z.add (view dir D a i) (view dir D i b)) else None.
Proof.
  intros HD. destruct (outer_dims D r i) as (O1 & O2 & O3). unfold fw_dist.
  rewrite mget_munion; [|apply HD|apply mwf_mselect|rewrite nrows_mselect, O2; apply HD|rewrite ncols_mselect, O3; apply HD].
  rewrite mget_mselect by assumption. rewrite outer_get by assumption. destruct (fw_sel dir a b) eqn:E; [reflexivity|].
  rewrite omerge_none_r. apply sh_not; assumption.
Qed.
Lemma shaped_dist D r i : shaped D -> shaped (fw_dist dir pk n r i D).
Proof.
  intros HD. constructor; [apply mwf_mbuild|unfold fw_dist, munion; rewrite nrows_mbuild; apply HD|unfold fw_dist, munion; rewrite ncols_mbuild; apply HD|].
  intros a b. rewrite dist_mget by assumption. destruct (fw_sel dir a b); [reflexivity|discriminate].
Qed.
Lemma dist_view D r i a b : shaped D -> view dir (fw_dist dir pk n r i D) a b = fstep (view dir D) i a b.
Proof.
  intros HD. unfold fstep. destruct (Nat.eqb_spec a b) as [->|Hne]; [apply view_diag, shaped_dist; assumption|].
  assert (Hmin : forall a b, fw_sel dir a b = true -> view dir D a b = mget D a b).
  { intros a' b' H. unfold view, fw_sel in *. destruct dir; [reflexivity|]. rewrite H. reflexivity. }
  destruct (fw_sel dir a b) eqn:E.
  - assert (H : view dir (fw_dist dir pk n r i D) a b = mget (fw_dist dir pk n r i D) a b).
    { unfold view. unfold fw_sel in E. destruct dir; [reflexivity|]. rewrite E. reflexivity. }
    rewrite H. rewrite dist_mget by assumption. rewrite E. rewrite (Hmin a b E). reflexivity.
  - assert (Hd : dir = false). { destruct dir; [|reflexivity]. simpl in E. apply negb_false_iff, Nat.eqb_eq in E. contradiction. }
    assert (E' : fw_sel dir b a = true). { rewrite Hd in *. simpl in *. apply Nat.ltb_ge in E. apply Nat.ltb_lt. lia. }
    assert (H : view dir (fw_dist dir pk n r i D) b a = mget (fw_dist dir pk n r i D) b a).
    { unfold view. unfold fw_sel in E'. rewrite Hd in *. rewrite E'. reflexivity. }
    rewrite (view_sym _ a b) by assumption. rewrite H. rewrite dist_mget by assumption. rewrite E'. rewrite <- (Hmin b a E'). rewrite (view_sym D b a), (view_sym D b i), (view_sym D i a) by assumption. f_equal.
    destruct (view dir D a i), (view dir D i b); simpl; try reflexivity. f_equal. apply Z.add_comm.
Qed.
(** ** with predecessors *)
Lemma better_dims D r i : mwf (fw_better dir pk n r i D) /\ nrows (fw_better dir pk n r i D) = n /\ ncols (fw_better dir pk n r i D) = n.
Proof. unfold fw_better, mwrite. split; [apply mwf_mbuild|]. split; [rewrite nrows_mbuild|rewrite ncols_mbuild]; apply outer_dims. Qed.
Lemma better_get D r i a b : shaped D -> mget (fw_better dir pk n r i D) a b =
  if fw_sel dir a b then match oboth Z.add (view dir D a i) (view dir D i b) with
                         | None => None
                         | Some x => match mget D a b with Some y => if (x <? y)%Z then Some x else None | None => Some x end
                         end else None.
Proof.
  intros HD. destruct (outer_dims D r i) as (O1 & O2 & O3). unfold fw_better. set (O := fw_outer dir pk n r i D) in *.
  assert (HO : mget O a b = oboth Z.add (view dir D a i) (view dir D i b)) by (apply outer_get; assumption).
  rewrite mwrite_get; [|assumption|assumption|reflexivity|reflexivity]. unfold mMVb. 
  rewrite mget_munion; [|apply mwf_mbuild|apply mwf_mbuild|unfold minter; rewrite !nrows_mbuild; auto|unfold minter; rewrite !ncols_mbuild; auto].
  rewrite mget_minter by assumption.
  rewrite mget_mbuild, HO.
  destruct (oboth Z.add (view dir D a i) (view dir D i b)) as [x|] eqn:Ex; simpl.
  - assert (Hlt : a < n /\ b < n). { apply mget_some_lt in HO; [|assumption]. lia. }
    destruct Hlt as [Ha Hb]. apply Nat.ltb_lt in Ha, Hb. rewrite Ha, Hb. simpl.
    destruct (mget D a b) as [y|] eqn:Ey; simpl.
    + assert (Hs : fw_sel dir a b = true) by (apply (sh_sel _ HD); rewrite Ey; reflexivity). rewrite Hs. destruct (x <? y)%Z; reflexivity.
    + destruct (fw_sel dir a b); reflexivity.
  - destruct ((a <? n) && (b <? n)); destruct (fw_sel dir a b); reflexivity.
Qed.
Lemma both_fst D P r i : shaped D -> fst (fw_both dir pk n r i (D, P)) = fw_dist dir pk n r i D.
Proof.
  intros HD. destruct (better_dims D r i) as (B1 & B2 & B3). destruct (shaped_dist D r i HD) as [S1 S2 S3 _]. simpl.
  assert (E : forall a b, mget (mwrite (msS (fw_better dir pk n r i D)) false D (fw_better dir pk n r i D)) a b = mget (fw_dist dir pk n r i D) a b).
  { intros a b. rewrite mwrite_get; [|apply HD|assumption|rewrite B2; symmetry; apply HD|rewrite B3; symmetry; apply HD].
    unfold msS. rewrite better_get, dist_mget by assumption. destruct (fw_sel dir a b) eqn:Es; simpl; [|apply sh_not; assumption].
    destruct (oboth Z.add (view dir D a i) (view dir D i b)) as [x|]; simpl; [|rewrite omerge_none_r; reflexivity].
    destruct (mget D a b) as [y|] eqn:Ey; simpl; [|reflexivity]. destruct (Z.ltb_spec x y); simpl; f_equal; lia. }
  apply mat_ext; [apply mwf_mbuild|assumption| | |intros; apply E].
  - unfold mwrite. rewrite nrows_mbuild, S2. apply HD.
  - unfold mwrite. rewrite ncols_mbuild, S3. apply HD.
Qed.
Lemma both_snd D P r i a b : dir = true -> shaped D -> shaped P -> mget (snd (fw_both dir pk n r i (D, P))) a b = pstep (mget D) (mget P) i a b.
Proof.
  intros Hd HD HP. destruct (better_dims D r i) as (B1 & B2 & B3). simpl.
  rewrite mwrite_get; [|apply HP|apply mwf_mbuild|rewrite nrows_mbuild; symmetry; apply HP|rewrite ncols_mbuild; symmetry; apply HP].
  unfold msS. rewrite better_get by assumption. rewrite mget_mbuild. unfold pstep. 
  assert (Hv : forall V (X : mat V) a b, view dir X a b = mget X a b) by (intros; unfold view; rewrite Hd; reflexivity).
  rewrite !Hv.
  assert (Hs : fw_sel dir a b = negb (a =? b)) by (unfold fw_sel; rewrite Hd; reflexivity). rewrite Hs.
  destruct (a =? b) eqn:Eab; simpl; [reflexivity|].
  destruct (oboth Z.add (mget D a i) (mget D i b)) as [x|] eqn:Ex; simpl; [|reflexivity].
  assert (H1 : has (mget D a i) = true /\ a < n /\ b < n).
  { destruct (mget D a i) as [x1|] eqn:E1; [|discriminate]. destruct (mget D i b) as [x2|] eqn:E2; [|discriminate].
    apply sh_lt in E1, E2; try assumption. split; [reflexivity|]. lia. }
  destruct H1 as (H1 & Ha & Hb). apply Nat.ltb_lt in Ha, Hb. rewrite Ha, Hb.
  assert (Hpres : (if dir then has (vget (fw_col dir pk n r i D) a) else has (vget (fw_row dir pk n r i P) a)) = true)
    by (rewrite Hd at 1; rewrite col_view, Hv by assumption; assumption).
  rewrite Hpres, row_view, Hv by assumption. cbn [andb].
  destruct (mget D a b) as [y|]; simpl; [destruct (x <? y)%Z|]; reflexivity.
Qed.
Lemma shaped_pstep D P r i : dir = true -> shaped D -> shaped P -> shaped (snd (fw_both dir pk n r i (D, P))).
Proof.
  intros Hd HD HP. constructor.
  - simpl. apply mwf_mbuild.
  - simpl. unfold mwrite. rewrite nrows_mbuild. apply HP.
  - simpl. apply HP.
  - intros a b. rewrite both_snd by assumption. unfold pstep, fw_sel. rewrite Hd. destruct (Nat.eqb_spec a b) as [->|]; [|reflexivity].
    rewrite sh_diag by assumption. discriminate.
Qed.
(** ** the rounds *)
Variable W : nat -> nat -> option Z.
Hypothesis Hneg : forall y, ~ neg_cycle W y.
Lemma loop_d l : forall r L D, shaped D -> FI W L (view dir D) ->
  shaped (fw_loop_d dir pk n r l D) /\ FI W (fun k => In k l \/ L k) (view dir (fw_loop_d dir pk n r l D)).
Proof.
  induction l as [|i l IH]; intros r L D HD HF; simpl.
  - split; [assumption|]. destruct HF as [H1 H2 H3]. constructor; [assumption|assumption|]. intros a b w Hab Hw. apply (H3 a b w Hab). eapply iw_mono; [|exact Hw]. intros k [[]|Hk]; assumption.
  - destruct (IH (S r) (fun k => k = i \/ L k) (fw_dist dir pk n r i D)) as [H1 [H2 H3 H4]].
    + apply shaped_dist. assumption.
    + eapply FI_ext; [intros a b; apply dist_view; assumption|]. apply FI_step; assumption.
    + split; [assumption|]. constructor; [assumption|assumption|]. intros a b w Hab Hw. apply (H4 a b w Hab). eapply iw_mono; [|exact Hw].
      intros k [[->|Hk]|Hk]; auto.
Qed.
Lemma loop_p_fst l : forall r D P, shaped D -> fst (fw_loop_p dir pk n r l (D, P)) = fw_loop_d dir pk n r l D.
Proof.
  induction l as [|i l IH]; intros r D P HD; [reflexivity|].
  change (fst (fw_loop_p dir pk n (S r) l (fw_both dir pk n r i (D, P))) = fw_loop_d dir pk n (S r) l (fw_dist dir pk n r i D)).
  rewrite (surjective_pairing (fw_both dir pk n r i (D, P))). rewrite both_fst by assumption. apply IH. apply shaped_dist. assumption.
Qed.
Lemma loop_p l : dir = true -> forall r L D P, shaped D -> shaped P -> FI W L (mget D) -> PI W (mget D) (mget P) ->
  let D' := fst (fw_loop_p dir pk n r l (D, P)) in let P' := snd (fw_loop_p dir pk n r l (D, P)) in
  shaped P' /\ PI W (mget D') (mget P').
Proof.
  intros Hd. induction l as [|i l IH]; intros r L D P HD HP HF HI; [simpl; auto|].
  change (fw_loop_p dir pk n r (i :: l) (D, P)) with (fw_loop_p dir pk n (S r) l (fw_both dir pk n r i (D, P))).
  pose proof (shaped_pstep D P r i Hd HD HP) as SP. pose proof (both_fst D P r i HD) as EF. pose proof (fun a b => both_snd D P r i a b Hd HD HP) as ES.
  destruct (fw_both dir pk n r i (D, P)) as [D' P']. cbn [fst snd] in *. subst D'.
  assert (Hv : forall X : mat Z, forall a b, view dir X a b = mget X a b) by (intros; unfold view; rewrite Hd; reflexivity).
  assert (EV : forall a b, mget (fw_dist dir pk n r i D) a b = fstep (mget D) i a b).
  { intros a b. rewrite <- Hv, dist_view by assumption. unfold fstep. rewrite !Hv. reflexivity. }
  apply (IH (S r) (fun k => k = i \/ L k)); [apply shaped_dist; assumption|assumption| |].
  - eapply FI_ext; [exact EV|]. apply FI_step; assumption.
  - eapply PI_ext; [exact EV|exact ES|]. eapply PI_step; eassumption.
Qed.
Lemma sym_get {V} r (X : mat V) a b : shaped X -> a < n -> b < n -> mget (fw_sym dir pk n r X) a b = view dir X a b.
Proof.
  intros HX Ha Hb. unfold fw_sym. destruct dir eqn:Hd; [reflexivity|]. rewrite mget_mbuild_lt by assumption. rewrite <- Hd. apply view_merge; assumption.
Qed.
End V.

From Verif Require Import Spec Spec_Cache Spec_Run CacheMath CacheProofs RunProofs KeyProofs WeightedProofs WeightedProofs2.
(** ** A graph without negative cycles *)
Section K.
Variable G : graph.
Hypothesis wf : gwf G.
Variable pk : nat -> nat -> nat -> bool.
Notation n := (nrows (g_A G)).
Notation F := (mget (g_A G)).
Notation W := (mget (den_mat G KOff)).
Hypothesis Hneg : forall y, ~ neg_cycle F y.
Definition fw_d0 : mat Z := den_mat G (if g_dir G then KOff else KU SM).
Lemma fw_bad x : ~ bad F W x.
Proof. intros (z & v & _ & Hz & Hv). apply (Hneg z). exists 1, v. split; [apply wwalk_one; assumption|assumption]. Qed.
Lemma W_noneg y : ~ neg_cycle W y.
Proof. intros (d & w & Hw & Hlt). apply (Hneg y). exists d, w. split; [|assumption]. eapply wwalk_full; [apply off_get; assumption|exact Hw]. Qed.
Lemma d0_shaped : shaped (g_dir G) n fw_d0.
Proof.
  unfold fw_d0. destruct (g_dir G) eqn:Hd; (constructor; [apply mwf_mbuild|apply nrows_mbuild|apply ncols_mbuild|]); intros a b; cbn [den_mat]; rewrite mget_mbuild;
    destruct ((a <? n) && (b <? n)); try discriminate; unfold fw_sel, msel; [destruct (a =? b)|destruct (a <? b)]; simpl; congruence.
Qed.
Lemma d0_view a b : view (g_dir G) fw_d0 a b = W a b.
Proof.
  unfold view, fw_d0. destruct (g_dir G) eqn:Hd; [reflexivity|]. rewrite (off_get G wf a b). cbn [den_mat]. rewrite !mget_mbuild. unfold msel.
  assert (Hout : forall a b, ~ (a < n /\ b < n) -> F a b = None).
  { intros a' b' H. destruct (F a' b') eqn:E; [|reflexivity]. apply (F_lt G wf) in E. contradiction. }
  destruct (Nat.ltb_spec a b) as [H1|H1].
  - replace (a =? b) with false by (symmetry; apply Nat.eqb_neq; lia).
    destruct (Nat.ltb_spec a n), (Nat.ltb_spec b n); simpl; try reflexivity; symmetry; apply Hout; lia.
  - destruct (Nat.eqb_spec a b) as [->|Hne]; [rewrite Nat.ltb_irrefl; destruct ((b <? n) && (b <? n)); reflexivity|].
    replace (b <? a) with true by (symmetry; apply Nat.ltb_lt; lia). rewrite (gw_sym _ wf Hd a b).
    destruct (Nat.ltb_spec a n), (Nat.ltb_spec b n); simpl; try reflexivity; symmetry; apply Hout; lia.
Qed.
Variable l : list nat.
Hypothesis Hl : forall k p v q x, W p k = Some v -> W k q = Some x -> In k l.
Lemma d0_FI : FI W (fun _ => False) (view (g_dir G) fw_d0).
Proof. eapply FI_ext; [apply d0_view|]. apply FI_start. intros a. rewrite off_get, Nat.eqb_refl by assumption. reflexivity. Qed.
Definition fw_res (r : nat) (D : mat Z) : mat Z := fw_diag n (fw_sym (g_dir G) pk n r D).
Lemma res_dims r D : mwf (fw_res r D) /\ nrows (fw_res r D) = n /\ ncols (fw_res r D) = n.
Proof. split; [apply mwf_mbuild|]. split; [apply nrows_mbuild|apply ncols_mbuild]. Qed.
Lemma fw_core r q a b : a < n -> b < n ->
  (forall x, mget (fw_res r (fw_loop_d (g_dir G) pk n q l fw_d0)) a b = Some x <-> shortest F a b x) /\
  (wreach F a b -> has (mget (fw_res r (fw_loop_d (g_dir G) pk n q l fw_d0)) a b) = true).
Proof.
  intros Ha Hb. destruct (loop_d (g_dir G) pk n W W_noneg l q (fun _ => False) fw_d0 d0_shaped d0_FI) as [HS HF].
  unfold fw_res, fw_diag. rewrite mget_mbuild_lt by assumption.
  assert (Hsh : forall x, shortest F a b x <-> shortest W a b x) by (intros x; apply shortest_strip; [apply off_get; assumption|apply fw_bad]).
  destruct (Nat.eqb_spec a b) as [->|Hne].
  - split; [|reflexivity]. intros x. rewrite Hsh, (shortest_diag W W_noneg b x). split; [intros [= <-]; reflexivity|intros ->; reflexivity].
  - rewrite sym_get by assumption. assert (HL : forall k p v s x, W p k = Some v -> W k s = Some x -> In k l \/ False) by (intros k p v s x H1 H2; left; eapply Hl; eassumption).
    destruct (FI_final W _ _ a b HL HF Hne) as [H1 H2]. split.
    + intros x. rewrite H1, Hsh. reflexivity.
    + intros Hr. apply H2. apply (wreach_strip F W (off_get G wf) a b). exact Hr.
Qed.
Definition fw_p0 : mat nat := mbuild n n (fun i j => omap (fun _ => i) (mget fw_d0 i j)).
Lemma p0_get a b : mget fw_p0 a b = omap (fun _ => a) (mget fw_d0 a b).
Proof.
  unfold fw_p0. rewrite mget_mbuild. destruct (Nat.ltb_spec a n), (Nat.ltb_spec b n); simpl; try reflexivity; rewrite (sh_out (g_dir G) n) by (auto; apply d0_shaped); reflexivity.
Qed.
Lemma p0_shaped : shaped (g_dir G) n fw_p0.
Proof.
  constructor; [apply mwf_mbuild|apply nrows_mbuild|apply ncols_mbuild|]. intros a b. rewrite p0_get, has_omap. apply (sh_sel _ _ _ d0_shaped).
Qed.
Lemma fw_core_p q a b : g_dir G = true -> a < n -> b < n ->
  let P := snd (fw_loop_p (g_dir G) pk n q l (fw_d0, fw_p0)) in
  (forall p, mget P a b = Some p -> p < n /\ exists v y, F p b = Some v /\ shortest F a p y /\ shortest F a b (y + v)%Z) /\
  (a <> b -> wreach F a b -> has (mget P a b) = true) /\ (a = b -> mget P a b = None).
Proof.
  intros Hd Ha Hb P. assert (Hv : forall V (X : mat V) a b, view (g_dir G) X a b = mget X a b) by (intros; unfold view; rewrite Hd; reflexivity).
  destruct (loop_p (g_dir G) pk n W W_noneg l Hd q (fun _ => False) fw_d0 fw_p0) as [HP HI].
  - apply d0_shaped.
  - apply p0_shaped.
  - eapply FI_ext; [|apply d0_FI]. intros a' b'. symmetry. apply Hv.
  - eapply PI_ext; [intros; rewrite <- d0_view; unfold view; rewrite Hd; reflexivity| |apply PI_start].
    intros a' b'. rewrite p0_get. rewrite <- d0_view. unfold view. rewrite Hd. reflexivity.
  - fold P in HP, HI. pose proof (loop_p_fst (g_dir G) pk n l q fw_d0 fw_p0 d0_shaped) as EF. rewrite EF in HI. specialize (HI a b).
    destruct (fw_core 0 q a b Ha Hb) as [C1 C2]. unfold fw_res, fw_diag in C1, C2. rewrite mget_mbuild_lt in C1, C2 by assumption.
    destruct (loop_d (g_dir G) pk n W W_noneg l q (fun _ => False) fw_d0 d0_shaped d0_FI) as [HS HF].
    rewrite sym_get, Hv in C1, C2 by assumption.
    split; [|split].
    + intros p Hp. destruct (Nat.eqb_spec a b) as [->|Hne].
      { rewrite (sh_diag (g_dir G) n) in HI by assumption. rewrite HI in Hp. discriminate. }
      destruct (mget (fw_loop_d (g_dir G) pk n q l fw_d0) a b) as [x|]; [|rewrite HI in Hp; discriminate].
      destruct HI as (p' & v & m & y & E1 & E2 & E3 & E4). rewrite Hp in E1. injection E1 as <-.
      assert (E2' : F p b = Some v). { rewrite off_get in E2 by assumption. destruct (p =? b); [discriminate|assumption]. }
      split; [apply (F_lt G wf p b v E2')|]. exists v, y. split; [assumption|].
      assert (Hxs : shortest F a b x) by (apply C1; reflexivity). rewrite <- E4. split; [|assumption].
      split; [exists m; eapply wwalk_full; [apply off_get; assumption|exact E3]|]. intros m' w' Hw'. destruct Hxs as [_ Hmin].
      specialize (Hmin (S m') (w' + v)%Z (ww_snoc _ _ _ _ _ _ _ Hw' E2')). lia.
    + intros Hne Hr. destruct (Nat.eqb_spec a b) as [|_]; [contradiction|]. apply C2 in Hr. apply has_true in Hr as [x Hx]. rewrite Hx in HI.
      destruct HI as (p' & v & m & y & E1 & _). rewrite E1. reflexivity.
    + intros ->. rewrite (sh_diag (g_dir G) n) in HI by assumption. assumption.
Qed.
End K.
