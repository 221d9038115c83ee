(** * The BFS routines on a graph: values in terms of the graph's edges *)
From Verif Require Import Base BaseProofs Model_Graph Model_Cache Spec_Cache CacheMath CacheProofs CacheProofs2
  Model_Keys Spec KeyProofs Model_Bfs Bfs BfsProofs Spec_Run RunProofs.

Section G.
Variable G : graph.
Hypothesis wf : gwf G.
Notation n := (nrows (g_A G)).

(** the relation followed: edges, or reversed edges *)
Definition Dr (tr : bool) : nat -> nat -> Prop := if tr then rev (iedge G) else iedge G.
Definition Bm (tr : bool) : mat Z := if tr && g_dir G then mtrans (den_mat G KOff) else den_mat G KOff.
Lemma iedge_sym : g_dir G = false -> forall i j, iedge G i j <-> iedge G j i.
Proof. intros H i j. unfold iedge. rewrite (gw_sym G wf H i j). reflexivity. Qed.
Lemma iedge_bounds i j : iedge G i j -> i < n /\ j < n.
Proof. apply iedge_lt. assumption. Qed.
Lemma off_EA i j : EA (den_mat G KOff) i j = true <-> iedge G i j /\ i <> j.
Proof.
  unfold EA. simpl. rewrite mget_mbuild. destruct (Nat.ltb_spec i n), (Nat.ltb_spec j n); simpl.
  - destruct (Nat.eqb_spec i j); simpl; [split; [discriminate|tauto]|]. rewrite has_true. unfold iedge. tauto.
  - split; [discriminate|]. intros [H1 _]. apply iedge_bounds in H1. lia.
  - split; [discriminate|]. intros [H1 _]. apply iedge_bounds in H1. lia.
  - split; [discriminate|]. intros [H1 _]. apply iedge_bounds in H1. lia.
Qed.
Lemma Bm_rows tr : nrows (Bm tr) = n.
Proof. unfold Bm. destruct (tr && g_dir G); simpl; rewrite ?nrows_mtrans, ?ncols_mbuild, ?nrows_mbuild; reflexivity. Qed.
Lemma Bm_cols tr : ncols (Bm tr) = nrows (Bm tr).
Proof. rewrite Bm_rows. unfold Bm. destruct (tr && g_dir G); simpl; rewrite ?ncols_mtrans, ?ncols_mbuild, ?nrows_mbuild; reflexivity. Qed.
Lemma Bm_wf tr : mwf (Bm tr).
Proof. unfold Bm. destruct (tr && g_dir G); [apply mwf_mtrans|apply mwf_mbuild]. Qed.
Lemma Bm_EA tr i j : EA (Bm tr) i j = true <-> Dr tr i j /\ i <> j.
Proof.
  unfold Bm, Dr. destruct tr; cbn [andb].
  - destruct (g_dir G) eqn:Ed.
    + unfold EA. rewrite mget_mtrans by apply mwf_mbuild. fold (EA (den_mat G KOff) j i). rewrite off_EA. unfold rev.
      split; intros [H1 H2]; split; auto.
    + rewrite off_EA. unfold rev. rewrite (iedge_sym Ed). tauto.
  - apply off_EA.
Qed.
Lemma Bm_Er tr a b : Er (EA (Bm tr)) a b <-> Dr tr a b /\ a <> b.
Proof. apply Bm_EA. Qed.
Lemma bfs_matrix_ok b tr : GV G b (bfs_matrix G tr) (Bm tr) any.
Proof.
  intros s HI. unfold bfs_matrix. apply wp_bind.
  eapply wp_GV; [apply (get_offdiag_ok G wf b)|assumption|].
  intros s' H1 H2 _. apply wp_ret. split; [reflexivity|]. split; [assumption|]. split; [assumption|exact I].
Qed.
Lemma Dr_lt tr i j : Dr tr i j -> i < n /\ j < n.
Proof. unfold Dr, rev. destruct tr; intros H; apply iedge_bounds in H; tauto. Qed.

(** plain BFS from a set of ids *)
Notation src l := (fun j => existsb (Nat.eqb j) l).
Lemma src_lt (l : list nat) : (forall i, In i l -> i < n) -> forall a, src l a = true -> a < n.
Proof. intros H a Ha. apply existsb_eqb in Ha. auto. Qed.
Lemma Bm_lt tr a b : EA (Bm tr) a b = true -> a < n /\ b < n.
Proof. intros H. apply Bm_EA in H as [H _]. eapply Dr_lt; eassumption. Qed.
Lemma fresh_ids tr l d j : (forall i, In i l -> i < n) ->
  fresh n (EA (Bm tr)) (src l) d j = true <-> dist_from (Dr tr) (fun i => In i l) j d.
Proof.
  intros Hl. rewrite fresh_dist by (apply Bm_lt || apply src_lt; assumption). rewrite (dist_from_off Nat.eq_dec (Dr tr) (Er (EA (Bm tr)))); [|intros; apply Bm_Er].
  apply dist_from_ext; [reflexivity|]. intros a. apply existsb_eqb.
Qed.
Lemma lev0_src l tr j : lev n (EA (Bm tr)) (src l) 1 j = if src l j then Some 0%Z else None.
Proof. reflexivity. Qed.
Lemma seen1_src l tr j : seen n (EA (Bm tr)) (src l) 1 j = src l j.
Proof. unfold seen. simpl. apply orb_false_r. Qed.
Lemma fresh0_src l tr j : fresh n (EA (Bm tr)) (src l) 0 j = src l j.
Proof. unfold fresh, seen. simpl. apply andb_true_r. Qed.
Definition plain_val (tr : bool) (l : list nat) (cutoff : option Z) : vec bool :=
  bfs_plain_loop (Bm tr) None (range1 (get_cutoff n cutoff)) (vscatter n l true) (vscatter n l true).
Lemma bfs_plain_ix_ok b tr l cutoff : GV G b (bfs_plain_ix G l None cutoff tr) (plain_val tr l cutoff) any.
Proof.
  intros s HI. unfold bfs_plain_ix. apply wp_bind.
  eapply wp_GV; [apply (bfs_matrix_ok b)|assumption|].
  intros s' H1 H2 _. apply wp_ret. rewrite Bm_rows. split; [reflexivity|]. split; [assumption|]. split; [assumption|exact I].
Qed.
Lemma plain_val_raw tr l cutoff : (forall i, In i l -> i < n) ->
  vsize (plain_val tr l cutoff) = n /\
  forall j, has (vget (plain_val tr l cutoff) j) = seen n (EA (Bm tr)) (src l) (horizon n cutoff) j.
Proof.
  intros Hl. unfold plain_val, horizon.
  pose proof (bfs_plain_loop_ok (Bm tr) (Bm_wf tr) (Bm_cols tr) (src l)) as H.
  rewrite Bm_rows in H. specialize (H (src_lt l Hl) (range1 (get_cutoff n cutoff)) 0).
  assert (Hs : forall j, has (vget (vscatter n l true) j) = src l j).
  { intros j. rewrite vget_vscatter. destruct (existsb (Nat.eqb j) l) eqn:E; [|rewrite andb_false_r; reflexivity].
    apply existsb_eqb in E. apply Hl in E. apply Nat.ltb_lt in E. rewrite E. reflexivity. }
  apply H.
  - apply vsize_vbuild.
  - apply vsize_vbuild.
  - intros j. rewrite seen1_src. apply Hs.
  - intros j. rewrite fresh0_src. apply Hs.
Qed.
Lemma fresh_n_lt tr l d j : (forall i, In i l -> i < n) ->
  fresh n (EA (Bm tr)) (src l) d j = true -> d < n.
Proof.
  intros Hl. apply fresh_bound.
  - intros a b H. apply Bm_EA in H as [H _]. eapply Dr_lt; eassumption.
  - apply src_lt. assumption.
Qed.
Lemma seen_dist tr l cutoff j : (forall i, In i l -> i < n) ->
  seen n (EA (Bm tr)) (src l) (horizon n cutoff) j = true <->
  exists d, dist_from (Dr tr) (fun i => In i l) j d /\ within cutoff d.
Proof.
  intros Hl. rewrite seen_fresh. split.
  - intros (d & Hd & Hf). exists d. split; [apply (fresh_ids tr l d j Hl); assumption|].
    apply (horizon_within n); [eapply fresh_n_lt; eassumption|assumption].
  - intros (d & Hd & Hw). apply (fresh_ids tr l d j Hl) in Hd. exists d. split; [|assumption].
    apply horizon_within; [eapply fresh_n_lt; eassumption|assumption].
Qed.
Lemma plain_val_spec tr l cutoff : (forall i, In i l -> i < n) ->
  forall j, has (vget (plain_val tr l cutoff) j) = true <-> exists d, dist_from (Dr tr) (fun i => In i l) j d /\ within cutoff d.
Proof.
  intros Hl j. destruct (plain_val_raw tr l cutoff Hl) as [_ H]. rewrite H. apply seen_dist. assumption.
Qed.
Lemma plain_val_size tr l cutoff : (forall i, In i l -> i < n) -> vsize (plain_val tr l cutoff) = n.
Proof. intros Hl. apply plain_val_raw. assumption. Qed.
(** without a cutoff: reachability *)
Lemma dist_from_ex {E : nat -> nat -> Prop} (l : list nat) j :
  (exists d, dist_from E (fun i => In i l) j d) -> exists i, In i l /\ reach E i j.
Proof. intros (d & (x & Hx & Hw) & _). exists x. split; [assumption|]. exists d. assumption. Qed.
Lemma plain_val_reach tr l : (forall i, In i l -> i < n) ->
  forall j, has (vget (plain_val tr l None) j) = true <-> exists i, In i l /\ reach (Dr tr) i j.
Proof.
  intros Hl j. rewrite plain_val_spec by assumption. split.
  - intros (d & Hd & _). apply dist_from_ex. eauto.
  - intros (i & Hi & d & Hw).
    destruct (walk_off Nat.eq_dec (Dr tr) (Er (EA (Bm tr))) (fun a b => Bm_Er tr a b) i d j Hw) as (d' & _ & Hw').
    assert (Hb : wb n (EA (Bm tr)) (src l) d' j = true).
    { apply wb_walk.
      - intros a c H. apply Bm_EA in H as [H _]. eapply Dr_lt; eassumption.
      - apply src_lt. assumption.
      - exists i. split; [apply existsb_eqb; assumption|exact Hw']. }
    apply wb_fresh in Hb as (d2 & _ & Hf). exists d2. split; [apply fresh_ids; assumption|exact I].
Qed.
Lemma plain_val_reach1 tr i : i < n ->
  forall j, has (vget (plain_val tr [i] None) j) = true <-> reach (Dr tr) i j.
Proof.
  intros Hi j. rewrite plain_val_reach by (intros ? [<-|[]]; assumption). split.
  - intros (i' & [<-|[]] & H). assumption.
  - intros H. exists i. split; [left; reflexivity|assumption].
Qed.
Lemma plain_val_dist1 tr i cutoff : i < n ->
  forall j, has (vget (plain_val tr [i] cutoff) j) = true <-> exists d, dist (Dr tr) i j d /\ within cutoff d.
Proof.
  intros Hi j. rewrite plain_val_spec by (intros ? [<-|[]]; assumption).
  assert (E : forall d, dist_from (Dr tr) (fun x => In x [i]) j d <-> dist (Dr tr) i j d).
  { intros d. rewrite <- dist_from_single. apply dist_from_ext; [reflexivity|]. intros a. simpl. intuition congruence. }
  split; intros (d & H1 & H2); exists d; (split; [apply E; assumption|assumption]).
Qed.

(** levels *)
Definition level_val (tr : bool) (i : nat) (cutoff : option Z) : vec Z :=
  bfs_level_loop (Bm tr) None (range1 (get_cutoff n cutoff)) 1 (vset (vempty n) i 0%Z) (vset (vempty n) i true).
Lemma bfs_level_ok b u i tr cutoff : kid G u = Some i ->
  GV G b (bfs_level G u None cutoff tr) (level_val tr i cutoff) any.
Proof.
  intros Hu s HI. unfold bfs_level. rewrite Hu. apply wp_ret_bind. apply wp_ret_bind. apply wp_bind.
  eapply wp_GV; [apply (bfs_matrix_ok b)|assumption|].
  intros s' H1 H2 _. apply wp_ret. rewrite Bm_rows. split; [reflexivity|]. split; [assumption|]. split; [assumption|exact I].
Qed.
Lemma has_vset_empty {V} m i (x : V) j : i < m -> vget (vset (vempty m) i x) j = if j =? i then Some x else None.
Proof.
  intros H. rewrite vget_vset, vsize_vempty, vget_vempty. destruct (Nat.eqb_spec j i) as [->|].
  - apply Nat.ltb_lt in H. rewrite H. reflexivity.
  - destruct (j <? m); reflexivity.
Qed.
Lemma src1 i j : src [i] j = (j =? i). Proof. simpl. apply orb_false_r. Qed.
Lemma level_val_lev tr i cutoff : i < n ->
  vsize (level_val tr i cutoff) = n /\
  forall j, vget (level_val tr i cutoff) j = lev n (EA (Bm tr)) (src [i]) (horizon n cutoff) j.
Proof.
  intros Hi. assert (Hl : forall x, In x [i] -> x < n) by (intros ? [<-|[]]; assumption).
  unfold level_val, horizon.
  pose proof (bfs_level_loop_ok (Bm tr) (Bm_wf tr) (Bm_cols tr) (src [i])) as H.
  rewrite Bm_rows in H. specialize (H (src_lt [i] Hl) (range1 (get_cutoff n cutoff)) 0).
  apply H.
  - rewrite vsize_vset. apply vsize_vempty.
  - rewrite vsize_vset. apply vsize_vempty.
  - intros j. rewrite lev0_src, src1. apply has_vset_empty. assumption.
  - intros j. rewrite fresh0_src, src1, has_vset_empty by assumption. destruct (j =? i); reflexivity.
Qed.
Lemma fresh_dist1 tr i d j : i < n -> fresh n (EA (Bm tr)) (src [i]) d j = true <-> dist (Dr tr) i j d.
Proof.
  intros Hi. rewrite fresh_ids by (intros ? [<-|[]]; assumption). rewrite <- dist_from_single. apply dist_from_ext; [reflexivity|]. intros a. simpl. intuition congruence.
Qed.
Lemma level_spec_gen tr i cutoff j x : i < n ->
  lev n (EA (Bm tr)) (src [i]) (horizon n cutoff) j = Some x <->
  exists d, x = Z.of_nat d /\ dist (Dr tr) i j d /\ within cutoff d.
Proof.
  intros Hi. assert (Hl : forall x, In x [i] -> x < n) by (intros ? [<-|[]]; assumption).
  rewrite lev_some. split.
  - intros (d & Hd & Hx & Hf). exists d. split; [assumption|]. split; [apply fresh_dist1; assumption|].
    apply (horizon_within n); [eapply fresh_n_lt; eassumption|assumption].
  - intros (d & Hx & Hd & Hw). apply (fresh_dist1 tr i d j Hi) in Hd. exists d. split; [|split; assumption].
    apply horizon_within; [eapply fresh_n_lt; eassumption|assumption].
Qed.
Lemma level_val_spec tr i cutoff : i < n -> forall j x,
  vget (level_val tr i cutoff) j = Some x <-> exists d, x = Z.of_nat d /\ dist (Dr tr) i j d /\ within cutoff d.
Proof.
  intros Hi j x. destruct (level_val_lev tr i cutoff Hi) as [_ H]. rewrite H. apply level_spec_gen. assumption.
Qed.

(** many sources at once *)
Lemma bfs_levels_loop_ok ids : (forall i, In i ids -> i < n) -> forall k d (D : mat Z) (Q : mat bool),
  nrows D = List.length ids -> ncols D = n -> mwf D -> nrows Q = List.length ids -> ncols Q = n -> mwf Q ->
  (forall r j, r < List.length ids -> mget D r j = lev n (EA (Bm false)) (src [nth r ids 0]) (S d) j) ->
  (forall r j, r < List.length ids -> has (mget Q r j) = fresh n (EA (Bm false)) (src [nth r ids 0]) d j) ->
  let D' := bfs_levels_loop (Bm false) k (Z.of_nat (S d)) D Q in
  nrows D' = List.length ids /\ ncols D' = n /\ mwf D' /\
  forall r j, r < List.length ids -> mget D' r j = lev n (EA (Bm false)) (src [nth r ids 0]) (S d + k) j.
Proof.
  intros Hids. 
  assert (Eb : forall a c, EA (Bm false) a c = true -> a < n /\ c < n).
  { intros a c H. apply Bm_EA in H as [H _]. eapply Dr_lt; eassumption. }
  assert (Sb : forall r, r < List.length ids -> forall a, src [nth r ids 0] a = true -> a < n).
  { intros r Hr a Ha. rewrite src1 in Ha. apply Nat.eqb_eq in Ha. subst. apply Hids. apply nth_In. assumption. }
  induction k as [|k IH]; intros d D Q D1 D2 D3 Q1 Q2 Q3 HD HQ; cbn [bfs_levels_loop].
  - rewrite Nat.add_0_r. auto.
  - set (Q' := mwrite (msNS D) true Q (mxm op_any op_pairb Q (Bm false))).
    assert (Q1' : nrows Q' = List.length ids) by (unfold Q', mwrite; rewrite nrows_mbuild; assumption).
    assert (Q2' : ncols Q' = n) by (unfold Q', mwrite; rewrite ncols_mbuild; assumption).
    assert (Q3' : mwf Q') by apply mwf_mbuild.
    assert (HQ' : forall r j, r < List.length ids -> has (mget Q' r j) = fresh n (EA (Bm false)) (src [nth r ids 0]) (S d) j).
    { intros r j Hr. unfold Q'. rewrite mget_mwrite, Q1, Q2.
      assert (Er : (r <? List.length ids) = true) by (apply Nat.ltb_lt; assumption). rewrite Er.
      rewrite fresh_step by (exact Eb || apply (Sb r Hr)). rewrite <- has_lev, <- HD by assumption. unfold msNS.
      destruct (Nat.ltb_spec j n) as [Hj|Hj]; simpl.
      - destruct (has (mget D r j)); [reflexivity|]. simpl negb. cbv iota. rewrite andb_true_l.
        rewrite mget_mxm by (assumption || apply Bm_wf || (rewrite Bm_rows; assumption)).
        apply Bool.eq_iff_eq_true. rewrite has_ored_true, existsb_seq, Q2.
        split; intros (c & Hc & H); exists c; (split; [assumption|]).
        + rewrite has_oboth, HQ in H by assumption. exact H.
        + rewrite has_oboth, HQ by assumption. exact H.
      - symmetry. apply andb_false_iff. right. apply not_true_is_false. intros H.
        apply existsb_seq in H as (c & _ & H). apply andb_true_iff in H as [_ H]. apply Eb in H. lia. }
    destruct (mnvals Q' =? 0) eqn:E0.
    + repeat (split; [assumption|]). intros r j Hr. rewrite HD by assumption.
      symmetry. apply lev_stop; [exact Eb|exact (Sb r Hr)| |lia].
      intros j'. rewrite <- HQ' by assumption. apply has_false. apply Nat.eqb_eq in E0. apply (proj1 (mnvals_zero Q' Q3') E0).
    + replace (Z.of_nat (S d) + 1)%Z with (Z.of_nat (S (S d))) by lia. replace (S d + S k) with (S (S d) + k) by lia.
      apply IH; try assumption.
      * unfold massign. rewrite nrows_mbuild. assumption.
      * apply mwf_mbuild.
      * intros r j Hr. rewrite mget_massign, D1, D2. assert (Er : (r <? List.length ids) = true) by (apply Nat.ltb_lt; assumption).
        rewrite Er. rewrite (lev_S _ _ _ (S d)). unfold msS. rewrite HQ' by assumption. rewrite HD by assumption.
        destruct (Nat.ltb_spec j n) as [Hj|Hj]; cbn [andb]; [reflexivity|].
        assert (Hf : fresh n (EA (Bm false)) (src [nth r ids 0]) (S d) j = false).
        { apply not_true_is_false. intros H0. apply fresh_lt in H0; [lia|exact Eb|exact (Sb r Hr)]. }
        rewrite Hf. symmetry. apply has_false. rewrite has_lev. apply not_true_is_false. intros H0.
        apply seen_lt in H0; [lia|exact Eb|exact (Sb r Hr)].
Qed.

Lemma levels_ix_spec ids cutoff : (forall i, In i ids -> i < n) ->
  let D := bfs_levels_ix (Bm false) ids cutoff in
  nrows D = List.length ids /\ ncols D = n /\ mwf D /\
  forall r j x, r < List.length ids ->
    (mget D r j = Some x <-> exists d, x = Z.of_nat d /\ dist (iedge G) (nth r ids 0) j d /\ within cutoff d).
Proof.
  intros Hids D.
  assert (Hr : forall r, r < List.length ids -> nth r ids 0 < n) by (intros r Hr; apply Hids, nth_In; assumption).
  pose proof (bfs_levels_loop_ok ids Hids (range1 (get_cutoff n cutoff)) 0) as H.
  specialize (H (mbuild (List.length ids) n (fun r j => if nth r ids 0 =? j then Some 0%Z else None))
                (mmap (fun _ => true) (mbuild (List.length ids) n (fun r j => if nth r ids 0 =? j then Some 0%Z else None)))).
  destruct H as (H1 & H2 & H3 & H4).
  - apply nrows_mbuild.
  - reflexivity.
  - apply mwf_mbuild.
  - unfold mmap. rewrite nrows_mbuild. apply nrows_mbuild.
  - reflexivity.
  - apply mwf_mbuild.
  - intros r j Hj. rewrite lev0_src, src1, mget_mbuild, (Nat.eqb_sym j).
    destruct (Nat.eqb_spec (nth r ids 0) j) as [<-|].
    + specialize (Hr r Hj). apply Nat.ltb_lt in Hj, Hr. rewrite Hj, Hr. reflexivity.
    + destruct (_ && _); reflexivity.
  - intros r j Hj. rewrite fresh0_src, src1, mget_mmap by apply mwf_mbuild. rewrite has_omap, mget_mbuild, (Nat.eqb_sym j).
    destruct (Nat.eqb_spec (nth r ids 0) j) as [<-|].
    + specialize (Hr r Hj). apply Nat.ltb_lt in Hj, Hr. rewrite Hj, Hr. reflexivity.
    + destruct (_ && _); reflexivity.
  - unfold D, bfs_levels_ix. rewrite Bm_rows. split; [exact H1|]. split; [exact H2|]. split; [exact H3|].
    intros r j x Hj. change (Z.of_nat 1) with 1%Z in H4. rewrite (H4 r j Hj). apply (level_spec_gen false). auto.
Qed.

(** ** both directions at once *)
Notation E := (EA (den_mat G KOff)).
Definition sE (a b : nat) : Prop := E a b = true \/ E b a = true.
Record binv (i : nat) (v qo qi : nat -> bool) : Prop := {
  bi_v : forall j, v j = true -> reach sE i j;
  bi_i : v i = true;
  bi_qo : forall j, qo j = true -> v j = true;
  bi_qi : forall j, qi j = true -> v j = true;
  bi_out : forall x y, v x = true -> E x y = true -> v y = true \/ qo x = true \/ qi x = true;
  bi_in : forall x y, v x = true -> E y x = true -> v y = true \/ qi x = true }.
Lemma binv_closed i v : binv i v (fun _ => false) (fun _ => false) -> forall j, v j = true <-> reach sE i j.
Proof.
  intros [H1 H2 H3 H4 H5 H6] j. split; [apply H1|]. intros [d Hw]. induction Hw as [|d y z Hw IH [HE|HE]]; [assumption| |].
  - destruct (H5 y z IH HE) as [|[|]]; [assumption|discriminate|discriminate].
  - destruct (H6 y z IH HE) as [|]; [assumption|discriminate].
Qed.
Lemma off_sq : ncols (den_mat G KOff) = nrows (den_mat G KOff).
Proof. apply (Bm_cols false). Qed.
Lemma off_rows : nrows (den_mat G KOff) = n. Proof. apply (Bm_rows false). Qed.
Lemma off_wf : mwf (den_mat G KOff). Proof. apply (Bm_wf false). Qed.
Lemma E_lt a b : E a b = true -> a < n /\ b < n.
Proof. apply (Bm_lt false). Qed.
Lemma bfs_bidir_ok i k : forall (v qo qi : vec bool) out_e in_e,
  vsize v = n -> vsize qo = n -> vsize qi = n ->
  out_e = (nvals qo =? 0) -> in_e = (nvals qi =? 0) ->
  binv i (mS v) (mS qo) (mS qi) -> n <= cnt n (mS v) + k ->
  let r := bfs_bidir_loop (den_mat G KOff) k v qo qi out_e in_e in
  vsize r = n /\ forall j, has (vget r j) = true <-> reach sE i j.
Proof.
  induction k as [|k IH]; intros v qo qi oe ie Sv Sqo Sqi Eo Ei HB Hc; cbn [bfs_bidir_loop].
  - split; [assumption|]. intros j. destruct HB as [H1 H2 H3 H4 H5 H6].
    assert (Hall : forall j, j < n -> mS v j = true).
    { apply cnt_all. pose proof (cnt_le_n n (mS v)). lia. }
    split; [apply H1|]. intros [d Hw]. assert (j < n); [|apply (Hall j); assumption].
    inversion Hw as [|? y z Hw' HE]; subst.
    + eapply has_vget_lt in H2. rewrite Sv in H2. assumption.
    + destruct HE as [HE|HE]; apply E_lt in HE; tauto.
  - (* first half: following edges forward *)
    set (qo' := if oe then vwrite (mNS v) false qo (vxm op_any op_pairb qi (den_mat G KOff))
                else vwrite (mNS v) true qo (vxm op_any op_pairb (vunion op_any qo qi) (den_mat G KOff))).
    assert (Sqo' : vsize qo' = n) by (unfold qo'; destruct oe; rewrite vsize_vwrite; assumption).
    assert (Hqo' : forall j, mS qo' j = true <-> mS v j = false /\ exists x, (mS qo x = true \/ mS qi x = true) /\ E x j = true).
    { intros j. destruct HB as [H1 H2 H3 H4 H5 H6].
      assert (Hvx : forall (q : vec bool), vsize q = n -> forall j, has (vget (vxm op_any op_pairb q (den_mat G KOff)) j) = true <->
                exists x, has (vget q x) = true /\ E x j = true).
      { intros q Hq j'. rewrite (has_vxm _ off_wf off_sq) by (rewrite off_rows; assumption). rewrite existsb_seq. split.
        - intros (x & _ & Hx). apply andb_true_iff in Hx. eauto.
        - intros (x & Hx & Hx'). exists x. split; [rewrite off_rows; exact (proj1 (E_lt _ _ Hx'))|]. rewrite Hx, Hx'. reflexivity. }
      unfold qo', mS. destruct oe.
      - rewrite vget_vwrite, Sqo. unfold mNS.
        assert (Hz : forall x, has (vget qo x) = false).
        { intros x. apply has_false. symmetry in Eo. apply Nat.eqb_eq in Eo. apply (proj1 (nvals_zero qo) Eo). }
        destruct (Nat.ltb_spec j n) as [Hj|Hj].
        + destruct (has (vget v j)) eqn:Evj; simpl.
          * rewrite Hz. split; [discriminate|intros [? _]; discriminate].
          * rewrite Hvx by assumption. split.
            -- intros (x & Hx & Hx'). split; [reflexivity|]. exists x. auto.
            -- intros (_ & x & [Hx|Hx] & Hx'); [rewrite Hz in Hx; discriminate|eauto].
        + split; [discriminate|]. intros (_ & x & _ & Hx). apply E_lt in Hx. lia.
      - rewrite vget_vwrite, Sqo. unfold mNS. destruct (Nat.ltb_spec j n) as [Hj|Hj].
        + destruct (has (vget v j)) eqn:Evj; simpl.
          * split; [discriminate|intros [? _]; discriminate].
          * rewrite Hvx by (rewrite vsize_vunion; assumption). split.
            -- intros (x & Hx & Hx'). split; [reflexivity|]. exists x. rewrite vget_vunion in Hx by congruence.
               rewrite has_omerge in Hx. apply orb_true_iff in Hx. auto.
            -- intros (_ & x & Hx & Hx'). exists x. split; [|assumption]. rewrite vget_vunion by congruence.
               rewrite has_omerge. apply orb_true_iff. assumption.
        + split; [discriminate|]. intros (_ & x & _ & Hx). apply E_lt in Hx. lia. }
    set (oe' := nvals qo' =? 0).
    assert (Zo : oe' = true -> forall x, mS qo' x = false).
    { intros Hz x. apply has_false. apply Nat.eqb_eq in Hz. apply (proj1 (nvals_zero qo') Hz). }
    assert (Zi : ie = true -> forall x, mS qi x = false).
    { intros Hz x. subst ie. apply has_false. apply Nat.eqb_eq in Hz. apply (proj1 (nvals_zero qi) Hz). }
    (* after the first half *)
    set (v1 := if oe' then v else vassign (mS qo') true v).
    assert (Sv1 : vsize v1 = n) by (unfold v1; destruct oe'; [assumption|rewrite vsize_vassign; assumption]).
    assert (Hv1 : forall j, mS v1 j = mS v j || mS qo' j).
    { intros j. unfold v1. destruct oe' eqn:Ez.
      - rewrite (Zo eq_refl), orb_false_r. reflexivity.
      - unfold mS at 1. rewrite vget_vassign, Sv. destruct (Nat.ltb_spec j n) as [Hj|Hj].
        + destruct (mS qo' j); [rewrite orb_true_r; reflexivity|rewrite orb_false_r; reflexivity].
        + unfold mS. rewrite (vget_out v), (vget_out qo') by lia. reflexivity. }
    assert (HB1 : (forall j, mS v1 j = true -> reach sE i j) /\ mS v1 i = true /\
       (forall x y, mS v1 x = true -> E x y = true -> mS v1 y = true \/ mS qo' x = true) /\
       (forall x y, mS v1 x = true -> E y x = true -> mS v1 y = true \/ mS qi x = true \/ mS qo' x = true)).
    { destruct HB as [H1 H2 H3 H4 H5 H6].
      assert (Hr : forall j, mS qo' j = true -> reach sE i j).
      { intros j Hj. apply Hqo' in Hj as (_ & x & Hx & HE). eapply reach_trans; [apply H1; destruct Hx; [apply H3|apply H4]; eassumption|].
        exists 1. econstructor; [constructor|left; assumption]. }
      repeat split.
      - intros j Hj. rewrite Hv1 in Hj. apply orb_true_iff in Hj as [Hj|Hj]; auto.
      - rewrite Hv1, H2. reflexivity.
      - intros x y Hx HE. rewrite Hv1 in Hx. apply orb_true_iff in Hx as [Hx|Hx]; [|auto].
        destruct (mS v1 y) eqn:Ey; [auto|]. exfalso. rewrite Hv1 in Ey. apply orb_false_iff in Ey as [Ey1 Ey2].
        assert (mS qo' y = true); [|congruence]. apply Hqo'. split; [assumption|]. exists x. split; [|assumption].
        destruct (H5 x y Hx HE) as [?|?]; [congruence|assumption].
      - intros x y Hx HE. rewrite Hv1 in Hx. apply orb_true_iff in Hx as [Hx|Hx]; [|auto].
        destruct (H6 x y Hx HE) as [Hy|Hy]; [|auto]. left. rewrite Hv1, Hy. reflexivity. }
    assert (HqoV : forall j, mS qo' j = true -> mS v1 j = true) by (intros j Hj; rewrite Hv1, Hj; apply orb_true_r).
    assert (HqiV : forall j, mS qi j = true -> mS v1 j = true).
    { intros j Hj. rewrite Hv1. rewrite (bi_qi _ _ _ _ HB j Hj). reflexivity. }
    destruct (oe' && ie) eqn:Ex1.
    { apply andb_true_iff in Ex1 as [Ex1 Ex2]. split; [assumption|].
      assert (Ev : forall j, mS v1 j = mS v j) by (intros j; rewrite Hv1, (Zo Ex1), orb_false_r; reflexivity).
      apply (binv_closed i (mS v)). destruct HB1 as (B1 & B2 & B3 & B4). constructor; try discriminate.
      - intros j. rewrite <- Ev. apply B1.
      - rewrite <- Ev. exact B2.
      - intros x y Hx HE. rewrite <- Ev in *. destruct (B3 x y Hx HE) as [|Hz]; [auto|rewrite (Zo Ex1) in Hz; discriminate].
      - intros x y Hx HE. rewrite <- Ev in *. destruct (B4 x y Hx HE) as [|[Hz|Hz]]; [auto|rewrite (Zi Ex2) in Hz; discriminate|rewrite (Zo Ex1) in Hz; discriminate]. }
    clear HB.
    (* second half: following edges backward *)
    set (qi' := if ie then vwrite (mNS v1) false qi (mxv op_any op_pairb (den_mat G KOff) qo')
                else vwrite (mNS v1) true qi (mxv op_any op_pairb (den_mat G KOff) (vunion op_any qo' qi))).
    assert (Sqi' : vsize qi' = n) by (unfold qi'; destruct ie; rewrite vsize_vwrite; assumption).
    assert (Hqi' : forall j, mS qi' j = true <-> mS v1 j = false /\ exists x, (mS qo' x = true \/ mS qi x = true) /\ E j x = true).
    { intros j.
      assert (Hvx : forall (q : vec bool), vsize q = n -> forall j, has (vget (mxv op_any op_pairb (den_mat G KOff) q) j) = true <->
                exists x, has (vget q x) = true /\ E j x = true).
      { intros q Hq j'. rewrite (has_mxv _ off_wf off_sq) by (rewrite off_rows; assumption). rewrite existsb_seq. split.
        - intros (x & _ & Hx). apply andb_true_iff in Hx. eauto.
        - intros (x & Hx & Hx'). exists x. split; [rewrite off_rows; exact (proj2 (E_lt _ _ Hx'))|]. rewrite Hx, Hx'. reflexivity. }
      unfold qi', mS. destruct ie.
      - rewrite vget_vwrite, Sqi. unfold mNS.
        assert (Hz : forall x, has (vget qi x) = false) by (intros x; apply (Zi eq_refl x)).
        destruct (Nat.ltb_spec j n) as [Hj|Hj].
        + destruct (has (vget v1 j)) eqn:Evj; simpl.
          * rewrite Hz. split; [discriminate|intros [? _]; discriminate].
          * rewrite Hvx by assumption. split.
            -- intros (x & Hx & Hx'). split; [reflexivity|]. exists x. auto.
            -- intros (_ & x & [Hx|Hx] & Hx'); [eauto|rewrite Hz in Hx; discriminate].
        + split; [discriminate|]. intros (_ & x & _ & Hx). apply E_lt in Hx. lia.
      - rewrite vget_vwrite, Sqi. unfold mNS. destruct (Nat.ltb_spec j n) as [Hj|Hj].
        + destruct (has (vget v1 j)) eqn:Evj; simpl.
          * split; [discriminate|intros [? _]; discriminate].
          * rewrite Hvx by (rewrite vsize_vunion; assumption). split.
            -- intros (x & Hx & Hx'). split; [reflexivity|]. exists x. rewrite vget_vunion in Hx by congruence.
               rewrite has_omerge in Hx. apply orb_true_iff in Hx. auto.
            -- intros (_ & x & Hx & Hx'). exists x. split; [|assumption]. rewrite vget_vunion by congruence.
               rewrite has_omerge. apply orb_true_iff. assumption.
        + split; [discriminate|]. intros (_ & x & _ & Hx). apply E_lt in Hx. lia. }
    set (ie' := nvals qi' =? 0).
    assert (Zi' : ie' = true -> forall x, mS qi' x = false).
    { intros Hz x. apply has_false. apply Nat.eqb_eq in Hz. apply (proj1 (nvals_zero qi') Hz). }
    set (v2 := if ie' then v1 else vassign (mS qi') true v1).
    assert (Sv2 : vsize v2 = n) by (unfold v2; destruct ie'; [assumption|rewrite vsize_vassign; assumption]).
    assert (Hv2 : forall j, mS v2 j = mS v1 j || mS qi' j).
    { intros j. unfold v2. destruct ie' eqn:Ez.
      - rewrite (Zi' eq_refl), orb_false_r. reflexivity.
      - unfold mS at 1. rewrite vget_vassign, Sv1. destruct (Nat.ltb_spec j n) as [Hj|Hj].
        + destruct (mS qi' j); [rewrite orb_true_r; reflexivity|rewrite orb_false_r; reflexivity].
        + unfold mS. rewrite (vget_out v1), (vget_out qi') by lia. reflexivity. }
    assert (HB2 : binv i (mS v2) (mS qo') (mS qi')).
    { destruct HB1 as (B1 & B2 & B3 & B4).
      assert (Hr : forall j, mS qi' j = true -> reach sE i j).
      { intros j Hj. apply Hqi' in Hj as (_ & x & Hx & HE). eapply reach_trans; [apply B1; destruct Hx; [apply HqoV|apply HqiV]; eassumption|].
        exists 1. econstructor; [constructor|right; assumption]. }
      constructor.
      - intros j Hj. rewrite Hv2 in Hj. apply orb_true_iff in Hj as [Hj|Hj]; auto.
      - rewrite Hv2, B2. reflexivity.
      - intros j Hj. rewrite Hv2, (HqoV j Hj). reflexivity.
      - intros j Hj. rewrite Hv2, Hj. apply orb_true_r.
      - intros x y Hx HE. rewrite Hv2 in Hx. apply orb_true_iff in Hx as [Hx|Hx]; [|auto].
        destruct (B3 x y Hx HE) as [Hy|Hy]; [|auto]. left. rewrite Hv2, Hy. reflexivity.
      - intros x y Hx HE. rewrite Hv2 in Hx. apply orb_true_iff in Hx as [Hx|Hx]; [|auto].
        destruct (mS v2 y) eqn:Ey; [auto|]. exfalso. rewrite Hv2 in Ey. apply orb_false_iff in Ey as [Ey1 Ey2].
        assert (mS qi' y = true); [|congruence]. apply Hqi'. split; [assumption|]. exists x. split; [|assumption].
        destruct (B4 x y Hx HE) as [?|[?|?]]; [congruence|auto|auto]. }
    destruct (ie' && oe') eqn:Ex2.
    { apply andb_true_iff in Ex2 as [Ex2 Ex3]. split; [assumption|].
      assert (Ev : forall j, mS v1 j = mS v2 j) by (intros j; rewrite Hv2, (Zi' Ex2), orb_false_r; reflexivity).
      intros j. change (has (vget v1 j)) with (mS v1 j). rewrite Ev. apply (binv_closed i (mS v2)).
      destruct HB2 as [C1 C2 C3 C4 C5 C6]. constructor; try assumption; try discriminate.
      - intros x y Hx HE. destruct (C5 x y Hx HE) as [|[Hz|Hz]]; [auto|rewrite (Zo Ex3) in Hz; discriminate|rewrite (Zi' Ex2) in Hz; discriminate].
      - intros x y Hx HE. destruct (C6 x y Hx HE) as [|Hz]; [auto|rewrite (Zi' Ex2) in Hz; discriminate]. }
    apply IH; try assumption; try reflexivity.
    assert (cnt n (mS v) < cnt n (mS v2)); [|lia].
    assert (Hnew : exists j, mS v j = false /\ mS v2 j = true).
    { apply andb_false_iff in Ex2 as [Ex2|Ex2].
      - assert (0 < nvals qi') by (apply Nat.eqb_neq in Ex2; lia). apply nvals_pos in H as (j & x & Hj).
        assert (Hj' : mS qi' j = true) by (unfold mS; rewrite Hj; reflexivity).
        exists j. split; [|rewrite Hv2, Hj'; apply orb_true_r]. apply Hqi' in Hj' as [Hj' _]. rewrite Hv1 in Hj'.
        apply orb_false_iff in Hj'. tauto.
      - assert (0 < nvals qo') by (apply Nat.eqb_neq in Ex2; lia). apply nvals_pos in H as (j & x & Hj).
        assert (Hj' : mS qo' j = true) by (unfold mS; rewrite Hj; reflexivity).
        exists j. split; [apply Hqo' in Hj'; tauto|]. rewrite Hv2, Hv1, Hj', orb_true_r. reflexivity. }
    destruct Hnew as (j & Hj1 & Hj2). apply cnt_strict with (k := j); try assumption.
    + intros x _ Hx. rewrite Hv2, Hv1, Hx. reflexivity.
    + rewrite <- Sv2. eapply has_vget_lt. exact Hj2.
Qed.
Definition bidir_val (i : nat) : vec bool :=
  bfs_bidir_loop (den_mat G KOff) (n - 1) (vset (vempty n) i true) (vempty n) (vset (vempty n) i true) true false.
Lemma bidir_gv b u i : kid G u = Some i -> GV G b (bfs_plain_bidirectional G u) (bidir_val i) any.
Proof.
  intros Hu s HI. unfold bfs_plain_bidirectional. rewrite Hu. apply wp_ret_bind. apply wp_bind.
  eapply wp_GV; [apply (get_offdiag_ok G wf b)|assumption|].
  intros s' H1 H2 _. apply wp_ret. rewrite off_rows. split; [reflexivity|]. split; [assumption|]. split; [assumption|exact I].
Qed.
Lemma sE_reach i j : reach sE i j <-> reach (sym (iedge G)) i j.
Proof.
  apply (reach_off Nat.eq_dec). intros a b. unfold sE, sym. rewrite !off_EA. intuition congruence.
Qed.
Lemma bidir_val_spec i : i < n -> vsize (bidir_val i) = n /\
  forall j, has (vget (bidir_val i) j) = true <-> reach (sym (iedge G)) i j.
Proof.
  intros Hi.
  assert (Hs : forall j, mS (vset (vempty n) i true) j = (j =? i)).
  { intros j. unfold mS. rewrite has_vset_empty by assumption. destruct (j =? i); reflexivity. }
  assert (He : forall j, mS (vempty n : vec bool) j = false) by (intros j; unfold mS; rewrite vget_vempty; reflexivity).
  destruct (bfs_bidir_ok i (n - 1) (vset (vempty n) i true) (vempty n) (vset (vempty n) i true) true false) as [H1 H2].
  - rewrite vsize_vset. apply vsize_vempty.
  - apply vsize_vempty.
  - rewrite vsize_vset. apply vsize_vempty.
  - symmetry. apply Nat.eqb_eq. apply nvals_zero. intros j. apply vget_vempty.
  - symmetry. apply Nat.eqb_neq. assert (0 < nvals (vset (vempty n) i true)); [|lia].
    apply nvals_pos. exists i, true. rewrite has_vset_empty, Nat.eqb_refl by assumption. reflexivity.
  - constructor.
    + intros j Hj. rewrite Hs in Hj. apply Nat.eqb_eq in Hj. subst. apply reach_refl.
    + rewrite Hs. apply Nat.eqb_refl.
    + intros j Hj. rewrite He in Hj. discriminate.
    + auto.
    + intros x y Hx _. right. right. assumption.
    + intros x y Hx _. right. assumption.
  - assert (0 < cnt n (mS (vset (vempty n) i true))); [|lia]. apply cnt_pos. exists i. split; [assumption|].
    rewrite Hs. apply Nat.eqb_refl.
  - split; [exact H1|]. intros j. rewrite <- sE_reach. apply H2.
Qed.
End G.
