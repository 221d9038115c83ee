(** * Bellman-Ford from several sources at once *)
From Verif Require Import Base BaseProofs Model_Graph Model_Cache Model_Keys Model_Utils Model_Bfs Model_Weighted Spec Spec_Cache Spec_Run Spec_Weighted
  CacheMath CacheProofs CacheProofs2 RunProofs NdProofs BfsProofs BfsProofs2 WeightedMath KeyProofs WeightedProofs WeightedProofs2 Walks Props_Bfs.

Section M.
Variable A : mat Z.
Hypothesis Awf : mwf A.
Hypothesis Asq : ncols A = nrows A.
Notation n := (nrows A).
Notation W := (mget A).
Variable ids : list nat.
Hypothesis Hids : forall i, In i ids -> i < n.
Notation R := (List.length ids).
Notation src r := (nth r ids 0).
Definition mok (D : mat Z) : Prop := mwf D /\ nrows D = R /\ ncols D = n.
Lemma cand_mget D r j : mok D -> mget (mxm Z.min Z.add D A) r j = cand n W None (mget D r) j.
Proof.
  intros (H1 & H2 & H3). rewrite mget_mxm by assumption. rewrite H3. unfold cand, cutf. destruct (ored _ _ _); reflexivity.
Qed.
Lemma mxm_mok D : mok D -> mok (mxm Z.min Z.add D A).
Proof. intros (H1 & H2 & H3). split; [apply mwf_mbuild|]. unfold mxm. rewrite nrows_mbuild. split; assumption. Qed.
Definition mkeep (Cur D : mat Z) : mat Z := mwrite (mMVb (munion op_second (mmap (fun _ => true) Cur) (minter Z.ltb Cur D))) true Cur Cur.
Lemma mkeep_mok Cur D : mok Cur -> mok (mkeep Cur D).
Proof. intros (H1 & H2 & H3). split; [apply mwf_mbuild|]. unfold mkeep, mwrite. rewrite nrows_mbuild. split; assumption. Qed.
Lemma mkeep_get Cur D r j : mok Cur -> mok D -> mget (mkeep Cur D) r j = better (mget Cur r j) (mget D r j).
Proof.
  intros (C1 & C2 & C3) (D1 & D2 & D3). unfold mkeep. rewrite mget_mwrite, C2, C3.
  destruct ((r <? R) && (j <? n)) eqn:E.
  - unfold mMVb. rewrite mget_munion; [|apply mwf_mbuild|apply mwf_mbuild|unfold mmap, minter; rewrite !nrows_mbuild; reflexivity|reflexivity].
    rewrite mget_mmap, mget_minter by assumption. destruct (mget Cur r j) as [x|], (mget D r j) as [y|]; simpl; try reflexivity.
  - rewrite (mget_out Cur); [destruct (mget D r j); reflexivity|assumption|]. rewrite C2, C3.
    apply andb_false_iff in E as [E|E]; apply Nat.ltb_ge in E; auto.
Qed.
Lemma mupd_get D Cur r j : mok Cur -> mok D -> mget (mwrite (msS Cur) false D Cur) r j = onew (mget Cur r j) (mget D r j).
Proof.
  intros (C1 & C2 & C3) (D1 & D2 & D3). rewrite mget_mwrite, D2, D3. unfold msS, onew.
  destruct ((r <? R) && (j <? n)) eqn:E; [destruct (mget Cur r j); reflexivity|].
  rewrite (mget_out Cur), (mget_out D); try assumption; try reflexivity; rewrite ?C2, ?C3, ?D2, ?D3;
    apply andb_false_iff in E as [E|E]; apply Nat.ltb_ge in E; auto.
Qed.
Lemma mupd_mok D Cur : mok D -> mok (mwrite (msS Cur) false D Cur).
Proof. intros (H1 & H2 & H3). split; [apply mwf_mbuild|]. unfold mwrite. rewrite nrows_mbuild. split; assumption. Qed.
Definition MB (k : nat) (D Cur : mat Z) : Prop := forall r, r < R -> BI W (one0 (src r)) None None k (mget D r) (mget Cur r).
Lemma bfm_loop_ok k : forall m D Cur, mok D -> mok Cur -> MB m D Cur ->
  let '(b, D', Cur') := bfm_loop A k D Cur in
  mok D' /\ mok Cur' /\ (b = true -> MB (m + k) D' Cur') /\
  (b = false -> forall r, r < R -> closed W (one0 (src r)) None (mget D' r) /\ exists m' cur', BI W (one0 (src r)) None None m' (mget D' r) cur').
Proof.
  induction k as [|k IH]; intros m D Cur HD HC HB.
  - simpl. rewrite Nat.add_0_r. split; [assumption|]. split; [assumption|]. split; [auto|discriminate].
  - cbn [bfm_loop]. fold (mkeep (mxm Z.min Z.add Cur A) D). pose proof (mxm_mok Cur HC) as HX.
    set (Cur' := mkeep (mxm Z.min Z.add Cur A) D). assert (HC' : mok Cur') by (apply mkeep_mok; assumption).
    assert (E1 : forall r j, mget Cur' r j = better (cand n W None (mget Cur r) j) (mget D r j)).
    { intros r j. unfold Cur'. rewrite mkeep_get by assumption. rewrite cand_mget by assumption. reflexivity. }
    destruct (Nat.eqb_spec (mnvals Cur') 0) as [E0|E0].
    + split; [assumption|]. split; [assumption|]. split; [discriminate|]. intros _ r Hr. split; [|eauto].
      apply (BI_break n W (A_lt A Awf Asq) (one0 (src r)) None None m (mget D r) (mget Cur r)); [auto|]. intros j. rewrite <- E1.
      apply (proj1 (mnvals_zero Cur' (proj1 HC')) E0).
    + specialize (IH (S m) (mwrite (msS Cur') false D Cur') Cur' (mupd_mok D Cur' HD) HC').
      rewrite Nat.add_succ_r. apply IH. intros r Hr. eapply BI_ext; [| |apply (BI_step n W (A_lt A Awf Asq) (one0 (src r))); apply HB; assumption].
      * intros j. rewrite mupd_get by assumption. rewrite E1. reflexivity.
      * intros j. rewrite E1. reflexivity.
Qed.
Lemma mred_orb_true (m : mat bool) : mwf m ->
  match mred_scalar orb m with Some b => b | None => false end = true <-> exists i j, mget m i j = Some true.
Proof.
  intros Hm. unfold mred_scalar, vreduce. unfold mred_row at 1. rewrite vsize_vbuild, (ored_orb_true A Asq). split.
  - intros (i & Hi & H). rewrite vget_mred_row in H by assumption. exists i.
    destruct (proj1 (ored_orb_true A Asq (ncols m) (fun j => mget m i j))) as (j & _ & Hj); [rewrite H; reflexivity|]. eauto.
  - intros (i & j & H). destruct (mget_some_lt _ _ _ _ Hm H) as [Hi Hj]. exists i. split; [assumption|]. rewrite vget_mred_row by assumption.
    assert (X : match ored orb (ncols m) (fun j => mget m i j) with Some b => b | None => false end = true) by (apply (ored_orb_true A Asq); eauto).
    destruct (ored orb (ncols m) (fun j => mget m i j)) as [b|]; [|discriminate]. rewrite X. reflexivity.
Qed.
Definition M0 : mat Z := mbuild R n (fun r j => if src r =? j then Some 0%Z else None).
Lemma src_lt r : r < R -> src r < n. Proof. intros H. apply Hids, nth_In. assumption. Qed.
Lemma M0_mok : mok M0.
Proof. split; [apply mwf_mbuild|]. unfold M0. rewrite nrows_mbuild. auto. Qed.
Lemma M0_get r j : r < R -> mget M0 r j = one0 (src r) j.
Proof.
  intros Hr. unfold M0. rewrite mget_mbuild. unfold one0. rewrite (Nat.eqb_sym j). apply Nat.ltb_lt in Hr as Hr'. rewrite Hr'. cbn [andb].
  destruct (Nat.eqb_spec (src r) j) as [E|E]; [|destruct (j <? n); reflexivity]. subst j. rewrite (proj2 (Nat.ltb_lt _ _) (src_lt r Hr)). reflexivity.
Qed.
Definition mcheck (Cur D : mat Z) : bool := match mred_scalar orb (minter Z.ltb (mxm Z.min Z.add Cur A) D) with Some b => b | None => false end.
Lemma mcheck_true Cur D : mok Cur -> mok D -> mcheck Cur D = true <-> exists r j, r < R /\ improves (cand n W None (mget Cur r) j) (mget D r j) = true.
Proof.
  intros HC HD. pose proof (mxm_mok Cur HC) as HX. unfold mcheck. rewrite mred_orb_true by apply mwf_mbuild. split.
  - intros (r & j & H). rewrite mget_minter in H by apply HX. rewrite cand_mget in H by assumption. exists r, j.
    destruct (cand n W None (mget Cur r) j) as [x|]; [|discriminate]. destruct (mget D r j) as [y|] eqn:E; [|discriminate]. simpl in *.
    split; [|congruence]. apply mget_some_lt in E as [E _]; [|apply HD]. destruct HD as (_ & E' & _). lia.
  - intros (r & j & _ & H). exists r, j. rewrite mget_minter by apply HX. rewrite cand_mget by assumption.
    destruct (cand n W None (mget Cur r) j) as [x|]; [|discriminate]. destruct (mget D r j) as [y|] eqn:E; [|discriminate]. simpl in *. congruence.
Qed.
Lemma bfm_ok :
  let '(b, D, Cur) := bfm_loop A (n - 1) M0 M0 in
  mok D /\
  (b && mcheck Cur D = true -> exists r, r < R /\ neg_cycle_from W (src r)) /\
  (b && mcheck Cur D = false -> forall r, r < R -> ~ neg_cycle_from W (src r) /\ (forall j x, mget D r j = Some x <-> shortest W (src r) j x) /\
     forall j, wreach W (src r) j -> has (mget D r j) = true).
Proof.
  pose proof (bfm_loop_ok (n - 1) 0 M0 M0 M0_mok M0_mok) as H.
  destruct (bfm_loop A (n - 1) M0 M0) as [[b D] Cur]. destruct H as (HD & HC & H1 & H2).
  { intros r Hr. eapply BI_ext; [| |apply BI0]; intros j; symmetry; apply M0_get; assumption. }
  assert (P : forall r, r < R -> closed W (one0 (src r)) None (mget D r) -> (exists m cur', BI W (one0 (src r)) None None m (mget D r) cur') ->
     ~ neg_cycle_from W (src r) /\ (forall j x, mget D r j = Some x <-> shortest W (src r) j x) /\ forall j, wreach W (src r) j -> has (mget D r j) = true).
  { intros r Hr Hcl (m & cur' & HB). pose proof (src_lt r Hr) as Hs. split.
    - rewrite <- S0neg_one. apply (closed_noneg _ _ _ Hcl).
    - split; [intros j x; rewrite <- smin_one; eapply closed_smin; eassumption|]. intros j (m' & w & Hw). apply bw_one in Hw.
      destruct (closed_low _ _ _ _ Hcl _ _ _ Hw) as (x & Hx & _). rewrite Hx. reflexivity. }
  split; [assumption|]. destruct b; cbn [andb].
  - specialize (H1 eq_refl). split.
    + intros Hk. apply mcheck_true in Hk as (r & j & Hr & Hj); [|assumption..]. exists r. split; [assumption|]. apply S0neg_one.
      eapply (BI_improves n W (A_lt A Awf Asq) _ (one0_lt A (src r) (src_lt r Hr)) None (0 + (n - 1))); [lia|exact (H1 r Hr)|exact Hj].
    + intros Hk r Hr. apply P; [assumption| |eexists; eexists; apply H1; assumption].
      eapply (BI_else n W (A_lt A Awf Asq) _ (one0_lt A (src r) (src_lt r Hr)) (0 + (n - 1))); [lia|exact (H1 r Hr)|].
      intros j. apply not_true_is_false. intros Hj. assert (mcheck Cur D = true); [|congruence]. apply mcheck_true; eauto.
  - split; [discriminate|]. intros _ r Hr. destruct (H2 eq_refl r Hr) as (Hcl & HB). apply P; assumption.
Qed.
End M.

Section K.
Variable G : graph.
Hypothesis wf : gwf G.
Notation n := (nrows (g_A G)).
Notation F := (mget (g_A G)).
Notation A := (den_mat G KOff).
Notation W := (mget (den_mat G KOff)).
Variable ids : list nat.
Hypothesis Hids : forall i, In i ids -> i < n.
Notation R := (List.length ids).
Definition rows_ok (o : outcome (mat Z)) : Prop :=
  match o with
  | Val D => (mwf D /\ nrows D = R /\ ncols D = n) /\ forall r, r < R -> ss_ok G (nth r ids 0) (Val (mrow D r))
  | Raise e => e = EUnbounded /\ exists r, r < R /\ neg_cycle_from F (nth r ids 0)
  end.
Definition ids_of (nodes : option (list nkey)) : Prop :=
  match nodes with None => ids = seq 0 n | Some l => list_to_ids (g_kid G) l = Val ids end.
Lemma mdot_neg (D : mat Z) : mwf D -> nrows D = R -> ncols D = n ->
  (0 <? nvals (mxv op_any op_pairb D (negsel (den_vec G KDiag)))) = true <->
  exists r, r < R /\ has (vdot op_any op_pairb (mrow D r) (negsel (den_vec G KDiag))) = true.
Proof.
  intros H1 H2 H3. rewrite Nat.ltb_lt, nvals_pos.
  assert (E : forall r, r < R -> vget (mxv op_any op_pairb D (negsel (den_vec G KDiag))) r = vdot op_any op_pairb (mrow D r) (negsel (den_vec G KDiag))).
  { intros r Hr. rewrite vget_mxv by assumption. unfold vdot, vsize. rewrite mrow_length by (try assumption; lia). reflexivity. }
  split.
  - intros (r & x & Hx). assert (Hr : r < R) by (apply vget_some_lt in Hx; unfold mxv in Hx; rewrite vsize_vbuild in Hx; lia).
    exists r. split; [assumption|]. rewrite <- E by assumption. rewrite Hx. reflexivity.
  - intros (r & Hr & H). rewrite <- E in H by assumption. apply has_true in H as [x Hx]. eauto.
Qed.
Lemma bfm_core_ok nodes : ids_of nodes -> answers G (bfm_core G nodes) rows_ok.
Proof.
  intros Hn. unfold bfm_core.
  assert (E : (match nodes with None => ret (seq 0 (nrows A)) | Some l => lifto (list_to_ids (g_kid G) l) end) = (ret ids : M (list nat))).
  { destruct nodes as [l|]; simpl in Hn; [rewrite Hn; reflexivity|]. rewrite Hn, off_rows. reflexivity. }
  assert (P : forall nd s, Inv G s -> (nd = true \/ den_bool G KNegDiag = false) ->
    let m := (let n := nrows A in
      ids <- match nodes with None => ret (seq 0 n) | Some l => lifto (list_to_ids (g_kid G) l) end ;;
      let D := mbuild (List.length ids) n (fun r j => if nth r ids 0 =? j then Some 0%Z else None) in
      let '(completed, D, Cur) := bfm_loop A (n - 1) D D in
      if completed && match mred_scalar orb (minter Z.ltb (mxm Z.min Z.add Cur A) D) with Some b => b | None => false end
      then raise EUnbounded else
      if nd : bool then diag <- get_diag G None ;; if 0 <? nvals (mxv op_any op_pairb D (negsel diag)) then raise EUnbounded else ret D
      else ret D) in
    rows_ok (fst (m s)) /\ Inv G (snd (m s))).
  { intros nd s HI Hnd. cbv zeta. rewrite E. change (bind (ret ids) ?f) with (f ids). cbv beta.
    pose proof (bfm_ok A (off_wf G) (off_sq G) ids ltac:(intros i Hi; rewrite off_rows; auto)) as H. fold (M0 A ids).
    destruct (bfm_loop A (nrows A - 1) (M0 A ids) (M0 A ids)) as [[b D] Cur]. fold (mcheck A Cur D). destruct H as ((D1 & D2 & D3) & H1 & H2).
    rewrite off_rows in D3. destruct (b && mcheck A Cur D).
    - split; [|exact HI]. split; [reflexivity|]. destruct (H1 eq_refl) as (r & Hr & Hc). exists r. split; [assumption|].
      apply (neg_strip F W (off_get G wf)). left. assumption.
    - specialize (H2 eq_refl).
      assert (S : forall r, r < R -> let d := mrow D r in
        (has (vdot op_any op_pairb d (negsel (den_vec G KDiag))) = true -> neg_cycle_from F (nth r ids 0)) /\
        (has (vdot op_any op_pairb d (negsel (den_vec G KDiag))) = false \/ den_bool G KNegDiag = false -> ss_ok G (nth r ids 0) (Val d))).
      { intros r Hr d. destruct (H2 r Hr) as (S1 & S2 & S3). apply (ss_strip G wf); [apply Hids, nth_In; assumption| |assumption..].
        unfold vsize, d. rewrite mrow_length by (try assumption; lia). assumption. }
      destruct nd.
      + eapply answers_bind_GV; [apply (get_diag_ok G wf true None)| |exact HI]. cbn [msk].
        destruct (0 <? nvals (mxv op_any op_pairb D (negsel (den_vec G KDiag)))) eqn:En.
        * apply answers_raise. split; [reflexivity|]. apply mdot_neg in En as (r & Hr & Hv); [|assumption..]. exists r. split; [assumption|]. apply (S r Hr). assumption.
        * apply answers_ret. split; [auto|]. intros r Hr. apply (S r Hr). left. apply not_true_is_false. intros C.
          apply eq_true_false_abs in En; [assumption|]. apply mdot_neg; eauto.
      + split; [|exact HI]. split; [auto|]. intros r Hr. apply (S r Hr). right. destruct Hnd; [discriminate|assumption]. }
  apply nd_glue; [assumption|]. intros nd s HI Ho Hnd. exact (P nd s HI Hnd).
Qed.
Hypothesis iso_edge : g_iso G = true -> exists i j x, F i j = Some x.
(** breadth-first levels scaled by the common weight *)
Lemma iso_scaled z src d : src < n -> vsize d = n -> (0 <= z)%Z -> (forall i j x, F i j = Some x -> x = z) ->
  (forall j x, vget d j = Some x <-> exists k, x = Z.of_nat k /\ dist (iedge G) src j k) ->
  ss_ok G src (Val (if (z =? 1)%Z then d else vmap (fun x => (x * z)%Z) d)).
Proof.
  intros Hs Hd Hz0 Hall HL.
  assert (Hv : forall j x, vget (if (z =? 1)%Z then d else vmap (fun x => (x * z)%Z) d) j = Some x <->
       exists d, x = (Z.of_nat d * z)%Z /\ dist (iedge G) src j d).
  { intros j x. destruct (Z.eqb_spec z 1) as [->|Hz1].
    - rewrite HL. split; intros (k & -> & H); exists k; (split; [lia|exact H]).
    - rewrite vget_vmap. split.
      + destruct (vget d j) as [y|] eqn:E; [|discriminate]. simpl. intros [= <-].
        destruct (proj1 (HL j y) E) as (k & -> & H). eauto.
      + intros (k & -> & H). rewrite (proj2 (HL j (Z.of_nat k))) by eauto. reflexivity. }
  split; [|split; [|split]].
  + destruct (z =? 1)%Z; [|rewrite vsize_vmap]; assumption.
  + apply (iso_nocycle G z); assumption.
  + intros j x. rewrite Hv. rewrite (iso_shortest G wf z) by assumption. split; intros (k & H1 & H2); exists k; auto.
  + intros j (m & w & Hw). apply (iso_walk G z) in Hw as [Hw _]; [|assumption].
    assert (Hr : has (vget (plain_val G false [src] None) j) = true) by (apply (plain_val_reach1 G wf false src Hs); exists m; exact Hw).
    apply (plain_val_dist1 G wf false src None Hs) in Hr as (d' & Hd' & _).
    rewrite (proj2 (Hv j (Z.of_nat d' * z)%Z)); [reflexivity|]. exists d'. split; [reflexivity|exact Hd'].
Qed.
Lemma iso_und_cycle z i j x : g_dir G = false -> (z < 0)%Z -> (forall i j x, F i j = Some x -> x = z) -> F i j = Some x -> neg_cycle_from F i.
Proof.
  intros Hd Hz Hall Hv. assert (Hv' : F j i = Some x) by (rewrite (gw_sym _ wf Hd); assumption).
  exists i. split; [apply wreach_refl|]. exists (1 + 1), (x + x)%Z. split; [eapply wwalk_app; apply wwalk_one; eassumption|].
  rewrite (Hall _ _ _ Hv). lia.
Qed.
Definition iso_rows (o : outcome (option (mat Z))) : Prop :=
  match o with Val (Some D) => rows_ok (Val D) | Val None => True | Raise e => rows_ok (Raise e) end.
Lemma bfm_iso_ok nodes : ids_of nodes -> g_iso G = true -> answers G (bfm_iso G nodes) iso_rows.
Proof.
  intros Hn Hi. destruct (iso_den G wf iso_edge Hi) as (z & Hz & Hall & Hneg). unfold bfm_iso.
  eapply answers_bind_GV; [apply (has_negative_edgesp_ok G wf true eq_refl)|]. rewrite Hneg.
  eapply answers_bind_v; [eapply answers_GO; [apply (get_iso_value_ok G wf true)|]; intros o [->|[_ Hf]]; [reflexivity|congruence]|].
  rewrite Hz. cbn [isoz]. destruct (Z.ltb_spec z 0) as [Hz0|Hz0]; cbn [negb].
  - destruct (g_dir G) eqn:Ed; cbn [negb]; [apply answers_ret; exact I|]. destruct nodes as [l|]; simpl in Hn.
    + rewrite Hn. eapply answers_bind_v; [apply answers_lifto; reflexivity|].
      destruct (0 <? mnvals _) eqn:E; [|apply answers_ret; exact I]. apply answers_raise. split; [reflexivity|].
      apply Nat.ltb_lt in E. destruct (Nat.eq_dec (mnvals (mextract (g_A G) ids (seq 0 (ncols (g_A G))))) 0) as [E0|E0]; [lia|].
      assert (X : exists r j x, r < R /\ F (nth r ids 0) j = Some x).
      { unfold mextract in E. rewrite mnvals_mbuild in E.
        assert (Y : exists r, r < R /\ 0 < cnt (List.length (seq 0 (ncols (g_A G)))) (fun j => has (F (nth r ids 0) (nth j (seq 0 (ncols (g_A G))) 0)))).
        { destruct (Nat.eq_dec (nsum R (fun i => cnt (List.length (seq 0 (ncols (g_A G)))) (fun j => has (F (nth i ids 0) (nth j (seq 0 (ncols (g_A G))) 0))))) 0) as [E1|E1]; [lia|].
          destruct (existsb (fun r => 0 <? cnt (List.length (seq 0 (ncols (g_A G)))) (fun j => has (F (nth r ids 0) (nth j (seq 0 (ncols (g_A G))) 0)))) (seq 0 R)) eqn:Ex.
          - apply existsb_exists in Ex as (r & Hr & H). apply in_seq in Hr. apply Nat.ltb_lt in H. exists r. split; [lia|assumption].
          - exfalso. apply E1. apply nsum_zero. intros r Hr. destruct (cnt _ _) eqn:Ec; [reflexivity|]. exfalso.
            assert (existsb (fun r => 0 <? cnt (List.length (seq 0 (ncols (g_A G)))) (fun j => has (F (nth r ids 0) (nth j (seq 0 (ncols (g_A G))) 0)))) (seq 0 R) = true); [|congruence].
            apply existsb_exists. exists r. split; [apply in_seq; lia|]. rewrite Ec. reflexivity. }
        destruct Y as (r & Hr & Hc). apply cnt_pos in Hc as (j & Hj & H). apply has_true in H as (x & Hx). eauto. }
      destruct X as (r & j & x & Hr & Hx). exists r. split; [assumption|]. eapply iso_und_cycle; eassumption.
    + destruct (0 <? mnvals (g_A G)) eqn:E; [|apply answers_ret; exact I]. apply answers_raise. split; [reflexivity|].
      destruct (iso_edge Hi) as (i & j & x & Hx). exists i. assert (Hlt := proj1 (F_lt G wf _ _ _ Hx)).
      rewrite Hn, seq_length. split; [assumption|]. rewrite seq_nth by assumption. eapply iso_und_cycle; eassumption.
  - unfold bfs_levels. apply answers_assoc. eapply answers_bind_GV; [apply (get_offdiag_ok G wf true)|]. rewrite offdiag_Bm.
    assert (En : (match nodes with None => ret (bfs_levels_ix (Bm G false) (seq 0 (nrows (Bm G false))) None)
                  | Some l => ids <- lifto (list_to_ids (g_kid G) l) ;; ret (bfs_levels_ix (Bm G false) ids None) end) = (ret (bfs_levels_ix (Bm G false) ids None) : M (mat Z))).
    { destruct nodes as [l|]; simpl in Hn; [rewrite Hn; reflexivity|]. rewrite Hn. rewrite <- offdiag_Bm, off_rows. reflexivity. }
    rewrite En. apply answers_ret_bind. apply answers_ret. destruct (levels_ix_spec G wf ids None Hids) as (H1 & H2 & H3 & H4).
    set (D := bfs_levels_ix (Bm G false) ids None) in *. cbn [iso_rows rows_ok]. split.
    + destruct (z =? 1)%Z; [auto|]. split; [apply mwf_mbuild|]. unfold mmap. rewrite nrows_mbuild. auto.
    + intros r Hr. replace (mrow (if (z =? 1)%Z then D else mmap (fun x => (x * z)%Z) D) r) with (if (z =? 1)%Z then mrow D r else vmap (fun x => (x * z)%Z) (mrow D r)).
      * assert (Sz : vsize (mrow D r) = n) by (unfold vsize; rewrite mrow_length by (try assumption; lia); assumption).
        apply iso_scaled; [apply Hids, nth_In; assumption|assumption|lia|assumption|].
        intros j x. change (vget (mrow D r) j) with (mget D r j). rewrite H4 by assumption. split; [intros (k & Ek & Hk & _); eauto|intros (k & Ek & Hk); exists k; split; [assumption|split; [assumption|exact I]]].
      * destruct (z =? 1)%Z; [reflexivity|]. unfold mmap. rewrite mrow_mbuild by lia. unfold vmap.
        unfold vsize. rewrite mrow_length by (try assumption; lia). reflexivity.
Qed.
Lemma bf_path_lengths_ok nodes : ids_of nodes -> answers G (bf_path_lengths G nodes false) rows_ok.
Proof.
  intros Hn. unfold bf_path_lengths.
  eapply answers_bind_GV; [apply (is_iso_ok G true)|].
  simpl den_bool.
  assert (T : forall m : M (mat Z), answers G m rows_ok -> answers G (D <- m ;; match nodes with Some l => if false && negb (ncols D =? nrows D) then
        ids <- lifto (list_to_ids (g_kid G) l) ;;
        ret (mbuild (ncols D) (ncols D) (fun i j => match find (fun r => nth r ids 0 =? i) (seq 0 (List.length ids)) with Some r => mget D r j | None => None end))
      else ret D | None => ret D end) rows_ok).
  { intros m Hm. eapply answers_bind; [exact Hm| |intros e He; exact He]. intros D HD. cbn [andb]. destruct nodes; apply answers_ret; exact HD. }
  destruct (Bool.bool_dec (g_iso G) true) as [Hi|Hi]; [|apply not_true_is_false in Hi]; rewrite Hi.
  - eapply answers_bind; [exact ((bfm_iso_ok nodes Hn Hi))| |intros e He; exact He].
    intros [D|] HD; apply T; [apply answers_ret; exact HD|apply bfm_core_ok; assumption].
  - change (bind (ret None) ?f) with (f (None : option (mat Z))). cbv beta. apply T, bfm_core_ok. assumption.
Qed.
End K.
