(** * C57: pagerank *)
From Verif Require Import Base BaseProofs Model_Graph Model_Cache Model_Keys Spec KeyProofs Spec_Cache CacheMath CacheProofs CacheProofs2 CacheHist
  Spec_Run RunProofs Spec_Count CountProofs Model_Measures Model_Cluster Spec_Cluster ClusterMath ClusterProofs OperatorProofs Props_Containers
  Spec_Iso IsoProofs WeightedProofs2 Concrete Model_Linalg Spec_Linalg Props_Linalg Model_Rank Spec_Rank RankProofs RankMath.
From Coq Require Import Permutation QArith Qcanon Qcabs.
Open Scope nat_scope.

Lemma cnt_lt_n m p : cnt m p < m <-> exists i, i < m /\ p i = false.
Proof.
  pose proof (cnt_negb m p) as H. pose proof (cnt_pos m (fun i => negb (p i))) as P. split.
  - intros L. destruct P as [P _]. destruct P as (i & Li & Hi); [lia|]. apply negb_true_iff in Hi. eauto.
  - intros (i & Li & Hi). destruct P as [_ P]. assert (0 < cnt m (fun i => negb (p i))); [|lia]. apply P. exists i. rewrite Hi. auto.
Qed.
Section P.
Variable G : graph.
Hypothesis wf : gwf G.
Notation n := (glen G).
Notation nodes := (gnodes G).
Notation rep := (rep G).
Notation rd := (den_vec G (KRed Row RPlus SP)).
Notation dng := (dangling G nodes).

Lemma row_has u i : kid G u = Some i -> dng u = negb (has (ored Z.add n (mget (g_A G) i))).
Proof.
  intros Hi. unfold dangling. f_equal. apply eq_true_iff_eq. rewrite existsb_exists, has_ored_true. split.
  - intros (v & Hv & He). apply node_kid in Hv as [j Hj]. exists j. split; [eapply kid_lt; eassumption|].
    rewrite (has_edge_kid G u v i j Hi Hj) in He. exact He.
  - intros (j & Lj & Hj). destruct (kid_key G wf j Lj) as [v Hv]. exists v. split; [apply node_kid; eauto|].
    rewrite (has_edge_kid G u v i j Hi Hv). exact Hj.
Qed.
Lemma rd_get u i : kid G u = Some i -> vget rd i = if dng u then None else Some (rsum G true nodes u).
Proof.
  intros Hi. assert (L : i < n) by (eapply kid_lt; eassumption). destruct (full_row G wf true) as [_ R]. specialize (R i L). rewrite (gw_sq G wf) in R.
  change (den_vec G (KRed Row RPlus SP)) with (den_red G Row RPlus SP). rewrite R. rewrite (row_has u i Hi).
  assert (E : oz (ored Z.add n (mget (g_A G) i)) = rsum G true nodes u).
  { rewrite oz_ored_plus. unfold rsum. symmetry. apply total_nodes; [assumption|]. intros v j Hj. unfold Spec_Linalg.adj, weight. rewrite Hi, Hj. unfold oz. destruct (mget (g_A G) i j); reflexivity. }
  change (nrows (g_A G)) with n. destruct (ored Z.add n (mget (g_A G) i)) as [z|]; cbn [has negb]; [cbn in E; congruence|reflexivity].
Qed.
Lemma rd_size : vsize rd = n.
Proof. cbn [den_vec den_red]. apply vsize_vbuild. Qed.
Lemma nvals_lt (X : Type) (S : vec X) : vsize S = n -> (forall u i, kid G u = Some i -> has (vget S i) = negb (dng u)) ->
  (nvals S <? n) = existsb dng nodes.
Proof.
  intros Hs H. apply eq_true_iff_eq. rewrite Nat.ltb_lt, existsb_exists. unfold nvals. rewrite Hs. split.
  - intros L. apply cnt_lt_n in L as (i & Li & Hf). destruct (kid_key G wf i Li) as [u Hu]. exists u. split; [apply node_kid; eauto|].
    rewrite (H u i Hu) in Hf. apply negb_false_iff in Hf. exact Hf.
  - intros (u & Hu & Hd). apply node_kid in Hu as [i Hi]. pose proof (kid_lt G wf _ _ Hi) as Li. apply cnt_lt_n. exists i. split; [exact Li|]. rewrite (H u i Hi), Hd. reflexivity.
Qed.

Section Step.
Variable alpha : Qc.
Variables pers dang : option (list (nkey * Qc)).
Notation p := (distr nodes pers).
Notation dw := (distr nodes (pr_dangling pers dang)).
Notation F := (pr_round G alpha pers dang).
Definition moves (u v : nkey) : Qc := if dng u then 0%Qc else (qz (Spec_Linalg.adj G true u v) / qz (rsum G true nodes u))%Qc.
Lemma pr_split f v : F f v = ((1 - alpha) * p v + qtotal (fun u => f u * ind (dng u)) nodes * (alpha * dw v) + alpha * qtotal (fun u => f u * moves u v) nodes)%Qc.
Proof.
  unfold pr_round, pr_next. rewrite <- Qcplus_assoc. f_equal.
  transitivity (alpha * (qtotal (fun u => f u * ind (dng u) * dw v) nodes + qtotal (fun u => f u * moves u v) nodes))%Qc.
  - f_equal. rewrite <- qtotal_add. apply qtotal_ext. intros u _. unfold step, moves, ind. destruct (dng u); ring.
  - rewrite qtotal_scale_r. ring.
Qed.

(** the scaled inverse degrees, in both forms *)
Variable first : bool.
Variable z : Z.
Hypothesis Hiso : first = true -> forall u v x, weight G u v = Some x -> x = z.
Hypothesis NZ : rows_nonzero G true nodes.
Definition scale_ok (S : vec Qc) : Prop := vsize S = n /\
  forall u i, kid G u = Some i -> vget S i = if dng u then None else Some (alpha / qz (rsum G true nodes u) * (if first then qz z else 1))%Qc.
Lemma scale_has S u i : scale_ok S -> kid G u = Some i -> has (vget S i) = negb (dng u).
Proof. intros [_ H] Hi. rewrite (H u i Hi). destruct (dng u); reflexivity. Qed.
Lemma spread_ok S x f : scale_ok S -> rep x f ->
  rep (vxm_sr first (vinter Qcmult x S) (g_A G)) (fun v => alpha * qtotal (fun u => f u * moves u v) nodes)%Qc.
Proof.
  intros [Ss HS] Hx.
  assert (RS : rep S (fun u => if dng u then 0%Qc else (alpha / qz (rsum G true nodes u) * (if first then qz z else 1))%Qc)).
  { split; [assumption|]. intros u i Hi. rewrite (HS u i Hi). destruct (dng u); reflexivity. }
  eapply rep_ext; [apply (rep_vxm G wf first); apply rep_inter; eassumption|].
  intros v Hv. cbv beta. rewrite <- qtotal_scale. apply qtotal_ext. intros u Hu. unfold moves. destruct (dng u) eqn:Ed; [ring|].
  assert (E : ((if first then qz z else 1) * (if first then ind (has_edge G u v) else qz (Spec_Linalg.adj G true u v)) = qz (Spec_Linalg.adj G true u v))%Qc).
  { destruct first eqn:Ef; [|ring]. unfold has_edge, ind, Spec_Linalg.adj. destruct (weight G u v) as [x0|] eqn:Ew; cbn [has].
    - rewrite (Hiso eq_refl u v x0 Ew). ring.
    - change (qz 0) with 0%Qc. ring. }
  rewrite <- E at 2. unfold Qcdiv. ring.
Qed.
(** what is added for dangling nodes *)
Definition mask_ok (q : Qc) (m : vec Qc) : Prop := vsize m = n /\ forall u i, kid G u = Some i -> vget m i = if dng u then Some q else None.
Definition mode_ok (d : dmode) : Prop :=
  match d with
  | DNone => existsb dng nodes = false
  | DFast m => existsb dng nodes = true /\ pers = None /\ dang = None /\ mask_ok (alpha * (1 / qn n))%Qc m
  | DVec m w => existsb dng nodes = true /\ mask_ok 1%Qc m /\ rep w (fun v => alpha * dw v)%Qc
  end.
Lemma mask_rep q m : mask_ok q m -> rep m (fun u => ind (dng u) * q)%Qc.
Proof. intros [S H]. split; [assumption|]. intros u i Hi. rewrite (H u i Hi). unfold ind. destruct (dng u); cbn; ring. Qed.
Lemma has_none {X} (o : option X) : o = None -> has o = false. Proof. intros ->. reflexivity. Qed.
Lemma dot_none {W} (mul : Qc -> Qc -> W) add x f q m : rep x f -> mask_ok q m -> existsb dng nodes = true -> vdot add mul x m = None ->
  zero_on_dangling G f /\ ~ full G x.
Proof.
  intros [Sx Hx] [Sm Hm] He Hd. unfold vdot in Hd. rewrite ored_none in Hd. rewrite Sx in Hd.
  assert (A : forall u i, kid G u = Some i -> dng u = true -> vget x i = None).
  { intros u i Hi Hu. specialize (Hd i (kid_lt G wf _ _ Hi)). rewrite (Hm u i Hi), Hu in Hd. destruct (vget x i); [discriminate|reflexivity]. }
  apply existsb_exists in He as (u & Hu & Hdu). split.
  - split; [exists u; auto|]. intros v Hv Hdv. apply node_kid in Hv as [j Hj]. rewrite <- (Hx v j Hj), (A v j Hj Hdv). reflexivity.
  - intros Hf. apply node_kid in Hu as [i Hi]. specialize (Hf i (kid_lt G wf _ _ Hi)). rewrite (A u i Hi Hdu) in Hf. discriminate.
Qed.
Lemma dot_first x f m : rep x f -> mask_ok 1%Qc m -> oq (vdot Qcplus op_first x m) = qtotal (fun u => f u * ind (dng u))%Qc nodes.
Proof.
  intros [S1 H1] [S2 H2]. unfold vdot. rewrite gsum_oq, S1. symmetry. apply (qtotal_nodes G wf). intros u i Hi.
  rewrite <- (H1 u i Hi), (H2 u i Hi). unfold ind. destruct (vget x i), (dng u); cbn; unfold op_first; ring.
Qed.
Lemma union_has {X} op (a b : vec X) i : vsize a = vsize b -> has (vget a i) = true -> has (vget (vunion op a b) i) = true.
Proof. intros Hs Ha. rewrite vget_vunion by assumption. destruct (vget a i), (vget b i); cbn in *; congruence. Qed.
Lemma step_ok em S p1 d x f : scale_ok S -> rep p1 p -> (pers = None -> full G p1) -> mode_ok d -> rep x f ->
  match pr_step em first (g_A G) S (vmap (fun y => y * (1 - alpha))%Qc p1) d x with
  | Val x' => rep x' (F f) /\ (pers = None -> full G x')
  | Raise e => e = EValue /\ em = true /\ zero_on_dangling G f /\ ~ full G x
  end.
Proof.
  intros HS Hp Hfp Hd Hx. set (p' := vmap (fun y => y * (1 - alpha))%Qc p1).
  assert (Rp : rep p' (fun v => (1 - alpha) * p v)%Qc).
  { eapply rep_ext; [apply (rep_map G (fun y => y * (1 - alpha))%Qc); [ring|exact Hp]|]. intros v _. cbv beta. ring. }
  assert (Fp : pers = None -> full G p').
  { intros E i Li. unfold p'. rewrite vget_vmap. specialize (Hfp E i Li). destruct (vget p1 i); [reflexivity|discriminate]. }
  pose proof (spread_ok S x f HS Hx) as RW. set (w := vxm_sr first (vinter Qcmult x S) (g_A G)) in *.
  assert (K : forall a, rep a (fun v => (1 - alpha) * p v + qtotal (fun u => f u * ind (dng u)) nodes * (alpha * dw v))%Qc ->
     (pers = None -> full G a) -> rep (vunion Qcplus a w) (F f) /\ (pers = None -> full G (vunion Qcplus a w))).
  { intros a Ra Fa. split.
    - eapply rep_ext; [apply rep_union; eassumption|]. intros v _. cbv beta. symmetry. apply pr_split.
    - intros E i Li. apply union_has; [rewrite (proj1 Ra); symmetry; apply RW|]. apply Fa; assumption. }
  assert (Z0 : existsb dng nodes = false -> qtotal (fun u => f u * ind (dng u))%Qc nodes = 0%Qc).
  { intros He. rewrite <- (qtotal_zero nodes). apply qtotal_ext. intros u Hu. unfold ind. destruct (dng u) eqn:Ed; [|ring].
    assert (existsb dng nodes = true) by (apply existsb_exists; eauto). congruence. }
  assert (Z1 : zero_on_dangling G f -> qtotal (fun u => f u * ind (dng u))%Qc nodes = 0%Qc).
  { intros [_ H]. rewrite <- (qtotal_zero nodes). apply qtotal_ext. intros u Hu. unfold ind. destruct (dng u) eqn:Ed; [|ring].
    rewrite (H u Hu Ed). ring. }
  assert (P0 : qtotal (fun u => f u * ind (dng u))%Qc nodes = 0%Qc -> rep p' (fun v => (1 - alpha) * p v + qtotal (fun u => f u * ind (dng u)) nodes * (alpha * dw v))%Qc).
  { intros E. eapply rep_ext; [exact Rp|]. intros v _. cbv beta. rewrite E. ring. }
  unfold pr_step. destruct d as [|m|m wv]; cbn [mode_ok] in Hd.
  - fold w. apply K; auto.
  - destruct Hd as (He & Ep & Edg & Hm). pose proof (rep_dot G wf x m f _ Hx (mask_rep _ m Hm)) as Hdot.
    destruct (vdot Qcplus Qcmult x m) as [c|] eqn:Ec.
    + fold w. cbn [oq oget] in Hdot. apply K.
      * assert (Fp' := Fp Ep). destruct Rp as [Sp Hp']. split; [unfold vmap at 1; rewrite vsize_vbuild; exact Sp|]. intros u i Hi. rewrite vget_vmap.
        specialize (Fp' i (kid_lt G wf _ _ Hi)). pose proof (Hp' u i Hi) as Hv. destruct (vget p' i) as [y|]; [|discriminate]. cbn [omap oq oget] in *.
        rewrite Hv, Hdot. f_equal. rewrite Ep, Edg. cbn [pr_dangling distr]. rewrite <- qtotal_scale_r. apply qtotal_ext. intros u' _.
        unfold qlen, qn. rewrite (nodes_len G wf). change zq with qz. ring.
      * intros E i Li. rewrite vget_vmap. specialize (Fp E i Li). destruct (vget p' i); [reflexivity|discriminate].
    + destruct (dot_none Qcmult Qcplus x f _ m Hx Hm He Ec) as [H1 H2]. destruct em; [auto|]. fold w. apply K; auto.
  - destruct Hd as (He & Hm & Rw). pose proof (dot_first x f m Hx Hm) as Hdot.
    destruct (vdot Qcplus op_first x m) as [c|] eqn:Ec.
    + fold w. cbn [oq oget] in Hdot. subst c. set (c := qtotal (fun u => f u * ind (dng u))%Qc nodes) in *.
      assert (Rc : rep (vmap (fun y => c * y)%Qc wv) (fun v => c * (alpha * dw v))%Qc) by (apply (rep_map G (fun y => c * y)%Qc); [ring|exact Rw]).
      apply K; [apply rep_union; assumption|]. intros E i Li. apply union_has; [rewrite (proj1 Rp); symmetry; apply Rc|apply Fp; assumption].
    + destruct (dot_none op_first Qcplus x f _ m Hx Hm He Ec) as [H1 H2]. destruct em; [auto|]. fold w. apply K; auto.
Qed.
End Step.

Lemma skeeps_dict_vec d : skeeps (dict_vec G d).
Proof. destruct d; unfold dict_vec; skp. Qed.
Lemma dict_iso d : is_dict d -> answers_iso G (dict_vec G d) (fun o =>
  match o with
  | Val None => d = None
  | Val (Some v) => exists d', d = Some d' /\ rep v (dval d') /\ forall u i, kid G u = Some i -> (has (vget v i) = true <-> In u (map fst d'))
  | Raise e => (e = EKey /\ foreign G d) \/ (e = EValue /\ no_entries d)
  end).
Proof. intros H. apply iso_keep; [apply skeeps_dict_vec|apply dict_vec_ok; assumption]. Qed.
Lemma share_ok v d : rep v (dval d) ->
  match share v with
  | Val x => rep x (distr nodes (Some d)) /\ ~ sums_to_zero nodes (Some d)
  | Raise e => e = EZeroDiv /\ sums_to_zero nodes (Some d)
  end.
Proof.
  intros R. unfold share. rewrite (rep_sum G wf _ _ R). destruct (is0 (qtotal (dval d) nodes)) eqn:E.
  - apply is0_iff in E. split; [reflexivity|]. exists d. auto.
  - split.
    + apply (rep_map G (fun y => y / qtotal (dval d) nodes)%Qc); [unfold Qcdiv; ring|assumption].
    + intros (d' & [= <-] & H). apply is0_iff in H. congruence.
Qed.
Lemma uniform_ok : rep (vconst n (1 / qn n)%Qc) (distr nodes None) /\ full G (vconst n (1 / qn n)%Qc) /\ ~ sums_to_zero nodes None.
Proof.
  split; [|split].
  - eapply rep_ext; [apply (rep_const G wf)|]. intros u _. cbn [distr]. unfold qlen. rewrite (nodes_len G wf). reflexivity.
  - intros i Li. unfold vconst. rewrite vget_vbuild_lt by assumption. reflexivity.
  - intros (d & H & _). discriminate.
Qed.
(** a vector argument stands for the dict argument [d] *)
Definition arg_ok (d : option (list (nkey * Qc))) (o : option (vec Qc)) : Prop :=
  match o with None => d = None | Some v => exists d', d = Some d' /\ rep v (dval d') end.
Lemma init_ok d o : arg_ok d o ->
  match match o with None => Val (vconst n (1 / qn n)%Qc) | Some v => share v end with
  | Val x => rep x (distr nodes d) /\ (d = None -> full G x) /\ ~ sums_to_zero nodes d
  | Raise e => e = EZeroDiv /\ sums_to_zero nodes d
  end.
Proof.
  destruct o as [v|]; cbn [arg_ok].
  - intros (d' & -> & R). pose proof (share_ok v d' R) as H. destruct (share v); [|assumption]. destruct H as [H1 H2]. repeat split; try apply H1; try discriminate; assumption.
  - intros ->. destruct uniform_ok as (H1 & H2 & H3). auto.
Qed.

Section Main.
Variables (em : bool) (alpha : Qc) (pers nstart dang : option (list (nkey * Qc))) (max_iter : nat) (tol : Qc).
Notation F := (pr_round G alpha pers dang).
Notation x0 := (distr nodes nstart).
(** the outcome of pagerank *)
Definition pagerank_ans (o : outcome (option (nodemap Qc))) : Prop :=
  match o with
  | Val None => nodes = []
  | Val (Some m) =>
      ~ sums_to_zero nodes nstart /\ ~ sums_to_zero nodes pers /\ ~ sums_to_zero nodes (used G dang) /\
      exists k, first_settled G F x0 tol max_iter k /\ is_map m (fun u q => node G u /\ q = iterate F k x0 u)
  | Raise EConv => never_settled G F x0 tol max_iter
  | Raise EKey => foreign G nstart \/ foreign G pers \/ foreign G (used G dang)
  | Raise EZeroDiv => sums_to_zero nodes nstart \/ sums_to_zero nodes pers \/ sums_to_zero nodes (used G dang)
  | Raise EValue => no_entries nstart \/ no_entries pers \/ no_entries (used G dang) \/
      (em = true /\ exists k, k < max_iter /\ (k = 0 -> nstart <> None) /\ (k <> 0 -> pers <> None) /\ zero_on_dangling G (iterate F k x0))
  | Raise _ => False
  end.
Lemma pagerank_core xs ps ds : arg_ok nstart xs -> arg_ok pers ps -> arg_ok (used G dang) ds ->
  rows_nonzero G true nodes -> (exists u v, edge G u v) ->
  answers_iso G (r <- pagerank em G alpha ps max_iter tol xs ds rd ;; ret (Some (to_nodemap_fill G 0%Qc r))) pagerank_ans.
Proof.
  intros Hx Hp Hd NZ (eu & ev & (ew & He)).
  assert (NE : (mnvals (g_A G) =? 0) = false).
  { apply Nat.eqb_neq. intros E. pose proof (proj1 (mnvals_zero (g_A G) ltac:(apply wf)) E) as E'. clear E. unfold weight in He.
    destruct (kid G eu) as [i|]; [|discriminate]. destruct (kid G ev) as [j|]; [|discriminate]. rewrite E' in He. discriminate. }
  unfold pagerank. rewrite NE. change (nrows (g_A G)) with n.
  pose proof (init_ok nstart xs Hx) as Ix. pose proof (init_ok pers ps Hp) as Ip.
  destruct (match xs with None => _ | Some v => share v end) as [x|e].
  2:{ eapply iso_bind_e; [eapply iso_bind_e; [apply iso_lifto; reflexivity|reflexivity]|]. destruct Ix as [-> Ix]. cbn. auto. }
  destruct (match ps with None => _ | Some v => share v end) as [p1|e].
  2:{ eapply iso_bind_e; [eapply iso_bind_v; [apply iso_lifto; reflexivity|]; eapply iso_bind_e; [apply iso_lifto; reflexivity|reflexivity]|].
      destruct Ip as [-> Ip]. cbn. auto. }
  destruct Ix as (Rx & Fx & Zx). destruct Ip as (Rp & Fp & Zp).
  (* the scale vector *)
  assert (IsoH : exists z, match den_iso G with Some o => o = Some z /\ forall u v x, weight G u v = Some x -> x = z | None => True end).
  { destruct (den_iso G) as [o|] eqn:Eo; [|exists 0%Z; exact I].
    assert (Eg : g_iso G = true) by (unfold den_iso in Eo; destruct (g_iso G); [reflexivity|discriminate]).
    destruct (iso_den G wf) as (z & Hz & Hall & _); [|assumption|].
    - intros _. unfold weight in He. destruct (kid G eu) as [i|]; [|discriminate]. destruct (kid G ev) as [j|]; [|discriminate]. eauto.
    - exists z. rewrite Hz in Eo. injection Eo as <-. split; [reflexivity|]. intros u v w Hw. unfold weight in Hw.
      destruct (kid G u) as [i|]; [|discriminate]. destruct (kid G v) as [j|]; [|discriminate]. eapply Hall; eassumption. }
  destruct IsoH as (z & IsoH). set (first := has (den_iso G)).
  assert (Hiso : first = true -> forall u v x, weight G u v = Some x -> x = z).
  { unfold first. destruct (den_iso G); [|discriminate]. intros _. apply IsoH. }
  set (S0 := vmap (fun d => alpha / zq d)%Qc rd).
  set (S1 := match den_iso G with Some o => if (oget 1 o =? 1)%Z then S0 else vmap (fun y => y * zq (oz o))%Qc S0 | None => S0 end).
  assert (HS : scale_ok alpha first z S1).
  { assert (A : vsize S0 = n /\ forall u i, kid G u = Some i -> vget S0 i = if dng u then None else Some (alpha / qz (rsum G true nodes u))%Qc).
    { split; [unfold S0, vmap; rewrite vsize_vbuild; apply rd_size|]. intros u i Hi. unfold S0. rewrite vget_vmap, (rd_get u i Hi). destruct (dng u); reflexivity. }
    destruct A as [A1 A2]. unfold S1, first, scale_ok. destruct (den_iso G) as [o|]; cbn [has].
    - destruct IsoH as [-> _]. cbn [oget oz]. destruct (Z.eqb_spec z 1) as [->|_].
      + split; [assumption|]. intros u i Hi. rewrite (A2 u i Hi). destruct (dng u); [reflexivity|]. f_equal. change (qz 1) with 1%Qc. ring.
      + split; [unfold vmap at 1; rewrite vsize_vbuild; assumption|]. intros u i Hi. rewrite vget_vmap, (A2 u i Hi). destruct (dng u); reflexivity.
    - split; [assumption|]. intros u i Hi. rewrite (A2 u i Hi). destruct (dng u); [reflexivity|]. f_equal. ring. }
  pose proof (nvals_lt Qc S1 (proj1 HS) (fun u i => scale_has alpha first z S1 u i HS)) as Hnv.
  set (mask := vassign (mNS S1) 1%Qc (vempty n)).
  assert (HM : mask_ok 1%Qc mask).
  { split; [unfold mask, vassign; rewrite vsize_vbuild; apply vsize_vbuild|]. intros u i Hi. unfold mask. rewrite vget_vassign. unfold vempty at 1. rewrite vsize_vbuild.
    destruct (Nat.ltb_spec i n) as [_|L]; [|pose proof (kid_lt G wf _ _ Hi); unfold glen in L; lia]. unfold mNS. rewrite (scale_has alpha first z S1 u i HS Hi), vget_vempty.
    destruct (dng u); reflexivity. }
  set (dm := if nvals S1 <? n then
                match ds, ps with
                | Some dv, _ => let s := vsumq dv in
                    if is0 s then Raise EZeroDiv else Val (DVec mask (vmap (fun y => alpha / s * y)%Qc dv))
                | None, None => Val (DFast (vassign (mS mask) (alpha * (1 / qn n))%Qc mask))
                | None, Some _ => Val (DVec mask (vmap (fun y => alpha * y)%Qc p1))
                end
              else Val DNone).
  assert (HD : match dm with Val d => mode_ok alpha pers dang d /\ ~ sums_to_zero nodes (used G dang) | Raise e => e = EZeroDiv /\ sums_to_zero nodes (used G dang) end).
  { unfold dm. rewrite Hnv. destruct (existsb dng nodes) eqn:Ex.
    2:{ split; [exact Ex|]. unfold used. rewrite Ex. intros (d & H & _). discriminate. }
    unfold used in *. rewrite Ex in *. destruct ds as [dv|]; cbn [arg_ok] in Hd.
    - destruct Hd as (d' & -> & Rd). cbv zeta. rewrite (rep_sum G wf _ _ Rd). destruct (is0 (qtotal (dval d') nodes)) eqn:E0.
      + apply is0_iff in E0. split; [reflexivity|]. exists d'. auto.
      + split; [|intros (d & [= <-] & H); apply is0_iff in H; congruence]. split; [assumption|]. split; [assumption|].
        eapply rep_ext; [apply (rep_map G (fun y => alpha / qtotal (dval d') nodes * y)%Qc); [ring|exact Rd]|]. intros v _. cbn [pr_dangling distr]. unfold Qcdiv. ring.
    - subst dang. destruct ps as [pv|]; cbn [arg_ok] in Hp.
      + split; [|intros (d & H & _); discriminate]. split; [assumption|]. split; [assumption|]. apply (rep_map G (fun y => alpha * y)%Qc); [ring|exact Rp].
      + split; [|intros (d & H & _); discriminate]. split; [assumption|]. split; [assumption|]. split; [reflexivity|].
        destruct HM as [M1 M2]. split; [unfold vassign; rewrite vsize_vbuild; assumption|]. intros u i Hi. rewrite vget_vassign, M1.
        destruct (Nat.ltb_spec i n) as [_|L]; [|pose proof (kid_lt G wf _ _ Hi); unfold glen in L; lia]. unfold mS. rewrite (M2 u i Hi). destruct (dng u); reflexivity. }
  assert (PK : forall d, dm = Val d ->
    match power (pr_step em first (g_A G) S1 (vmap (fun y => y * (1 - alpha))%Qc p1) d) id tol max_iter x with
    | Val r => exists k, first_settled G F x0 tol max_iter k /\ rep r (iterate F k x0)
    | Raise e => (e = EConv /\ never_settled G F x0 tol max_iter) \/ exists k, k < max_iter /\ (e = EValue /\ em = true /\ (k = 0 -> nstart <> None) /\ (k <> 0 -> pers <> None) /\ zero_on_dangling G (iterate F k x0))
    end).
  { intros d Ed. rewrite Ed in HD. destruct HD as [HD _].
    pose proof (power_ok G wf (pr_step em first (g_A G) S1 (vmap (fun y => y * (1 - alpha))%Qc p1) d) id tol F x0 max_iter
      (fun k y => rep y (iterate F k x0) /\ (k = 0 -> nstart = None -> full G y) /\ (k <> 0 -> pers = None -> full G y))
      (fun k e => e = EValue /\ em = true /\ (k = 0 -> nstart <> None) /\ (k <> 0 -> pers <> None) /\ zero_on_dangling G (iterate F k x0))) as PW.
    specialize (PW ltac:(intros k y H; apply H)).
    assert (ST : forall k y, k < max_iter -> (rep y (iterate F k x0) /\ (k = 0 -> nstart = None -> full G y) /\ (k <> 0 -> pers = None -> full G y)) ->
      match pr_step em first (g_A G) S1 (vmap (fun y => y * (1 - alpha))%Qc p1) d y with
      | Val x' => rep x' (iterate F (S k) x0) /\ (S k = 0 -> nstart = None -> full G x') /\ (S k <> 0 -> pers = None -> full G x')
      | Raise e => e = EValue /\ em = true /\ (k = 0 -> nstart <> None) /\ (k <> 0 -> pers <> None) /\ zero_on_dangling G (iterate F k x0)
      end).
    { intros k y _ (Ry & F1 & F2). pose proof (step_ok alpha pers dang first z Hiso em S1 p1 d y (iterate F k x0) HS Rp Fp HD Ry) as H.
      destruct (pr_step em first (g_A G) S1 _ d y) as [x'|e].
      - destruct H as [H1 H2]. split; [exact H1|]. split; [discriminate|auto].
      - destruct H as (H1 & H2 & H3 & H4). repeat split; auto; try (intros E1 E2; apply H4; auto); apply H3. }
    specialize (PW ST x). cbn beta in PW. specialize (PW (conj Rx (conj (fun _ => Fx) (fun H => False_ind _ (H eq_refl))))).
    destruct (power _ id tol max_iter x) as [r|e]; [|exact PW]. destruct PW as (k & H1 & H2 & _). eauto. }
  destruct dm as [d|e] eqn:Edm.
  - specialize (PK d eq_refl). eapply iso_bind with (R := fun o => match o with Val r => exists k, first_settled G F x0 tol max_iter k /\ rep r (iterate F k x0)
      | Raise e => (e = EConv /\ never_settled G F x0 tol max_iter) \/ exists k, k < max_iter /\ (e = EValue /\ em = true /\ (k = 0 -> nstart <> None) /\ (k <> 0 -> pers <> None) /\ zero_on_dangling G (iterate F k x0)) end).
    + eapply iso_bind_v; [apply iso_lifto; reflexivity|]. eapply iso_bind_v; [apply iso_lifto; reflexivity|].
      eapply iso_bind_v; [apply iso_get; assumption|]. fold S0. fold first. fold S1. fold mask. fold dm. rewrite Edm.
      eapply iso_bind_v; [apply iso_lifto; reflexivity|]. apply iso_lifto. exact PK.
    + intros r (k & H1 & H2). apply iso_ret. cbn [pagerank_ans]. split; [assumption|]. split; [assumption|]. split; [apply HD|]. exists k. split; [assumption|].
      apply (is_map_fill G wf). intros u i Hi. symmetry. apply H2. assumption.
    + intros e [[-> H]|(k & L & -> & H)]; cbn [pagerank_ans]; [assumption|]. right. right. right. split; [apply H|]. exists k. split; [assumption|]. apply H.
  - destruct HD as [-> HD]. eapply iso_bind_e with (e := EZeroDiv); [|right; right; exact HD].
    eapply iso_bind_v; [apply iso_lifto; reflexivity|]. eapply iso_bind_v; [apply iso_lifto; reflexivity|].
    eapply iso_bind_v; [apply iso_get; assumption|]. fold S0. fold first. fold S1. fold mask. fold dm. rewrite Edm.
    eapply iso_bind_e; [apply iso_lifto; reflexivity|reflexivity].
Qed.

Hypothesis D1 : is_dict nstart.
Hypothesis D2 : is_dict pers.
Hypothesis D3 : is_dict dang.
(** ** C57: what pagerank returns, or why it raises *)
Theorem C57_pagerank : rows_nonzero G true nodes -> (exists u v, edge G u v) ->
  answers_iso G (nx_pagerank em G alpha pers max_iter tol nstart dang) pagerank_ans.
Proof.
  intros NZ HE. unfold nx_pagerank.
  assert (N0 : (n =? 0) = false).
  { apply Nat.eqb_neq. intros E. destruct HE as (u & v & (w & Hw)). apply weight_nodes in Hw as [Hu _]. apply node_kid in Hu as [i Hi].
    pose proof (kid_lt G wf _ _ Hi) as L. unfold glen in E. lia. }
  rewrite N0. eapply iso_bind; [apply dict_iso; assumption| |intros e [[-> H]|[-> H]]; cbn; auto].
  intros xs Hx. eapply iso_bind; [apply dict_iso; assumption| |intros e [[-> H]|[-> H]]; cbn; auto].
  intros ps Hp. eapply iso_bind_v; [apply iso_keep; [apply skeeps_red_plus|eapply answers_GV; [apply (get_red_ok G wf true eq_refl)|reflexivity]]|]. cbn [msk].
  assert (Hnv : (nvals rd <? n) = existsb dng nodes).
  { apply nvals_lt; [apply rd_size|]. intros u i Hi. rewrite (rd_get u i Hi). destruct (dng u); reflexivity. }
  assert (HC : forall ds, arg_ok (used G dang) ds -> answers_iso G (r <- pagerank em G alpha ps max_iter tol xs ds rd ;; ret (Some (to_nodemap_fill G 0%Qc r))) pagerank_ans).
  { intros ds Hd. apply pagerank_core; try assumption.
    - destruct xs; [destruct Hx as (d' & -> & R & _); exists d'; auto|exact Hx].
    - destruct ps; [destruct Hp as (d' & -> & R & _); exists d'; auto|exact Hp]. }
  change (den_vec G (KRed Row RPlus SP)) with (den_red G Row RPlus SP) in *. rewrite Hnv.
  destruct (existsb dng nodes) eqn:Ex; [|rewrite andb_false_r; eapply iso_bind_v; [apply iso_ret; reflexivity|]; apply HC; unfold used; rewrite Ex; reflexivity].
  rewrite andb_true_r. destruct dang as [dd|] eqn:Ed; cbn [has].
  - rewrite <- Ed in *. eapply iso_bind; [apply dict_iso; rewrite Ed; rewrite <- Ed; assumption| |].
    + intros ds Hd. apply HC. unfold used. rewrite Ex. destruct ds; [destruct Hd as (d' & E' & R & _); exists d'; auto|exact Hd].
    + assert (U : used G dang = dang) by (unfold used; rewrite Ex; reflexivity). intros e [[-> H]|[-> H]]; cbn; rewrite U; auto.
  - eapply iso_bind_v; [apply iso_ret; reflexivity|]. apply HC. unfold used. rewrite Ex. reflexivity.
Qed.
(** the empty graph: an empty dict *)
Theorem C57_pagerank_empty : nodes = [] -> answers_iso G (nx_pagerank em G alpha pers max_iter tol nstart dang) (eq (Val None)).
Proof.
  intros E. unfold nx_pagerank. assert (N0 : n = 0) by (rewrite <- (nodes_len G wf), E; reflexivity). rewrite N0. apply iso_ret. reflexivity.
Qed.
(** nodes but no edges: zero for every node (networkx: the personalisation), unless an argument is
    refused *)
Theorem C57_edgeless_exact : nodes <> [] -> (forall u v, ~ edge G u v) ->
  answers_iso G (nx_pagerank em G alpha pers max_iter tol nstart dang) (fun o =>
    match o with
    | Val None => False
    | Val (Some m) => is_map m (fun u q => node G u /\ q = 0%Qc)
    | Raise EKey => foreign G nstart \/ foreign G pers \/ foreign G dang
    | Raise EValue => no_entries nstart \/ no_entries pers \/ no_entries dang
    | Raise _ => False
    end).
Proof.
  intros NE HE. unfold nx_pagerank.
  assert (N0 : (n =? 0) = false).
  { apply Nat.eqb_neq. rewrite <- (nodes_len G wf). destruct nodes; [congruence|discriminate]. }
  assert (E0 : (mnvals (g_A G) =? 0) = true).
  { apply Nat.eqb_eq. apply (mnvals_zero (g_A G) ltac:(apply wf)). intros i j. destruct (mget (g_A G) i j) as [w|] eqn:E; [|reflexivity]. exfalso.
    assert (L : i < n /\ j < n).
    { destruct (lt_dec i n) as [Li|Li]; [destruct (lt_dec j n) as [Lj|Lj]; [auto|]|]; rewrite mget_out in E; try discriminate; try apply wf.
      - right. apply Nat.nlt_ge in Lj. rewrite (gw_sq G wf). exact Lj.
      - left. apply Nat.nlt_ge in Li. exact Li. }
    destruct (kid_key G wf i (proj1 L)) as [u Hu]. destruct (kid_key G wf j (proj2 L)) as [v Hv]. apply (HE u v). exists w. unfold weight. rewrite Hu, Hv. exact E. }
  rewrite N0. eapply iso_bind; [apply dict_iso; assumption| |intros e [[-> H]|[-> H]]; auto].
  intros xs _. eapply iso_bind; [apply dict_iso; assumption| |intros e [[-> H]|[-> H]]; auto].
  intros ps _. eapply iso_bind_v; [apply iso_keep; [apply skeeps_red_plus|eapply answers_GV; [apply (get_red_ok G wf true eq_refl)|reflexivity]]|]. cbn [msk].
  eapply iso_bind with (R := fun o => match o with Val _ => True | Raise e => (e = EKey /\ foreign G dang) \/ (e = EValue /\ no_entries dang) end).
  - destruct (has dang && _); [|apply iso_ret; exact I]. eapply iso_conseq; [apply dict_iso; assumption|]. intros [x|e] H; [exact I|exact H].
  - intros ds _. unfold pagerank. rewrite E0. eapply iso_bind_v; [apply iso_ret; reflexivity|]. apply iso_ret.
    apply (is_map_fill G wf). intros u i _. rewrite vget_vempty. reflexivity.
  - intros e [[-> H]|[-> H]]; auto.
Qed.
End Main.

(** ** Consequences *)
Lemma distr_used dang u : existsb dng nodes = true -> distr nodes (used G dang) u = distr nodes dang u.
Proof. intros E. unfold used. rewrite E. reflexivity. Qed.
Lemma used_mass pers dang u : nodes <> [] -> ~ sums_to_zero nodes pers -> ~ sums_to_zero nodes (used G dang) ->
  In u nodes -> dng u = true -> qtotal (distr nodes (pr_dangling pers dang)) nodes = 1%Qc.
Proof.
  intros Hl H1 H2 Hu Hd. apply distr_sum; [assumption|]. unfold pr_dangling. destruct dang as [d|]; [|assumption].
  assert (E : existsb dng nodes = true) by (apply existsb_exists; eauto). unfold used in H2. rewrite E in H2. assumption.
Qed.
(** the returned ranks sum to 1 *)
Theorem C57_mass em alpha pers max_iter tol nstart dang s m : is_dict nstart -> is_dict pers -> is_dict dang ->
  rows_nonzero G true nodes -> (exists u v, edge G u v) -> Inv G s -> iso_known s ->
  fst (nx_pagerank em G alpha pers max_iter tol nstart dang s) = Val (Some m) ->
  exists f, is_map m (fun u q => node G u /\ q = f u) /\ qtotal f nodes = 1%Qc.
Proof.
  intros D1 D2 D3 NZ HE HI HK E. destruct (C57_pagerank em alpha pers nstart dang max_iter tol D1 D2 D3 NZ HE s HI HK) as [H _].
  rewrite E in H. destruct H as (Z1 & Z2 & Z3 & k & _ & Hm). eexists. split; [exact Hm|].
  assert (NE : nodes <> []). { intros En. destruct HE as (u & v & (w & Hw)). apply weight_nodes in Hw as [Hu _]. unfold node in Hu. rewrite En in Hu. destruct Hu. }
  unfold pr_round. apply pr_mass_one; [assumption| | |apply distr_sum; assumption].
  - apply distr_sum; assumption.
  - intros u Hu Hd. eapply used_mass; eauto.
Qed.
(** with non-negative weights and distributions they are not negative, and one more round changes them by
    less than alpha * N * tol in total *)
Theorem C57_fixed_point em alpha pers max_iter tol nstart dang s m : is_dict nstart -> is_dict pers -> is_dict dang ->
  rows_nonzero G true nodes -> (exists u v, edge G u v) -> Inv G s -> iso_known s ->
  (forall u v x, weight G u v = Some x -> (0 <= x)%Z) -> nonneg_dict pers -> nonneg_dict dang -> (0 < alpha)%Qc ->
  fst (nx_pagerank em G alpha pers max_iter tol nstart dang s) = Val (Some m) ->
  exists f, is_map m (fun u q => node G u /\ q = f u) /\ (l1 G f (pr_round G alpha pers dang f) < alpha * (qlen nodes * tol))%Qc /\
    (nonneg_dict nstart -> (alpha <= 1)%Qc -> forall u, (0 <= f u)%Qc).
Proof.
  intros D1 D2 D3 NZ HE HI HK W N1 N2 A0 E. destruct (C57_pagerank em alpha pers nstart dang max_iter tol D1 D2 D3 NZ HE s HI HK) as [H _].
  rewrite E in H. destruct H as (Z1 & Z2 & Z3 & k & (Hk & Hset & _) & Hm). eexists. split; [exact Hm|].
  assert (ND : nonneg_dict (pr_dangling pers dang)) by (unfold pr_dangling; destruct dang; assumption).
  assert (NE : nodes <> []). { intros En. destruct HE as (u & v & (w & Hw)). apply weight_nodes in Hw as [Hu _]. unfold node in Hu. rewrite En in Hu. destruct Hu. }
  split.
  - unfold settled in Hset. destruct k as [|k]; [lia|]. replace (S k - 1) with k in Hset by lia. cbn [iterate] in *.
    eapply Qcle_lt_trans; [|apply Qc_mul_lt; [exact A0|exact Hset]]. unfold pr_round at 1 2. apply pr_contract; try assumption.
    + intros u Hu Hd. eapply used_mass; eauto.
    + intros a. apply distr_nonneg. assumption.
    + apply Qclt_le_weak. assumption.
  - intros N3 A1. apply pr_nonneg; try assumption.
    + intros a. apply distr_nonneg. assumption.
    + apply Qclt_le_weak. assumption.
    + intros a. apply distr_nonneg. assumption.
    + intros a. apply distr_nonneg. assumption.
Qed.
End P.

(** ** Where the property fails *)
(** a graph with nodes but no edges: every rank is 0, so they do not sum to 1 (networkx returns 1/N) *)
Theorem C57_edgeless_refuted : exists G, gwf G /\ (exists u, node G u) /\ forall em, exists m,
  fst (nx_pagerank em G (Q2Qc (17 # 20)) None 100 (Q2Qc (1 # 1000000)) None None st0) = Val (Some m) /\
  (forall u, node G u -> nm_getitem m u = Val 0%Qc) /\ qtotal (fun u => match nm_getitem m u with Val q => q | Raise _ => 0%Qc end) (gnodes G) <> 1%Qc.
Proof.
  exists (mkg true 2 []). split; [apply mkg_wf|]. split; [exists (KI 0); left; reflexivity|].
  intros em. eexists. split; [destruct em; vm_compute; reflexivity|]. split.
  - intros u Hu. unfold node in Hu. vm_compute in Hu. destruct Hu as [<-|[<-|[]]]; vm_compute; reflexivity.
  - intros H. apply (f_equal this) in H. vm_compute in H. discriminate.
Qed.
(** asking for is_iso first (as the shortest-path functions do) makes pagerank raise KeyError *)
Theorem C57_history_refuted : exists G s, gwf G /\ Inv G s /\ s = snd (is_iso G st0) /\ forall em,
  fst (nx_pagerank em G (Q2Qc (17 # 20)) None 100 (Q2Qc (1 # 10)) None None s) = Raise EKey /\
  exists m, fst (nx_pagerank em G (Q2Qc (17 # 20)) None 100 (Q2Qc (1 # 10)) None None st0) = Val (Some m).
Proof.
  exists (mkg true 3 [(0, 1, 2%Z); (1, 2, 3%Z); (1, 0, 1%Z)]). eexists. assert (wf : gwf (mkg true 3 [(0, 1, 2%Z); (1, 2, 3%Z); (1, 0, 1%Z)])) by (apply mkg_wf).
  split; [assumption|]. split; [|split; [reflexivity|]].
  - pose proof (is_iso_ok (mkg true 3 [(0, 1, 2%Z); (1, 2, 3%Z); (1, 0, 1%Z)]) true st0 (Inv_st0 _ true)) as H. unfold wp in H. destruct (is_iso _ st0) as [o s]. apply H.
  - intros em. split; [destruct em; vm_compute; reflexivity|]. eexists. destruct em; vm_compute; reflexivity.
Qed.

(** ** The hypotheses hold for concrete graphs *)
Definition g_pr : graph := mkg true 4 [(0, 1, 3%Z); (1, 2, 5%Z); (0, 2, 1%Z); (2, 0, 2%Z)].
Example C57_pagerank_ex : gwf g_pr /\ rows_nonzero g_pr true (gnodes g_pr) /\ (exists u v, edge g_pr u v) /\ Inv g_pr st0 /\ iso_known st0 /\
  (exists u, node g_pr u /\ dangling g_pr (gnodes g_pr) u = true) /\
  exists m, fst (nx_pagerank true g_pr (Q2Qc (17 # 20)) (Some [(KI 0, 1%Qc); (KI 3, qz 2)]) 100 (Q2Qc (1 # 20)) None None st0) = Val (Some m) /\
    nm_getitem m (KI 1) <> Val 0%Qc /\ nm_getitem m (KI 1) <> nm_getitem m (KI 0).
Proof.
  split; [apply mkg_wf|]. split.
  - apply rows_nonzero_positive. intros u v x. unfold weight. destruct (kid g_pr u) as [i|] eqn:Ei; [|discriminate]. destruct (kid g_pr v) as [j|] eqn:Ej; [|discriminate].
    apply dget_In in Ei. apply dget_In in Ej. vm_compute in Ei, Ej.
    destruct Ei as [[= <- <-]|[[= <- <-]|[[= <- <-]|[[= <- <-]|[]]]]]; destruct Ej as [[= <- <-]|[[= <- <-]|[[= <- <-]|[[= <- <-]|[]]]]]; vm_compute; intros [= <-]; reflexivity.
  - split; [exists (KI 0), (KI 1), 3%Z; vm_compute; reflexivity|]. split; [apply Inv_st0|]. split; [apply iso_known_st0|].
    split; [exists (KI 3); split; [right; right; right; left; reflexivity|vm_compute; reflexivity]|].
    eexists. split; [vm_compute; reflexivity|]. split; vm_compute; discriminate.
Qed.
(** three nodes, no edges *)
Example C57_edgeless_ex : let G := mkg true 3 [] in gwf G /\ gnodes G <> [] /\ (forall u v, ~ edge G u v) /\ Inv G st0 /\ iso_known st0 /\
  (forall em, exists m, fst (nx_pagerank em G (Q2Qc (17 # 20)) (Some ((KI 1, 1%Qc) :: nil)) 100 (Q2Qc (1 # 20)) None None st0) = Val (Some m)) /\
  foreign G (Some ((KI 7, 1%Qc) :: nil)) /\ forall em, fst (nx_pagerank em G (Q2Qc (17 # 20)) (Some ((KI 7, 1%Qc) :: nil)) 100 (Q2Qc (1 # 20)) None None st0) = Raise EKey.
Proof.
  intros G. split; [apply mkg_wf|]. split; [discriminate|]. split.
  - intros u v [w Hw]. pose proof (weight_nodes _ _ _ _ Hw) as [Hu Hv]. unfold node in Hu, Hv. vm_compute in Hu, Hv.
    destruct Hu as [<-|[<-|[<-|[]]]]; destruct Hv as [<-|[<-|[<-|[]]]]; vm_compute in Hw; discriminate.
  - split; [apply Inv_st0|]. split; [apply iso_known_st0|]. split; [intros em; eexists; destruct em; vm_compute; reflexivity|]. split.
    + exists ((KI 7, 1%Qc) :: nil), (KI 7), 1%Qc. split; [reflexivity|]. split; [left; reflexivity|]. intros H. vm_compute in H. intuition discriminate.
    + intros em. destruct em; vm_compute; reflexivity.
Qed.
Print Assumptions C57_pagerank.
Print Assumptions C57_mass.
Print Assumptions C57_fixed_point.
Print Assumptions C57_edgeless_exact.
Print Assumptions C57_edgeless_refuted.
Print Assumptions C57_history_refuted.
