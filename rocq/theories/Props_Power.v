(** * C58: eigenvector_centrality, katz_centrality, hits *)
From Verif Require Import Base BaseProofs Model_Graph Model_Cache Model_Keys Spec KeyProofs Spec_Cache CacheMath CacheProofs CacheProofs2 CacheHist
  Spec_Run RunProofs Spec_Count CountProofs Model_Measures Model_Cluster Spec_Cluster ClusterMath ClusterProofs OperatorProofs Props_Containers
  Spec_Iso IsoProofs WeightedProofs2 Concrete Model_Linalg Spec_Linalg Props_Linalg Model_Rank Spec_Rank RankProofs RankMath Props_Pagerank Props_Google.
From Coq Require Import Permutation QArith Qcanon Qcabs.
Open Scope nat_scope.

Section P.
Variable G : graph.
Hypothesis wf : gwf G.
Notation n := (glen G).
Notation nodes := (gnodes G).
Notation rep := (rep G).

Lemma n_zero : (n =? 0) = true -> nodes = [].
Proof. intros E. apply Nat.eqb_eq in E. rewrite <- (nodes_len G wf) in E. destruct nodes; [reflexivity|discriminate]. Qed.
Lemma n_nonzero : (n =? 0) = false -> nodes <> [].
Proof. intros E H. apply Nat.eqb_neq in E. apply E. rewrite <- (nodes_len G wf), H. reflexivity. Qed.
(** entries of a product *)
Lemma vxm_has first x v j : kid G v = Some j -> vsize x = n -> 
  (has (vget (vxm_sr first x (g_A G)) j) = true <-> exists u i, kid G u = Some i /\ has (vget x i) = true /\ edge G u v).
Proof.
  intros Hj Sx. unfold vxm_sr. rewrite vget_vxm by apply wf. rewrite has_ored_true. split.
  - intros (i & Li & Hi). destruct (kid_key G wf i Li) as [u Hu]. exists u, i. split; [assumption|]. destruct (vget x i) as [q|]; [|discriminate]. split; [reflexivity|].
    apply (has_edge_true G). rewrite (has_edge_kid G u v i j Hu Hj). destruct (mget (g_A G) i j); [reflexivity|discriminate].
  - intros (u & i & Hu & Hx & He). exists i. split; [eapply kid_lt; eassumption|]. apply (has_edge_true G) in He. rewrite (has_edge_kid G u v i j Hu Hj) in He.
    destruct (vget x i); [|discriminate]. destruct (mget (g_A G) i j); [reflexivity|discriminate].
Qed.
Lemma mxv_has x u i : kid G u = Some i -> vsize x = n ->
  (has (vget (mxv_t (g_A G) x) i) = true <-> exists v j, kid G v = Some j /\ has (vget x j) = true /\ edge G u v).
Proof.
  intros Hi Sx. unfold mxv_t. rewrite vget_mxv by apply wf. rewrite has_ored_true. rewrite (gw_sq G wf). split.
  - intros (j & Lj & Hj). destruct (kid_key G wf j Lj) as [v Hv]. exists v, j. split; [assumption|]. destruct (vget x j) as [q|]; [|destruct (mget (g_A G) i j); discriminate]. split; [reflexivity|].
    apply (has_edge_true G). rewrite (has_edge_kid G u v i j Hi Hv). destruct (mget (g_A G) i j); [reflexivity|discriminate].
  - intros (v & j & Hv & Hx & He). exists j. split; [eapply kid_lt; eassumption|]. apply (has_edge_true G) in He. rewrite (has_edge_kid G u v i j Hi Hv) in He.
    destruct (vget x j); [|discriminate]. destruct (mget (g_A G) i j); [reflexivity|discriminate].
Qed.
Lemma norm_has q x i : has (vget (normalize_by q x) i) = has (vget x i).
Proof. unfold normalize_by. destruct (is0 q); [reflexivity|]. rewrite vget_vmap. destruct (vget x i); reflexivity. Qed.
(** a start vector: uniform, or the dict divided by its sum *)
Lemma start_ok d o e0 : arg_ok G d o -> (forall v d', o = Some v -> d = Some d' -> forall u i, kid G u = Some i -> (has (vget v i) = true <-> In u (map fst d'))) ->
  match match o with None => Val (vconst n (1 / qn n)%Qc) | Some v => let s := vsumq v in if is0 s then Raise e0 else Val (vmap (fun y => y * (1 / s))%Qc v) end with
  | Val x => rep x (distr nodes d) /\ ~ sums_to_zero nodes d /\ forall u i, kid G u = Some i -> (has (vget x i) = true <-> given d u)
  | Raise e => e = e0 /\ sums_to_zero nodes d
  end.
Proof.
  destruct o as [v|]; cbn [arg_ok].
  - intros (d' & -> & R) K. cbv zeta. rewrite (rep_sum G wf _ _ R). destruct (is0 (qtotal (dval d') nodes)) eqn:E.
    + apply is0_iff in E. split; [reflexivity|]. exists d'. auto.
    + split; [|split].
      * eapply rep_ext; [apply (rep_map G (fun y => y * (1 / qtotal (dval d') nodes))%Qc); [ring|exact R]|]. intros u _. cbn [distr]. unfold Qcdiv. ring.
      * intros (d & [= <-] & H). apply is0_iff in H. congruence.
      * intros u i Hi. rewrite vget_vmap. cbn [given]. rewrite <- (K v d' eq_refl eq_refl u i Hi). destruct (vget v i); reflexivity.
  - intros -> _. destruct (uniform_ok G wf) as (H1 & H2 & H3). split; [assumption|]. split; [assumption|]. intros u i Hi. cbn [given]. split; [auto|]. intros _. apply H2. eapply kid_lt; eassumption.
Qed.

(** ** eigenvector_centrality *)
Theorem C58_eigenvector sqr max_iter tol nstart : is_dict nstart ->
  let F := eig_next sqr G in let x0 := distr nodes nstart in
  answers G (nx_eigenvector_centrality sqr G max_iter tol nstart) (fun o => match o with
    | Val m => exists k, first_settled G F x0 tol max_iter k /\ is_map m (fun u q => node G u /\ spread G (given nstart) k u /\ q = iterate F k x0 u)
    | Raise EConv => never_settled G F x0 tol max_iter
    | Raise EPointless => nodes = []
    | Raise EKey => foreign G nstart
    | Raise EValue => no_entries nstart
    | Raise EAlg => sums_to_zero nodes nstart
    | Raise _ => False
    end).
Proof.
  intros D F x0. unfold nx_eigenvector_centrality. destruct (n =? 0) eqn:N0; [apply answers_raise; apply n_zero; assumption|].
  eapply answers_bind; [apply dict_vec_ok; assumption| |intros e [[-> H]|[-> H]]; exact H]. intros o Ho.
  assert (A : arg_ok G nstart o) by (destruct o; [destruct Ho as (d & -> & R & _); exists d; auto|exact Ho]).
  assert (K : forall v d', o = Some v -> nstart = Some d' -> forall u i, kid G u = Some i -> (has (vget v i) = true <-> In u (map fst d'))).
  { intros v d' -> E. destruct Ho as (d & E' & _ & H). assert (d = d') by congruence. subst. exact H. }
  pose proof (start_ok nstart o EAlg A K) as S0. cbv zeta in S0 |- *.
  destruct (match o with None => _ | Some v => _ end) as [x|e]; [|destruct S0 as [-> S0]; eapply answers_bind_e; [apply answers_lifto; reflexivity|exact S0]].
  destruct S0 as (R0 & _ & H0). eapply answers_bind_v; [apply answers_lifto; reflexivity|].
  pose proof (power_ok G wf (eig_step sqr (g_A G)) id tol F x0 max_iter
    (fun k y => rep y (iterate F k x0) /\ forall u i, kid G u = Some i -> (has (vget y i) = true <-> spread G (given nstart) k u)) (fun _ _ => False)) as PW.
  specialize (PW ltac:(intros k y H; apply H)).
  assert (ST : forall k y, k < max_iter -> rep y (iterate F k x0) /\ (forall u i, kid G u = Some i -> (has (vget y i) = true <-> spread G (given nstart) k u)) ->
    match eig_step sqr (g_A G) y with Val x' => rep x' (iterate F (S k) x0) /\ (forall u i, kid G u = Some i -> (has (vget x' i) = true <-> spread G (given nstart) (S k) u)) | Raise _ => False end).
  { intros k y _ [Ry Hy]. unfold eig_step. assert (RU := rep_union G _ _ _ _ Ry (rep_preds G wf y _ Ry)). split.
    - cbn [iterate]. unfold F, eig_next. apply (rep_l2 G wf). exact RU.
    - intros u i Hi. unfold normalize_l2. rewrite norm_has, vget_vunion by (rewrite (proj1 Ry); symmetry; apply (rep_preds G wf y _ Ry)).
      cbn [spread]. rewrite <- (Hy u i Hi). pose proof (vxm_has false y u i Hi (proj1 Ry)) as HV.
      assert (E : (exists w, edge G w u /\ spread G (given nstart) k w) <-> has (vget (vxm_sr false y (g_A G)) i) = true).
      { rewrite HV. split.
        - intros (w & (z & He) & Hw). pose proof (weight_nodes G _ _ _ He) as [Hn _]. apply node_kid in Hn as [j Hj]. exists w, j. split; [assumption|]. split; [apply (Hy w j Hj); assumption|exists z; assumption].
        - intros (w & j & Hj & Hw & He). exists w. split; [assumption|]. apply (Hy w j Hj). assumption. }
      rewrite E. destruct (vget y i), (vget (vxm_sr false y (g_A G)) i); cbn; intuition discriminate. }
  specialize (PW ST x (conj R0 H0)). destruct (power (eig_step sqr (g_A G)) id tol max_iter x) as [r|e].
  - eapply answers_bind_v; [apply answers_lifto; reflexivity|]. apply answers_ret. destruct PW as (k & H1 & (Sr & Hr) & H2). exists k. split; [assumption|].
    apply (is_map_intro G wf); [rewrite Sr; unfold glen; lia|]. intros u q. split.
    + intros (Hu & Hs & ->). apply node_kid in Hu as [i Hi]. exists i. split; [assumption|]. apply (H2 u i Hi) in Hs. pose proof (Hr u i Hi) as Hv. destruct (vget r i); [|discriminate]. cbn in Hv. congruence.
    + intros (i & Hi & Hv). split; [apply node_kid; eauto|]. split; [apply (H2 u i Hi); rewrite Hv; reflexivity|]. rewrite <- (Hr u i Hi), Hv. reflexivity.
  - eapply answers_bind_e; [apply answers_lifto; reflexivity|]. destruct PW as [[-> H]|(k & _ & [])]. exact H.
Qed.
(** without nstart every node has a value *)
Lemma spread_all k u : node G u -> spread G (given None) k u.
Proof. intros Hu. induction k; [exact I|left; assumption]. Qed.

(** ** katz_centrality *)
Lemma iso_all : exists z, match den_iso G with Some o => oget 1%Z o = z /\ forall u v x, weight G u v = Some x -> x = z | None => True end.
Proof.
  unfold den_iso. destruct (g_iso G) eqn:Eg; [|exists 0%Z; exact I].
  destruct (den_scal G (KElem RAny SP)) as [z|] eqn:E.
  - exists z. split; [reflexivity|]. destruct (iso_elem_in G z E) as (a & b & Hz). intros u v x Hw. unfold weight in Hw.
    destruct (kid G u) as [i|]; [|discriminate]. destruct (kid G v) as [j|]; [|discriminate]. eapply (gw_iso _ wf Eg); eassumption.
  - exists 1%Z. split; [reflexivity|]. intros u v x Hw. unfold weight in Hw. destruct (kid G u) as [i|] eqn:Hi; [|discriminate]. destruct (kid G v) as [j|] eqn:Hj; [|discriminate].
    exfalso. simpl in E. rewrite ored_none in E. specialize (E i (kid_lt G wf _ _ Hi)). unfold rfold in E. rewrite ored_none in E.
    specialize (E j (kid_lt G wf _ _ Hj)). simpl in E. rewrite Hw in E. discriminate.
Qed.
(** when the code's [vector + scalar] agrees with adding beta at every node *)
Definition adds_everywhere (fl : bool) (beta : Qc + list (nkey * Qc)) (nstart : option (list (nkey * Qc))) : Prop :=
  fl = true \/ (exists d, beta = inr d) \/ (forall v, node G v -> (exists u, edge G u v) /\ given nstart v).
Definition katz_start (nstart : option (list (nkey * Qc))) (u : nkey) : Qc := match nstart with Some d => dval d u | None => 0%Qc end.
Theorem C58_katz_partial sqr fl alpha beta max_iter tol nstart normalized : is_dict nstart -> is_dict (beta_dict beta) -> adds_everywhere fl beta nstart ->
  let F := katz_next G alpha (beta_val beta) in let x0 := katz_start nstart in
  answers_iso G (nx_katz_centrality sqr fl G alpha beta max_iter tol nstart normalized) (fun o => match o with
    | Val None => nodes = []
    | Val (Some m) => exists k, first_settled G F x0 tol max_iter k /\
        is_map m (fun u q => node G u /\ q = (if normalized then divided (l2norm sqr G (iterate F k x0)) (iterate F k x0) u else iterate F k x0 u))
    | Raise EConv => never_settled G F x0 tol max_iter
    | Raise EKey => foreign G nstart \/ foreign G (beta_dict beta)
    | Raise EValue => no_entries nstart
    | Raise EAlg => exists d u, beta = inr d /\ node G u /\ ~ In u (map fst d)
    | Raise _ => False
    end).
Proof.
  intros D1 D2 AE F x0. unfold nx_katz_centrality. destruct (n =? 0) eqn:N0; [apply iso_ret; apply n_zero; assumption|].
  eapply iso_bind; [apply dict_iso; assumption| |intros e [[-> H]|[-> H]]; [left; exact H|exact H]]. intros o Ho.
  assert (NN : exists u, node G u). { pose proof (n_nonzero N0) as H. destruct nodes as [|u l] eqn:E; [congruence|]. exists u. unfold node. rewrite E. left. reflexivity. }
  (* beta *)
  set (bo := match beta with inl q => Val (inl q) | inr d => match dict_to_vector (g_kid G) n d with Val v => Val (inr v) | Raise EValue => Raise EAlg | Raise e => Raise e end end : outcome (Qc + vec Qc)).
  assert (HB : match bo with
    | Val (inl q) => beta = inl q
    | Val (inr v) => exists d, beta = inr d /\ rep v (dval d) /\ forall u i, kid G u = Some i -> (has (vget v i) = true <-> In u (map fst d))
    | Raise e => (e = EKey /\ foreign G (beta_dict beta)) \/ (e = EAlg /\ beta = inr []) end).
  { unfold bo. destruct beta as [q|d]; [reflexivity|]. destruct (dict_vec_ok G wf (Some d) D2 st0 (Inv_st0 G true)) as [H _]. revert H.
    unfold dict_vec, bind, lifto, ret. cbn [fst]. destruct (dict_to_vector (g_kid G) n d) as [v|e]; cbn [fst].
    - intros (d' & [= <-] & R & H). exists d. auto.
    - intros [[-> H]|[-> H]]; [left; auto|]. right. split; [reflexivity|]. injection H as ->. reflexivity. }
  eapply iso_bind with (R := fun o => o = bo); [apply iso_lifto; reflexivity| |].
  2:{ intros e <-. destruct HB as [[-> H]|[-> ->]]; [right; exact H|]. destruct NN as [u Hu]. exists [], u. auto. }
  intros b Eb. rewrite <- Eb in HB.
  set (x := match o with None => vconst n 0%Qc | Some v => v end).
  assert (Rx : rep x x0 /\ forall u i, kid G u = Some i -> (has (vget x i) = true <-> given nstart u)).
  { unfold x, x0, katz_start. destruct o as [v|].
    - destruct Ho as (d & -> & R & H). split; [assumption|exact H].
    - subst nstart. split; [apply (rep_const G wf)|]. intros u i Hi. unfold vconst. rewrite vget_vbuild_lt by (eapply kid_lt; eassumption). cbn. tauto. }
  destruct Rx as [Rx Kx].
  eapply iso_bind with (R := fun o => o = match b with inr v => if nvals v =? n then Val tt else Raise EAlg | inl _ => Val tt end); [apply iso_lifto; reflexivity| |].
  2:{ intros e E. destruct b as [q|v]; [discriminate|]. destruct HB as (d & -> & R & H). destruct (Nat.eqb_spec (nvals v) n) as [_|Ne]; [discriminate|]. injection E as ->.
      assert (L : nvals v < n). { unfold nvals in *. rewrite (proj1 R) in *. pose proof (cnt_le_n n (fun i => has (vget v i))). unfold glen in *. lia. }
      unfold nvals in L. rewrite (proj1 R) in L. apply cnt_lt_n in L as (i & Li & Hi). destruct (kid_key G wf i Li) as [u Hu]. exists d, u. split; [reflexivity|]. split; [apply node_kid; eauto|].
      intros Hin. apply (H u i Hu) in Hin. congruence. }
  intros tt0 Hfull. assert (FV : forall v, b = inr v -> full G v).
  { intros v ->. destruct (Nat.eqb_spec (nvals v) n) as [En|]; [|discriminate]. destruct HB as (d & _ & R & _). unfold nvals in En. rewrite (proj1 R) in En. pose proof (proj1 (cnt_all _ _) En) as HA. exact HA. }
  eapply iso_bind_v; [apply iso_get; assumption|]. destruct iso_all as [z Hz]. set (first := has (den_iso G)).
  set (al := match den_iso G with Some o => (alpha * zq (oget 1%Z o))%Qc | None => alpha end).
  assert (RW : forall y f, rep y f -> rep (vmap (fun q => q * al)%Qc (vxm_sr first y (g_A G))) (fun v => alpha * from_preds G f v)%Qc).
  { intros y f Ry. eapply rep_ext; [apply (rep_map G (fun q => q * al)%Qc); [ring|apply (rep_vxm G wf first); exact Ry]|]. intros v _. cbv beta. unfold from_preds.
    rewrite <- qtotal_scale_r, <- qtotal_scale. apply qtotal_ext. intros u _. unfold first, al. destruct (den_iso G) as [oz'|]; cbn [has]; [|ring].
    destruct Hz as [-> Hz]. unfold has_edge, ind, Spec_Linalg.adj. destruct (weight G u v) as [w|] eqn:Ew; cbn [has].
    - rewrite (Hz u v w Ew). change zq with qz. ring.
    - change (qz 0) with 0%Qc. ring. }
  pose proof (power_ok G wf (katz_step fl first (g_A G) al b) id tol F x0 max_iter
    (fun k y => rep y (iterate F k x0) /\ (k <> 0 -> full G y) /\ (k = 0 -> forall u i, kid G u = Some i -> (has (vget y i) = true <-> given nstart u))) (fun _ _ => False)) as PW.
  specialize (PW ltac:(intros k y H; apply H)).
  assert (ST : forall k y, k < max_iter -> rep y (iterate F k x0) /\ (k <> 0 -> full G y) /\ (k = 0 -> forall u i, kid G u = Some i -> (has (vget y i) = true <-> given nstart u)) ->
    match katz_step fl first (g_A G) al b y with
    | Val x' => rep x' (iterate F (S k) x0) /\ (S k <> 0 -> full G x') /\ (S k = 0 -> forall u i, kid G u = Some i -> (has (vget x' i) = true <-> given nstart u))
    | Raise _ => False end).
  { intros k y _ (Ry & Fy & Gy). unfold katz_step. set (w := vmap (fun q => q * al)%Qc (vxm_sr first y (g_A G))). pose proof (RW y _ Ry) as Rw. fold w in Rw.
    cbn [iterate]. unfold F at 1. unfold katz_next. destruct b as [q|v].
    - subst beta. cbn [beta_val]. destruct fl.
      + split; [|split; [|discriminate]].
        * split; [rewrite vsize_vbuild; apply Rw|]. intros u i Hi. rewrite vget_vbuild_lt by (rewrite (proj1 Rw); eapply kid_lt; eassumption). cbn [oq oget].
          change (oq (vget w i) + q = alpha * from_preds G (iterate F k x0) u + q)%Qc. rewrite (proj2 Rw u i Hi). reflexivity.
        * intros _ i Li. rewrite vget_vbuild_lt by (rewrite (proj1 Rw); exact Li). reflexivity.
      + destruct AE as [AE|[[d AE]|AE]]; [discriminate|discriminate|].
        assert (Fw : full G w).
        { intros i Li. unfold w. rewrite vget_vmap. destruct (kid_key G wf i Li) as [u Hu]. assert (Hn : node G u) by (apply node_kid; eauto). destruct (AE u Hn) as [[p He] Gu].
          pose proof (proj2 (vxm_has first y u i Hu (proj1 Ry))) as HV. destruct (vget (vxm_sr first y (g_A G)) i); [reflexivity|]. exfalso. apply Bool.diff_false_true. apply HV.
          pose proof He as [ww Hww]. apply weight_nodes in Hww as [Hp _]. pose proof Hp as Hp'. apply node_kid in Hp as [j Hj]. exists p, j. split; [assumption|]. split; [|assumption].
          destruct k; [apply (Gy eq_refl p j Hj); apply (AE p Hp')|apply Fy; [discriminate|eapply kid_lt; eassumption]]. }
        split; [|split; [|discriminate]].
        * split; [unfold vmap at 1; rewrite vsize_vbuild; apply Rw|]. intros u i Hi. rewrite vget_vmap. specialize (Fw i (kid_lt G wf _ _ Hi)). pose proof (proj2 Rw u i Hi) as Hv.
          destruct (vget w i) as [y0|]; [|discriminate]. cbn [omap oq oget] in *. rewrite Hv. reflexivity.
        * intros _ i Li. rewrite vget_vmap. specialize (Fw i Li). destruct (vget w i); [reflexivity|discriminate].
    - destruct HB as (d & -> & Rb & _). cbn [beta_val]. split; [apply rep_union; assumption|]. split; [|discriminate]. intros _ i Li.
      rewrite vget_vunion by (rewrite (proj1 Rw); symmetry; apply Rb). specialize (FV v eq_refl i Li). destruct (vget w i), (vget v i); cbn in *; congruence. }
  specialize (PW ST x (conj Rx (conj (fun H => False_ind _ (H eq_refl)) (fun _ => Kx)))).
  destruct (power (katz_step fl first (g_A G) al b) id tol max_iter x) as [r|e].
  - eapply iso_bind_v; [apply iso_lifto; reflexivity|]. apply iso_ret. destruct PW as (k & H1 & Rr & H2 & _). exists k. split; [assumption|].
    assert (Fr : full G r) by (apply H2; destruct H1; lia).
    set (f := iterate F k x0) in *. set (r' := if normalized then normalize_l2 sqr r else r).
    assert (Rr' : rep r' (fun u => if normalized then divided (l2norm sqr G f) f u else f u)) by (unfold r'; destruct normalized; [apply (rep_l2 G wf)|]; assumption).
    assert (Fr' : full G r') by (unfold r'; destruct normalized; [|assumption]; intros i Li; unfold normalize_l2; rewrite norm_has; apply Fr; assumption).
    apply (is_map_intro G wf); [rewrite (proj1 Rr'); unfold glen; lia|]. intros u q. split.
    + intros (Hu & ->). apply node_kid in Hu as [i Hi]. exists i. split; [assumption|]. rewrite <- (proj2 Rr' u i Hi). specialize (Fr' i (kid_lt G wf _ _ Hi)). destruct (vget r' i); [reflexivity|discriminate].
    + intros (i & Hi & Hv). split; [apply node_kid; eauto|]. rewrite <- (proj2 Rr' u i Hi), Hv. reflexivity.
  - eapply iso_bind_e; [apply iso_lifto; reflexivity|]. destruct PW as [[-> H]|(k & _ & [])]. exact H.
Qed.

(** ** hits *)
Lemma qmax_bigger a b : qmax a b = bigger a b.
Proof. unfold qmax, qlt, bigger. destruct (Qccompare a b); reflexivity. Qed.
Lemma bigger_spec a b : (a <= bigger a b /\ b <= bigger a b)%Qc /\ (bigger a b = a \/ bigger a b = b).
Proof.
  unfold bigger. destruct (Qccompare a b) eqn:E.
  - apply Qceq_alt in E. subst. split; [split; apply Qcle_refl|auto].
  - apply Qclt_alt in E. split; [split; [apply Qclt_le_weak; assumption|apply Qcle_refl]|auto].
  - apply Qcgt_alt in E. split; [split; [apply Qcle_refl|apply Qclt_le_weak; assumption]|auto].
Qed.
Lemma largest_spec f l : l <> [] -> (exists u, In u l /\ f u = largest f l) /\ forall u, In u l -> (f u <= largest f l)%Qc.
Proof.
  induction l as [|x l IH]; [congruence|]. intros _. destruct l as [|y l'].
  - cbn. split; [exists x; auto|]. intros u [<-|[]]. apply Qcle_refl.
  - specialize (IH ltac:(discriminate)) as [(u & Hu & E) H]. change (largest f (x :: y :: l')) with (bigger (f x) (largest f (y :: l'))).
    destruct (bigger_spec (f x) (largest f (y :: l'))) as [[B1 B2] B3]. split.
    + destruct B3 as [-> | ->]; [exists x; split; [left|]; reflexivity|exists u; split; [right; assumption|assumption]].
    + intros v [<-|Hv]; [assumption|]. eapply Qcle_trans; [apply H; assumption|assumption].
Qed.
Lemma ored_qmax k f : match ored qmax k f with
  | Some m => (exists i, i < k /\ f i = Some m) /\ forall i x, i < k -> f i = Some x -> (x <= m)%Qc
  | None => forall i, i < k -> f i = None end.
Proof.
  induction k as [|k IH]; cbn [ored]; [intros; lia|]. destruct (ored qmax k f) as [m|], (f k) as [y|] eqn:E; cbn [omerge].
  - rewrite qmax_bigger. destruct IH as [(i & Li & Hi) IH]. destruct (bigger_spec m y) as [[B1 B2] B3]. split.
    + destruct B3 as [-> | ->]; [exists i; split; [lia|assumption]|exists k; split; [lia|assumption]].
    + intros j x Lj Hj. destruct (Nat.eq_dec j k) as [->|]; [assert (x = y) by congruence; subst; assumption|]. eapply Qcle_trans; [apply (IH j x); [lia|assumption]|assumption].
  - destruct IH as [(i & Li & Hi) IH]. split; [exists i; split; [lia|assumption]|]. intros j x Lj Hj. destruct (Nat.eq_dec j k) as [->|]; [congruence|apply (IH j); [lia|assumption]].
  - split; [exists k; split; [lia|assumption]|]. intros j x Lj Hj. destruct (Nat.eq_dec j k) as [->|]; [assert (x = y) by congruence; subst; apply Qcle_refl|rewrite IH in Hj by lia; discriminate].
  - intros j Lj. destruct (Nat.eq_dec j k) as [->|]; [assumption|apply IH; lia].
Qed.
(** the largest entry present is the largest value over [l] *)
Lemma rep_max x f l : rep x f -> (forall u, In u l -> node G u) -> (forall u i, kid G u = Some i -> has (vget x i) = true -> In u l) ->
  (forall u i, kid G u = Some i -> In u l -> has (vget x i) = true) \/ (forall u, In u l -> (0 <= f u)%Qc) ->
  oq (vreduce qmax x) = largest f l.
Proof.
  intros [Sx Hx] Hn Hsub Hcase. unfold vreduce. rewrite Sx. pose proof (ored_qmax n (vget x)) as HM. destruct l as [|w l0] eqn:El.
  { destruct (ored qmax n (vget x)) as [m|]; [|reflexivity]. destruct HM as [(i & Li & Hi) _]. destruct (kid_key G wf i Li) as [u Hu]. destruct (Hsub u i Hu). rewrite Hi. reflexivity. }
  rewrite <- El in *. assert (NE : l <> []) by (rewrite El; discriminate). clear El w l0. destruct (largest_spec f l NE) as [(b & Hb & Eb) HL].
  destruct (ored qmax n (vget x)) as [m|]; cbn [oq oget].
  - destruct HM as [(i & Li & Hi) HM]. destruct (kid_key G wf i Li) as [u Hu]. assert (Fu : f u = m) by (rewrite <- (Hx u i Hu), Hi; reflexivity).
    assert (Lu : In u l) by (apply (Hsub u i Hu); rewrite Hi; reflexivity). apply Qcle_antisym; [rewrite <- Fu; apply HL; assumption|]. rewrite <- Eb.
    pose proof (Hn b Hb) as Nb. apply node_kid in Nb as [j Hj]. pose proof (Hx b j Hj) as Fb. destruct (vget x j) as [y|] eqn:Ej.
    + cbn in Fb. subst y. apply (HM j); [eapply kid_lt; eassumption|assumption].
    + cbn in Fb. rewrite <- Fb. destruct Hcase as [Hc|Hc]; [specialize (Hc b j Hj Hb); rewrite Ej in Hc; discriminate|]. rewrite <- Fu. apply Hc. assumption.
  - pose proof (Hn b Hb) as Nb. apply node_kid in Nb as [j Hj]. pose proof (Hx b j Hj) as Fb. rewrite HM in Fb by (eapply kid_lt; eassumption). cbn in Fb. congruence.
Qed.
Lemma in_hubs u : In u (hubs G) <-> exists v, edge G u v.
Proof.
  unfold hubs. rewrite filter_In, existsb_exists. split.
  - intros (_ & v & _ & H). exists v. apply (has_edge_true G). assumption.
  - intros (v & x & H). pose proof (weight_nodes G _ _ _ H) as [H1 H2]. split; [assumption|]. exists v. split; [assumption|]. apply (has_edge_true G). exists x. assumption.
Qed.
Lemma in_auths v : In v (auths G) <-> exists u, edge G u v.
Proof.
  unfold auths. rewrite filter_In, existsb_exists. split.
  - intros (_ & u & _ & H). exists u. apply (has_edge_true G). assumption.
  - intros (u & x & H). pose proof (weight_nodes G _ _ _ H) as [H1 H2]. split; [assumption|]. exists u. split; [assumption|]. apply (has_edge_true G). exists x. assumption.
Qed.
Lemma edge_kids u v : edge G u v -> exists i j, kid G u = Some i /\ kid G v = Some j.
Proof. intros [x H]. apply weight_nodes in H as [H1 H2]. apply node_kid in H1 as [i Hi]. apply node_kid in H2 as [j Hj]. eauto. Qed.
Lemma adj_nonneg : (forall a b x, weight G a b = Some x -> (0 <= x)%Z) -> forall u v, (0 <= qz (Spec_Linalg.adj G true u v))%Qc.
Proof. intros W u v. apply qz_nonneg. unfold Spec_Linalg.adj. destruct (weight G u v) eqn:E; [eapply W; eassumption|lia]. Qed.
Lemma divided_nonneg q f u : (0 <= q)%Qc -> (0 <= f u)%Qc -> (0 <= divided q f u)%Qc.
Proof.
  intros Hq Hf. unfold divided. destruct (Qc_eq_bool q 0); [assumption|]. apply Qc_mul_nonneg; [assumption|]. apply Qc_div_nonneg; [|assumption]. unfold Qcle; cbn; discriminate.
Qed.
Lemma largest_nonneg f l : (forall u, In u l -> (0 <= f u)%Qc) -> (0 <= largest f l)%Qc.
Proof. intros H. destruct l as [|x l]; [apply Qcle_refl|]. destruct (largest_spec f (x :: l)) as [(u & Hu & <-) _]; [discriminate|]. apply H. assumption. Qed.

(** the start gives a value to every hub, or nothing is negative *)
Definition hits_covered (l : list nkey) (nstart : option (list (nkey * Qc))) : Prop :=
  (forall u, In u l -> given nstart u) \/ (nonneg_dict nstart /\ forall a b x, weight G a b = Some x -> (0 <= x)%Z).
(** presence and sign of the entries along the iteration, [l] = hubs or authorities *)
Definition hgood (l : list nkey) (k : nat) (nn : bool) (x : vec Qc) (f : nkey -> Qc) : Prop :=
  rep x f /\ (k <> 0 -> forall u i, kid G u = Some i -> has (vget x i) = true -> In u l) /\
  (if nn then (forall u, (0 <= f u)%Qc) /\ (forall a b y, weight G a b = Some y -> (0 <= y)%Z) else forall u i, kid G u = Some i -> In u l -> has (vget x i) = true).
Lemma preds_good k nn x f : hgood (hubs G) k nn x f -> hgood (auths G) 1 nn (vxm_sr false x (g_A G)) (from_preds G f).
Proof.
  intros (R & _ & H). split; [apply (rep_preds G wf); assumption|]. split.
  - intros _ v j Hj Hv. apply (vxm_has false x v j Hj (proj1 R)) in Hv as (u & i & _ & _ & He). apply in_auths. eauto.
  - destruct nn.
    + destruct H as [H W]. split; [|assumption]. intros v. unfold from_preds. apply qtotal_nonneg. intros u _. apply Qc_mul_nonneg; [apply H|apply adj_nonneg; assumption].
    + intros v j Hj Hv. apply in_auths in Hv as [u He]. apply (vxm_has false x v j Hj (proj1 R)). destruct (edge_kids u v He) as (i & _ & Hi & _). exists u, i.
      split; [assumption|]. split; [|assumption]. apply (H u i Hi). apply in_hubs. eauto.
Qed.
Lemma succs_good k nn x f : hgood (auths G) k nn x f -> hgood (hubs G) 1 nn (mxv_t (g_A G) x) (from_succs G f).
Proof.
  intros (R & _ & H). split; [apply (rep_succs G wf); assumption|]. split.
  - intros _ u i Hi Hu. apply (mxv_has x u i Hi (proj1 R)) in Hu as (v & j & _ & _ & He). apply in_hubs. eauto.
  - destruct nn.
    + destruct H as [H W]. split; [|assumption]. intros u. unfold from_succs. apply qtotal_nonneg. intros v _. apply Qc_mul_nonneg; [apply adj_nonneg; assumption|apply H].
    + intros u i Hi Hu. apply in_hubs in Hu as [v He]. apply (mxv_has x u i Hi (proj1 R)). destruct (edge_kids u v He) as (_ & j & _ & Hj). exists v, j.
      split; [assumption|]. split; [|assumption]. apply (H v j Hj). apply in_auths. eauto.
Qed.
Lemma linf_good l nn x f : (forall u, In u l -> node G u) -> hgood l 1 nn x f -> hgood l 1 nn (normalize_linf x) (divided (largest f l) f).
Proof.
  intros Hn (R & S1 & H). assert (E : oq (vreduce qmax x) = largest f l).
  { apply rep_max; [assumption|assumption|intros u i; apply S1; discriminate|]. destruct nn; [right; intros u _; apply H|left; exact H]. }
  unfold normalize_linf. rewrite E. split; [apply (rep_normalize G); assumption|]. split.
  - intros _ u i Hi. rewrite norm_has. apply S1; [discriminate|assumption].
  - destruct nn; [|intros u i Hi Hu; rewrite norm_has; eapply H; eassumption]. destruct H as [H W]. split; [|assumption]. intros u. apply divided_nonneg; [|apply H]. apply largest_nonneg. intros; apply H.
Qed.
Lemma hubs_nodes u : In u (hubs G) -> node G u. Proof. unfold hubs. rewrite filter_In. tauto. Qed.
Lemma auths_nodes u : In u (auths G) -> node G u. Proof. unfold auths. rewrite filter_In. tauto. Qed.
Lemma hits_step_good k nn h a f : hgood (hubs G) k nn h f -> exists h' a', hits_step (g_A G) (h, a) = Val (h', a') /\
  hgood (hubs G) 1 nn h' (hits_next G f) /\ hgood (auths G) 1 nn a' (from_preds G f).
Proof.
  intros H. unfold hits_step. cbn [fst]. eexists _, _. split; [reflexivity|]. pose proof (preds_good k nn h f H) as HA. split; [|exact HA].
  apply linf_good; [apply hubs_nodes|]. apply (succs_good 1 nn). exact HA.
Qed.
Lemma start_good d x l : hits_covered l d -> rep x (distr nodes d) -> (forall u i, kid G u = Some i -> (has (vget x i) = true <-> given d u)) -> exists nn, hgood l 0 nn x (distr nodes d).
Proof.
  intros C R H. destruct C as [C|[C W]].
  - exists false. split; [assumption|]. split; [congruence|]. intros u i Hi Hu. apply (H u i Hi). apply C. assumption.
  - exists true. split; [assumption|]. split; [congruence|]. split; [|assumption]. intros u. apply distr_nonneg. assumption.
Qed.
(** the scores returned after the k-th round *)
Definition hub_score (x0 : nkey -> Qc) (k : nat) (normalized : bool) : nkey -> Qc :=
  let h := iterate (hits_next G) k x0 in if normalized then divided (qtotal h nodes) h else h.
Definition auth_score (x0 : nkey -> Qc) (k : nat) (normalized : bool) : nkey -> Qc :=
  let a := from_preds G (iterate (hits_next G) (k - 1) x0) in if normalized then divided (qtotal a nodes) a else divided (largest a (auths G)) a.
Theorem C58_hits max_iter tol nstart normalized : is_dict nstart -> hits_covered (hubs G) nstart ->
  let F := hits_next G in let x0 := distr nodes nstart in
  answers G (nx_hits G max_iter tol nstart normalized) (fun o => match o with
    | Val None => nodes = []
    | Val (Some (h, a)) => exists k, first_settled G F x0 tol max_iter k /\
        is_map h (fun u q => node G u /\ q = hub_score x0 k normalized u) /\ is_map a (fun u q => node G u /\ q = auth_score x0 k normalized u)
    | Raise EConv => never_settled G F x0 tol max_iter /\ 1 <= max_iter
    | Raise EKey => foreign G nstart
    | Raise EValue => no_entries nstart \/ max_iter = 0
    | Raise EZeroDiv => sums_to_zero nodes nstart
    | Raise _ => False
    end).
Proof.
  intros D C F x0. unfold nx_hits. destruct (n =? 0) eqn:N0; [apply answers_ret; apply n_zero; assumption|].
  eapply answers_bind; [apply dict_vec_ok; assumption| |intros e [[-> H]|[-> H]]; [exact H|left; exact H]]. intros o Ho.
  assert (A : arg_ok G nstart o) by (destruct o; [destruct Ho as (d & -> & R & _); exists d; auto|exact Ho]).
  assert (K : forall v d', o = Some v -> nstart = Some d' -> forall u i, kid G u = Some i -> (has (vget v i) = true <-> In u (map fst d'))).
  { intros v d' -> E. destruct Ho as (d & E' & _ & H). assert (d = d') by congruence. subst. exact H. }
  assert (HH : answers G (hits G max_iter tol o normalized false) (fun r => match r with
    | Val (h, a) => exists k, first_settled G F x0 tol max_iter k /\ rep h (hub_score x0 k normalized) /\ rep a (auth_score x0 k normalized)
    | Raise EConv => never_settled G F x0 tol max_iter | Raise EZeroDiv => sums_to_zero nodes nstart | Raise _ => False end)).
  { unfold hits. rewrite N0. pose proof (start_ok nstart o EZeroDiv A K) as S0. cbv zeta in S0 |- *.
    destruct (match o with None => _ | Some v => _ end) as [x|e]; [|destruct S0 as [-> S0]; eapply answers_bind_e; [apply answers_lifto; reflexivity|exact S0]].
    destruct S0 as (R0 & _ & H0). eapply answers_bind_v; [apply answers_lifto; reflexivity|].
    destruct (start_good nstart x (hubs G) C R0 H0) as [nn Hg].
    pose proof (power_ok G wf (hits_step (g_A G)) fst tol F x0 max_iter
      (fun k s => hgood (hubs G) k nn (fst s) (iterate F k x0) /\ (k <> 0 -> hgood (auths G) 1 nn (snd s) (from_preds G (iterate F (k - 1) x0)))) (fun _ _ => False)) as PW.
    specialize (PW ltac:(intros k y H; apply H)).
    assert (ST : forall k s, k < max_iter -> hgood (hubs G) k nn (fst s) (iterate F k x0) /\ (k <> 0 -> hgood (auths G) 1 nn (snd s) (from_preds G (iterate F (k - 1) x0))) ->
      match hits_step (g_A G) s with Val s' => hgood (hubs G) (S k) nn (fst s') (iterate F (S k) x0) /\ (S k <> 0 -> hgood (auths G) 1 nn (snd s') (from_preds G (iterate F (S k - 1) x0))) | Raise _ => False end).
    { intros k [h a] _ [Hh _]. cbn [fst] in Hh. destruct (hits_step_good k nn h a _ Hh) as (h' & a' & -> & H1 & H2). cbn [fst snd]. replace (S k - 1) with k by lia.
      split; [destruct H1 as (U1 & U2 & U3); split; [exact U1|]; split; [intros _; apply U2; discriminate|exact U3]|intros _; exact H2]. }
    specialize (PW ST (x, vempty n) (conj Hg (fun H => False_ind _ (H eq_refl)))). destruct (power (hits_step (g_A G)) fst tol max_iter (x, vempty n)) as [[h a]|e].
    - eapply answers_bind_v; [apply answers_lifto; reflexivity|]. cbv beta iota. apply answers_ret. destruct PW as (k & Hk & Hh & Ha). cbn [fst snd] in *. destruct Hk as [Lk Hk]. specialize (Ha ltac:(lia)).
      assert (X : exists k, first_settled G F x0 tol max_iter k /\ rep (if normalized then normalize_l1 h else h) (hub_score x0 k normalized) /\ rep (if normalized then normalize_l1 a else normalize_linf a) (auth_score x0 k normalized)).
      { exists k. split; [split; assumption|]. unfold hub_score, auth_score. destruct normalized.
        - split; apply (rep_l1 G wf); [apply Hh|apply Ha].
        - split; [apply Hh|]. apply (linf_good (auths G) nn a _ auths_nodes Ha). }
      destruct normalized; exact X.
    - eapply answers_bind_e; [apply answers_lifto; reflexivity|]. destruct PW as [[-> H]|(k & _ & [])]. exact H. }
  intros s Hs. specialize (HH s Hs). cbv beta. destruct (hits G max_iter tol o normalized false s) as [[[h a]|e] s'] eqn:E; cbn [fst snd] in *; destruct HH as [HH HI].
  - split; [|exact HI]. cbn [fst]. destruct HH as (k & Hk & Rh & Ra). exists k. split; [assumption|]. split; apply (is_map_fill G wf); intros u i Hi; symmetry; [apply Rh|apply Ra]; assumption.
  - destruct e; try (destruct HH; fail); cbn [fst snd]; (split; [|exact HI]).
    + exact HH.
    + destruct (Nat.ltb_spec max_iter 1); [right; lia|split; [exact HH|lia]].
Qed.

(** the variant using the authority matrix, reachable through the function that takes vectors *)
Lemma ata_weight u v i j : kid G u = Some i -> kid G v = Some j ->
  oz (mget (mxm Z.add Z.mul (mtrans (g_A G)) (g_A G)) i j) = total (fun w => Spec_Linalg.adj G true w u * Spec_Linalg.adj G true w v)%Z nodes.
Proof.
  intros Hi Hj. rewrite mget_mxm by (try apply mwf_mtrans; apply wf). rewrite oz_ored_plus. cbn [ncols mtrans]. symmetry.
  apply (total_nodes G wf). intros w k Hk. unfold Spec_Linalg.adj, weight. rewrite Hi, Hj, Hk, mget_mtrans by apply wf.
  destruct (mget (g_A G) k i), (mget (g_A G) k j); cbn; ring.
Qed.
Lemma auth_good k nn x f : hgood (auths G) k nn x f -> hgood (auths G) 1 nn (mxv_t (mxm Z.add Z.mul (mtrans (g_A G)) (g_A G)) x) (from_preds G (from_succs G f)).
Proof.
  intros H. pose proof (preds_good 1 nn _ _ (succs_good k nn x f H)) as (R2 & P2 & N2). destruct H as ((Sx & Rx) & _ & H).
  set (B := mxm Z.add Z.mul (mtrans (g_A G)) (g_A G)). assert (WB : mwf B) by apply mwf_mbuild. assert (NB : nrows B = n) by (unfold B, mxm; rewrite nrows_mbuild; rewrite nrows_mtrans; apply (gw_sq G wf)).
  assert (CB : ncols B = n) by (unfold B, mxm; rewrite ncols_mbuild; apply (gw_sq G wf)).
  assert (HB : forall u v i j, kid G u = Some i -> kid G v = Some j -> (has (mget B i j) = true <-> exists w, edge G w u /\ edge G w v)).
  { intros u v i j Hi Hj. unfold B. rewrite mget_mxm by (try apply mwf_mtrans; apply wf). rewrite has_ored_true. cbn [ncols mtrans]. rewrite ncols_mtrans. split.
    - intros (k0 & Lk & Hk). destruct (kid_key G wf k0 Lk) as [w Hw]. exists w. rewrite mget_mtrans in Hk by apply wf.
      split; apply (has_edge_true G); [rewrite (has_edge_kid G w u k0 i Hw Hi)|rewrite (has_edge_kid G w v k0 j Hw Hj)]; destruct (mget (g_A G) k0 i), (mget (g_A G) k0 j); try discriminate; reflexivity.
    - intros (w & H1 & H2). destruct (edge_kids w u H1) as (k0 & _ & Hw & _). exists k0. split; [eapply kid_lt; eassumption|]. rewrite mget_mtrans by apply wf.
      apply (has_edge_true G) in H1, H2. rewrite (has_edge_kid G w u k0 i Hw Hi) in H1. rewrite (has_edge_kid G w v k0 j Hw Hj) in H2.
      destruct (mget (g_A G) k0 i); [|discriminate]. destruct (mget (g_A G) k0 j); [reflexivity|discriminate]. }
  assert (HP : forall u i, kid G u = Some i -> (has (vget (mxv_t B x) i) = true <-> exists v j, kid G v = Some j /\ has (vget x j) = true /\ exists w, edge G w u /\ edge G w v)).
  { intros u i Hi. unfold mxv_t. rewrite vget_mxv by assumption. rewrite has_ored_true, CB. split.
    - intros (j & Lj & Hj). destruct (kid_key G wf j Lj) as [v Hv]. exists v, j. split; [assumption|]. destruct (vget x j); [|destruct (mget B i j); discriminate]. split; [reflexivity|].
      apply (HB u v i j Hi Hv). destruct (mget B i j); [reflexivity|discriminate].
    - intros (v & j & Hv & Hx & He). exists j. split; [eapply kid_lt; eassumption|]. apply (HB u v i j Hi Hv) in He. destruct (mget B i j); [|discriminate]. destruct (vget x j); [reflexivity|discriminate]. }
  split; [|split].
  - split; [unfold mxv_t, mxv; rewrite vsize_vbuild; assumption|]. intros u i Hi. unfold mxv_t. rewrite vget_mxv by assumption. rewrite gsum_oq, CB.
    symmetry. transitivity (qtotal (fun v => qz (total (fun w => Spec_Linalg.adj G true w u * Spec_Linalg.adj G true w v)%Z nodes) * f v)%Qc nodes).
    + unfold from_preds, from_succs. transitivity (qtotal (fun w => qtotal (fun v => qz (Spec_Linalg.adj G true w u * Spec_Linalg.adj G true w v) * f v) nodes)%Qc nodes).
      * apply qtotal_eq. intros w _. rewrite <- qtotal_scale_r. apply qtotal_eq. intros v _. change qz with zq. rewrite zq_mul. ring.
      * rewrite qtotal_swap. apply qtotal_eq. intros v _. rewrite qtotal_scale_r, qtotal_qz. reflexivity.
    + apply (qtotal_nodes G wf). intros v j Hj. rewrite <- (Rx v j Hj), <- (ata_weight u v i j Hi Hj). fold B. change zq with qz.
      assert (Z0 : qz 0 = 0%Qc) by reflexivity. destruct (vget x j), (mget B i j); cbn [oq oget oboth oz]; rewrite ?Z0; ring.
  - intros _ u i Hi Hu. apply (HP u i Hi) in Hu as (v & j & _ & _ & w & He & _). apply in_auths. eauto.
  - destruct nn; [exact N2|]. intros u i Hi Hu. apply (HP u i Hi). exists u, i. split; [assumption|]. split; [apply (H u i Hi Hu)|]. apply in_auths in Hu as [w Hw]. eauto.
Qed.
Theorem C58_hits_authority max_iter tol nstart normalized : is_dict nstart -> hits_covered (auths G) nstart ->
  let F := auth_next G in let x0 := distr nodes nstart in
  answers G (x <- dict_vec G nstart ;; hits G max_iter tol x normalized true) (fun o => match o with
    | Val (h, a) => nodes = [] \/ exists k, first_settled G F x0 tol max_iter k /\ let av := iterate F k x0 in let hv := from_succs G av in
        is_map (to_nodemap_fill G 0%Qc h) (fun u q => node G u /\ q = divided (if normalized then qtotal hv nodes else largest hv (hubs G)) hv u) /\
        is_map (to_nodemap_fill G 0%Qc a) (fun u q => node G u /\ q = if normalized then divided (qtotal av nodes) av u else av u)
    | Raise EConv => never_settled G F x0 tol max_iter
    | Raise EKey => foreign G nstart
    | Raise EValue => no_entries nstart
    | Raise EZeroDiv => sums_to_zero nodes nstart
    | Raise _ => False
    end).
Proof.
  intros D C F x0. eapply answers_bind; [apply dict_vec_ok; assumption| |intros e [[-> H]|[-> H]]; exact H]. intros o Ho.
  assert (A : arg_ok G nstart o) by (destruct o; [destruct Ho as (d & -> & R & _); exists d; auto|exact Ho]).
  assert (K : forall v d', o = Some v -> nstart = Some d' -> forall u i, kid G u = Some i -> (has (vget v i) = true <-> In u (map fst d'))).
  { intros v d' -> E. destruct Ho as (d & E' & _ & H). assert (d = d') by congruence. subst. exact H. }
  unfold hits. destruct (n =? 0) eqn:N0; [apply answers_ret; left; apply n_zero; assumption|].
  pose proof (start_ok nstart o EZeroDiv A K) as S0. cbv zeta in S0 |- *.
  destruct (match o with None => _ | Some v => _ end) as [x|e]; [|destruct S0 as [-> S0]; eapply answers_bind_e; [apply answers_lifto; reflexivity|exact S0]].
  destruct S0 as (R0 & _ & H0). eapply answers_bind_v; [apply answers_lifto; reflexivity|].
  destruct (start_good nstart x (auths G) C R0 H0) as [nn Hg].
  pose proof (power_ok G wf (auth_step (g_A G)) id tol F x0 max_iter (fun k s => hgood (auths G) k nn s (iterate F k x0)) (fun _ _ => False)) as PW.
  specialize (PW ltac:(intros k y H; apply H)).
  assert (ST : forall k s, k < max_iter -> hgood (auths G) k nn s (iterate F k x0) -> match auth_step (g_A G) s with Val s' => hgood (auths G) (S k) nn s' (iterate F (S k) x0) | Raise _ => False end).
  { intros k s _ Hs. unfold auth_step. pose proof (linf_good (auths G) nn _ _ auths_nodes (auth_good k nn s _ Hs)) as (U1 & U2 & U3). split; [exact U1|]. split; [intros _; apply U2; discriminate|exact U3]. }
  specialize (PW ST x Hg). destruct (power (auth_step (g_A G)) id tol max_iter x) as [a|e].
  - eapply answers_bind_v; [apply answers_lifto; reflexivity|]. cbv beta iota. apply answers_ret. destruct PW as (k & Hk & Ha). assert (Hh := succs_good k nn a _ Ha).
    set (av := iterate F k x0) in *. set (hv := from_succs G av) in *.
    assert (X : rep (if normalized then normalize_l1 (mxv_t (g_A G) a) else normalize_linf (mxv_t (g_A G) a)) (divided (if normalized then qtotal hv nodes else largest hv (hubs G)) hv) /\
      rep (if normalized then normalize_l1 a else a) (fun u => if normalized then divided (qtotal av nodes) av u else av u)).
    { destruct normalized; [split; apply (rep_l1 G wf); [apply Hh|apply Ha]|]. split; [|apply Ha]. apply (linf_good (hubs G) nn _ _ hubs_nodes Hh). }
    destruct normalized; right; exists k; (split; [exact Hk|]); destruct X as [X1 X2]; (split; apply (is_map_fill G wf); intros u i Hi; symmetry; [apply X1|apply X2]; assumption).
  - eapply answers_bind_e; [apply answers_lifto; reflexivity|]. destruct PW as [[-> H]|(k & _ & [])]. exact H.
Qed.
End P.

(** ** Where the property fails: katz_centrality with a number beta on a graph with a node that nothing points to, when
    [vector + scalar] only changes the entries present: that node gets no score, and neither do its successors *)
Theorem C58_katz_refuted : exists G m, gwf G /\ (forall sqr, fst (nx_katz_centrality sqr false G (Q2Qc (1 # 10)) (inl 1%Qc) 10 (Q2Qc (1 # 1000)) None false st0) = Val (Some m)) /\
  node G (KI 0) /\ node G (KI 1) /\ edge G (KI 0) (KI 1) /\ (forall u q, nm_getitem m u <> Val q) /\
  settled G (katz_next G (Q2Qc (1 # 10)) (fun _ => 1%Qc)) (fun _ => 0%Qc) (Q2Qc (1 # 1000)) 3 /\
  iterate (katz_next G (Q2Qc (1 # 10)) (fun _ => 1%Qc)) 3 (fun _ => 0%Qc) (KI 1) = Q2Qc (11 # 10).
Proof.
  exists (mkg true 2 ((0, 1, 1%Z) :: nil)). eexists. split; [apply mkg_wf|]. split; [intros; vm_compute; reflexivity|].
  split; [vm_compute; auto|]. split; [vm_compute; auto|]. split; [exists 1%Z; vm_compute; reflexivity|]. split.
  - intros u q. unfold nm_getitem. cbn [nm_kid nm_fill nm_v]. destruct (dget _ u) as [i|]; [|discriminate]. unfold vget. cbn. destruct i as [|[|i]]; cbn; try discriminate. destruct i; discriminate.
  - split; [vm_compute; reflexivity|]. apply Qc_is_canon. vm_compute. reflexivity.
Qed.

(** ** The hypotheses hold for concrete graphs; all three converge on these *)
Definition g_pw : graph := mkg true 4 [(0, 1, 3%Z); (1, 2, 5%Z); (2, 0, 2%Z); (1, 0, 1%Z)].
Definition d_pw : option (list (nkey * Qc)) := Some ((KI 0, 1%Qc) :: (KI 1, qz 2) :: (KI 2, 1%Qc) :: nil).
Definition root2 (q : Qc) : Qc := Q2Qc (Qmake (Z.sqrt (Qnum (Qred (q * (10000 # 1))))) 100).
Example C58_eigenvector_ex : gwf g_pw /\ is_dict d_pw /\ exists m q, fst (nx_eigenvector_centrality root2 g_pw 20 (Q2Qc (1 # 20)) d_pw st0) = Val m /\ nm_getitem m (KI 0) = Val q /\ q <> 0%Qc.
Proof.
  split; [apply mkg_wf|]. split; [cbn; repeat constructor; cbn; intuition discriminate|]. eexists _, _. split; [vm_compute; reflexivity|]. split; [vm_compute; reflexivity|].
  intros H. apply (f_equal this) in H. vm_compute in H. discriminate.
Qed.
Example C58_katz_ex : gwf g_pw /\ adds_everywhere g_pw false (inr ((KI 0, 1%Qc) :: (KI 1, 1%Qc) :: (KI 2, qz 3) :: (KI 3, 1%Qc) :: nil)) None /\ exists m q,
  fst (nx_katz_centrality root2 false g_pw (Q2Qc (1 # 10)) (inr ((KI 0, 1%Qc) :: (KI 1, 1%Qc) :: (KI 2, qz 3) :: (KI 3, 1%Qc) :: nil)) 30 (Q2Qc (1 # 50)) None true st0) = Val (Some m) /\ nm_getitem m (KI 3) = Val q /\ q <> 0%Qc.
Proof.
  split; [apply mkg_wf|]. split; [right; left; eauto|]. eexists _, _. split; [vm_compute; reflexivity|]. split; [vm_compute; reflexivity|].
  intros H. apply (f_equal this) in H. vm_compute in H. discriminate.
Qed.
Example C58_hits_ex : gwf g_pw /\ hits_covered g_pw (hubs g_pw) d_pw /\ hits_covered g_pw (auths g_pw) d_pw /\ (exists h a q, fst (nx_hits g_pw 20 (Q2Qc (1 # 50)) d_pw true st0) = Val (Some (h, a)) /\ nm_getitem a (KI 2) = Val q /\ q <> 0%Qc) /\
  exists h a, fst ((x <- dict_vec g_pw d_pw ;; hits g_pw 20 (Q2Qc (1 # 50)) x false true) st0) = Val (h, a).
Proof.
  split; [apply mkg_wf|]. split; [left; intros u Hu; vm_compute in Hu; destruct Hu as [<-|[<-|[<-|[]]]]; cbn; tauto|]. split; [left; intros u Hu; vm_compute in Hu; destruct Hu as [<-|[<-|[<-|[]]]]; cbn; tauto|]. split.
  - eexists _, _, _. split; [vm_compute; reflexivity|]. split; [vm_compute; reflexivity|]. intros H. apply (f_equal this) in H. vm_compute in H. discriminate.
  - eexists _, _. vm_compute. reflexivity.
Qed.
Print Assumptions C58_eigenvector.
Print Assumptions C58_katz_partial.
Print Assumptions C58_katz_refuted.
Print Assumptions C58_hits.
Print Assumptions C58_hits_authority.
