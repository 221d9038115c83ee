(** * C78: reversing a DiGraph exchanges the directed notions *)
From Verif Require Import Base BaseProofs Model_Graph Model_Cache Spec_Cache Spec_Run Spec_Session Spec_Laws Model_Keys Spec Spec_Weighted Spec_Count
  Model_Utils Model_Bfs Model_Weighted Model_Dense Model_Operators Model_Measures
  KeyProofs BfsProofs BfsProofs3 Walks WeightedMath CountProofs OperatorProofs LawProofs Concrete Props_Operators Props_Bfs Props_Weighted Props_Dense Props_Measures Props_Session Props_Laws RunProofs CacheMath CacheProofs WeightedProofs2 DenseProofs.
From Coq Require Import QArith Permutation.
Open Scope nat_scope.

Section D.
Variable orc : mat Z -> bool.
Variables G R : graph.
Hypothesis wf : gwf G.
Hypothesis HR : reverse orc G = Val R.
Lemma rv_facts : g_dir G = true /\ is_graph R true (node G) (fun u v => weight G v u) /\ gnodes R = gnodes G.
Proof. assert (X := C34_reverse orc G wf). rewrite HR in X. tauto. Qed.
Lemma rv_dir : g_dir G = true. Proof. apply rv_facts. Qed.
Lemma rv_wf : gwf R. Proof. apply rv_facts. Qed.
Lemma rv_rdir : g_dir R = true. Proof. apply rv_facts. Qed.
Lemma rv_nodes : gnodes R = gnodes G. Proof. apply rv_facts. Qed.
Lemma rv_node k : node R k <-> node G k. Proof. unfold node. rewrite rv_nodes. reflexivity. Qed.
Lemma rv_weight u v : weight R u v = weight G v u. Proof. apply rv_facts. Qed.
Lemma rv_edge u v : edge R u v <-> edge G v u. Proof. unfold edge. rewrite rv_weight. reflexivity. Qed.
Lemma rv_has u v : has_edge R u v = has_edge G v u. Proof. unfold has_edge. rewrite rv_weight. reflexivity. Qed.
Lemma rv_walk u d v : walk (edge R) u d v <-> walk (edge G) v d u.
Proof.
  split; intros H; apply walk_rev in H; (eapply walk_iff; [|exact H]); intros a b; unfold rev; rewrite rv_edge; reflexivity.
Qed.
Lemma rv_dist u v d : dist (edge R) u v d <-> dist (edge G) v u d.
Proof. unfold dist. rewrite rv_walk. split; intros [H1 H2]; (split; [assumption|]); intros d' H; apply H2; apply rv_walk; assumption. Qed.
Lemma rv_reach u v : reach (edge R) u v <-> reach (edge G) v u.
Proof. split; intros [d H]; exists d; apply rv_walk; assumption. Qed.
Lemma rv_wwalk w u d x v : wwalk (eweight w R) u d x v <-> wwalk (eweight w G) v d x u.
Proof.
  assert (E : forall a b, eweight w R a b = eweight w G b a) by (intros; unfold eweight; rewrite rv_weight; reflexivity).
  assert (K : forall (W W' : nkey -> nkey -> option Z) , (forall a b, W a b = W' b a) -> forall u d x v, wwalk W u d x v -> wwalk W' v d x u).
  { intros W W' HW a d' x' b H. induction H as [|d' x' p e b H IH He]; [constructor|]. replace (S d') with (1 + d') by reflexivity. replace (x' + e)%Z with (e + x')%Z by lia.
    eapply wwalk_app; [apply wwalk_one; rewrite <- HW; exact He|exact IH]. }
  split; apply K; intros; [|symmetry]; apply E.
Qed.
Lemma rv_shortest w u v x : shortest (eweight w R) u v x <-> shortest (eweight w G) v u x.
Proof.
  split; intros [[d H] Hm]; (split; [exists d; apply rv_wwalk; assumption|]); intros d' w' Hw; apply (Hm d'); apply rv_wwalk; assumption.
Qed.
Lemma rv_neg : (forall u, ~ neg_cycle (weight G) u) -> forall u, ~ neg_cycle (weight R) u.
Proof. intros H u (d & x & Hx & L). apply (H u). exists d, x. split; [|assumption]. apply (rv_wwalk true). exact Hx. Qed.

Theorem C78_reachable u v ds an ds' b b' : seen R (nx_descendants R u) (Val ds) -> seen G (nx_ancestors G u) (Val an) -> 
  seen R (nx_ancestors R u) (Val ds') -> forall an', seen G (nx_descendants G u) (Val an') ->
  seen R (has_path R u v) (Val b) -> seen G (has_path G v u) (Val b') ->
  (ns_contains ds v = Val true <-> ns_contains an v = Val true) /\ (ns_contains ds' v = Val true <-> ns_contains an' v = Val true) /\ b = b'.
Proof.
  intros H1 H2 H3 an' H4 H5 H6. assert (wR := rv_wf).
  rewrite (see_desc R wR _ _ _ H1), (see_anc G wf _ _ _ H2), (see_anc R wR _ _ _ H3), (see_desc G wf _ _ _ H4), !rv_reach.
  split; [reflexivity|]. split; [reflexivity|]. apply (see_path R wR) in H5. apply (see_path G wf) in H6. rewrite rv_reach in H5.
  apply eq_true_iff_eq. rewrite H5, H6. reflexivity.
Qed.
Theorem C78_lengths u v x c ss st : seen R (nx_single_source_spl R u c) (Val ss) -> seen G (nx_single_target_spl G u c) (Val st) ->
  (nm_getitem ss v = Val x <-> nm_getitem st v = Val x).
Proof.
  intros H1 H2. rewrite (see_ss_get R rv_wf _ _ _ _ _ H1), (see_st_get G wf _ _ _ _ _ H2).
  split; intros (d & E & H & H'); exists d; (split; [assumption|split; [apply rv_dist; assumption|assumption]]).
Qed.
(** with negative cycles too: the algorithm commutes with transposition *)
Lemma fw_loop_tr n l : forall pk r pk' r' (D D' : mat Z), shaped true n D -> shaped true n D' -> (forall a b, mget D' a b = mget D b a) ->
  forall a b, mget (fw_loop_d true pk' n r' l D') a b = mget (fw_loop_d true pk n r l D) b a.
Proof.
  induction l as [|i l IH]; intros pk r pk' r' D D' S S' H a b; simpl; [apply H|]. apply IH.
  - apply shaped_dist. assumption.
  - apply shaped_dist. assumption.
  - intros p q. rewrite !dist_mget by assumption. unfold view, fw_sel. rewrite (Nat.eqb_sym p q). destruct (negb (q =? p)); [|reflexivity].
    rewrite !H. f_equal. destruct (mget D i p), (mget D q i); simpl; try reflexivity. f_equal. lia.
Qed.
Lemma fw_get pk w K D u v x : gwf K -> seen K (nx_floyd_warshall pk K w) (Val D) ->
  (nn_get D u v = Val x <-> exists i j, kid K u = Some i /\ kid K v = Some j /\ mget (fw_full pk w K) i j = Some x).
Proof.
  intros wK H. assert (A : Spec_Run.answers K (nx_floyd_warshall pk K w) (eq (Val (to_nodenodemap K (fw_full pk w K))))).
  { unfold nx_floyd_warshall. eapply answers_bind_v; [apply fw_distance_ok; assumption|]. apply answers_ret. reflexivity. }
  apply (seen_ans K wK _ _ _ _ H) in A. injection A as <-. set (R0 := fw_full pk w K).
  assert (Hdim : mwf R0 /\ nrows R0 = nrows (g_A K) /\ ncols R0 = nrows (g_A K)).
  { unfold R0, fw_full. destruct (res_dims (wgraph w K) pk (List.length (vindices (fw_ne K))) (fw_loop_d (g_dir K) pk (nrows (g_A K)) 0 (vindices (fw_ne K)) (fw_d0 (wgraph w K)))) as (H1 & H2 & H3).
    destruct (wgraph_dims w K) as (_ & E & _). rewrite E in H2, H3. auto. }
  destruct Hdim as (H1 & H2 & H3).
  assert (Hrow : forall i, i < nrows (g_A K) -> has (vget (rows_of R0) i) = true).
  { intros i Hi. unfold rows_of, vmap. rewrite vget_vbuild, vsize_vbuild, H2. replace (i <? nrows (g_A K)) with true by (symmetry; apply Nat.ltb_lt; assumption).
    rewrite vget_vbuild_lt by assumption. rewrite has_omap. apply has_ored_true. exists i. split; [lia|]. unfold R0, fw_full, fw_res, fw_diag. 
    rewrite mget_mbuild_lt by (destruct (wgraph_dims w K) as (_ & -> & _); assumption). rewrite Nat.eqb_refl. reflexivity. }
  unfold nn_get, nnm_getitem. simpl. fold (kid K u). destruct (kid K u) as [i|] eqn:Hu.
  2:{ split; [discriminate|]. intros (i & j & [=] & _). }
  assert (Hi : i < nrows (g_A K)) by (eapply kid_lt; eassumption). rewrite Hrow by assumption.
  assert (M : is_map (to_nodemap K (mrow R0 i)) (fun k y => exists j, kid K k = Some j /\ vget (mrow R0 i) j = Some y)).
  { apply is_map_intro; [assumption|unfold vsize; rewrite mrow_length by (auto; lia); lia|]. intros k y. split; auto. }
  destruct M as [M _]. rewrite M. split.
  - intros (j & Hj & E). exists i, j. auto.
  - intros (i' & j & [= <-] & Hj & E). exists j. auto.
Qed.
Theorem C78_floyd_warshall pk pk' w D D' u v x :
  seen R (nx_floyd_warshall pk R w) (Val D) -> seen G (nx_floyd_warshall pk' G w) (Val D') ->
  (nn_get D u v = Val x <-> nn_get D' v u = Val x).
Proof.
  intros H1 H2. rewrite (fw_get _ _ _ _ _ _ _ rv_wf H1), (fw_get _ _ _ _ _ _ _ wf H2).
  assert (wR := rv_wf). assert (SqG := gw_sq G wf). assert (dR := rv_rdir). assert (dG := rv_dir).
  assert (F : g_A R = mtrans (g_A G) /\ g_kid R = g_kid G).
  { assert (X := HR). unfold reverse in X. rewrite dG in X. injection X as <-. split; reflexivity. }
  destruct F as [FA FK]. assert (Kd : forall k, kid R k = kid G k) by (intros; unfold kid; rewrite FK; reflexivity).
  assert (En : nrows (g_A R) = nrows (g_A G)) by (rewrite FA, nrows_mtrans; congruence).
  assert (Eg : forall a b, mget (g_A R) a b = mget (g_A G) b a) by (intros; rewrite FA; apply mget_mtrans, wf).
  assert (Ex : forall s a b, ent R s a b = ent G s b a).
  { intros s a b. unfold ent. rewrite Eg, (Nat.eqb_sym a b). reflexivity. }
  assert (L : fw_ne R = fw_ne G).
  { unfold fw_ne. rewrite dR, dG. rewrite !den_count by assumption. rewrite En. apply vec_ext; [rewrite !vsize_vinter, !vsize_vbuild; reflexivity|].
    intros i Hi. rewrite vsize_vinter, vsize_vbuild in Hi.
    rewrite !vget_vinter by (rewrite !vsize_vbuild; reflexivity). rewrite !vget_vbuild_lt by assumption.
    assert (E1 : outdeg R SM i = indeg G SM i) by (unfold outdeg, indeg; rewrite En; apply cnt_ext; intros; rewrite Ex; reflexivity).
    assert (E2 : indeg R SM i = outdeg G SM i) by (unfold outdeg, indeg; rewrite En; apply cnt_ext; intros; rewrite Ex; reflexivity).
    rewrite E1, E2. destruct (onz (indeg G SM i)), (onz (outdeg G SM i)); reflexivity. }
  assert (S0 : forall K, gwf K -> g_dir K = true -> shaped true (nrows (g_A K)) (fw_d0 (wgraph w K))).
  { intros K wK dK. assert (X := d0_shaped (wgraph w K)). destruct (wgraph_dims w K) as (Ed & Ew & _). rewrite Ed, dK, Ew in X. exact X. }
  assert (E : forall i j, mget (fw_full pk w R) i j = mget (fw_full pk' w G) j i).
  { intros i j. unfold fw_full. cbv zeta. rewrite L. unfold fw_res, fw_diag. rewrite !mget_mbuild.
    destruct (wgraph_dims w R) as (Ed & Ew & _). destruct (wgraph_dims w G) as (Ed' & Ew' & _). rewrite Ed, Ed', Ew, Ew', dR, dG, En.
    rewrite (andb_comm (i <? _)), (Nat.eqb_sym i j). destruct ((j <? nrows (g_A G)) && (i <? nrows (g_A G))); [|reflexivity].
    destruct (j =? i); [reflexivity|]. unfold fw_sym. apply fw_loop_tr.
    - apply S0; assumption.
    - rewrite <- En. apply S0; assumption.
    - intros a b. assert (V := fun K (wK : gwf K) => d0_view (wgraph w K) (wgraph_wf w K wK)). unfold view in V.
      assert (V1 := V R wR a b). assert (V2 := V G wf b a). rewrite Ed, dR in V1. rewrite Ed', dG in V2. rewrite V1, V2.
      rewrite !off_get by (apply wgraph_wf; assumption). rewrite (Nat.eqb_sym a b). destruct (b =? a); [reflexivity|].
      rewrite !wgraph_get, Eg by assumption. reflexivity. }
  split; intros (i & j & Hi & Hj & H); exists j, i; rewrite ?Kd in *; (split; [assumption|split; [assumption|]]); [rewrite <- E|rewrite E]; assumption.
Qed.
Theorem C78_weakly_connected b b' : seen R (nx_is_weakly_connected R) (Val b) -> seen G (nx_is_weakly_connected G) (Val b') -> b = b'.
Proof.
  intros H1 H2. destruct (seen_ans R rv_wf _ _ _ _ H1 (C11_is_weakly_connected R rv_wf rv_rdir)) as [_ E1].
  destruct (seen_ans G wf _ _ _ _ H2 (C11_is_weakly_connected G wf rv_dir)) as [_ E2].
  apply eq_true_iff_eq. rewrite E1, E2. 
  assert (S : forall u v, reach (Spec.sym (edge R)) u v <-> reach (Spec.sym (edge G)) u v).
  { intros u v. apply reach_ext. intros a b0. unfold Spec.sym. rewrite !rv_edge. tauto. }
  split; intros H u v Nu Nv; apply S, H; apply rv_node; assumption.
Qed.
Lemma rv_out u : out_degree R u = in_degree G u.
Proof. unfold out_degree, in_degree. rewrite rv_nodes. apply count_ext. intros. apply rv_has. Qed.
Lemma rv_in u : in_degree R u = out_degree G u.
Proof. unfold out_degree, in_degree. rewrite rv_nodes. apply count_ext. intros. apply rv_has. Qed.
Theorem C78_degree_centrality u x y r r' : seen R (nx_out_degree_centrality R) (Val r) -> seen G (nx_in_degree_centrality G) (Val r') ->
  nm_getitem r u = Val x -> nm_getitem r' u = Val y -> (x == y)%Q.
Proof.
  intros H1 H2 E1 E2. destruct (seen_ans R rv_wf _ _ _ _ H1 (C53_out_degree_centrality R rv_wf)) as [_ (c & [M _] & C)].
  destruct (seen_ans G wf _ _ _ _ H2 (C53_in_degree_centrality G wf)) as [_ (c' & [M' _] & C')].
  apply M in E1 as [N1 ->]. apply M' in E2 as [N2 ->]. destruct (C u N1) as [A B]. destruct (C' u N2) as [A' B']. rewrite rv_nodes in A, B. rewrite rv_out in B.
  destruct (Nat.le_gt_cases (List.length (gnodes G)) 1) as [L|L]; [rewrite A, A' by assumption; reflexivity|rewrite B, B' by assumption; reflexivity].
Qed.
Theorem C78_tournament b b' : seen R (nx_is_tournament R) (Val b) -> seen G (nx_is_tournament G) (Val b') -> b = b'.
Proof.
  intros H1 H2. destruct (seen_ans R rv_wf _ _ _ _ H1 (C46_is_tournament R rv_wf)) as [_ E1].
  destruct (seen_ans G wf _ _ _ _ H2 (C46_is_tournament G wf)) as [_ E2]. apply eq_true_iff_eq. rewrite E1, E2. unfold tournament, loop_free.
  split; intros [L T]; (split; [intros u Hu; apply (L u); apply rv_edge; assumption|]); intros u v Nu Nv Ne; apply rv_node in Nu, Nv; specialize (T u v Nu Nv Ne);
    rewrite ?rv_has, ?rv_edge in *; tauto.
Qed.
Lemma rv_count_edges (P Q : nkey * nkey -> bool) : (forall u v, P (u, v) = Q (v, u)) -> count P (edges R) = count Q (edges G).
Proof.
  intros H. assert (F : forall (p : nkey * nkey -> bool) K, g_dir K = true -> count p (edges K) = count (fun e => has_edge K (fst e) (snd e) && p e) (pairs (gnodes K))).
  { intros p K HK. unfold edges. rewrite HK. apply Nat2Z.inj. rewrite !total_count, total_filter. apply total_ext. intros e _. destruct (has_edge K (fst e) (snd e)), (p e); reflexivity. }
  rewrite !F by (exact rv_rdir || exact rv_dir). rewrite rv_nodes.
  rewrite (count_ext _ (fun e => (fun a b => has_edge G b a && Q (b, a)) (fst e) (snd e))) by (intros [a b] _; cbn [fst snd]; rewrite rv_has, H; reflexivity).
  rewrite (count_pairs_swap (fun a b => has_edge G b a && Q (b, a))). apply count_ext. intros [a b] _. reflexivity.
Qed.
Theorem C78_reciprocity u x y x' y' : seen R (nx_overall_reciprocity R) (Val x) -> seen G (nx_overall_reciprocity G) (Val y) ->
  seen R (nx_reciprocity_node R u) (Val x') -> seen G (nx_reciprocity_node G u) (Val y') -> (x == y)%Q /\ (x' == y')%Q.
Proof.
  intros H1 H2 H3 H4. destruct (seen_ans R rv_wf _ _ _ _ H1 (C49_overall_reciprocity R rv_wf)) as (_ & _ & ->).
  destruct (seen_ans G wf _ _ _ _ H2 (C49_overall_reciprocity G wf)) as (_ & _ & ->).
  destruct (seen_ans R rv_wf _ _ _ _ H3 (C49_reciprocity_node R rv_wf u)) as (_ & _ & _ & ->).
  destruct (seen_ans G wf _ _ _ _ H4 (C49_reciprocity_node G wf u)) as (_ & _ & _ & ->). split.
  - assert (L : List.length (edges R) = List.length (edges G)).
    { assert (A := rv_count_edges (fun _ => true) (fun _ => true) (fun _ _ => eq_refl)). unfold count in A.
      assert (E : forall X (l : list X), filter (fun _ => true) l = l) by (induction l; simpl; congruence). rewrite !E in A. exact A. }
    rewrite L. rewrite (rv_count_edges _ (fun e => negb (nkey_eqb (fst e) (snd e)) && has_edge G (snd e) (fst e))); [reflexivity|].
    intros a b. cbn [fst snd]. rewrite rv_has. f_equal. f_equal. apply eq_true_iff_eq. rewrite !nkey_eqb_eq. split; congruence.
  - unfold recip_of. assert (E : degree R u = degree G u) by (unfold degree; rewrite rv_dir, rv_rdir, rv_out, rv_in; lia). rewrite E.
    assert (E' : recip_degree R u = recip_degree G u) by (unfold recip_degree; rewrite rv_nodes; apply count_ext; intros; rewrite !rv_has; apply andb_comm).
    rewrite E'. reflexivity.
Qed.
Theorem C78_reciprocity_nodes l u x r r' : seen R (nx_reciprocity_nodes R l) (Val r) -> seen G (nx_reciprocity_nodes G l) (Val r') ->
  (nm_getitem r u = Val x <-> nm_getitem r' u = Val x).
Proof.
  intros H1 H2. destruct (seen_ans R rv_wf _ _ _ _ H1 (C49_reciprocity_nodes R rv_wf l)) as (_ & _ & [M _]).
  destruct (seen_ans G wf _ _ _ _ H2 (C49_reciprocity_nodes G wf l)) as (_ & _ & [M' _]). rewrite M, M'.
  unfold recip_of. assert (E : degree R u = degree G u) by (unfold degree; rewrite rv_dir, rv_rdir, rv_out, rv_in; lia). rewrite E.
  assert (E' : recip_degree R u = recip_degree G u) by (unfold recip_degree; rewrite rv_nodes; apply count_ext; intros; rewrite !rv_has; apply andb_comm).
  rewrite E'. reflexivity.
Qed.
End D.

(** ** A concrete case *)
Definition g_dl := mkg true 4 [(0, 1, 2%Z); (1, 2, 3%Z); (2, 1, 1%Z); (0, 3, 9%Z)].
Definition no_iso (_ : mat Z) := false.
Local Ltac run := eapply seen_after; [apply P_is_weakly_connected|vm_compute; reflexivity].
Example C78_ex : gwf g_dl /\ exists R ds an ss st D D' x y r r', reverse no_iso g_dl = Val R /\
  seen R (nx_descendants R (KI 1)) (Val ds) /\ seen g_dl (nx_ancestors g_dl (KI 1)) (Val an) /\ ns_contains ds (KI 0) = Val true /\ ns_contains ds (KI 3) = Val false /\
  seen R (has_path R (KI 1) (KI 0)) (Val true) /\ seen g_dl (has_path g_dl (KI 0) (KI 1)) (Val true) /\
  seen R (nx_single_source_spl R (KI 2) None) (Val ss) /\ seen g_dl (nx_single_target_spl g_dl (KI 2) None) (Val st) /\ nm_getitem ss (KI 0) = Val 2%Z /\
  seen R (nx_floyd_warshall (fun _ _ _ => true) R true) (Val D) /\ seen g_dl (nx_floyd_warshall (fun _ _ _ => true) g_dl true) (Val D') /\ nn_get D (KI 2) (KI 0) = Val 5%Z /\
  seen R (nx_is_weakly_connected R) (Val true) /\ seen R (nx_is_tournament R) (Val false) /\
  seen R (nx_overall_reciprocity R) (Val x) /\ seen R (nx_reciprocity_node R (KI 1)) (Val y) /\
  seen R (nx_out_degree_centrality R) (Val r) /\ seen g_dl (nx_in_degree_centrality g_dl) (Val r').
Proof.
  split; [apply mkg_wf|]. do 11 eexists. split; [reflexivity|]. do 2 (split; [run|]). do 2 (split; [vm_compute; reflexivity|]).
  do 4 (split; [run|]). split; [vm_compute; reflexivity|]. do 2 (split; [run|]). split; [vm_compute; reflexivity|]. do 5 (split; [run|]). run.
Qed.
Print Assumptions C78_reachable.
Print Assumptions C78_lengths.
Print Assumptions C78_floyd_warshall.
Print Assumptions C78_weakly_connected.
Print Assumptions C78_degree_centrality.
Print Assumptions C78_tournament.
Print Assumptions C78_reciprocity.
Print Assumptions C78_reciprocity_nodes.
