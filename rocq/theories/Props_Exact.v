(** * What the functions with known defects return, for every graph
    (supplements C38, C41, C45, C50, C51, C53: the exact answers, also where the property itself is refuted) *)
From Verif Require Import Base BaseProofs Model_Graph Model_Cache Spec_Cache CacheMath CacheProofs CacheProofs2
  Model_Keys Spec KeyProofs Spec_Run RunProofs Model_Bfs Model_Operators OperatorProofs Spec_Count Model_Measures CountProofs Concrete
  Props_Cuts Props_Measures.
From Coq Require Import Permutation QArith.
Open Scope nat_scope.

Section X.
Variable G : graph.
Hypothesis wf : gwf G.

(** ** C38, C41: with T omitted on a directed graph there is never an answer *)
Lemma cut_default v P w : g_dir G = true -> svec G v P -> answers G (cut_size G (Some v) None w) (fun o => o = Raise EType).
Proof.
  intros D H1. unfold cut_size. eapply answers_bind; [apply (edge_boundary_ok G wf v None P None w H1 I)| |].
  - intros B _. rewrite D. unfold edge_boundary at 1. apply (answers_bind_e G _ _ EType); [apply answers_raise; reflexivity|reflexivity].
  - intros e (B & [=] & _).
Qed.
Theorem C38_default_exact S w : g_dir G = true -> raises G (nx_cut_size G S None w) EType.
Proof.
  intros D. unfold raises, nx_cut_size. apply (answers_set_vec G wf). intros v1 H1. cbn [set_vec_opt]. apply (answers_ret_bind G).
  eapply cut_default; eassumption.
Qed.
Theorem C41_default_exact S w : g_dir G = true ->
  raises G (nx_edge_expansion G S None w) EType /\ raises G (nx_mixing_expansion G S None w) EType.
Proof.
  intros D. split; [unfold raises, nx_edge_expansion, edge_expansion|unfold raises, nx_mixing_expansion, mixing_expansion];
    (apply (answers_set_vec G wf); intros v1 H1; cbn [set_vec_opt]; apply (answers_ret_bind G); eapply answers_bind;
      [eapply cut_default; eassumption|intros x [=]|intros e [= ->]; reflexivity]).
Qed.

(** ** C45: a self-loop of an undirected graph counts once, and there is no 0-regular graph *)
Theorem C45_is_k_regular_exact k :
  answers G (nx_is_k_regular G k) (fun o =>
    match o with
    | Val b => g_dir G = false /\ (b = true <-> gnodes G = [] \/ (0 < k)%Z /\ forall u, node G u -> Z.of_nat (out_degree G u) = k)
    | Raise e => e = ENotImpl /\ g_dir G = true
    end).
Proof.
  unfold nx_is_k_regular, only_undirected. destruct (g_dir G) eqn:D; [apply answers_raise; auto|].
  pose proof (dvec_out G wf None eq_refl) as Ho.
  eapply answers_bind_GV; [apply (get_red_ok G wf true eq_refl)|]. set (r := msk None (den_red G Row RCount SP)) in *.
  apply answers_if; intros E1; apply answers_ret; (split; [reflexivity|]).
  - apply negb_true_iff in E1. split; [discriminate|]. intros H. exfalso.
    assert (T : (nvals r =? vsize r) = true); [|congruence]. apply (dvec_full G wf r _ Ho). intros u Hu. destruct H as [H|[H H']].
    + unfold node in Hu. rewrite H in Hu. destruct Hu.
    + specialize (H' u Hu). lia.
  - apply negb_false_iff in E1. pose proof (proj1 (dvec_full G wf r _ Ho) E1) as FULL. apply Nat.eqb_eq in E1. rewrite (proj1 Ho) in E1.
    destruct (Z_lt_le_dec 0 k) as [Hk|Hk].
    + rewrite <- (Z2Nat.id k) at 1 by lia. rewrite (all_eq_dvec G wf r _ (Z.to_nat k) Ho E1). split.
      * intros H. right. split; [assumption|]. intros u Hu. rewrite (H u Hu). lia.
      * intros [H|[_ H]] u Hu; [unfold node in Hu; rewrite H in Hu; destruct Hu|]. specialize (H u Hu). lia.
    + destruct (gnodes G) as [|u0 l] eqn:EN.
      * split; [auto|]. intros _. destruct (all_eq r k) eqn:EA; [reflexivity|]. exfalso. unfold all_eq in EA.
        assert (HN : glen G = 0) by (apply (nodes_empty G wf); assumption).
        assert (r = []) by (destruct r; [reflexivity|]; destruct Ho as [Ho _]; cbn in Ho; congruence). subst r. rewrite H in EA. discriminate.
      * split; [|intros [?|[? _]]; [discriminate|lia]]. intros H. exfalso.
        assert (N0 : node G u0) by (unfold node; rewrite EN; left; reflexivity).
        apply node_kid in N0 as [i Hi]. unfold all_eq in H. rewrite forallb_forall in H.
        specialize (FULL u0 ltac:(apply node_kid; eauto)).
        assert (E : Z.eqb (Z.of_nat (out_degree G u0)) k = true).
        { apply H. unfold vvalues. apply in_map_iff. exists (i, Z.of_nat (out_degree G u0)). split; [reflexivity|].
          apply in_vcoo. rewrite (proj2 Ho u0 i Hi). unfold onz. destruct (out_degree G u0); [lia|reflexivity]. }
        apply Z.eqb_eq in E. lia.
Qed.

(** ** C53, C50: the degree used is [ndeg]: in + out for directed graphs, neighbours (a loop once) for undirected ones *)
Theorem C53_degree_centrality_exact :
  answers_td G (nx_degree_centrality G) (fun o => exists r, o = Val r /\ centrality G (ndeg G) r).
Proof.
  unfold nx_degree_centrality. destruct (degrees_plus_ok G wf) as (d & Hd & H).
  eapply (td_pure G _ (fun d => Val (to_nodemap_fill G 0%Q (degree_centrality_of G d)))); [exact H|]. eexists. split; [reflexivity|].
  apply (centrality_ok G wf). assumption.
Qed.
Theorem C50_s_metric_exact :
  answers_td G (nx_s_metric G) (fun o => exists x, o = Val x /\
    (x == inject_Z (total (fun e => if has_edge G (fst e) (snd e) then Z.of_nat (ndeg G (fst e)) * Z.of_nat (ndeg G (snd e)) else 0)%Z
                      (pairs (gnodes G))) / 2)%Q).
Proof.
  unfold nx_s_metric. destruct (degrees_plus_ok G wf) as (d & Hd & H).
  eapply (td_pure G _ (fun d => Val (inject_Z (vsum (mxv Z.add Z.mul (vm_inter op_first d (g_A G)) d)) / 2)%Q)); [exact H|].
  eexists. split; [reflexivity|]. rewrite (s_metric_val G wf d _ Hd). reflexivity.
Qed.
(** for a directed graph that is half of what networkx sums over the edges *)
Corollary C50_s_metric_directed : g_dir G = true ->
  answers_td G (nx_s_metric G) (fun o => exists x, o = Val x /\
    (x == inject_Z (total (fun e => Z.of_nat (degree G (fst e)) * Z.of_nat (degree G (snd e)))%Z (edges G)) / 2)%Q).
Proof.
  intros D. eapply (td_conseq G); [apply C50_s_metric_exact|]. intros o (x & -> & E). exists x. split; [reflexivity|]. rewrite E.
  unfold edges. rewrite D, total_filter. match goal with |- (inject_Z ?a / 2 == inject_Z ?b / 2)%Q => replace a with b; [reflexivity|] end. apply total_ext. intros [u v] _. cbn [fst snd].
  rewrite !ndeg_directed by assumption. reflexivity.
Qed.

(** keyword arguments: anything but normalized is refused, unless normalized is given too *)
Theorem C50_keywords kw s :
  (kw = [] \/ In "normalized"%string kw -> nx_s_metric_kw G kw s = nx_s_metric G s) /\
  (kw <> [] -> ~ In "normalized"%string kw -> nx_s_metric_kw G kw s = (Raise EType, s)).
Proof.
  split.
  - intros [->|H]; [reflexivity|]. destruct kw as [|k l] eqn:E; [destruct H|]. rewrite <- E in *. assert (X : existsb (String.eqb "normalized"%string) kw = true).
    { apply existsb_exists. exists "normalized"%string. split; [assumption|apply String.eqb_refl]. }
    unfold nx_s_metric_kw. rewrite E in *. rewrite X. reflexivity.
  - intros NE H. destruct kw as [|k l] eqn:E; [congruence|]. rewrite <- E in *. assert (X : existsb (String.eqb "normalized"%string) kw = false).
    { apply Bool.not_true_is_false. intros T. apply existsb_exists in T as (x & Hx & Ex). apply String.eqb_eq in Ex. subst x. contradiction. }
    unfold nx_s_metric_kw. rewrite E in *. rewrite X. reflexivity.
Qed.

(** ** C51: every stored entry counts: an edge between two different nodes of an undirected graph twice, a self-loop once *)
Theorem C51_exact p : partition_of G p ->
  let arcs := filter (fun e => has_edge G (fst e) (snd e)) (pairs (gnodes G)) in
  returns G (nx_intra_community_edges G p) (fun z => z = Z.of_nat (count (same_block p) arcs)) /\
  returns G (nx_inter_community_edges G p) (fun z => z = Z.of_nat (count (fun e => negb (same_block p e)) arcs)).
Proof.
  intros Hp arcs.
  assert (CT : forall inside, total (fun b => total (fun e => if inb inside b e && has_edge G (fst e) (snd e) then 1 else 0)%Z (pairs (gnodes G))) p =
    total (fun e => total (fun b => if inb inside b e then 1 else 0)%Z p) arcs).
  { intros inside. rewrite (total_swap (fun b e => if inb inside b e && has_edge G (fst e) (snd e) then 1 else 0)%Z). unfold arcs. rewrite total_filter. apply total_ext.
    intros e _. destruct (has_edge G (fst e) (snd e)).
    - apply total_ext. intros b _. rewrite andb_true_r. reflexivity.
    - apply total_zero. intros b _. rewrite andb_false_r. reflexivity. }
  assert (IN : forall e, In e arcs -> node G (snd e)).
  { intros e He. apply filter_In in He as [He _]. destruct e as [u v]. apply in_prod_iff in He. apply He. }
  split; (eapply answers_conseq; [apply (sum_blocks_ok G wf)|]; intros o <-; eexists; split; [reflexivity|]; rewrite CT, total_count, Z.add_0_l;
    apply total_ext; intros e He; destruct (one_block G wf e p (Hp _ (IN e He))) as [H1 H2]).
  - exact H1.
  - rewrite H2. destruct (same_block p e); reflexivity.
Qed.
End X.
(** an undirected path of two nodes with a self-loop at the first; a directed one *)
Definition loop2 : graph := mkg false 2 [(0, 0, 1%Z); (0, 1, 1%Z)].
Definition arc2 : graph := mkg true 2 [(0, 1, 1%Z)].
Example exact_ex : gwf loop2 /\ gwf arc2 /\ g_dir arc2 = true /\
  fst (nx_is_k_regular loop2 2 st0) = Val false /\ out_degree loop2 (KI 0) = 2 /\ out_degree loop2 (KI 1) = 1 /\
  partition_of loop2 [[KI 0; KI 1]] /\ fst (nx_intra_community_edges loop2 [[KI 0; KI 1]] st0) = Val 3%Z /\
  fst (nx_cut_size arc2 [KI 0] None false st0) = Raise EType /\ fst (nx_edge_boundary arc2 [KI 0] None false st0) = Val [].
Proof.
  split; [apply mkg_wf|]. split; [apply mkg_wf|]. split; [reflexivity|]. split; [vm_compute; reflexivity|]. split; [vm_compute; reflexivity|].
  split; [vm_compute; reflexivity|]. split; [intros u [<-|[<-|[]]]; vm_compute; reflexivity|]. repeat split; vm_compute; reflexivity.
Qed.
Print Assumptions C38_default_exact.
Print Assumptions C41_default_exact.
Print Assumptions C45_is_k_regular_exact.
Print Assumptions C53_degree_centrality_exact.
Print Assumptions C50_s_metric_exact.
Print Assumptions C50_s_metric_directed.
Example C50_keywords_ex : In "normalized"%string ["foo"%string; "normalized"%string] /\ nx_s_metric_kw loop2 ["foo"%string; "normalized"%string] st0 = nx_s_metric loop2 st0 /\
  fst (nx_s_metric_kw loop2 ["foo"%string] st0) = Raise EType.
Proof. split; [right; left; reflexivity|]. split; reflexivity. Qed.
Print Assumptions C50_keywords.
Print Assumptions C51_exact.
