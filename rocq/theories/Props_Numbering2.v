(** * C70 continued: cuts, degrees, efficiency, trusses, matrices and power iterations under another numbering *)
From Verif Require Import Base BaseProofs Model_Graph Model_Cache Spec_Cache CacheMath CacheProofs CacheProofs2
  Model_Keys Spec KeyProofs Spec_Run RunProofs Model_Bfs BfsProofs3 Walks Model_Operators OperatorProofs Props_Operators Props_Bfs
  Spec_Count Model_Measures CountProofs Props_Cuts Props_Measures Props_Exact Spec_Weighted Model_Weighted Props_Weighted
  Model_Dense Props_Dense Model_Cluster Spec_Cluster ClusterProofs Props_Cluster Props_Truss Model_Linalg Spec_Linalg Props_Linalg
  Model_Rank Spec_Rank RankProofs RankMath Props_Pagerank Props_Power
  Concrete Spec_Numbering Props_Numbering Props_CutLaws.
From Coq Require Import QArith Qcanon Qcabs Permutation Sorted.
Local Notation ndeg := Props_Measures.ndeg.
Open Scope nat_scope.

(** ** sums and counts over nodes do not see the order *)
Section S.
Variables G H : graph.
Hypothesis wf : gwf G.
Hypothesis wf' : gwf H.
Hypothesis SG : same_graph G H.
Let SW := sg_weight G H SG.
Let SD := sg_dir G H SG.
Let PN := sg_nodes G H wf wf' SG.

Lemma sg_ewt w u v : ewt G w u v = ewt H w u v.
Proof. unfold ewt, weight0. rewrite SW, (sg_has G H SG). reflexivity. Qed.
Lemma sg_total (f g : nkey -> Z) : (forall u, f u = g u) -> total f (gnodes G) = total g (gnodes H).
Proof. intros E. rewrite (total_perm f _ _ PN). apply total_ext. auto. Qed.
Lemma sg_members P : Permutation (members G P) (members H P).
Proof. unfold members. apply NoDup_Permutation; [apply NoDup_filter, (gnodes_nodup G wf)|apply NoDup_filter, (gnodes_nodup H wf')|].
  intros u. rewrite !filter_In. assert (E : In u (gnodes G) <-> In u (gnodes H)) by (apply SG). rewrite E. reflexivity. Qed.
Lemma sg_crossing w P Q : crossing G w P Q = crossing H w P Q.
Proof.
  unfold crossing. rewrite (total_perm _ _ _ (sg_pairs G H wf wf' SG)). apply total_ext. intros [u v] _. cbn [fst snd]. rewrite sg_ewt. reflexivity.
Qed.
Lemma sg_cut w P Q : cut G w P Q = cut H w P Q.
Proof. unfold cut. rewrite !sg_crossing, SD. reflexivity. Qed.
Lemma sg_vol w P : vol G w P = vol H w P.
Proof.
  unfold vol. rewrite (total_perm _ _ _ (sg_members P)). apply total_ext. intros u _. apply sg_total. intros v. apply sg_ewt.
Qed.
Lemma sg_card P Q : (forall u, P u = Q u) -> card G P = card H Q.
Proof.
  intros E. unfold card. rewrite (Permutation_length (sg_members P)). unfold members. f_equal. f_equal.
  apply filter_ext. exact E.
Qed.
Lemma sg_arcs p : count p (filter (fun e => has_edge G (fst e) (snd e)) (pairs (gnodes G))) = count p (filter (fun e => has_edge H (fst e) (snd e)) (pairs (gnodes H))).
Proof.
  assert (E : Permutation (filter (fun e => has_edge G (fst e) (snd e)) (pairs (gnodes G))) (filter (fun e => has_edge H (fst e) (snd e)) (pairs (gnodes H)))).
  { apply NoDup_Permutation; [apply NoDup_filter; apply prod_nodup; apply gnodes_nodup; assumption|apply NoDup_filter; apply prod_nodup; apply gnodes_nodup; assumption|].
    intros [u v]. rewrite !filter_In. cbn [fst snd]. rewrite (sg_has G H SG).
    assert (EP : In (u, v) (pairs (gnodes G)) <-> In (u, v) (pairs (gnodes H))).
    { pose proof (sg_pairs G H wf wf' SG) as P. split; intros I; [apply (Permutation_in _ P I)|apply (Permutation_in _ (Permutation_sym P) I)]. }
    rewrite EP. reflexivity. }
  apply count_perm, E.
Qed.
Lemma sg_ndeg u : ndeg G u = ndeg H u.
Proof. unfold ndeg. rewrite SD, (sg_out G H wf wf' SG), (sg_in G H wf wf' SG). reflexivity. Qed.
Lemma sg_arcs_count : count (fun e => has_edge G (fst e) (snd e)) (pairs (gnodes G)) = count (fun e => has_edge H (fst e) (snd e)) (pairs (gnodes H)).
Proof.
  rewrite (count_perm _ _ _ (sg_pairs G H wf wf' SG)). apply count_ext. intros [u v] _. cbn [fst snd]. apply (sg_has G H SG).
Qed.
End S.

Section Thm.
Variables G H : graph.
Hypothesis wf : gwf G.
Hypothesis wf' : gwf H.
Hypothesis SG : same_graph G H.
Local Lemma SE u v : edge G u v <-> edge H u v. Proof. apply sg_edge, SG. Qed.
Local Lemma SN u : node G u <-> node H u. Proof. apply sg_node, SG. Qed.
Local Lemma SW u v : weight G u v = weight H u v. Proof. apply sg_weight, SG. Qed.
Local Lemma SD : g_dir G = g_dir H. Proof. apply sg_dir, SG. Qed.

(** *** cuts *)
Theorem C70_edge_boundary S T data : alike G H (fun K => nx_edge_boundary K S T data) (@Permutation (nkey * nkey * option Z)).
Proof.
  eapply alike_intro; [apply (C36_exact G wf S T data)|apply (C36_exact H wf' S T data)|].
  intros o o' (l & -> & N & P) (l' & -> & N' & P'). cbn [same_outcome].
  apply NoDup_Permutation; [apply (NoDup_map_inv _ _ N)|apply (NoDup_map_inv _ _ N')|].
  intros [[u v] w]. rewrite P, P', SW. destruct T; [reflexivity|].
  assert (E : (exists x, edge G v x) <-> (exists x, edge H v x)) by (split; intros [x Hx]; exists x; apply SE; assumption).
  rewrite E. reflexivity.
Qed.
Theorem C70_node_boundary S T : alike G H (fun K => nx_node_boundary K S T) same_set.
Proof.
  eapply alike_intro; [apply (C37_node_boundary G wf S T)|apply (C37_node_boundary H wf' S T)|].
  intros o o' (a & -> & P) (b & -> & Q). cbn [same_outcome]. eapply same_set_intro; [exact P|exact Q|]. intros v. cbv beta.
  assert (E : (exists u, In u S /\ edge G u v) <-> (exists u, In u S /\ edge H u v)) by (split; intros (u & Hu & Hx); exists u; (split; [assumption|]); apply SE; assumption).
  rewrite E. reflexivity.
Qed.
Theorem C70_cut_size S T w : alike G H (fun K => nx_cut_size K S T w) eq.
Proof.
  assert (C : (T = None /\ g_dir G = true) \/ (T = None -> g_dir G = false)) by (destruct T; [right; discriminate|]; destruct (g_dir G); auto).
  destruct C as [[-> D]|C].
  - eapply alike_intro; [apply (C38_default_exact G wf S w D)|apply (C38_default_exact H wf' S w)|]; [(pose proof SD; congruence)|]. intros o o' -> ->. reflexivity.
  - eapply alike_intro; [apply (C38_cut_size G wf S T w C)|apply (C38_cut_size H wf' S T w)|]; [intros E; rewrite <- SD; auto|].
    intros o o' (a & -> & ->) (b & -> & ->). cbn [same_outcome]. apply (sg_cut G H wf wf' SG).
Qed.
Lemma sg_wvol S : total (fun v => total (fun u => weight0 G u v) (gnodes G)) (members G (fun k => mem k S)) =
  total (fun v => total (fun u => weight0 H u v) (gnodes H)) (members H (fun k => mem k S)).
Proof.
  rewrite (total_perm _ _ _ (sg_members G H wf wf' SG (fun k => mem k S))). apply total_ext. intros v _.
  rewrite (total_perm _ _ _ (sg_nodes G H wf wf' SG)). apply total_ext. intros u _. unfold weight0. rewrite SW. reflexivity.
Qed.
Theorem C70_volume S w : alike G H (fun K => nx_volume K S w) eq.
Proof.
  destruct w.
  - eapply alike_intro; [apply (C39_volume_weighted_partial G wf S)|apply (C39_volume_weighted_partial H wf' S)|].
    intros [a|e] [b|e'] P Q; cbn [same_outcome].
    + destruct P as [_ ->], Q as [_ ->]. apply sg_wvol.
    + destruct P as [P _], Q as (_ & k & K & Q). apply Q, SN, P, K.
    + destruct Q as [Q _], P as (_ & k & K & P). apply P, SN, Q, K.
    + destruct P, Q; (pose proof SD; congruence).
  - eapply alike_intro; [apply (C39_volume G wf S false)|apply (C39_volume H wf' S false)|]; [discriminate..|].
    intros [a|e] [b|e'] P Q; cbn [same_outcome].
    + destruct P as [_ ->], Q as [_ ->]. apply (sg_vol G H wf wf' SG).
    + destruct P as [P _], Q as (_ & k & K & Q). apply Q, SN, P, K.
    + destruct Q as [Q _], P as (_ & k & K & P). apply P, SN, Q, K.
    + destruct P, Q; (pose proof SD; congruence).
Qed.
Theorem C70_normalized_cut_size S T w : alike G H (fun K => nx_normalized_cut_size K S T w) Qeq.
Proof.
  eapply alike_intro; [apply (C40_normalized_cut_size G wf S T w)|apply (C40_normalized_cut_size H wf' S T w)|].
  cbv zeta. intros [a|e] [b|e'] P Q; cbn [same_outcome]; rewrite ?(sg_cut G H wf wf' SG), ?(sg_vol G H wf wf' SG) in *.
  - destruct P as (_ & _ & ->), Q as (_ & _ & ->). reflexivity.
  - tauto.
  - tauto.
  - destruct P, Q; (pose proof SD; congruence).
Qed.
Theorem C70_conductance S T w : alike G H (fun K => nx_conductance K S T w) Qeq.
Proof.
  eapply alike_intro; [apply (C40_conductance G wf S T w)|apply (C40_conductance H wf' S T w)|].
  cbv zeta. intros [a|e] [b|e'] P Q; cbn [same_outcome]; rewrite ?(sg_cut G H wf wf' SG), ?(sg_vol G H wf wf' SG) in *.
  - destruct P as (-> & _), Q as (-> & _). reflexivity.
  - tauto.
  - tauto.
  - destruct P, Q; (pose proof SD; congruence).
Qed.
Theorem C70_edge_expansion S T w : alike G H (fun K => nx_edge_expansion K S T w) Qeq.
Proof.
  assert (C : (T = None /\ g_dir G = true) \/ (T = None -> g_dir G = false)) by (destruct T; [right; discriminate|]; destruct (g_dir G); auto).
  destruct C as [[-> D]|C].
  - eapply alike_intro; [apply (C41_default_exact G wf S w D)|apply (C41_default_exact H wf' S w)|]; [(pose proof SD; congruence)|]. intros o o' -> ->. reflexivity.
  - eapply alike_intro; [apply (C41_edge_expansion G wf S T w C)|apply (C41_edge_expansion H wf' S T w)|]; [intros E; rewrite <- SD; auto|].
    cbv zeta. intros [a|e] [b|e'] P Q; cbn [same_outcome]; rewrite ?(sg_cut G H wf wf' SG), ?(sg_card G H wf wf' SG _ _ (fun _ => eq_refl)) in *.
    + destruct P as (-> & _), Q as (-> & _). reflexivity.
    + tauto.
    + tauto.
    + destruct P, Q; (pose proof SD; congruence).
Qed.
Theorem C70_mixing_expansion S T w : alike G H (fun K => nx_mixing_expansion K S T w) Qeq.
Proof.
  assert (C : (T = None /\ g_dir G = true) \/ (T = None -> g_dir G = false)) by (destruct T; [right; discriminate|]; destruct (g_dir G); auto).
  destruct C as [[-> D]|C].
  - eapply alike_intro; [apply (C41_default_exact G wf S w D)|apply (C41_default_exact H wf' S w)|]; [(pose proof SD; congruence)|]. intros o o' -> ->. reflexivity.
  - eapply alike_intro; [apply (C41_mixing_expansion_partial G wf S T w C)|apply (C41_mixing_expansion_partial H wf' S T w)|]; [intros E; rewrite <- SD; auto|].
    cbv zeta. intros [a|e] [b|e'] P Q; cbn [same_outcome]; rewrite ?(sg_cut G H wf wf' SG), ?(sg_arcs_count G H wf wf' SG) in *.
    + destruct P as (_ & ->), Q as (_ & ->). reflexivity.
    + tauto.
    + tauto.
    + destruct P, Q; (pose proof SD; congruence).
Qed.
Lemma sg_nbrs S v : neighbour_of G S v = neighbour_of H S v.
Proof. unfold neighbour_of. induction S as [|x l IH]; [reflexivity|]. cbn [existsb]. rewrite IH, (sg_has G H SG). reflexivity. Qed.
Theorem C70_node_expansion S : alike G H (fun K => nx_node_expansion K S) Qeq.
Proof.
  eapply alike_intro; [apply (C42_node_expansion G wf S)|apply (C42_node_expansion H wf' S)|].
  intros [a|e] [b|e'] P Q; cbn [same_outcome].
  - destruct P as (_ & _ & ->), Q as (_ & _ & ->). rewrite (sg_card G H wf wf' SG _ _ (sg_nbrs S)), (sg_card G H wf wf' SG _ _ (fun _ => eq_refl)). reflexivity.
  - destruct P as (P & (k & Hk) & _), Q as [(_ & k' & K & Q)|(_ & ->)]; [apply Q, SN, P, K|destruct Hk].
  - destruct Q as (Q & (k & Hk) & _), P as [(_ & k' & K & P)|(_ & ->)]; [apply P, SN, Q, K|destruct Hk].
  - destruct P as [(-> & k & K & P)|(-> & ->)], Q as [(-> & k' & K' & Q)|(-> & E)]; try reflexivity; [subst; destruct K|destruct K'].
Qed.
Theorem C70_boundary_expansion S : alike G H (fun K => nx_boundary_expansion K S) Qeq.
Proof.
  eapply alike_intro; [apply (C42_boundary_expansion G wf S)|apply (C42_boundary_expansion H wf' S)|].
  assert (E : forall v, negb (mem v S) && neighbour_of G S v = negb (mem v S) && neighbour_of H S v) by (intros; rewrite sg_nbrs; reflexivity).
  intros [a|e] [b|e'] P Q; cbn [same_outcome]; rewrite ?(sg_card G H wf wf' SG _ _ E), ?(sg_card G H wf wf' SG _ _ (fun _ => eq_refl)) in *.
  - destruct P as (_ & ->), Q as (_ & ->). reflexivity.
  - tauto.
  - tauto.
  - destruct P, Q; (pose proof SD; congruence).
Qed.
Theorem C70_is_dominating_set S : alike G H (fun K => nx_is_dominating_set K S) eq.
Proof.
  eapply alike_intro; [apply (C43_is_dominating_set G wf S)|apply (C43_is_dominating_set H wf' S)|].
  intros o o' (a & -> & P) (b & -> & Q). cbn [same_outcome]. apply eq_true_iff_eq. rewrite P, Q.
  split; intros K v Hv Nv; (destruct (K v) as (u & Hu & He); [apply SN; assumption|assumption|]); exists u; (split; [assumption|]); apply SE; assumption.
Qed.

(** *** degrees *)
Theorem C70_number_of_isolates : alike G H nx_number_of_isolates eq.
Proof.
  eapply alike_td; [apply (C44_number_of_isolates G wf)|apply (C44_number_of_isolates H wf')|].
  intros o o' (l & N & P & ->) (l' & N' & P' & ->). cbn [same_outcome]. apply Permutation_length, NoDup_Permutation; [assumption..|].
  intros u. rewrite P, P'. unfold isolated. rewrite SN. split; intros [Nu K]; (split; [assumption|]); intros v; specialize (K v); rewrite !SE in *; assumption.
Qed.
Lemma nodes_none : gnodes G = [] <-> gnodes H = [].
Proof. rewrite <- !length_zero_iff_nil, (sg_len G H wf wf' SG). reflexivity. Qed.
Theorem C70_is_regular : alike G H nx_is_regular eq.
Proof.
  eapply alike_intro; [apply (C45_is_regular_partial G wf)|apply (C45_is_regular_partial H wf')|]. pose proof nodes_none as N.
  intros [a|e] [b|e'] P Q; cbn [same_outcome]; try tauto.
  - destruct P as [_ P], Q as [_ Q]. apply eq_true_iff_eq. rewrite P, Q.
    split; intros (d & f & Hd & Hf & K); exists d, f; (split; [assumption|]); (split; [assumption|]); intros u Hu;
      [rewrite <- (sg_out G H wf wf' SG), <- (sg_in G H wf wf' SG)|rewrite (sg_out G H wf wf' SG), (sg_in G H wf wf' SG)]; apply K, SN, Hu.
  - destruct P, Q; (pose proof SD; congruence).
Qed.
Theorem C70_is_k_regular k : alike G H (fun K => nx_is_k_regular K k) eq.
Proof.
  eapply alike_intro; [apply (C45_is_k_regular_exact G wf k)|apply (C45_is_k_regular_exact H wf' k)|]. pose proof nodes_none as N.
  intros [a|e] [b|e'] P Q; cbn [same_outcome]; try (destruct P, Q; (pose proof SD; congruence)).
  destruct P as [_ P], Q as [_ Q]. apply eq_true_iff_eq. rewrite P, Q, N.
  assert (E : (forall u, node G u -> Z.of_nat (out_degree G u) = k) <-> (forall u, node H u -> Z.of_nat (out_degree H u) = k)).
  { split; intros K u Hu; [rewrite <- (sg_out G H wf wf' SG)|rewrite (sg_out G H wf wf' SG)]; apply K, SN, Hu. }
  rewrite E. reflexivity.
Qed.
Theorem C70_is_tournament : alike G H nx_is_tournament eq.
Proof.
  eapply alike_intro; [apply (C46_is_tournament G wf)|apply (C46_is_tournament H wf')|].
  intros [a|e] [b|e'] P Q; cbn [same_outcome]; try (destruct P, Q; (pose proof SD; congruence)).
  destruct P as [_ P], Q as [_ Q]. apply eq_true_iff_eq. rewrite P, Q. unfold tournament, loop_free.
  split; intros [L K]; (split; [intros u E; apply (L u), SE, E|]); intros u v Hu Hv Ne; specialize (K u v); rewrite ?SE, ?SN in *; auto.
Qed.
Lemma sorted_same : forall l l', StronglySorted Z.le l -> StronglySorted Z.le l' -> Permutation l l' -> l = l'.
Proof.
  induction l as [|x l IH]; intros l' S S' P; [apply Permutation_nil in P; (pose proof SD; congruence)|].
  destruct l' as [|y l']; [apply Permutation_sym, Permutation_nil in P; discriminate|].
  assert (E : x = y).
  { apply Z.le_antisymm.
    - assert (I : In y (x :: l)) by (apply (Permutation_in _ (Permutation_sym P)); left; reflexivity).
      destruct I as [->|I]; [lia|]. inversion S as [|? ? ? F]; subst. rewrite Forall_forall in F. auto.
    - assert (I : In x (y :: l')) by (apply (Permutation_in _ P); left; reflexivity).
      destruct I as [->|I]; [lia|]. inversion S' as [|? ? ? F]; subst. rewrite Forall_forall in F. auto. }
  subst y. f_equal. apply IH; [inversion S; assumption|inversion S'; assumption|apply (Permutation_cons_inv P)].
Qed.
Theorem C70_score_sequence : alike G H nx_score_sequence eq.
Proof.
  eapply alike_intro; [apply (C47_score_sequence G wf)|apply (C47_score_sequence H wf')|].
  intros [a|e] [b|e'] P Q; cbn [same_outcome]; try (destruct P, Q; (pose proof SD; congruence)).
  destruct P as (_ & S & P), Q as (_ & S' & Q). apply sorted_same; [assumption..|]. rewrite P, Q.
  rewrite (map_ext _ (fun u => Z.of_nat (out_degree H u))) by (intros; rewrite (sg_out G H wf wf' SG); reflexivity).
  apply Permutation_map, (sg_nodes G H wf wf' SG).
Qed.
Theorem C70_mutual_weight u v : alike G H (fun K => nx_mutual_weight K u v) eq.
Proof.
  eapply alike_intro; [apply (C52_mutual_weight G u v)|apply (C52_mutual_weight H u v)|].
  intros o o' <- <-. cbn [same_outcome]. unfold weight0. rewrite !SW. reflexivity.
Qed.
Theorem C70_s_metric : alike G H nx_s_metric Qeq.
Proof.
  eapply alike_td; [apply (C50_s_metric_exact G wf)|apply (C50_s_metric_exact H wf')|].
  intros o o' (x & -> & Ex) (y & -> & Ey). cbn [same_outcome]. rewrite Ex, Ey.
  rewrite (total_perm _ _ _ (sg_pairs G H wf wf' SG)), (total_ext _ (fun e => if has_edge H (fst e) (snd e) then Z.of_nat (ndeg H (fst e)) * Z.of_nat (ndeg H (snd e)) else 0)%Z).
  - reflexivity.
  - intros [u v] _. cbn [fst snd]. rewrite (sg_has G H SG), !(sg_ndeg G H wf wf' SG). reflexivity.
Qed.
Theorem C70_communities p : partition_of G p ->
  alike G H (fun K => nx_intra_community_edges K p) eq /\ alike G H (fun K => nx_inter_community_edges K p) eq.
Proof.
  intros Hp. assert (Hp' : partition_of H p) by (intros u Hu; apply Hp, SN, Hu).
  destruct (C51_exact G wf p Hp) as [A B]. destruct (C51_exact H wf' p Hp') as [A' B'].
  split; (eapply alike_intro; [eassumption..|]); intros o o' (a & -> & ->) (b & -> & ->); cbn [same_outcome]; f_equal; apply (sg_arcs G H wf wf' SG).
Qed.
Theorem C70_is_simple_path l : alike G H (fun K => nx_is_simple_path K l) eq.
Proof.
  eapply alike_intro; [apply (C48_is_simple_path G wf l)|apply (C48_is_simple_path H wf' l)|].
  intros o o' (a & -> & P) (b & -> & Q). cbn [same_outcome]. apply eq_true_iff_eq. rewrite P, Q. unfold simple_path.
  split; intros (A1 & A2 & A3 & A4); (repeat split; [assumption|intros k Hk; apply SN, A2, Hk|assumption|intros x u v y E; apply SE, (A4 _ _ _ _ E)]).
Qed.
Lemma sg_recip u : recip_of G u = recip_of H u.
Proof.
  unfold recip_of, recip_degree. rewrite (sg_degree G H wf wf' SG). do 4 f_equal.
  rewrite (count_perm _ _ _ (sg_nodes G H wf wf' SG)). apply count_ext. intros v _. rewrite !(sg_has G H SG). reflexivity.
Qed.
Theorem C70_reciprocity u : alike G H (fun K => nx_reciprocity_node K u) eq.
Proof.
  destruct (g_dir G) eqn:D0.
  2: { intros s t Is It. assert (D' : g_dir H = false) by (pose proof SD; congruence). unfold nx_reciprocity_node, as_digraph. rewrite D0, D'. reflexivity. }
  eapply alike_intro; [apply (C49_reciprocity_node G wf u)|apply (C49_reciprocity_node H wf' u)|]. pose proof (sg_degree G H wf wf' SG u) as ED.
  intros [a|e] [b|e'] P Q; cbn [same_outcome].
  - destruct P as (_ & _ & _ & ->), Q as (_ & _ & _ & ->). apply sg_recip.
  - rewrite SN, ED in P. destruct P as (D & N & K & _), Q as [[_ Q]|[[_ Q]|(_ & _ & Q)]]; [(pose proof SD; congruence)|tauto|lia].
  - rewrite SN, ED in P. destruct Q as (D & N & K & _), P as [[_ P]|[[_ P]|(_ & _ & P)]]; [(pose proof SD; congruence)|tauto|lia].
  - rewrite SN, ED in P. destruct P as [[-> P]|[[-> P]|(-> & P & P')]], Q as [[-> Q]|[[-> Q]|(-> & Q & Q')]]; try reflexivity; solve [pose proof SD; congruence|tauto].
Qed.
Theorem C70_reciprocity_nodes l : (forall u, In u l -> node G u) -> alike G H (fun K => nx_reciprocity_nodes K l) same_map.
Proof.
  intros Hl. eapply alike_intro; [apply (C49_reciprocity_nodes G wf l)|apply (C49_reciprocity_nodes H wf' l)|].
  intros [a|e] [b|e'] P Q; cbn [same_outcome].
  - destruct P as (_ & _ & P), Q as (_ & _ & Q). eapply same_map_intro; [exact P|exact Q|]. intros u x. cbv beta. rewrite (sg_degree G H wf wf' SG), sg_recip. reflexivity.
  - destruct P as (D & _ & _), Q as [[_ Q]|(_ & k & Hk & Q)]; [(pose proof SD; congruence)|]. apply Q, SN, Hl, Hk.
  - destruct Q as (D & _ & _), P as [[_ P]|(_ & k & Hk & P)]; [(pose proof SD; congruence)|]. apply P, Hl, Hk.
  - destruct P as [[-> P]|(_ & k & Hk & P)]; [|elim P; apply Hl, Hk]. destruct Q as [[-> Q]|(_ & k & Hk & Q)]; [reflexivity|]. elim Q. apply SN, Hl, Hk.
Qed.
Theorem C70_efficiency u v : alike G H (fun K => nx_efficiency K u v) Qeq.
Proof.
  destruct (g_dir G) eqn:D.
  - eapply alike_intro; [apply (C10_efficiency_directed G u v D)|apply (C10_efficiency_directed H u v); (pose proof SD; congruence)|]. intros o o' -> ->. reflexivity.
  - eapply alike_intro; [apply (C10_efficiency G u v wf D)|apply (C10_efficiency H u v wf'); (pose proof SD; congruence)|].
    assert (ER := reach_iff _ _ SE u v). assert (EDi := fun d => dist_iff _ _ SE u v d).
    intros [a|e] [b|e'] P Q; cbn [same_outcome].
    + destruct P as (_ & _ & _ & P), Q as (_ & _ & _ & Q). destruct P as [(d & P & ->)|[P ->]], Q as [(d' & Q & ->)|[Q ->]].
      * apply EDi in P. rewrite (dist_unique _ _ _ _ _ P Q). reflexivity.
      * elim Q. apply ER. destruct P as [P _]. exists (S d). exact P.
      * elim P. apply ER. destruct Q as [Q _]. exists (S d'). exact Q.
      * reflexivity.
    + destruct P as (N1 & N2 & Ne & _). rewrite SN in N1, N2. destruct e'; try (destruct Q; tauto); try (destruct Q; (pose proof SD; congruence)).
    + destruct Q as (N1 & N2 & Ne & _). rewrite <- SN in N1, N2. destruct e; try (destruct P; tauto); try (destruct P; (pose proof SD; congruence)).
    + assert (KP : (e = EZeroDiv /\ node G u /\ u = v) \/ (e = EKey /\ ~ (node G u /\ node G v))) by (destruct e; tauto).
      assert (KQ : (e' = EZeroDiv /\ node H u /\ u = v) \/ (e' = EKey /\ ~ (node H u /\ node H v))) by (destruct e'; tauto).
      rewrite <- !SN in KQ. destruct KP as [(-> & P1 & P2)|[-> P1]], KQ as [(-> & Q1 & Q2)|[-> Q1]]; try reflexivity; subst; tauto.
Qed.

Theorem C70_overall_reciprocity : alike G H nx_overall_reciprocity Qeq.
Proof.
  destruct (g_dir G) eqn:D0.
  2: { intros s t Is It. assert (D' : g_dir H = false) by (pose proof SD; congruence). unfold nx_overall_reciprocity, as_digraph. rewrite D0, D'. reflexivity. }
  assert (D1 : g_dir H = true) by (pose proof SD; congruence).
  assert (EL : List.length (edges G) = List.length (edges H)).
  { unfold edges. rewrite D0, D1. apply (sg_arcs_count G H wf wf' SG). }
  assert (EC : forall p q, (forall e, p e = q e) -> count p (edges G) = count q (edges H)).
  { intros p q E. unfold edges. rewrite D0, D1, (sg_arcs G H wf wf' SG). apply count_ext. intros e _. apply E. }
  assert (EN : edges G = [] <-> edges H = []) by (rewrite <- !length_zero_iff_nil, EL; reflexivity).
  eapply alike_intro; [apply (C49_overall_reciprocity G wf)|apply (C49_overall_reciprocity H wf')|].
  intros [a|e] [b|e'] P Q; cbn [same_outcome].
  - destruct P as (_ & _ & ->), Q as (_ & _ & ->). rewrite EL.
    rewrite (EC _ (fun e => negb (nkey_eqb (fst e) (snd e)) && has_edge H (snd e) (fst e))) by (intros; rewrite (sg_has G H SG); reflexivity). reflexivity.
  - destruct P as (_ & P & _), Q as [[_ Q]|(_ & _ & Q)]; [congruence|tauto].
  - destruct Q as (_ & Q & _), P as [[_ P]|(_ & _ & P)]; [congruence|tauto].
  - destruct P as [[_ P]|(-> & _)]; [congruence|]. destruct Q as [[_ Q]|(-> & _)]; [congruence|]. reflexivity.
Qed.

(** *** k_truss: the same subgraph *)
Lemma sg_truss k E : truss G k E <-> truss H k E.
Proof.
  unfold truss. split; intros (A & B & C); (split; [|split; [exact B|]]).
  - intros u v K. rewrite <- (sg_nbr G H SG). auto.
  - intros u v K. rewrite <- (count_perm _ _ _ (sg_nodes G H wf wf' SG)). auto.
  - intros u v K. rewrite (sg_nbr G H SG). auto.
  - intros u v K. rewrite (count_perm _ _ _ (sg_nodes G H wf wf' SG)). auto.
Qed.
Definition same_ograph (a b : option graph) : Prop := match a, b with Some x, Some y => same_graph x y | None, None => True | _, _ => False end.
Theorem C70_k_truss orc fuel k : glen G * glen G < fuel -> alike G H (fun K => nx_k_truss orc fuel K k) same_ograph.
Proof.
  intros F. destruct (g_dir G) eqn:D.
  - eapply alike_intro; [apply (C25_directed G orc fuel k D)|apply (C25_directed H orc fuel k); pose proof SD; congruence|]. intros o o' -> ->. reflexivity.
  - assert (D1 : g_dir H = false) by (pose proof SD; congruence).
    eapply alike_intro; [apply (C25_k_truss G wf orc fuel k D F)|apply (C25_k_truss H wf' orc fuel k D1); rewrite <- (glen_same G H wf wf' SG); exact F|].
    intros o o' (T & -> & W & DT & TT & MX & ND & WT) (T' & -> & W' & DT' & TT' & MX' & ND' & WT'). cbn [same_outcome same_ograph].
    assert (HE : forall u v, has_edge T u v = has_edge T' u v).
    { intros u v. apply eq_true_iff_eq. split; intros K; [apply (MX' (has_edge T)); [apply sg_truss, TT|exact K]|apply (MX (has_edge T')); [apply sg_truss, TT'|exact K]]. }
    split; [congruence|]. split.
    + intros u. rewrite ND, ND'. split; intros [v K]; exists v; [rewrite <- HE|rewrite HE]; exact K.
    + intros u v. specialize (HE u v) as HEuv. unfold has_edge in HEuv.
      destruct (weight T u v) as [x|] eqn:E, (weight T' u v) as [y|] eqn:E'; try discriminate; [|reflexivity].
      apply WT in E. apply WT' in E'. destruct (k <? 3)%Z.
      * rewrite SW in E. congruence.
      * f_equal. rewrite E, E'. f_equal. rewrite (count_perm _ _ _ (sg_nodes G H wf wf' SG)). apply count_ext. intros w _. rewrite !HE. reflexivity.
Qed.

(** *** matrices for a given list of rows *)
Definition same_mat {V} (zero : V) (M N : mat V) : Prop :=
  nrows M = nrows N /\ ncols M = ncols N /\ forall a b, a < nrows M -> b < ncols M -> oget zero (mget M a b) = oget zero (mget N a b).
Lemma sg_adj w u v : Spec_Linalg.adj G w u v = Spec_Linalg.adj H w u v.
Proof. unfold Spec_Linalg.adj. rewrite SW. reflexivity. Qed.
Lemma sg_rsum w l u : rsum G w l u = rsum H w l u.
Proof. unfold rsum. apply total_ext. intros v _. apply sg_adj. Qed.
Lemma sg_csum w l u : csum G w l u = csum H w l u.
Proof. unfold csum. apply total_ext. intros v _. apply sg_adj. Qed.
Lemma mat_same {V} (zero : V) l f g (o o' : outcome (mat V)) : (forall u v, f u v = g u v) ->
  matrix_ans G (Some l) o (fun M l => is_matrix zero M l f) -> matrix_ans H (Some l) o' (fun M l => is_matrix zero M l g) -> same_outcome (same_mat zero) o o'.
Proof.
  intros E. destruct o as [M|e], o' as [N|e']; cbn [matrix_ans same_outcome row_order].
  - intros (l1 & -> & _ & R & C & A) (l2 & -> & _ & R' & C' & A'). split; [congruence|]. split; [congruence|]. intros a b Ha Hb.
    rewrite R in Ha. rewrite C in Hb. destruct (nth_error l a) as [u|] eqn:Eu; [|apply nth_error_None in Eu; lia]. destruct (nth_error l b) as [v|] eqn:Ev; [|apply nth_error_None in Ev; lia].
    rewrite (A _ _ _ _ Eu Ev), (A' _ _ _ _ Eu Ev). apply E.
  - intros (l1 & -> & N & _) (_ & l2 & E2 & u & Hu & Q). injection E2 as <-. apply Q, SN, N, Hu.
  - intros (_ & l2 & E2 & u & Hu & Q) (l1 & -> & NN & _). injection E2 as <-. apply Q, SN, NN, Hu.
  - intros [-> _] [-> _]. reflexivity.
Qed.
Theorem C70_adjacency_matrix l w : alike G H (fun K => nx_adjacency_matrix K (Some l) w) (same_mat 0%Z).
Proof.
  eapply alike_intro; [apply (C55_adjacency G wf (Some l) w)|apply (C55_adjacency H wf' (Some l) w)|].
  intros o o' P Q. apply (mat_same 0%Z l (Spec_Linalg.adj G w) (Spec_Linalg.adj H w)); [apply sg_adj| |].
  - destruct o as [M|e]; [|exact P]. destruct P as (l1 & A & B & C & _). exists l1. auto.
  - destruct o' as [M|e]; [|exact Q]. destruct Q as (l1 & A & B & C & _). exists l1. auto.
Qed.
Theorem C70_laplacian_matrix l w : NoDup l -> alike G H (fun K => nx_laplacian_matrix K (Some l) w) (same_mat 0%Z).
Proof.
  intros N. eapply alike_intro; [apply (C55_laplacian G wf (Some l) w); [right; discriminate|exact N]|apply (C55_laplacian H wf' (Some l) w); [right; discriminate|exact N]|].
  intros o o' P Q. apply (mat_same 0%Z l (lap G w l) (lap H w l)).
  - intros u v. unfold lap. rewrite sg_rsum, sg_adj. reflexivity.
  - destruct o as [M|e]; [|exact P]. destruct P as (l1 & EL & P). cbn in EL. subst l1. exists l. split; [reflexivity|exact P].
  - destruct o' as [M|e]; [|exact Q]. destruct Q as (l1 & EL & Q). cbn in EL. subst l1. exists l. split; [reflexivity|exact Q].
Qed.
Lemma sg_rows w l : rows_nonzero G w l -> rows_nonzero H w l.
Proof. unfold rows_nonzero. intros K u v Hu Hv E. rewrite <- sg_rsum. apply (K u v Hu Hv). apply SE. exact E. Qed.
Theorem C70_normalized_laplacian_matrix sqr l w : NoDup l -> rows_nonzero G w l -> alike G H (fun K => nx_normalized_laplacian sqr K (Some l) w) (same_mat 0%Qc).
Proof.
  intros N R. eapply alike_intro; [apply (C55_normalized_laplacian G wf sqr (Some l) w); [right; discriminate|exact N|intros l1 ->; exact R]
    |apply (C55_normalized_laplacian H wf' sqr (Some l) w); [right; discriminate|exact N|intros l1 ->; apply sg_rows, R]|].
  intros o o' P Q. apply (mat_same 0%Qc l (nlap sqr G w l) (nlap sqr H w l)).
  - intros u v. unfold nlap. rewrite !sg_rsum, sg_adj. reflexivity.
  - destruct o as [M|e]; [|exact P]. destruct P as (l1 & EL & P). cbn in EL. subst l1. exists l. split; [reflexivity|exact P].
  - destruct o' as [M|e]; [|exact Q]. destruct Q as (l1 & EL & Q). cbn in EL. subst l1. exists l. split; [reflexivity|exact Q].
Qed.
Lemma sg_modul w l u v : modul G w l u v = modul H w l u v.
Proof.
  unfold modul. rewrite sg_rsum, sg_csum, sg_adj. assert (E : total (rsum G w l) l = total (rsum H w l) l) by (apply total_ext; intros; apply sg_rsum).
  rewrite E. reflexivity.
Qed.
Theorem C70_modularity_matrix l w : NoDup l -> total_nonzero G w l ->
  alike G H (fun K => nx_modularity_matrix K (Some l) w) (same_mat 0%Qc) /\ alike G H (fun K => nx_directed_modularity K (Some l) w) (same_mat 0%Qc).
Proof.
  intros N T. assert (T' : total_nonzero H w l).
  { revert T. unfold total_nonzero. assert (E : total (rsum G w l) l = total (rsum H w l) l) by (apply total_ext; intros; apply sg_rsum). rewrite E. intros T u v A B C. apply (T u v A B), SE, C. }
  split.
  - eapply alike_intro; [apply (C55_modularity G wf (Some l) w N); intros l1 ->; exact T|apply (C55_modularity H wf' (Some l) w N); intros l1 ->; exact T'|].
    intros o o'. rewrite <- SD. destruct (g_dir G); [intros -> ->; reflexivity|]. intros P Q. apply (mat_same 0%Qc l (modul G w l) (modul H w l)).
    + intros u v. apply sg_modul.
    + destruct o as [M|e]; [|exact P]. destruct P as (l1 & EL & P). cbn in EL. subst l1. exists l. split; [reflexivity|exact P].
    + destruct o' as [M|e]; [|exact Q]. destruct Q as (l1 & EL & Q). cbn in EL. subst l1. exists l. split; [reflexivity|exact Q].
  - eapply alike_intro; [apply (C55_directed_modularity G wf (Some l) w); intros l1 ->; exact T|apply (C55_directed_modularity H wf' (Some l) w); intros l1 ->; exact T'|].
    intros o o'. rewrite <- SD. destruct (g_dir G); [|intros -> ->; reflexivity]. intros P Q. apply (mat_same 0%Qc l (modul G w l) (modul H w l)).
    + intros u v. apply sg_modul.
    + destruct o as [M|e]; [|exact P]. destruct P as (l1 & EL & P). cbn in EL. subst l1. exists l. split; [reflexivity|exact P].
    + destruct o' as [M|e]; [|exact Q]. destruct Q as (l1 & EL & Q). cbn in EL. subst l1. exists l. split; [reflexivity|exact Q].
Qed.
End Thm.

(** ** the hypotheses hold on two numberings of one graph (C70_ex) *)
Example C70_cuts_ex : partition_of num_G [[KS "a"; KS "b"]; [KS "c"; KS "d"]] /\ glen num_G * glen num_G < 17 /\ NoDup [KS "c"; KS "a"] /\
  rows_nonzero num_G true [KS "c"; KS "a"] /\ total_nonzero num_G true [KS "c"; KS "a"] /\
  fst (nx_cut_size num_G [KS "a"; KS "b"] None true st0) = Val 12%Z /\ fst (nx_cut_size num_H [KS "a"; KS "b"] None true st0) = Val 12%Z /\
  exists M, fst (nx_adjacency_matrix num_G (Some [KS "c"; KS "a"]) true st0) = Val M /\ mget M 0 1 = Some 3%Z /\
  exists T T', fst (nx_k_truss (fun _ => false) 17 num_G 3 st0) = Val (Some T) /\ fst (nx_k_truss (fun _ => false) 17 num_H 3 st0) = Val (Some T') /\
    gnodes T = [KS "a"; KS "b"; KS "c"] /\ gnodes T' <> gnodes T.
Proof.
  split; [|split; [vm_compute; repeat constructor|split; [repeat constructor; cbn; intuition discriminate|split; [|split; [|split; [vm_compute; reflexivity|split; [vm_compute; reflexivity|]]]]]]].
  - intros u Hu. apply num_nodes in Hu. destruct Hu as [<-|[<-|[<-|[<-|[]]]]]; reflexivity.
  - intros u v Hu Hv He. destruct Hu as [<-|[<-|[]]]; vm_compute; discriminate.
  - intros u v Hu Hv He. vm_compute. discriminate.
  - eexists. split; [vm_compute; reflexivity|]. split; [vm_compute; reflexivity|]. do 2 eexists. split; [vm_compute; reflexivity|]. split; [vm_compute; reflexivity|]. vm_compute. split; [reflexivity|discriminate].
Qed.
Print Assumptions C70_cut_size.
Print Assumptions C70_k_truss.
Print Assumptions C70_normalized_laplacian_matrix.
Print Assumptions C70_s_metric.
