(** * C70: a different numbering of the same graph does not change node-keyed answers *)
From Verif Require Import Base BaseProofs Model_Graph Model_Cache Spec_Cache CacheMath CacheProofs CacheProofs2
  Model_Keys Spec KeyProofs Spec_Run RunProofs Model_Bfs BfsProofs3 Walks Model_Operators OperatorProofs Props_Bfs
  Spec_Count Model_Measures CountProofs Props_Cuts Props_Measures Spec_Weighted Model_Weighted Props_Weighted
  Model_Dense Props_Dense
  Model_Cluster Spec_Cluster ClusterProofs Props_Cluster Concrete Spec_Numbering.
From Coq Require Import QArith Qcanon Permutation.
Open Scope nat_scope.

(** ** the specification vocabulary only sees nodes and weights *)
Section S.
Variables G H : graph.
Hypothesis wf : gwf G.
Hypothesis wf' : gwf H.
Hypothesis SG : same_graph G H.

Lemma sg_dir : g_dir G = g_dir H. Proof. apply SG. Qed.
Lemma sg_node u : node G u <-> node H u. Proof. apply SG. Qed.
Lemma sg_weight u v : weight G u v = weight H u v. Proof. apply SG. Qed.
Lemma sg_edge u v : edge G u v <-> edge H u v.
Proof. unfold edge. rewrite sg_weight. reflexivity. Qed.
Lemma sg_has u v : has_edge G u v = has_edge H u v.
Proof. unfold has_edge. rewrite sg_weight. reflexivity. Qed.
Lemma sg_nodes : Permutation (gnodes G) (gnodes H).
Proof. apply NoDup_Permutation; [apply (gnodes_nodup G wf)|apply (gnodes_nodup H wf')|apply sg_node]. Qed.
Lemma sg_len : List.length (gnodes G) = List.length (gnodes H).
Proof. apply Permutation_length, sg_nodes. Qed.
End S.

Lemma walk_iff {X} (E E' : X -> X -> Prop) : (forall x y, E x y <-> E' x y) -> forall x d y, walk E x d y <-> walk E' x d y.
Proof.
  intros HE. assert (F : forall (P Q : X -> X -> Prop), (forall x y, P x y -> Q x y) -> forall x d y, walk P x d y -> walk Q x d y).
  { intros P Q HPQ x d y W. induction W; [constructor|econstructor; eauto]. }
  split; apply F; intros; apply HE; assumption.
Qed.
Lemma reach_iff {X} (E E' : X -> X -> Prop) : (forall x y, E x y <-> E' x y) -> forall x y, reach E x y <-> reach E' x y.
Proof. intros HE x y. split; intros [d W]; exists d; apply (walk_iff _ _ HE); assumption. Qed.
Lemma dist_iff {X} (E E' : X -> X -> Prop) : (forall x y, E x y <-> E' x y) -> forall x y d, dist E x y d <-> dist E' x y d.
Proof.
  intros HE x y d. unfold dist. split; intros [W L]; (split; [apply (walk_iff _ _ HE); assumption|]);
    intros d' W'; apply L; apply (walk_iff _ _ HE); assumption.
Qed.
Lemma dist_from_iff {X} (E E' : X -> X -> Prop) (A : X -> Prop) : (forall x y, E x y <-> E' x y) -> forall y d, dist_from E A y d <-> dist_from E' A y d.
Proof.
  intros HE y d. unfold dist_from. split; intros [(x & Hx & W) L]; (split; [exists x; split; [assumption|apply (walk_iff _ _ HE); assumption]|]);
    intros x' d' Hx' W'; apply (L x' d' Hx'); apply (walk_iff _ _ HE); assumption.
Qed.
Lemma wwalk_iff {X} (W W' : X -> X -> option Z) : (forall x y, W x y = W' x y) -> forall x d w y, wwalk W x d w y <-> wwalk W' x d w y.
Proof.
  intros HE. assert (F : forall (P Q : X -> X -> option Z), (forall x y, P x y = Q x y) -> forall x d w y, wwalk P x d w y -> wwalk Q x d w y).
  { intros P Q HPQ x d w y K. induction K; [constructor|]. econstructor; [eassumption|]. rewrite <- HPQ. assumption. }
  split; apply F; intros; auto. 
Qed.
Lemma wreach_iff {X} (W W' : X -> X -> option Z) : (forall x y, W x y = W' x y) -> forall x y, wreach W x y <-> wreach W' x y.
Proof. intros HE x y. split; intros (d & w & K); exists d, w; apply (wwalk_iff _ _ HE); assumption. Qed.
Lemma shortest_iff {X} (W W' : X -> X -> option Z) : (forall x y, W x y = W' x y) -> forall x y w, shortest W x y w <-> shortest W' x y w.
Proof.
  intros HE x y w. unfold shortest. split; intros [[d K] L]; (split; [exists d; apply (wwalk_iff _ _ HE); assumption|]);
    intros d' w' K'; apply (L d'); apply (wwalk_iff _ _ HE); assumption.
Qed.
Lemma neg_cycle_iff {X} (W W' : X -> X -> option Z) : (forall x y, W x y = W' x y) -> forall y, neg_cycle W y <-> neg_cycle W' y.
Proof. intros HE y. split; intros (d & w & K & L); exists d, w; (split; [apply (wwalk_iff _ _ HE); assumption|assumption]). Qed.
Lemma neg_cycle_from_iff {X} (W W' : X -> X -> option Z) : (forall x y, W x y = W' x y) -> forall x, neg_cycle_from W x <-> neg_cycle_from W' x.
Proof.
  intros HE x. unfold neg_cycle_from. split; intros (y & R & C); exists y;
    (split; [apply (wreach_iff _ _ HE)|apply (neg_cycle_iff _ _ HE)]; assumption).
Qed.

(** unordered pairs, for symmetric predicates *)
Lemma upairs_perm {X} (p : X * X -> bool) l l' : (forall x y, p (x, y) = p (y, x)) -> Permutation l l' -> count p (upairs l) = count p (upairs l').
Proof.
  intros Hs P.
  assert (CA : forall a b : list (X * X), count p (a ++ b) = count p a + count p b).
  { intros a b. unfold count. rewrite filter_app, app_length. reflexivity. }
  assert (CC : forall x (a : list (X * X)), count p (x :: a) = (if p x then 1 else 0) + count p a).
  { intros x a. unfold count. cbn [filter]. destruct (p x); reflexivity. }
  induction P; cbn [upairs].
  - reflexivity.
  - rewrite !CA, IHP. f_equal. apply count_perm. apply Permutation_map. constructor. assumption.
  - cbn [map]. rewrite <- !app_comm_cons. rewrite !CC, !CA, !CC. cbn [map] in *. rewrite ?CA, ?CC. rewrite (Hs x y). lia.
  - congruence.
Qed.

Section T.
Variables G H : graph.
Hypothesis wf : gwf G.
Hypothesis wf' : gwf H.
Hypothesis SG : same_graph G H.

Lemma sg_out u : out_degree G u = out_degree H u.
Proof.
  unfold out_degree. rewrite (count_perm _ _ _ (sg_nodes G H wf wf' SG)). apply count_ext. intros v _. apply (sg_has G H SG).
Qed.
Lemma sg_in u : in_degree G u = in_degree H u.
Proof.
  unfold in_degree. rewrite (count_perm _ _ _ (sg_nodes G H wf wf' SG)). apply count_ext. intros v _. apply (sg_has G H SG).
Qed.
Lemma sg_degree u : degree G u = degree H u.
Proof. unfold degree. rewrite sg_out, sg_in, (sg_dir G H SG), (sg_has G H SG). reflexivity. Qed.
Lemma sg_nbr u v : nbr G u v = nbr H u v.
Proof. unfold nbr. rewrite (sg_has G H SG). reflexivity. Qed.
Lemma sg_deg0 u : deg0 G u = deg0 H u.
Proof. unfold deg0. rewrite (count_perm _ _ _ (sg_nodes G H wf wf' SG)). apply count_ext. intros v _. apply sg_nbr. Qed.
Lemma sg_indeg0 u : indeg0 G u = indeg0 H u.
Proof. unfold indeg0. rewrite (count_perm _ _ _ (sg_nodes G H wf wf' SG)). apply count_ext. intros v _. apply sg_nbr. Qed.
Lemma sg_recip0 u : recip0 G u = recip0 H u.
Proof. unfold recip0. rewrite (count_perm _ _ _ (sg_nodes G H wf wf' SG)). apply count_ext. intros v _. rewrite !sg_nbr. reflexivity. Qed.
Lemma sg_tri u : g_dir G = false -> triangles_at G u = triangles_at H u.
Proof.
  intros D. assert (D' : g_dir H = false) by (rewrite <- (sg_dir G H SG); assumption). unfold triangles_at.
  transitivity (count (fun p => nbr H u (fst p) && nbr H u (snd p) && nbr H (fst p) (snd p)) (upairs (gnodes G))).
  - apply count_ext. intros p _. rewrite !sg_nbr. reflexivity.
  - apply upairs_perm; [|apply (sg_nodes G H wf wf' SG)]. intros x y. cbn [fst snd].
    rewrite (nbr_sym H wf' x y D'). destruct (nbr H u x), (nbr H u y); reflexivity.
Qed.
Lemma sg_pairs : Permutation (pairs (gnodes G)) (pairs (gnodes H)).
Proof.
  unfold pairs. generalize (sg_nodes G H wf wf' SG). generalize (gnodes G) (gnodes H). intros l l' P.
  assert (F : forall a b c : list nkey, Permutation b c -> Permutation (list_prod a b) (list_prod a c)).
  { clear. intros a b c P. induction a as [|x a IH]; cbn [list_prod]; [reflexivity|]. apply Permutation_app; [apply Permutation_map; assumption|assumption]. }
  assert (K : forall a b c : list nkey, Permutation a b -> Permutation (list_prod a c) (list_prod b c)).
  { clear. intros a b c P. induction P; cbn [list_prod].
    + reflexivity.
    + apply Permutation_app_head. assumption.
    + rewrite !app_assoc. apply Permutation_app_tail. apply Permutation_app_comm.
    + etransitivity; eassumption. }
  transitivity (list_prod l l'); auto.
Qed.
Lemma sg_closed u : closed_pairs G u = closed_pairs H u.
Proof. unfold closed_pairs. rewrite (count_perm _ _ _ sg_pairs). apply count_ext. intros p _. rewrite !sg_nbr. reflexivity. Qed.
Lemma sg_trans : transitivity_of G = transitivity_of H.
Proof.
  unfold transitivity_of. rewrite !(total_perm _ _ _ (sg_nodes G H wf wf' SG)).
  rewrite (total_ext (fun v => Z.of_nat (closed_pairs G v)) (fun v => Z.of_nat (closed_pairs H v))) by (intros; rewrite sg_closed; reflexivity).
  rewrite (total_ext (pairs_at G) (pairs_at H)) by (intros; unfold pairs_at; rewrite sg_deg0; reflexivity). reflexivity.
Qed.
End T.

(** ** containers *)
Lemma same_set_intro a b P Q : is_set a P -> is_set b Q -> (forall k, P k <-> Q k) -> same_set a b.
Proof.
  intros (A1 & l & A2 & A3 & A4 & A5) (B1 & l' & B2 & B3 & B4 & B5) E.
  assert (PP : Permutation l l') by (apply NoDup_Permutation; [assumption..|]; intros k; rewrite A5, B5; apply E).
  split; [|split].
  - intros k. rewrite A1, B1. apply E.
  - rewrite A4, B4. apply Permutation_length. assumption.
  - eauto.
Qed.
Lemma same_map_intro {V} (a b : nodemap V) P Q : is_map a P -> is_map b Q -> (forall k x, P k x <-> Q k x) -> same_map a b.
Proof.
  intros (A1 & l & A2 & A3 & A4 & A5) (B1 & l' & B2 & B3 & B4 & B5) E.
  assert (PP : Permutation l l').
  { apply NoDup_Permutation; [assumption..|]. intros k. rewrite A5, B5. split; intros [x Hx]; exists x; apply E; assumption. }
  split; [|split].
  - intros k x. rewrite A1, B1. apply E.
  - rewrite A4, B4. apply Permutation_length. assumption.
  - eauto.
Qed.

(** a call described by its outcome on both graphs *)
Lemma alike_intro {X} G H (f : graph -> M X) (R : X -> X -> Prop) P Q :
  answers G (f G) P -> answers H (f H) Q -> (forall o o', P o -> Q o' -> same_outcome R o o') -> alike G H f R.
Proof. intros A B C s t Is It. apply C; [apply A; assumption|apply B; assumption]. Qed.
Lemma alike_td {X} G H (f : graph -> M X) (R : X -> X -> Prop) P Q :
  answers_td G (f G) P -> answers_td H (f H) Q -> (forall o o', P o -> Q o' -> same_outcome R o o') -> alike G H f R.
Proof.
  intros A B C s t Is It. apply C; [apply A|apply B]; apply InvF_weak; assumption.
Qed.

(** ** C70 *)
Section Thm.
Variables G H : graph.
Hypothesis wf : gwf G.
Hypothesis wf' : gwf H.
Hypothesis SG : same_graph G H.
Let SE := sg_edge G H SG.
Let SN := sg_node G H SG.
Let SW := sg_weight G H SG.
Let SD := sg_dir G H SG.

(** reachability *)
Theorem C70_descendants u : alike G H (fun K => nx_descendants K u) same_set.
Proof.
  eapply alike_intro; [apply (C07_descendants G u wf)|apply (C07_descendants H u wf')|].
  intros [a|e] [b|e'] P Q; cbn [same_outcome]; try (destruct P, Q; rewrite ?SN in *; tauto).
  - eapply same_set_intro; [apply P|apply Q|]. intros k. cbv beta. rewrite (reach_iff _ _ SE). reflexivity.
  - destruct P, Q; congruence.
Qed.
Theorem C70_ancestors u : alike G H (fun K => nx_ancestors K u) same_set.
Proof.
  eapply alike_intro; [apply (C07_ancestors G u wf)|apply (C07_ancestors H u wf')|].
  intros [a|e] [b|e'] P Q; cbn [same_outcome]; try (destruct P, Q; rewrite ?SN in *; tauto).
  - eapply same_set_intro; [apply P|apply Q|]. intros k. cbv beta. rewrite (reach_iff _ _ SE). reflexivity.
  - destruct P, Q; congruence.
Qed.
Theorem C70_node_connected_component u : g_dir G = false -> alike G H (fun K => nx_node_connected_component K u) same_set.
Proof.
  intros D. assert (D' : g_dir H = false) by congruence.
  eapply alike_intro; [apply (C07_node_connected_component G u wf D)|apply (C07_node_connected_component H u wf' D')|].
  intros [a|e] [b|e'] P Q; cbn [same_outcome]; try (destruct P, Q; rewrite ?SN in *; tauto).
  - eapply same_set_intro; [apply P|apply Q|]. intros k. cbv beta. rewrite (reach_iff _ _ SE). reflexivity.
  - destruct P, Q; congruence.
Qed.
Theorem C70_has_path u v : alike G H (fun K => has_path K u v) eq.
Proof.
  eapply alike_intro; [apply (C10_has_path G u v wf)|apply (C10_has_path H u v wf')|].
  intros [a|e] [b|e'] P Q; cbn [same_outcome]; try (rewrite !SN in *; tauto).
  - destruct P as (_ & _ & P), Q as (_ & _ & Q). apply eq_true_iff_eq. rewrite P, Q. apply (reach_iff _ _ SE).
  - destruct P, Q; congruence.
Qed.
Theorem C70_is_connected : g_dir G = false -> alike G H nx_is_connected eq.
Proof.
  intros D. assert (D' : g_dir H = false) by congruence.
  assert (NE : Props_Bfs.nodes_empty G <-> Props_Bfs.nodes_empty H) by (unfold Props_Bfs.nodes_empty; split; intros K u Hu; apply (K u), SN; assumption).
  eapply alike_intro; [apply (C11_is_connected G wf D)|apply (C11_is_connected H wf' D')|].
  intros [a|e] [b|e'] P Q; cbn [same_outcome]; try tauto.
  - destruct P as [_ P], Q as [_ Q]. apply eq_true_iff_eq. rewrite P, Q.
    split; intros K u v Hu Hv; apply (reach_iff _ _ SE); apply K; apply SN; assumption.
  - destruct P, Q; congruence.
Qed.
Theorem C70_is_weakly_connected : g_dir G = true -> alike G H nx_is_weakly_connected eq.
Proof.
  intros D. assert (D' : g_dir H = true) by congruence.
  assert (NE : Props_Bfs.nodes_empty G <-> Props_Bfs.nodes_empty H) by (unfold Props_Bfs.nodes_empty; split; intros K u Hu; apply (K u), SN; assumption).
  assert (SS : forall x y, sym (edge G) x y <-> sym (edge H) x y) by (intros; unfold sym; rewrite !SE; reflexivity).
  eapply alike_intro; [apply (C11_is_weakly_connected G wf D)|apply (C11_is_weakly_connected H wf' D')|].
  intros [a|e] [b|e'] P Q; cbn [same_outcome]; try tauto.
  - destruct P as [_ P], Q as [_ Q]. apply eq_true_iff_eq. rewrite P, Q.
    split; intros K u v Hu Hv; apply (reach_iff _ _ SS); apply K; apply SN; assumption.
  - destruct P, Q; congruence.
Qed.

(** distances in steps *)
Lemma steps_iff u v cutoff x :
  (exists d, x = Z.of_nat d /\ dist (edge G) u v d /\ within cutoff d) <->
  (exists d, x = Z.of_nat d /\ dist (edge H) u v d /\ within cutoff d).
Proof. split; intros (d & E & D & C); exists d; (split; [|split]; try assumption); apply (dist_iff _ _ SE); assumption. Qed.
Theorem C70_single_source u cutoff : alike G H (fun K => nx_single_source_spl K u cutoff) same_map.
Proof.
  eapply alike_intro; [apply (C08_single_source G u cutoff wf)|apply (C08_single_source H u cutoff wf')|].
  intros [a|e] [b|e'] P Q; cbn [same_outcome]; try (destruct P, Q; rewrite ?SN in *; tauto).
  - eapply same_map_intro; [apply P|apply Q|]. intros k x. apply steps_iff.
  - destruct P, Q; congruence.
Qed.
Theorem C70_single_target u cutoff : alike G H (fun K => nx_single_target_spl K u cutoff) same_map.
Proof.
  eapply alike_intro; [apply (C08_single_target G u cutoff wf)|apply (C08_single_target H u cutoff wf')|].
  intros [a|e] [b|e'] P Q; cbn [same_outcome]; try (destruct P, Q; rewrite ?SN in *; tauto).
  - eapply same_map_intro; [apply P|apply Q|]. intros k x. apply steps_iff.
  - destruct P, Q; congruence.
Qed.
Theorem C70_bidirectional_length u v : alike G H (fun K => bidirectional_spl K u v) eq.
Proof.
  eapply alike_intro; [apply (C10_bidirectional_length G u v wf)|apply (C10_bidirectional_length H u v wf')|].
  assert (Z : forall x y, (exists d, x = Z.of_nat d /\ dist (edge G) u v d) -> (exists d, y = Z.of_nat d /\ dist (edge H) u v d) -> x = y).
  { intros x y (d & -> & [W L]) (d' & -> & [W' L']). apply (walk_iff _ _ SE) in W. pose proof (L' _ W). apply (walk_iff _ _ SE) in W'. pose proof (L _ W'). f_equal. lia. }
  assert (R : forall x, (exists d, x = Z.of_nat d /\ dist (edge G) u v d) -> reach (edge H) u v).
  { intros x (d & _ & [W _]). exists d. apply (walk_iff _ _ SE). assumption. }
  assert (R' : forall x, (exists d, x = Z.of_nat d /\ dist (edge H) u v d) -> reach (edge G) u v).
  { intros x (d & _ & [W _]). exists d. apply (walk_iff _ _ SE). assumption. }
  intros [a|e] [b|e'] P Q; cbn [same_outcome].
  - destruct P as (_ & _ & P), Q as (_ & _ & Q). eauto.
  - destruct P as (P1 & P2 & P). apply SN in P1, P2. destruct e'; try (destruct Q; tauto). apply Q, (R _ P).
  - destruct Q as (P1 & P2 & Q). apply SN in P1, P2. destruct e; try (destruct P; tauto). apply P, (R' _ Q).
  - pose proof (SN u) as Nu. pose proof (SN v) as Nv.
    destruct e; try (destruct P; congruence); destruct e'; try reflexivity; try (destruct Q; congruence); tauto.
Qed.
Theorem C70_descendants_at_distance u d : alike G H (fun K => nx_descendants_at_distance K u (Z.of_nat d)) same_set.
Proof.
  eapply alike_intro; [apply (C12_descendants_at_distance G u d wf)|apply (C12_descendants_at_distance H u d wf')|].
  intros [a|e] [b|e'] P Q; cbn [same_outcome]; try (destruct P, Q; rewrite ?SN in *; tauto).
  - eapply same_set_intro; [apply P|apply Q|]. intros k. cbv beta. rewrite (dist_iff _ _ SE). reflexivity.
  - destruct P, Q; congruence.
Qed.
(** the layers, each up to order *)
Theorem C70_bfs_layers srcs : alike G H (fun K => nx_bfs_layers K srcs) (Forall2 (@Permutation nkey)).
Proof.
  assert (SL : slist G srcs = slist H srcs).
  { destruct srcs as [k|l]; [|reflexivity]. unfold slist. destruct (in_graph G k) eqn:E1, (in_graph H k) eqn:E2; try reflexivity.
    - apply node_in_graph in E1. apply SN, node_in_graph in E1. congruence.
    - apply node_in_graph in E2. apply SN, node_in_graph in E2. congruence. }
  assert (TY : forall z, srcs = One (KI z) -> slist H srcs <> [] -> node H (KI z)).
  { intros z -> HN. apply node_in_graph. unfold slist in HN. destruct (in_graph H (KI z)); [reflexivity|congruence]. }
  eapply alike_intro; [apply (C12_bfs_layers G srcs wf)|apply (C12_bfs_layers H srcs wf')|].
  intros [a|e] [b|e'] P Q; cbn [same_outcome].
  2: { destruct P as (Z & P & _). destruct Q as [(_ & u & Hu & N)|(_ & z & Ez & N)]; apply N, SN; [apply P; rewrite SL; assumption|apply Z; assumption]. }
  2: { destruct Q as (Z & Q & _). destruct P as [(_ & u & Hu & N)|(_ & z & Ez & N)]; apply N, SN; [apply Q; rewrite <- SL; assumption|apply Z; assumption]. }
  2: { destruct P as [(-> & u & Hu & N)|(-> & z & Ez & N)], Q as [(-> & u' & Hu' & N')|(-> & z' & Ez' & N')]; try reflexivity; exfalso.
       - apply N', (TY z' Ez'). rewrite <- SL. intros E. rewrite E in Hu. destruct Hu.
       - apply N, SN, (TY z Ez). intros E. rewrite E in Hu'. destruct Hu'. }
  destruct P as (_ & _ & P & P'), Q as (_ & _ & Q & Q'). rewrite <- SL in Q, Q'.
  assert (LEN : List.length a = List.length b).
  { destruct (Nat.lt_trichotomy (List.length a) (List.length b)) as [L|[L|L]]; [|assumption|]; exfalso.
    - destruct (nth_error b (List.length a)) as [l|] eqn:E; [|apply nth_error_None in E; lia].
      destruct (Q _ _ E) as (NE & _ & Hl). destruct l as [|x l]; [congruence|].
      apply (P' (List.length a) x); [lia|]. apply (dist_from_iff _ _ _ SE). apply Hl. left. reflexivity.
    - destruct (nth_error a (List.length b)) as [l|] eqn:E; [|apply nth_error_None in E; lia].
      destruct (P _ _ E) as (NE & _ & Hl). destruct l as [|x l]; [congruence|].
      apply (Q' (List.length b) x); [lia|]. apply (dist_from_iff _ _ _ SE). apply Hl. left. reflexivity. }
  assert (FA : forall d l l', nth_error a d = Some l -> nth_error b d = Some l' -> Permutation l l').
  { intros d l l' E E'. destruct (P _ _ E) as (_ & N & Hl), (Q _ _ E') as (_ & N' & Hl').
    apply NoDup_Permutation; [assumption..|]. intros v. rewrite Hl, Hl'. apply (dist_from_iff _ _ _ SE). }
  clear - LEN FA. revert b LEN FA. induction a as [|x a IH]; intros [|y b] LEN FA; try discriminate; constructor.
  - apply (FA 0); reflexivity.
  - apply IH; [simpl in LEN; lia|]. intros d l l' E E'. apply (FA (S d) l l'); assumption.
Qed.

(** distances in weight *)
Theorem C70_bellman_ford u : iso_has_edge G -> iso_has_edge H -> alike G H (fun K => nx_single_source_bf K u) same_map.
Proof.
  intros I I'. eapply alike_intro; [apply (C14_single_source G u wf I)|apply (C14_single_source H u wf' I')|].
  pose proof (neg_cycle_from_iff _ _ SW u) as NC.
  intros [a|e] [b|e'] P Q; cbn [same_outcome].
  - eapply same_map_intro; [apply P|apply Q|]. intros k x. apply (shortest_iff _ _ SW).
  - destruct P as (P1 & P2 & _). rewrite SN in P1. tauto.
  - destruct Q as (P1 & P2 & _). rewrite SN in P. tauto.
  - rewrite SN in P. destruct P as [[-> P]|[-> P]], Q as [[-> Q]|[-> Q]]; try reflexivity; tauto.
Qed.
Theorem C70_floyd_warshall pk pk' weighted : (weighted = true -> forall u, ~ neg_cycle (weight G) u) ->
  forall s t, Inv G s -> Inv H t -> exists D D' l l',
    fst (nx_floyd_warshall pk G weighted s) = Val D /\ fst (nx_floyd_warshall pk' H weighted t) = Val D' /\
    rm_iter D = Val l /\ rm_iter D' = Val l' /\ Permutation l l' /\
    forall u v x, nn_get D u v = Val x <-> nn_get D' u v = Val x.
Proof.
  intros NC s t Is It.
  assert (NC' : weighted = true -> forall u, ~ neg_cycle (weight H) u) by (intros E u Hu; apply (NC E u), (neg_cycle_iff _ _ SW); assumption).
  destruct (C18_floyd_warshall pk G weighted wf NC s Is) as [(D & E & (l & El & Pl) & _ & K & _) _].
  destruct (C18_floyd_warshall pk' H weighted wf' NC' t It) as [(D' & E' & (l' & El' & Pl') & _ & K' & _) _].
  exists D, D', l, l'. repeat (split; [assumption|]). split.
  - rewrite Pl, Pl'. apply (sg_nodes G H wf wf' SG).
  - assert (EW : forall x y, eweight weighted G x y = eweight weighted H x y) by (intros; unfold eweight; rewrite SW; reflexivity).
    intros u v x. rewrite K, K', !SN, (shortest_iff _ _ EW). reflexivity.
Qed.

(** degrees *)
Theorem C70_is_isolate u : alike G H (fun K => nx_is_isolate K u) eq.
Proof.
  eapply alike_td; [apply (C44_is_isolate G wf u)|apply (C44_is_isolate H wf' u)|].
  intros [a|e] [b|e'] P Q; cbn [same_outcome]; try (destruct P, Q; rewrite ?SN in *; tauto).
  - destruct P as [_ P], Q as [_ Q]. apply eq_true_iff_eq. rewrite P, Q. unfold isolated. rewrite SN.
    split; intros [N K]; (split; [assumption|]); intros v; specialize (K v); rewrite !SE in *; assumption.
  - destruct P, Q; congruence.
Qed.
Theorem C70_isolates : alike G H nx_isolates same_set.
Proof.
  eapply alike_td; [apply (C44_isolates G wf)|apply (C44_isolates H wf')|].
  intros o o' (a & -> & P) (b & -> & Q). cbn [same_outcome]. eapply same_set_intro; [exact P|exact Q|].
  intros u. unfold isolated. rewrite SN. split; intros [N K]; (split; [assumption|]); intros v; specialize (K v); rewrite !SE in *; assumption.
Qed.
(** equal as rational numbers, node by node *)
Definition same_qmap (a b : nodemap Q) : Prop :=
  (forall k x, nm_getitem a k = Val x -> exists y, nm_getitem b k = Val y /\ (x == y)%Q) /\
  (forall k y, nm_getitem b k = Val y -> exists x, nm_getitem a k = Val x /\ (x == y)%Q) /\ nm_len a = nm_len b.
Lemma centrality_same F F' a b : (forall u, F u = F' u) -> centrality G F a -> centrality H F' b -> same_qmap a b.
Proof.
  intros HF (c & (P1 & l & _ & N & PL & P2) & Pc) (c' & (Q1 & l' & _ & N' & QL & Q2) & Qc). pose proof (sg_len G H wf wf' SG) as L.
  assert (E : forall k, node G k -> (c k == c' k)%Q).
  { intros k Hk. destruct (Pc k Hk) as [A B], (Qc k (proj1 (SN k) Hk)) as [A' B'].
    destruct (le_lt_dec (List.length (gnodes G)) 1) as [LE|LT].
    - rewrite A by assumption. rewrite A' by lia. reflexivity.
    - rewrite B by assumption. rewrite B' by lia. rewrite HF, L. reflexivity. }
  split; [|split].
  - intros k x Hx. apply P1 in Hx as [Hk ->]. exists (c' k). split; [apply Q1; split; [apply SN; assumption|reflexivity]|auto].
  - intros k y Hy. apply Q1 in Hy as [Hk ->]. exists (c k). apply SN in Hk. split; [apply P1; split; [assumption|reflexivity]|auto].
  - rewrite PL, QL. apply Permutation_length. apply NoDup_Permutation; [assumption..|]. intros k. rewrite P2, Q2.
    split; intros (x & Hk & _); eexists; (split; [apply SN; exact Hk|reflexivity]).
Qed.
Theorem C70_degree_centrality : alike G H nx_degree_centrality same_qmap.
Proof.
  destruct (bool_dec (g_dir G) true) as [D|D].
  - assert (LF : g_dir G = false -> loop_free G) by congruence. assert (LF' : g_dir H = false -> loop_free H) by (rewrite <- SD; congruence).
    eapply alike_td; [apply (C53_degree_centrality G wf LF)|apply (C53_degree_centrality H wf' LF')|].
    intros o o' (a & -> & P) (b & -> & Q). cbn [same_outcome]. eapply centrality_same; [|exact P|exact Q]. intros; apply (sg_degree G H wf wf' SG).
  - apply not_true_is_false in D. assert (D' : g_dir H = false) by (rewrite <- SD; assumption).
    eapply alike_td; [apply (C53_degree_centrality_undirected G wf D)|apply (C53_degree_centrality_undirected H wf' D')|].
    intros o o' (a & -> & P) (b & -> & Q). cbn [same_outcome]. eapply centrality_same; [|exact P|exact Q]. intros; apply (sg_out G H wf wf' SG).
Qed.
Theorem C70_in_degree_centrality : alike G H nx_in_degree_centrality same_qmap.
Proof.
  eapply alike_intro; [apply (C53_in_degree_centrality G wf)|apply (C53_in_degree_centrality H wf')|].
  intros [a|e] [b|e'] [P P'] [Q Q']; cbn [same_outcome]; try congruence.
  eapply centrality_same; [|exact P'|exact Q']. intros; apply (sg_in G H wf wf' SG).
Qed.
Theorem C70_out_degree_centrality : alike G H nx_out_degree_centrality same_qmap.
Proof.
  eapply alike_intro; [apply (C53_out_degree_centrality G wf)|apply (C53_out_degree_centrality H wf')|].
  intros [a|e] [b|e'] [P P'] [Q Q']; cbn [same_outcome]; try congruence.
  eapply centrality_same; [|exact P'|exact Q']. intros; apply (sg_out G H wf wf' SG).
Qed.

(** triangles *)
Definition same_res {V} (a b : cres V (nodemap V)) : Prop :=
  match a, b with REmpty, REmpty => True | ROne x, ROne y => x = y | RMap m, RMap m' => same_map m m' | _, _ => False end.
Lemma sg_none : gnodes G = [] <-> gnodes H = [].
Proof. pose proof (sg_nodes G H wf wf' SG) as P. split; intros E; rewrite E in P; [apply Permutation_nil in P|apply Permutation_sym, Permutation_nil in P]; assumption. Qed.
Lemma wanted_iff a k : wanted G a k <-> wanted H a k.
Proof. destruct a; cbn [wanted]; try reflexivity. apply SN. Qed.
(** results on the nodes [a], raising only for a missing key, are determined by the values [t] *)
Definition one_or_map {V} (K : graph) (a : nodes_arg) (t : nkey -> V) (o : outcome (cres V (nodemap V))) : Prop :=
  match o with
  | Val REmpty => gnodes K = []
  | Val (ROne x) => gnodes K <> [] /\ exists k, a = OneNode k /\ x = t k
  | Val (RMap m) => gnodes K <> [] /\ (forall k, a <> OneNode k) /\ is_map m (fun k x => wanted K a k /\ x = t k)
  | Raise e => gnodes K <> [] /\ e = EKey /\ exists l u, a = Nodes l /\ In u l /\ ~ node K u
  end.
Lemma one_or_map_same {V} a (t t' : nkey -> V) o o' : (forall k, t k = t' k) ->
  (forall l u, a = Nodes l -> In u l -> node G u) ->
  one_or_map G a t o -> one_or_map H a t' o' -> same_outcome same_res o o'.
Proof.
  intros E HN. pose proof sg_none as N. destruct o as [[|x|m]|e], o' as [[|y|m']|e']; cbn [one_or_map same_outcome same_res]; intros P Q; try tauto.
  - destruct P as (_ & k & -> & ->), Q as (_ & k' & E' & ->). injection E' as <-. apply E.
  - destruct P as (_ & k & -> & ->), Q as (_ & Q & _). elim (Q k). reflexivity.
  - destruct P as (_ & k & -> & ->), Q as (_ & _ & l & u & E' & _). discriminate.
  - destruct Q as (_ & k & -> & ->), P as (_ & P & _). elim (P k). reflexivity.
  - destruct P as (_ & _ & P), Q as (_ & _ & Q). eapply same_map_intro; [exact P|exact Q|]. intros k x. cbv beta. rewrite wanted_iff, E. reflexivity.
  - destruct Q as (_ & _ & l & u & -> & Hu & Q). apply Q, SN. eauto.
  - destruct P as (_ & _ & l & u & -> & Hu & P). apply P. eauto.
  - destruct P as (_ & _ & l & u & -> & Hu & P). elim P. eauto.
  - destruct P as (_ & -> & _), Q as (_ & -> & _). reflexivity.
Qed.

Lemma glen_same : glen G = glen H.
Proof. rewrite <- (len_nodes G wf), <- (len_nodes H wf'). apply (sg_len G H wf wf' SG). Qed.
(** the nodes asked for are nodes of the graph *)
Definition known (a : nodes_arg) : Prop :=
  match a with AllNodes => True | OneNode k => node G k | Nodes l => forall u, In u l -> node G u end.
Theorem C70_triangles a : known a -> alike G H (fun K => nx_triangles K a) same_res.
Proof.
  intros Ka. pose proof SD as SD'. clearbody SD. clear SD. destruct (g_dir G) eqn:D.
  { intros s t Is It. assert (D' : g_dir H = true) by congruence. unfold nx_triangles, only_undirected. rewrite D, D'. reflexivity. }
  assert (D' : g_dir H = false) by congruence.
  assert (Ha : forall k, a = OneNode k -> node G k) by (intros k ->; exact Ka).
  assert (Ha' : forall k, a = OneNode k -> node H k) by (intros k E; apply SN; auto).
  assert (Hl : forall l u, a = Nodes l -> In u l -> node G u) by (intros l u ->; apply Ka).
  destruct (Nat.eq_dec (glen G) 0) as [Z0|NZ].
  { intros s t Is It. unfold nx_triangles, only_undirected. rewrite D, D', <- glen_same, Z0. cbn [Nat.eqb fst ret same_outcome same_res]. exact I. }
  assert (N0 : gnodes G <> []) by (intros E; apply NZ; rewrite <- (len_nodes G wf), E; reflexivity).
  assert (N0' : gnodes H <> []) by (rewrite <- sg_none; assumption).
  eapply alike_intro; [apply (C20_triangles G wf a D Ha)|apply (C20_triangles H wf' a D' Ha')|].
  intros o o' P Q. apply (one_or_map_same a (fun k => Z.of_nat (triangles_at G k)) (fun k => Z.of_nat (triangles_at H k))); [|exact Hl| |].
  - intros k. rewrite (sg_tri G H wf wf' SG k D). reflexivity.
  - destruct o as [[| |]|]; cbn [one_or_map]; auto.
  - destruct o' as [[| |]|]; cbn [one_or_map]; auto.
Qed.
Theorem C70_transitivity : forall s t, Inv G s -> Inv H t ->
  exists q x y, fst (nx_transitivity G x0 s) = Val (q, x) /\ fst (nx_transitivity H x0 t) = Val (q, y).
Proof.
  intros s t Is It. destruct (C20_transitivity G wf x0 ltac:(discriminate) s Is) as [(x & E & _) _].
  destruct (C20_transitivity H wf' x0 ltac:(discriminate) t It) as [(y & E' & _) _].
  exists (transitivity_of G), x, y. split; [assumption|]. rewrite E'. rewrite (sg_trans G H wf wf' SG). reflexivity.
Qed.

(** clustering *)
Lemma sg_coef cbrt mx u v : coef G cbrt mx u v = coef H cbrt mx u v.
Proof. unfold coef, weight0. rewrite (sg_nbr G H SG), SW. reflexivity. Qed.
Lemma qtotal_perm {X} (f : X -> Qc) l l' : Permutation l l' -> qtotal f l = qtotal f l'.
Proof. intros P. unfold qtotal. induction P; cbn [map fold_right]; [reflexivity|congruence|ring|congruence]. Qed.
Lemma qtotal_ext' {X} (f g : X -> Qc) l : (forall x, f x = g x) -> qtotal f l = qtotal g l.
Proof. intros E. unfold qtotal. rewrite (map_ext f g E). reflexivity. Qed.
Lemma sg_clustering cbrt mx v : clustering_at G (coef G cbrt mx) v = clustering_at H (coef H cbrt mx) v.
Proof.
  unfold clustering_at, cc, ccd. rewrite SD, (sg_deg0 G H wf wf' SG), (sg_indeg0 G H wf wf' SG), (sg_recip0 G H wf wf' SG).
  rewrite !(qtotal_perm _ _ _ (sg_pairs G H wf wf' SG)).
  rewrite (qtotal_ext' (fun p => coef G cbrt mx v (fst p) * coef G cbrt mx v (snd p) * coef G cbrt mx (fst p) (snd p))%Qc
                       (fun p => coef H cbrt mx v (fst p) * coef H cbrt mx v (snd p) * coef H cbrt mx (fst p) (snd p))%Qc) by (intros; rewrite !sg_coef; reflexivity).
  rewrite (qtotal_ext' (fun p => (coef G cbrt mx v (fst p) + coef G cbrt mx (fst p) v) * (coef G cbrt mx v (snd p) + coef G cbrt mx (snd p) v) * (coef G cbrt mx (fst p) (snd p) + coef G cbrt mx (snd p) (fst p)))%Qc
                       (fun p => (coef H cbrt mx v (fst p) + coef H cbrt mx (fst p) v) * (coef H cbrt mx v (snd p) + coef H cbrt mx (snd p) v) * (coef H cbrt mx (fst p) (snd p) + coef H cbrt mx (snd p) (fst p)))%Qc) by (intros; rewrite !sg_coef; reflexivity).
  reflexivity.
Qed.
Lemma sg_scale weighted mx : scale G weighted mx -> scale H weighted mx.
Proof.
  destruct mx as [m|]; [|auto]. intros [-> [(u & v & N & W) L]]. split; [reflexivity|]. split.
  - exists u, v. rewrite <- (sg_nbr G H SG), <- SW. auto.
  - intros u' v' Hn. rewrite <- (sg_nbr G H SG) in Hn. specialize (L u' v' Hn). unfold weight0 in *. rewrite <- SW. assumption.
Qed.
(** with or without weights; for the first, a nonzero largest weight to normalise by *)
Theorem C70_clustering mhr cbrt weighted mx a : known a -> (g_dir G = true -> loop_free G) -> (weighted = true -> mhr = true \/ loop_free G) ->
  scale G weighted mx -> mx <> Some 0%Z ->
  alike G H (fun K => nx_clustering mhr cbrt K a weighted) same_res.
Proof.
  intros Ka LF HM Hs Hm.
  assert (LFH : loop_free G -> loop_free H) by (intros L u Hu; apply (L u), SE; assumption).
  assert (LF' : g_dir H = true -> loop_free H) by (rewrite <- SD; auto).
  assert (Ha : forall k, a = OneNode k -> node G k) by (intros k ->; exact Ka).
  assert (Ha' : forall k, a = OneNode k -> node H k) by (intros k E; apply SN; auto).
  assert (Hl : forall l u, a = Nodes l -> In u l -> node G u) by (intros l u ->; apply Ka).
  destruct (Nat.eq_dec (glen G) 0) as [Z0|NZ].
  { intros s t Is It. unfold nx_clustering. rewrite <- glen_same, Z0. cbn [Nat.eqb fst ret same_outcome same_res]. exact I. }
  assert (N0 : gnodes G <> []) by (intros E; apply NZ; rewrite <- (len_nodes G wf), E; reflexivity).
  assert (N0' : gnodes H <> []) by (rewrite <- sg_none; assumption).
  eapply alike_intro; [apply (C21_clustering G wf mhr cbrt weighted mx a LF Ha Hs Hm)|apply (C21_clustering H wf' mhr cbrt weighted mx a LF' Ha' (sg_scale _ _ Hs) Hm)|].
  intros o o' P Q. apply (one_or_map_same a (clustering_at G (coef G cbrt mx)) (clustering_at H (coef H cbrt mx))); [|exact Hl| |].
  - apply sg_clustering.
  - destruct o as [[| |]|]; cbn [one_or_map]; auto. destruct P as [P|(_ & W & M & L)]; [auto|]. destruct (HM W); [congruence|contradiction].
  - destruct o' as [[| |]|]; cbn [one_or_map]; auto. destruct Q as [Q|(_ & W & M & L)]; [auto|]. destruct (HM W); [congruence|tauto].
Qed.
End Thm.

(** ** two numberings of a weighted triangle with a tail: same graph, different matrices *)
Definition num_G := mkgk false [KS "a"; KS "b"; KS "c"; KS "d"] [(0, 1, 2%Z); (0, 2, 3%Z); (1, 2, 4%Z); (0, 3, 5%Z)].
Definition num_H := mkgk false [KS "d"; KS "c"; KS "b"; KS "a"] [(2, 3, 2%Z); (1, 3, 3%Z); (1, 2, 4%Z); (0, 3, 5%Z)].
Lemma num_nodes u : node num_G u <-> In u [KS "a"; KS "b"; KS "c"; KS "d"].
Proof. reflexivity. Qed.
Example C70_ex : gwf num_G /\ gwf num_H /\ same_graph num_G num_H /\ g_A num_G <> g_A num_H /\ gnodes num_G <> gnodes num_H /\
  (exists m m', fst (nx_triangles num_G AllNodes st0) = Val (RMap m) /\ fst (nx_triangles num_H AllNodes st0) = Val (RMap m') /\
     m <> m' /\ nm_getitem m (KS "a") = Val 1%Z /\ nm_getitem m' (KS "a") = Val 1%Z) /\
  loop_free num_G /\ scale num_G true (Some 5%Z) /\ iso_has_edge num_G /\ known num_G (Nodes [KS "a"; KS "d"]).
Proof.
  assert (W : gwf num_G) by (apply mkgk_wf; repeat constructor; simpl; intuition discriminate).
  assert (W' : gwf num_H) by (apply mkgk_wf; repeat constructor; simpl; intuition discriminate).
  assert (N : forall u, node num_G u <-> node num_H u).
  { intros u. unfold node. change (gnodes num_G) with [KS "a"; KS "b"; KS "c"; KS "d"]. change (gnodes num_H) with [KS "d"; KS "c"; KS "b"; KS "a"]. cbn [In]. tauto. }
  split; [exact W|]. split; [exact W'|]. split; [|split; [vm_compute; discriminate|split; [vm_compute; discriminate|split]]].
  - split; [reflexivity|]. split; [exact N|]. intros u v.
    destruct (weight num_G u v) as [x|] eqn:E.
    + destruct (weight_nodes num_G u v x E) as [Hu Hv]. apply num_nodes in Hu, Hv. destruct Hu as [<-|[<-|[<-|[<-|[]]]]]; destruct Hv as [<-|[<-|[<-|[<-|[]]]]]; vm_compute in E |- *; congruence.
    + destruct (weight num_H u v) as [x|] eqn:E'; [|reflexivity]. destruct (weight_nodes num_H u v x E') as [Hu Hv]. apply N in Hu, Hv. apply num_nodes in Hu, Hv. exfalso.
      destruct Hu as [<-|[<-|[<-|[<-|[]]]]]; destruct Hv as [<-|[<-|[<-|[<-|[]]]]]; vm_compute in E, E'; congruence.
  - do 2 eexists. split; [vm_compute; reflexivity|]. split; [vm_compute; reflexivity|]. split; [discriminate|]. split; reflexivity.
  - split; [|split; [|split]].
    + intros u [x E]. destruct (weight_nodes num_G u u x E) as [Hu _]. apply num_nodes in Hu. destruct Hu as [<-|[<-|[<-|[<-|[]]]]]; vm_compute in E; discriminate.
    + split; [reflexivity|]. split; [exists (KS "a"), (KS "d"); split; reflexivity|].
      intros u v Hn. assert (HE : has_edge num_G u v = true) by (unfold nbr in Hn; apply andb_true_iff in Hn; tauto).
      apply has_edge_true in HE as [x E]. destruct (weight_nodes num_G u v x E) as [Hu Hv]. clear - Hu Hv.
      apply num_nodes in Hu, Hv. destruct Hu as [<-|[<-|[<-|[<-|[]]]]]; destruct Hv as [<-|[<-|[<-|[<-|[]]]]]; vm_compute; discriminate.
    + intros _. exists (KS "a"), (KS "b"), 2%Z. reflexivity.
    + intros u Hu. apply num_nodes. destruct Hu as [<-|[<-|[]]]; simpl; auto.
Qed.

Print Assumptions C70_descendants.
Print Assumptions C70_floyd_warshall.
Print Assumptions C70_bellman_ford.
Print Assumptions C70_degree_centrality.
Print Assumptions C70_triangles.
Print Assumptions C70_clustering.
