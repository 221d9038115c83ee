(** * C74-C79: laws that relate the answers of several functions *)
From Verif Require Import Base BaseProofs Model_Graph Model_Cache Spec_Cache Spec_Run Spec_Session Spec_Laws Model_Keys Spec Spec_Weighted Spec_Count
  Model_Utils Model_Bfs Model_Weighted Model_Dense Model_Operators Model_Ego Model_Measures
  KeyProofs BfsProofs BfsProofs3 Walks WeightedMath CountProofs OperatorProofs LawProofs Concrete Props_Operators Props_Bfs Props_Weighted Props_PathHist Props_Dense Props_Measures Props_Ego Props_Session.
From Coq Require Import QArith Permutation.
Open Scope nat_scope.

Lemma nm_getitem_key {V} (m : nodemap V) k e : nm_getitem m k = Raise e -> e = EKey.
Proof. unfold nm_getitem. destruct (dget (nm_kid m) k) as [i|]; [|congruence]. destruct (vget (nm_v m) i); [discriminate|]. destruct (nm_fill m); congruence. Qed.
Section L.
Variable G : graph.
Hypothesis wf : gwf G.

(** ** what each call shows, one line each *)
Lemma see_ss u c m : seen G (nx_single_source_spl G u c) (Val m) ->
  node G u /\ is_map m (fun v x => exists d, x = Z.of_nat d /\ dist (edge G) u v d /\ within c d).
Proof. intros H. exact (seen_ans G wf _ _ _ _ H (C08_single_source G u c wf)). Qed.
Lemma see_st u c m : seen G (nx_single_target_spl G u c) (Val m) ->
  node G u /\ is_map m (fun v x => exists d, x = Z.of_nat d /\ dist (edge G) v u d /\ within c d).
Proof. intros H. exact (seen_ans G wf _ _ _ _ H (C08_single_target G u c wf)). Qed.
Lemma see_ss_get u c m v x : seen G (nx_single_source_spl G u c) (Val m) ->
  (nm_getitem m v = Val x <-> exists d, x = Z.of_nat d /\ dist (edge G) u v d /\ within c d).
Proof. intros H. apply see_ss in H as [_ [H _]]. apply H. Qed.
Lemma see_st_get u c m v x : seen G (nx_single_target_spl G u c) (Val m) ->
  (nm_getitem m v = Val x <-> exists d, x = Z.of_nat d /\ dist (edge G) v u d /\ within c d).
Proof. intros H. apply see_st in H as [_ [H _]]. apply H. Qed.
Lemma see_desc u r v : seen G (nx_descendants G u) (Val r) -> (ns_contains r v = Val true <-> v <> u /\ reach (edge G) u v).
Proof. intros H. destruct (seen_ans G wf _ _ _ _ H (C07_descendants G u wf)) as [_ [H' _]]. apply H'. Qed.
Lemma see_anc u r v : seen G (nx_ancestors G u) (Val r) -> (ns_contains r v = Val true <-> v <> u /\ reach (edge G) v u).
Proof. intros H. destruct (seen_ans G wf _ _ _ _ H (C07_ancestors G u wf)) as [_ [H' _]]. apply H'. Qed.
Lemma see_path u v b : seen G (has_path G u v) (Val b) -> (b = true <-> reach (edge G) u v).
Proof. intros H. apply (seen_ans G wf _ _ _ _ H (C10_has_path G u v wf)). Qed.
Lemma see_at u d r v : seen G (nx_descendants_at_distance G u (Z.of_nat d)) (Val r) -> (ns_contains r v = Val true <-> dist (edge G) u v d).
Proof. intros H. destruct (seen_ans G wf _ _ _ _ H (C12_descendants_at_distance G u d wf)) as [_ [H' _]]. apply H'. Qed.
Lemma see_fw pk w D u v x : (w = true -> forall u, ~ neg_cycle (weight G) u) -> seen G (nx_floyd_warshall pk G w) (Val D) ->
  (nn_get D u v = Val x <-> node G u /\ node G v /\ shortest (eweight w G) u v x).
Proof. intros Hn H. destruct (seen_ans G wf _ _ _ _ H (C18_floyd_warshall pk G w wf Hn)) as (D' & [= <-] & _ & _ & H' & _). apply H'. Qed.

(** ** C74: the unweighted path functions agree *)
(** v is within reach of u, as told by has_path, descendants, ancestors and the four length functions *)
Theorem C74_reachable u v pk b ds an ss st D :
  seen G (has_path G u v) (Val b) -> seen G (nx_descendants G u) (Val ds) -> seen G (nx_ancestors G v) (Val an) ->
  seen G (nx_single_source_spl G u None) (Val ss) -> seen G (nx_single_target_spl G v None) (Val st) ->
  seen G (nx_floyd_warshall pk G false) (Val D) ->
  (b = true <-> u = v \/ ns_contains ds v = Val true) /\
  (b = true <-> u = v \/ ns_contains an u = Val true) /\
  (b = true <-> exists x, nm_getitem ss v = Val x) /\
  (b = true <-> exists x, nm_getitem st u = Val x) /\
  (b = true <-> exists x, nn_get D u v = Val x).
Proof.
  intros Hb Hds Han Hss Hst HD.
  assert (Nu : node G u) by apply (proj1 (see_ss _ _ _ Hss)). assert (Nv : node G v) by apply (proj1 (see_st _ _ _ Hst)).
  rewrite (see_path _ _ _ Hb).
  assert (Q : reach (edge G) u v <-> u = v \/ v <> u /\ reach (edge G) u v).
  { split; [|intros [->|[_ H]]; [apply reach_refl|assumption]]. intros H. destruct (nkey_dec u v); [left; assumption|right; split; [congruence|assumption]]. }
  split; [rewrite (see_desc _ _ _ Hds); exact Q|].
  split. { rewrite (see_anc _ _ _ Han). rewrite Q at 1. split; (intros [H|[H1 H2]]; [left|right; split]; congruence || assumption). }
  assert (E : reach (edge G) u v <-> exists x d, x = Z.of_nat d /\ dist (edge G) u v d /\ within None d).
  { rewrite reach_has_dist. split; [intros [d H]; exists (Z.of_nat d), d; repeat split; assumption || apply H|intros (x & d & _ & H & _); exists d; assumption]. }
  split; [rewrite E; split; intros [x Hx]; exists x; apply (see_ss_get _ _ _ _ _ Hss); assumption|].
  split; [rewrite E; split; intros [x Hx]; exists x; apply (see_st_get _ _ _ _ _ Hst); assumption|].
  rewrite E. assert (W : false = true -> forall u, ~ neg_cycle (weight G) u) by discriminate.
  split; intros [x Hx]; exists x.
  - apply (see_fw _ _ _ _ _ _ W HD). split; [assumption|split; [assumption|]]. apply unit_shortest. destruct Hx as (d & H1 & H2 & _). exists d. auto.
  - apply (see_fw _ _ _ _ _ _ W HD) in Hx as (_ & _ & Hx). apply unit_shortest in Hx as (d & H1 & H2). exists d. repeat split; assumption || apply H2.
Qed.

(** the lengths: x is the answer of one iff it is the answer of the others *)
Theorem C74_lengths u v x pk ss st D P :
  seen G (nx_single_source_spl G u None) (Val ss) -> seen G (nx_single_target_spl G v None) (Val st) ->
  seen G (nx_floyd_warshall pk G false) (Val D) -> seen G (nx_fw_pred_dist pk G false) (Val P) ->
  (nm_getitem ss v = Val x <-> nm_getitem st u = Val x) /\
  (nm_getitem ss v = Val x <-> nn_get D u v = Val x) /\
  (nm_getitem ss v = Val x <-> nn_get (snd P) u v = Val (Fin x)).
Proof.
  intros Hss Hst HD HP.
  assert (Nu : node G u) by apply (proj1 (see_ss _ _ _ Hss)). assert (Nv : node G v) by apply (proj1 (see_st _ _ _ Hst)).
  assert (W : false = true -> forall u, ~ neg_cycle (weight G) u) by discriminate.
  assert (E : shortest (eweight false G) u v x <-> exists d, x = Z.of_nat d /\ dist (edge G) u v d /\ within None d).
  { rewrite unit_shortest. split; intros (d & H1 & H2); exists d; [split; [assumption|split; [assumption|exact I]]|split; [assumption|apply H2]]. }
  rewrite (see_ss_get _ _ _ _ _ Hss), (see_st_get _ _ _ _ _ Hst), (see_fw _ _ _ _ _ _ W HD).
  destruct (seen_ans G wf _ _ _ _ HP (C18_pred_distance pk G false wf W)) as (P' & [= <-] & _ & H'). destruct (H' u v) as [H2 _]. rewrite H2.
  split; [reflexivity|]. rewrite E. split; tauto.
Qed.
Theorem C74_pair u v pk ss x : seen G (nx_single_source_spl G u None) (Val ss) ->
  seen G (bidirectional_spl G u v) (Val x) -> nm_getitem ss v = Val x /\ nm_getitem ss v <> Raise EKey /\
  forall D, seen G (nx_floyd_warshall pk G false) (Val D) -> nn_get D u v = Val x.
Proof.
  intros Hss Hx. destruct (seen_ans G wf _ _ _ _ Hx (C10_bidirectional_length G u v wf)) as (Nu & Nv & d & -> & Hd).
  assert (E : nm_getitem ss v = Val (Z.of_nat d)).
  { apply (see_ss_get _ _ _ _ _ Hss). exists d. split; [reflexivity|split; [assumption|exact I]]. }
  split; [assumption|]. split; [rewrite E; discriminate|]. intros D HD. assert (W : false = true -> forall u, ~ neg_cycle (weight G) u) by discriminate. apply (see_fw _ _ _ _ _ _ W HD).
  split; [assumption|split; [assumption|]]. apply unit_shortest. exists d. auto.
Qed.
Theorem C74_no_path u v ss : seen G (nx_single_source_spl G u None) (Val ss) ->
  seen G (bidirectional_spl G u v) (Raise ENoPath) -> seen G (has_path G u v) (Val false) /\ forall x, nm_getitem ss v <> Val x.
Proof.
  intros Hss Hx. destruct (seen_ans G wf _ _ _ _ Hx (C10_bidirectional_length G u v wf)) as (Nu & Nv & N). split.
  - destruct Hx as (mhr & s & Hs & _). exists mhr, s. split; [assumption|].
    assert (X := C69_algorithms G wf mhr s _ _ _ Hs (C10_has_path G u v wf)). cbv beta in X.
    destruct (fst (has_path G u v s)) as [b|e]; [|destruct X as [_ X]; destruct X; split; assumption].
    destruct X as (_ & _ & X). destruct b; [|reflexivity]. destruct N. apply X. reflexivity.
  - intros x E. apply (see_ss_get _ _ _ _ _ Hss) in E as (d & _ & [Hd _] & _). apply N. exists d. assumption.
Qed.
Theorem C74_all_pairs u v x pyfloat isz c chunk L m ss :
  seen G (nx_all_pairs_spl pyfloat isz G c chunk) (Val L) -> In (u, m) L -> seen G (nx_single_source_spl G u c) (Val ss) ->
  (nm_getitem m v = Val x <-> nm_getitem ss v = Val x).
Proof.
  intros HL Hm Hss. destruct (seen_ans G wf _ _ _ _ HL (C09_all_pairs_partial G pyfloat isz c chunk wf)) as (_ & _ & H). destruct (H u m Hm) as [H' _].
  rewrite H', (see_ss_get _ _ _ _ _ Hss). reflexivity.
Qed.
Theorem C74_layers u v d Ls r ss : seen G (nx_bfs_layers G (One u)) (Val Ls) ->
  seen G (nx_descendants_at_distance G u (Z.of_nat d)) (Val r) -> seen G (nx_single_source_spl G u None) (Val ss) ->
  (ns_contains r v = Val true <-> nm_getitem ss v = Val (Z.of_nat d)) /\
  (ns_contains r v = Val true <-> exists l, nth_error Ls d = Some l /\ In v l).
Proof.
  intros HL Hr Hss. rewrite (see_at _ _ _ _ Hr), (see_ss_get _ _ _ _ _ Hss). split.
  - split; [intros H; exists d; split; [reflexivity|split; [assumption|exact I]]|]. intros (d' & E & H & _). assert (d = d') by lia. subst. assumption.
  - destruct (seen_ans G wf _ _ _ _ HL (C12_bfs_layers G (One u) wf)) as (_ & _ & H1 & H2).
    assert (NU : in_graph G u = true) by (apply node_in_graph; exact (proj1 (seen_ans G wf _ _ _ _ Hss (C08_single_source G u None wf)))).
    unfold slist in H1, H2. rewrite NU in H1, H2.
    assert (F : dist_from (edge G) (fun z => In z [u]) v d <-> dist (edge G) u v d).
    { rewrite <- dist_from_single. apply dist_from_ext; [reflexivity|]. intros z. simpl. split; [intros [->|[]]; reflexivity|intros ->; left; reflexivity]. }
    rewrite <- F. split.
    + intros H. destruct (nth_error Ls d) as [l|] eqn:E; [exists l; split; [reflexivity|]; apply (H1 d l E); assumption|].
      apply nth_error_None in E. destruct (H2 d v E H).
    + intros (l & E & H). apply (H1 d l E). assumption.
Qed.
(** the inverse of the efficiency of a pair is its distance *)
Theorem C74_efficiency u v x ss : g_dir G = false -> seen G (nx_efficiency G u v) (Val x) -> seen G (nx_single_source_spl G u None) (Val ss) ->
  match nm_getitem ss v with
  | Val d => (0 < d)%Z /\ (x == 1 / inject_Z d)%Q
  | Raise _ => (x == 0)%Q
  end.
Proof.
  intros Hd Hx Hss. destruct (seen_ans G wf _ _ _ _ Hx (C10_efficiency G u v wf Hd)) as (Nu & Nv & Ne & H).
  destruct (nm_getitem ss v) as [z|e] eqn:E.
  - apply (see_ss_get _ _ _ _ _ Hss) in E as (d & -> & Hdd & _).
    destruct H as [(d' & H1 & H2)|[H _]]; [|destruct H; exists d; apply Hdd].
    rewrite (dist_fun _ _ _ _ _ Hdd H1). split; [lia|assumption].
  - destruct H as [(d' & H1 & H2)|[_ H]]; [|assumption]. exfalso.
    assert (X : nm_getitem ss v = Val (Z.of_nat (S d'))); [|rewrite X in E; discriminate].
    apply (see_ss_get _ _ _ _ _ Hss). exists (S d'). split; [reflexivity|split; [assumption|exact I]].
Qed.

(** ** C75: the answers are a metric *)
Theorem C75_unweighted u v w x y su sv : seen G (nx_single_source_spl G u None) (Val su) -> seen G (nx_single_source_spl G v None) (Val sv) ->
  nm_getitem su u = Val 0%Z /\
  (nm_getitem su v = Val x -> (0 <= x)%Z /\ (x = 0%Z <-> u = v)) /\
  (nm_getitem su v = Val 1%Z <-> u <> v /\ edge G u v) /\
  (nm_getitem su v = Val x -> nm_getitem sv w = Val y -> exists z, nm_getitem su w = Val z /\ (z <= x + y)%Z) /\
  (g_dir G = false -> nm_getitem su v = nm_getitem sv u).
Proof.
  intros Hu Hv. assert (D0 : forall a, dist (edge G) a a 0) by (intros a; split; [constructor|intros; lia]).
  assert (W : forall a b, dist (edge G) a b 0 -> a = b) by (intros a b [H _]; inversion H; reflexivity).
  split; [apply (see_ss_get _ _ _ _ _ Hu); exists 0; repeat split; [constructor|intros; lia]|].
  split. { intros E. apply (see_ss_get _ _ _ _ _ Hu) in E as (d & -> & Hd & _). split; [lia|]. split.
    - intros E. assert (d = 0) by lia. subst. apply W. assumption.
    - intros ->. rewrite (dist_fun _ _ _ _ _ Hd (D0 v)). reflexivity. }
  split. { rewrite (see_ss_get _ _ _ _ _ Hu). split.
    - intros (d & E & Hd & _). assert (d = 1) by lia. subst. split.
      + intros ->. assert (X := dist_fun _ _ _ _ _ Hd (D0 v)). discriminate.
      + destruct Hd as [Hd _]. inversion Hd as [|d' y' z' Hy He]; subst. inversion Hy; subst. assumption.
    - intros [Ne He]. exists 1. split; [reflexivity|]. split; [|exact I]. split; [econstructor; [constructor|assumption]|].
      intros d' Hd'. destruct d'; [inversion Hd'; congruence|lia]. }
  split. { intros E1 E2. apply (see_ss_get _ _ _ _ _ Hu) in E1 as (d1 & -> & [H1 _] & _). apply (see_ss_get _ _ _ _ _ Hv) in E2 as (d2 & -> & [H2 _] & _).
    assert (R : reach (edge G) u w) by (exists (d1 + d2); eapply walk_trans; eassumption). apply reach_has_dist in R as [d Hd].
    exists (Z.of_nat d). split; [apply (see_ss_get _ _ _ _ _ Hu); exists d; split; [reflexivity|split; [assumption|exact I]]|].
    assert (X := proj2 Hd _ (walk_trans _ _ _ _ _ _ H1 H2)). lia. }
  intros Hd. assert (S : forall a b d, dist (edge G) a b d -> dist (edge G) b a d).
  { assert (S1 : forall a b d, walk (edge G) a d b -> walk (edge G) b d a).
    { intros a b d H. apply walk_rev in H. eapply walk_iff; [|exact H]. intros p q. split; apply edge_sym; assumption. }
    intros a b d [H1 H2]. split; [apply S1; assumption|]. intros d' H. apply H2. apply S1. assumption. }
  assert (K : forall a b sa sb z, seen G (nx_single_source_spl G a None) (Val sa) -> seen G (nx_single_source_spl G b None) (Val sb) -> nm_getitem sa b = Val z -> nm_getitem sb a = Val z).
  { intros a b sa sb z Ha Hb E. apply (see_ss_get _ _ _ _ _ Ha) in E as (d & -> & Hdd & _). apply (see_ss_get _ _ _ _ _ Hb). exists d.
    split; [reflexivity|split; [apply S; assumption|exact I]]. }
  destruct (nm_getitem su v) as [z|e] eqn:E1; [symmetry; apply (K u v su sv z Hu Hv E1)|].
  destruct (nm_getitem sv u) as [z|e'] eqn:E2; [rewrite (K v u sv su z Hv Hu E2) in E1; discriminate|].
  apply nm_getitem_key in E1, E2. congruence.
Qed.
(** the same for Floyd-Warshall with weights (or without), and with it for everything that agrees with it (C74, C76) *)
Lemma no_neg_shortest w u v x y : (forall a, ~ neg_cycle (eweight w G) a) -> shortest (eweight w G) u v x -> shortest (eweight w G) v u y -> (0 <= x + y)%Z.
Proof.
  intros Hn [[d1 H1] _] [[d2 H2] _]. destruct (Z_lt_ge_dec (x + y) 0) as [H|H]; [|lia].
  destruct (Hn u). exists (d1 + d2), (x + y)%Z. split; [eapply wwalk_app; eassumption|assumption].
Qed.
Lemma eneg w : (w = true -> forall u, ~ neg_cycle (weight G) u) -> forall a, ~ neg_cycle (eweight w G) a.
Proof.
  destruct w; intros H a; [apply H; reflexivity|]. intros (d & z & Hz & L). apply unit_walk in Hz as [-> _]. lia.
Qed.
Theorem C75_weighted pk w D u v z x y : (w = true -> forall u, ~ neg_cycle (weight G) u) -> seen G (nx_floyd_warshall pk G w) (Val D) ->
  (node G u -> nn_get D u u = Val 0%Z) /\
  (forall e, eweight w G u v = Some e -> exists x, nn_get D u v = Val x /\ (x <= e)%Z) /\
  (nn_get D u v = Val x -> nn_get D v z = Val y -> exists q, nn_get D u z = Val q /\ (q <= x + y)%Z) /\
  (nn_get D u v = Val x -> nn_get D v u = Val y -> (0 <= x + y)%Z) /\
  (g_dir G = false -> nn_get D u v = Val x -> nn_get D v u = Val x).
Proof.
  intros Hn HD. assert (T := see_fw pk w D).
  destruct (seen_ans G wf _ _ _ _ HD (C18_floyd_warshall pk G w wf Hn)) as (D' & [= <-] & _ & _ & _ & HR).
  assert (N : forall a b e, eweight w G a b = Some e -> node G a /\ node G b).
  { intros a b e H. unfold eweight in H. destruct w; [eapply weight_nodes; eassumption|]. destruct (weight G a b) eqn:E; [|discriminate]. eapply weight_nodes; eassumption. }
  split. { intros Nu. apply (T _ _ _ Hn HD). split; [assumption|split; [assumption|]]. split; [exists 0; constructor|].
    intros d' w' Hw. destruct (Z_lt_ge_dec w' 0) as [L|L]; [|lia]. destruct (eneg w Hn u). exists d', w'. auto. }
  split. { intros e He. destruct (HR u v) as [q Hq]; [apply (N u v e He)|exists 1, e; apply wwalk_one; assumption|]. exists q. split; [assumption|].
    apply (T _ _ _ Hn HD) in Hq as (_ & _ & [_ Hm]). apply (Hm 1). apply wwalk_one. assumption. }
  split. { intros H1 H2. apply (T _ _ _ Hn HD) in H1 as (Nu & Nv & [[d1 H1] _]). apply (T _ _ _ Hn HD) in H2 as (_ & Nz & [[d2 H2] _]).
    assert (X := wwalk_app _ _ _ _ _ _ _ _ H1 H2). destruct (HR u z Nu) as [q Hq]; [eexists _, _; exact X|]. exists q. split; [assumption|].
    apply (T _ _ _ Hn HD) in Hq as (_ & _ & [_ Hm]). eapply Hm. exact X. }
  split. { intros H1 H2. apply (T _ _ _ Hn HD) in H1 as (_ & _ & H1). apply (T _ _ _ Hn HD) in H2 as (_ & _ & H2).
    apply (no_neg_shortest w u v x y); [apply eneg; assumption|assumption|assumption]. }
  intros Hd H1. apply (T _ _ _ Hn HD) in H1 as (Nu & Nv & [[d1 H1] Hm]). apply (T _ _ _ Hn HD). split; [assumption|split; [assumption|]].
  assert (SY : forall a b, eweight w G a b = eweight w G b a) by (intros a b; unfold eweight; rewrite (weight_sym G a b wf Hd); reflexivity).
  assert (SW : forall a d q b, wwalk (eweight w G) a d q b -> wwalk (eweight w G) b d q a).
  { intros a d q b H. induction H as [|d q p e b H IH He]; [constructor|]. replace (S d) with (1 + d) by reflexivity. replace (q + e)%Z with (e + q)%Z by lia.
    eapply wwalk_app; [apply wwalk_one; rewrite SY; exact He|exact IH]. }
  split; [exists d1; apply SW; assumption|]. intros d' w' Hw. eapply Hm. apply SW. exact Hw.
Qed.

(** ** C76: the weighted path functions agree *)
Lemma see_bf u m : Props_Weighted.iso_has_edge G -> seen G (nx_single_source_bf G u) (Val m) ->
  node G u /\ ~ neg_cycle_from (weight G) u /\ forall v x, nm_getitem m v = Val x <-> shortest (weight G) u v x.
Proof.
  intros Hi H. destruct (seen_ans G wf _ _ _ _ H (C14_single_source G u wf Hi)) as (Nu & N & [HM _] & _). auto.
Qed.
Theorem C76_floyd_warshall u v x pk m D : Props_Weighted.iso_has_edge G -> (forall a, ~ neg_cycle (weight G) a) ->
  seen G (nx_single_source_bf G u) (Val m) -> seen G (nx_floyd_warshall pk G true) (Val D) ->
  (nm_getitem m v = Val x <-> nn_get D u v = Val x).
Proof.
  intros Hi Hn Hm HD. destruct (see_bf u m Hi Hm) as (Nu & _ & E). rewrite E.
  rewrite (see_fw pk true D u v x (fun _ => Hn) HD). unfold eweight. split; [|intros (_ & _ & H); exact H]. intros H.
  split; [assumption|split; [|exact H]]. destruct H as [[d H] _]. inversion H as [|d' w' y' e' z' H1 He]; subst; [assumption|]. apply weight_nodes in He. apply He.
Qed.
Theorem C76_pair u v x m : Props_Weighted.iso_has_edge G -> seen G (nx_single_source_bf G u) (Val m) ->
  seen G (nx_bf_path_length G u v) (Val x) -> nm_getitem m v = Val x.
Proof.
  intros Hi Hm Hx. destruct (see_bf u m Hi Hm) as (Nu & N & E). apply E.
  destruct (seen_ans G wf _ _ _ _ Hx (C15_path_length_partial G u v wf Hi)) as (_ & H). auto.
Qed.
Theorem C76_pair_total u v m o : Props_Weighted.iso_has_edge G -> seen G (nx_single_source_bf G u) (Val m) -> node G v ->
  seen G (nx_bf_path_length G u v) o ->
  match nm_getitem m v with Val x => o = Val x | Raise _ => o = Raise ENoPath end.
Proof.
  intros Hi Hm Nv Ho. destruct (see_bf u m Hi Hm) as (Nu & N & E).
  destruct o as [x|e].
  - rewrite (C76_pair u v x m Hi Hm Ho). reflexivity.
  - destruct (seen_ans G wf _ _ _ _ Ho (C15_path_length_partial G u v wf Hi)) as [[_ H]|[[_ H]|(-> & _ & _ & H)]]; [destruct H; split; assumption|destruct (N H)|].
    destruct (nm_getitem m v) as [x|e] eqn:Ev; [|reflexivity]. apply E in Ev as [[d Hd] _]. destruct H. exists d, x. assumption.
Qed.
Theorem C76_all_pairs u v x pyfloat isz chunk L r m : Props_Weighted.iso_has_edge G -> seen G (nx_all_pairs_bf pyfloat isz G chunk) (Val L) -> In (u, r) L ->
  seen G (nx_single_source_bf G u) (Val m) -> (nm_getitem r v = Val x <-> nm_getitem m v = Val x).
Proof.
  intros Hi HL Hr Hm. destruct (see_bf u m Hi Hm) as (Nu & _ & E). rewrite E.
  destruct (seen_ans G wf _ _ _ _ HL (C14_all_pairs G pyfloat isz chunk wf Hi)) as (_ & _ & H). destruct (H u r Hr) as (_ & [H' _] & _). apply H'.
Qed.
Theorem C76_path u v fuel l m : Props_Weighted.iso_has_edge G -> glen G <= fuel ->
  seen G (nx_single_source_bf G u) (Val m) -> seen G (nx_bf_path fuel G u v) (Val (Some l)) ->
  match nm_getitem m v with
  | Val x => exists l', l = u :: l' /\ List.last l u = v /\ wpath (weight G) l x
  | Raise _ => l = []
  end.
Proof.
  intros Hi Hf Hm Hl. destruct (see_bf u m Hi Hm) as (Nu & N & E).
  destruct (seen_ans G wf _ _ _ _ Hl (C16_returned G fuel u v wf Hf N)) as (_ & Nv & [[-> H]|(l' & w & -> & HL & HP & HS)]).
  - destruct (nm_getitem m v) as [x|e] eqn:Ev; [|reflexivity]. apply E in Ev as [[d Hd] _]. destruct H. exists d, x. assumption.
  - apply E in HS. rewrite HS. exists l'. auto.
Qed.
(** negative_edge_cycle is True exactly when Bellman-Ford from some node is unbounded *)
Theorem C76_negative_cycle b : Props_Weighted.iso_has_edge G ->
  seen_nd G (nx_negative_edge_cycle G) (Val b) \/
  (seen G (nx_negative_edge_cycle G) (Val b) /\
   (g_dir G = false \/ g_iso G = true \/ (forall x, ~ edge G x x) \/ (forall x y w, weight G x y = Some w -> (0 <= w)%Z))) ->
  (b = true <-> exists u, node G u /\ seen G (nx_single_source_bf G u) (Raise EUnbounded)) /\
  (b = false <-> forall u, node G u -> exists m, seen G (nx_single_source_bf G u) (Val m)).
Proof.
  intros Hi Hb. assert (Hb' : b = true <-> exists u, neg_cycle (weight G) u).
  { destruct Hb as [Hb|[Hb Hc]].
    - destruct (seen_ndok_ans G wf _ _ _ _ Hb (C17_negative_edge_cycle_partial G wf)) as (b' & [= <-] & Hb' & _). exact Hb'.
    - destruct (seen_ans G wf _ _ _ _ Hb (C17_every_history G wf Hc)) as (b' & [= <-] & Hb'). exact Hb'. }
  assert (K : forall u, node G u -> match fst (nx_single_source_bf G u st0) with Val m => ~ neg_cycle_from (weight G) u | Raise e => e = EUnbounded /\ neg_cycle_from (weight G) u end).
  { intros u Nu. assert (X := seen_ans G wf _ _ _ _ (seen_new G _ (nx_single_source_bf G u)) (C14_single_source G u wf Hi)). cbv beta in X.
    destruct (fst (nx_single_source_bf G u st0)) as [m|e]; [apply X|]. destruct X as [[_ X]|(-> & _ & X)]; [destruct (X Nu)|auto]. }
  assert (C : (exists u, neg_cycle (weight G) u) <-> exists u, node G u /\ seen G (nx_single_source_bf G u) (Raise EUnbounded)).
  { split.
    - intros [u Hu]. assert (Nu : node G u).
      { destruct Hu as (d & w & Hw & L). inversion Hw as [|d' w' y' e' z' H1 He]; subst; [lia|]. apply weight_nodes in He. apply He. }
      exists u. split; [assumption|]. specialize (K u Nu). assert (X := seen_new G _ (nx_single_source_bf G u)).
      destruct (fst (nx_single_source_bf G u st0)) as [m|e]; [|destruct K as [-> _]; exact X].
      destruct K. exists u. split; [apply wreach_refl|assumption].
    - intros (u & Nu & Hu). destruct (seen_ans G wf _ _ _ _ Hu (C14_single_source G u wf Hi)) as [[X _]|(_ & _ & y & _ & Hy)]; [discriminate|]. exists y. assumption. }
  split; [rewrite Hb'; exact C|]. split.
  - intros -> u Nu. specialize (K u Nu). assert (X := seen_new G _ (nx_single_source_bf G u)).
    destruct (fst (nx_single_source_bf G u st0)) as [m|e]; [exists m; exact X|].
    destruct K as (_ & y & _ & Hy). assert (Z0 : false = true) by (apply Hb'; exists y; assumption). discriminate.
  - intros H. destruct b; [|reflexivity]. destruct (proj1 Hb' eq_refl) as [u Hu]. assert (C' := proj1 C (ex_intro _ u Hu)). destruct C' as (a & Na & Ha).
    destruct (H a Na) as [m Hm]. destruct (see_bf a m Hi Hm) as (_ & N & _).
    destruct (seen_ans G wf _ _ _ _ Ha (C14_single_source G a wf Hi)) as [[X _]|(_ & _ & X)]; [discriminate|]. destruct (N X).
Qed.

(** ** C77: the components partition the nodes *)
Lemma see_cc u r : g_dir G = false -> seen G (nx_node_connected_component G u) (Val r) -> node G u /\ is_set r (fun v => reach (edge G) u v).
Proof. intros Hd H. exact (seen_ans G wf _ _ _ _ H (C07_node_connected_component G u wf Hd)). Qed.
Lemma reach_sym u v : g_dir G = false -> reach (edge G) u v -> reach (edge G) v u.
Proof. intros Hd H. apply reach_rev in H. eapply reach_ext; [|exact H]. intros p q. split; apply edge_sym; assumption. Qed.
Lemma set_len r P (Q : nkey -> Prop) l : is_set r P -> NoDup l -> (forall k, In k l <-> P k) -> ns_len r = List.length l.
Proof.
  intros [_ (l' & _ & ND & E & H)] ND' H'. rewrite E. apply Nat.le_antisymm; (apply NoDup_incl_length; [assumption|]); intros k Hk; [apply H', H|apply H, H']; assumption.
Qed.
Theorem C77_components u v ru rv b c : g_dir G = false ->
  seen G (nx_node_connected_component G u) (Val ru) -> seen G (nx_node_connected_component G v) (Val rv) ->
  seen G (has_path G u v) (Val b) -> seen G (nx_is_connected G) (Val c) ->
  ns_contains ru u = Val true /\
  (b = true <-> ns_contains ru v = Val true) /\
  (if b then forall k, ns_contains ru k = Val true <-> ns_contains rv k = Val true
   else forall k, ~ (ns_contains ru k = Val true /\ ns_contains rv k = Val true)) /\
  (c = true <-> ns_len ru = List.length (gnodes G)).
Proof.
  intros Hd Hu Hv Hb Hc. destruct (see_cc u ru Hd Hu) as (Nu & Su). destruct (see_cc v rv Hd Hv) as (Nv & Sv).
  assert (Eu := proj1 Su). assert (Ev := proj1 Sv). cbv beta in Eu, Ev. assert (Eb := see_path _ _ _ Hb).
  split; [apply Eu; apply reach_refl|]. split; [rewrite Eb, Eu; reflexivity|]. split.
  - destruct b.
    + assert (R : reach (edge G) u v) by (apply Eb; reflexivity). intros k. rewrite Eu, Ev. split; intros H; [eapply reach_trans; [apply reach_sym; eassumption|assumption]|eapply reach_trans; eassumption].
    + intros k [H1 H2]. apply Eu in H1. apply Ev in H2. assert (R : reach (edge G) u v) by (eapply reach_trans; [exact H1|apply reach_sym; assumption]).
      apply Eb in R. discriminate.
  - destruct (seen_ans G wf _ _ _ _ Hc (C11_is_connected G wf Hd)) as (_ & Ec). rewrite Ec.
    destruct Su as [_ (l & _ & ND & El & Hl)]. rewrite El.
    assert (Inc : incl l (gnodes G)).
    { intros k Hk. apply Hl in Hk as [d Hk]. inversion Hk as [|d' y z Hy [w Hw]]; subst; [exact Nu|]. apply weight_nodes in Hw. apply Hw. }
    split.
    + intros H. apply Nat.le_antisymm; (apply NoDup_incl_length; [assumption || apply (gnodes_nodup G wf)|]); [assumption|].
      intros k Hk. apply Hl. apply H; assumption.
    + intros E a a' Na Na'. assert (J : incl (gnodes G) l) by (apply NoDup_length_incl; [assumption|lia|assumption]).
      assert (R1 : reach (edge G) u a) by (apply Hl, J; assumption). assert (R2 : reach (edge G) u a') by (apply Hl, J; assumption).
      eapply reach_trans; [apply reach_sym; [assumption|exact R1]|exact R2].
Qed.

(** ** C79: cutoffs *)
Lemma short_dist u v d : node G u -> dist (edge G) u v d -> d < List.length (gnodes G).
Proof.
  intros Nu [Hw Hm]. destruct (walk_fun _ _ _ _ Hw) as (f & F0 & Fd & Hf).
  assert (ND : NoDup (map f (seq 0 (S d)))).
  { assert (Inj : forall i j, i < j -> j <= d -> f i <> f j).
    { intros i j Hij Hj E.
      assert (W1 := fun_walk (edge G) f d Hf 0 i ltac:(lia) ltac:(lia)). rewrite Nat.sub_0_r in W1.
      assert (W2 := fun_walk (edge G) f d Hf j d Hj ltac:(lia)).
      rewrite E in W1. assert (X := walk_trans _ _ _ _ _ _ W1 W2). rewrite F0, Fd in X. apply Hm in X. lia. }
    apply NoDup_nth with (d := f 0). rewrite map_length, seq_length. intros i j Hi Hj E.
    rewrite !(map_nth f), !seq_nth in E by assumption. simpl in E.
    destruct (Nat.lt_trichotomy i j) as [L|[L|L]]; [destruct (Inj i j L ltac:(lia) E)|assumption|destruct (Inj j i L ltac:(lia) (eq_sym E))]. }
  assert (Inc : incl (map f (seq 0 (S d))) (gnodes G)).
  { intros k Hk. apply in_map_iff in Hk as (i & <- & Hi). apply in_seq in Hi. destruct i as [|i]; [rewrite F0; exact Nu|].
    destruct (Hf i) as [w Hw']; [lia|]. apply weight_nodes in Hw'. apply Hw'. }
  assert (X := NoDup_incl_length ND Inc). rewrite map_length, seq_length in X. lia.
Qed.
Theorem C79_cutoff u v x c ss sc : seen G (nx_single_source_spl G u None) (Val ss) -> seen G (nx_single_source_spl G u (Some c)) (Val sc) ->
  (nm_getitem sc v = Val x <-> nm_getitem ss v = Val x /\ (x <= Z.max 0 c)%Z) /\
  ((Z.of_nat (List.length (gnodes G)) <= c + 1)%Z -> nm_getitem sc v = nm_getitem ss v).
Proof.
  intros Hs Hc. assert (E : forall y, nm_getitem sc v = Val y <-> nm_getitem ss v = Val y /\ (y <= Z.max 0 c)%Z).
  { intros y. rewrite (see_ss_get _ _ _ _ _ Hs), (see_ss_get _ _ _ _ _ Hc). unfold within. split.
    - intros (d & -> & H1 & H2). split; [exists d; auto|assumption].
    - intros ((d & -> & H1 & _) & H2). exists d. auto. }
  split; [apply E|]. intros Hlen. destruct (nm_getitem ss v) as [y|e] eqn:Es.
  - apply E. split; [reflexivity|]. apply (see_ss_get _ _ _ _ _ Hs) in Es as (d & -> & Hd & _).
    assert (Nu : node G u) by apply (proj1 (see_ss _ _ _ Hs)). assert (X := short_dist u v d Nu Hd). lia.
  - destruct (nm_getitem sc v) as [y|e'] eqn:Ec.
    + assert (X := proj1 (E y) eq_refl). destruct X as [X _]. discriminate.
    + apply nm_getitem_key in Es. apply nm_getitem_key in Ec. congruence.
Qed.
Theorem C79_cutoff_mono u v x c c' sc sc' : (c <= c')%Z -> seen G (nx_single_source_spl G u (Some c)) (Val sc) -> seen G (nx_single_source_spl G u (Some c')) (Val sc') ->
  nm_getitem sc v = Val x -> nm_getitem sc' v = Val x.
Proof.
  intros Hc H H' E. apply (see_ss_get _ _ _ _ _ H) in E as (d & -> & H1 & H2). apply (see_ss_get _ _ _ _ _ H'). exists d. split; [reflexivity|split; [assumption|]].
  unfold within in *. lia.
Qed.
(** the nodes of the ego graph are the keys of the truncated search; larger radius, larger ego graph; a large radius gives
    the node and its descendants *)
Theorem C79_ego orc pick u r T : seen G (nx_ego_graph orc pick G u r true false false) (Val T) ->
  (forall sc, seen G (nx_single_source_spl G u (Some r)) (Val sc) -> forall v, node T v <-> exists x, nm_getitem sc v = Val x) /\
  (forall orc' pick' r' T', (r <= r')%Z -> seen G (nx_ego_graph orc' pick' G u r' true false false) (Val T') ->
     (forall v, node T v -> node T' v) /\ forall v w x, node T v -> node T w -> (weight T v w = Some x <-> weight T' v w = Some x)) /\
  (forall ds, (Z.of_nat (List.length (gnodes G)) <= r + 1)%Z -> seen G (nx_descendants G u) (Val ds) ->
     forall v, node T v <-> v = u \/ ns_contains ds v = Val true).
Proof.
  intros HT. assert (EG : forall o p r0 T0, seen G (nx_ego_graph o p G u r0 true false false) (Val T0) ->
    node G u /\ (forall v, node T0 v <-> exists d, dist (edge G) u v d /\ within (Some r0) d) /\
    forall v w x, weight T0 v w = Some x <-> weight G v w = Some x /\ node T0 v /\ node T0 w).
  { intros o p r0 T0 H0. destruct (seen_ans G wf _ _ _ _ H0 (C59_ego_graph o p G wf u r0 true false)) as (Nu & _ & _ & HN & HW).
    change (ego_edge G false) with (edge G) in HN, HW.
    assert (HN' : forall v, node T0 v <-> exists d, dist (edge G) u v d /\ within (Some r0) d).
    { intros v. rewrite HN. split; [intros (_ & H & _); exact H|]. intros H. split; [|split; [exact H|discriminate]].
      destruct H as (d & [Hd _] & _). inversion Hd as [|d' y z Hy [w Hw]]; subst; [exact Nu|]. apply weight_nodes in Hw. apply Hw. }
    split; [assumption|]. split; [assumption|]. intros v w x. rewrite HW, !HN'. split; [intros (H1 & (H2 & _) & (H3 & _)); auto|].
    intros (H1 & H2 & H3). split; [assumption|]. split; (split; [assumption|discriminate]). }
  destruct (EG _ _ _ _ HT) as (Nu & HN & HW). split; [|split].
  - intros sc Hs v. rewrite HN. split.
    + intros (d & H1 & H2). exists (Z.of_nat d). apply (see_ss_get _ _ _ _ _ Hs). exists d. auto.
    + intros (x & Hx). apply (see_ss_get _ _ _ _ _ Hs) in Hx as (d & _ & H). exists d. exact H.
  - intros orc' pick' r' T' Hr HT'. destruct (EG _ _ _ _ HT') as (_ & HN' & HW').
    assert (M : forall v, node T v -> node T' v).
    { intros v Hv. apply HN in Hv as (d & H1 & H2). apply HN'. exists d. split; [assumption|]. unfold within in *. lia. }
    split; [exact M|]. intros v w x Hv Hw. rewrite HW, HW'. split; intros (H & _ & _); auto.
  - intros ds Hr Hd v. rewrite HN, (see_desc _ _ _ Hd). split.
    + intros (d & [H _] & _). destruct (nkey_dec v u); [left; assumption|right; split; [assumption|exists d; assumption]].
    + intros H. assert (R : reach (edge G) u v) by (destruct H as [->|[_ H]]; [apply reach_refl|assumption]).
      apply reach_has_dist in R as [d Hdd]. exists d. split; [assumption|]. assert (X := short_dist u v d Nu Hdd). unfold within. lia.
Qed.
(** the other options: center=False leaves out u and nothing else, undirected=True only adds, in every option a larger radius
    only adds; the kept part is always the same *)
Definition ego_part (T T' : graph) : Prop :=
  (forall v, node T v -> node T' v) /\ forall v w x, node T v -> node T w -> (weight T v w = Some x <-> weight T' v w = Some x).
Lemma see_ego orc pick u r c un T : seen G (nx_ego_graph orc pick G u r c un false) (Val T) ->
  node G u /\ (forall v, node T v <-> node G v /\ (exists d, dist (ego_edge G un) u v d /\ within (Some r) d) /\ (c = false -> v <> u)) /\
  forall v w x, weight T v w = Some x <-> weight G v w = Some x /\ node T v /\ node T w.
Proof.
  intros H. destruct (seen_ans G wf _ _ _ _ H (C59_ego_graph orc pick G wf u r c un)) as (Nu & _ & _ & HN & HW).
  split; [exact Nu|]. split; [exact HN|]. intros v w x. rewrite HW, !HN. split; [|tauto]. intros (H1 & H2 & H3). 
  assert (N := weight_nodes _ _ _ _ H1). tauto.
Qed.
Theorem C79_ego_options orc pick u r c un T : seen G (nx_ego_graph orc pick G u r c un false) (Val T) ->
  (forall orc' pick' r' T', (r <= r')%Z -> seen G (nx_ego_graph orc' pick' G u r' c un false) (Val T') -> ego_part T T') /\
  (forall orc' pick' T', un = false -> seen G (nx_ego_graph orc' pick' G u r c true false) (Val T') -> ego_part T T') /\
  (forall orc' pick' T', c = true -> seen G (nx_ego_graph orc' pick' G u r false un false) (Val T') ->
     ego_part T' T /\ forall v, node T' v <-> node T v /\ v <> u).
Proof.
  intros HT. destruct (see_ego _ _ _ _ _ _ _ HT) as (Nu & HN & HW). 
  assert (K : forall T', (forall v, node T v -> node T' v) -> (forall v w x, weight T' v w = Some x <-> weight G v w = Some x /\ node T' v /\ node T' w) -> ego_part T T').
  { intros T' M W. split; [exact M|]. intros v w x Hv Hw. rewrite HW, W. apply M in Hv as Hv'. apply M in Hw as Hw'. tauto. }
  split; [|split].
  - intros o p r' T' Hr H'. destruct (see_ego _ _ _ _ _ _ _ H') as (_ & HN' & HW'). apply K; [|exact HW']. intros v Hv. apply HN in Hv as (Nv & (d & H1 & H2) & H3).
    apply HN'. split; [assumption|]. split; [|assumption]. exists d. split; [assumption|]. unfold within in *. lia.
  - intros o p T' -> H'. destruct (see_ego _ _ _ _ _ _ _ H') as (_ & HN' & HW'). apply K; [|exact HW']. intros v Hv. apply HN in Hv as (Nv & (d & [H1 H1'] & H2) & H3).
    apply HN'. split; [assumption|]. split; [|assumption].
    assert (Wk : walk (ego_edge G true) u d v). { eapply walk_mono; [|exact H1]. intros a b Hab. left. exact Hab. }
    assert (R : reach (ego_edge G true) u v) by (exists d; exact Wk). apply (reach_dist _ (sym_walk_dec G)) in R as [d' Hd']. exists d'. split; [exact Hd'|].
    destruct Hd' as [_ Hm]. apply Hm in Wk. unfold within in *. lia.
  - intros o p T' -> H'. destruct (see_ego _ _ _ _ _ _ _ H') as (_ & HN' & HW').
    assert (E : forall v, node T' v <-> node T v /\ v <> u). { intros v. rewrite HN, HN'. assert (false = false) by reflexivity. assert (true <> false) by discriminate. tauto. }
    split; [|exact E]. split; [intros v Hv; apply E; exact Hv|]. intros v w x Hv Hw. rewrite HW, HW'. apply E in Hv as Hv'. apply E in Hw as Hw'. tauto.
Qed.
End L.

(** ** Concrete cases: a weighted triangle and an isolated node; each call comes after another one *)
Definition g_law := mkg false 4 [(0, 1, 2%Z); (1, 2, 3%Z); (0, 2, 9%Z)].
Lemma g_law_wf : gwf g_law. Proof. apply mkg_wf. Qed.
Local Ltac run := eapply seen_after; [apply P_is_connected|vm_compute; reflexivity].
Local Ltac run0 := eapply seen_val; vm_compute; reflexivity.
Definition pk0 (_ _ _ : nat) := true.
Example C74_ex : exists ds an ss st D P Ls r,
  seen g_law (has_path g_law (KI 0) (KI 2)) (Val true) /\ seen g_law (nx_descendants g_law (KI 0)) (Val ds) /\ seen g_law (nx_ancestors g_law (KI 2)) (Val an) /\
  seen g_law (nx_single_source_spl g_law (KI 0) None) (Val ss) /\ seen g_law (nx_single_target_spl g_law (KI 2) None) (Val st) /\
  seen g_law (nx_floyd_warshall pk0 g_law false) (Val D) /\ seen g_law (nx_fw_pred_dist pk0 g_law false) (Val P) /\
  seen g_law (nx_bfs_layers g_law (One (KI 0))) (Val Ls) /\ seen g_law (nx_descendants_at_distance g_law (KI 0) 1) (Val r) /\
  seen g_law (bidirectional_spl g_law (KI 0) (KI 2)) (Val 1%Z) /\ seen g_law (bidirectional_spl g_law (KI 0) (KI 3)) (Raise ENoPath) /\
  nm_getitem ss (KI 2) = Val 1%Z /\ nm_getitem ss (KI 3) = Raise EKey /\ nn_get D (KI 0) (KI 2) = Val 1%Z /\
  exists x, seen g_law (nx_efficiency g_law (KI 0) (KI 2)) (Val x) /\ (x == 1)%Q.
Proof.
  do 8 eexists. do 11 (split; [run|]). do 3 (split; [vm_compute; reflexivity|]). eexists. split; [run|reflexivity].
Qed.
Example C74_all_ex : exists L m ss, seen g_law (nx_all_pairs_spl no_float 8 g_law None (CANum 2)) (Val L) /\ In (KI 2, m) L /\
  seen g_law (nx_single_source_spl g_law (KI 2) None) (Val ss) /\ nm_getitem m (KI 0) = Val 1%Z.
Proof.
  do 3 eexists. split; [run|]. split; [right; right; left; reflexivity|]. split; [run|]. vm_compute. reflexivity.
Qed.
Lemma g_law_nn a : ~ neg_cycle (weight g_law) a.
Proof.
  intros (d & w & H & L). enough (0 <= w)%Z by lia. eapply wwalk_nonneg; [|exact H]. intros p q v E.
  assert (N := weight_nodes _ _ _ _ E). destruct N as [N1 N2]. unfold node in N1, N2. vm_compute in N1, N2.
  destruct N1 as [<-|[<-|[<-|[<-|[]]]]]; destruct N2 as [<-|[<-|[<-|[<-|[]]]]]; vm_compute in E; try discriminate; injection E as <-; lia.
Qed.
Example C75_ex : exists su sv D, seen g_law (nx_single_source_spl g_law (KI 0) None) (Val su) /\ seen g_law (nx_single_source_spl g_law (KI 1) None) (Val sv) /\
  (forall u, ~ neg_cycle (weight g_law) u) /\ seen g_law (nx_floyd_warshall pk0 g_law true) (Val D) /\
  nn_get D (KI 0) (KI 1) = Val 2%Z /\ nn_get D (KI 1) (KI 2) = Val 3%Z /\ nn_get D (KI 0) (KI 2) = Val 5%Z.
Proof.
  do 3 eexists. do 2 (split; [run|]). split; [exact g_law_nn|]. split; [run|]. repeat split; vm_compute; reflexivity.
Qed.
Local Ltac runnd := eexists false, _; split; [constructor|split; [apply nd_ok_st0|vm_compute; reflexivity]].
Example C76_ex : exists m D L r, Props_Weighted.iso_has_edge g_law /\ glen g_law <= 4 /\ (forall x w, weight g_law x x = Some w -> (0 <= w)%Z) /\ g_iso g_law = false /\
  seen g_law (nx_single_source_bf g_law (KI 0)) (Val m) /\ seen g_law (nx_floyd_warshall pk0 g_law true) (Val D) /\
  seen g_law (nx_bf_path_length g_law (KI 0) (KI 2)) (Val 5%Z) /\ seen g_law (nx_all_pairs_bf no_float 8 g_law (CANum 2)) (Val L) /\ In (KI 0, r) L /\
  seen_nd g_law (nx_bf_path 4 g_law (KI 0) (KI 2)) (Val (Some [KI 0; KI 1; KI 2])) /\
  seen_nd g_law (nx_negative_edge_cycle g_law) (Val false) /\ nm_getitem m (KI 2) = Val 5%Z.
Proof.
  do 4 eexists. split; [discriminate|]. split; [apply Nat.le_refl|]. split.
  { intros x w E. assert (N := weight_nodes _ _ _ _ E). destruct N as [N1 _]. unfold node in N1. vm_compute in N1.
    destruct N1 as [<-|[<-|[<-|[<-|[]]]]]; vm_compute in E; discriminate. }
  split; [reflexivity|]. do 4 (split; [run|]). split; [left; reflexivity|]. split; [runnd|]. split; [runnd|]. vm_compute. reflexivity.
Qed.
Example C76_neg_ex : let G := mkg true 2 [(0, 1, 1%Z); (1, 0, (-3)%Z)] in
  seen_nd G (nx_negative_edge_cycle G) (Val true) /\ seen G (nx_single_source_bf G (KI 0)) (Raise EUnbounded).
Proof. intros G. split; [runnd|]. exists false, st0. split; [constructor|]. vm_compute. reflexivity. Qed.
Example C77_ex : exists ru rv, seen g_law (nx_node_connected_component g_law (KI 0)) (Val ru) /\ seen g_law (nx_node_connected_component g_law (KI 3)) (Val rv) /\
  seen g_law (has_path g_law (KI 0) (KI 3)) (Val false) /\ seen g_law (nx_is_connected g_law) (Val false) /\ ns_len ru = 3 /\ ns_len rv = 1.
Proof. do 2 eexists. do 4 (split; [run|]). split; vm_compute; reflexivity. Qed.
Example C79_ex : exists ss sc sc' T T' ds, seen g_law (nx_single_source_spl g_law (KI 0) None) (Val ss) /\ seen g_law (nx_single_source_spl g_law (KI 0) (Some 0%Z)) (Val sc) /\
  seen g_law (nx_single_source_spl g_law (KI 0) (Some 3%Z)) (Val sc') /\ nm_getitem ss (KI 2) = Val 1%Z /\ nm_getitem sc (KI 2) = Raise EKey /\
  seen g_law (nx_ego_graph (fun _ => false) (fun _ _ => true) g_law (KI 0) 0 true false false) (Val T) /\ gnodes T = [KI 0] /\
  seen g_law (nx_ego_graph (fun _ => false) (fun _ _ => true) g_law (KI 0) 3 true false false) (Val T') /\ gnodes T' = [KI 0; KI 1; KI 2] /\
  seen g_law (nx_descendants g_law (KI 0)) (Val ds) /\ (Z.of_nat (List.length (gnodes g_law)) <= 3 + 1)%Z.
Proof. do 6 eexists. do 3 (split; [run|]). do 2 (split; [vm_compute; reflexivity|]). split; [run|]. split; [vm_compute; reflexivity|]. split; [run|]. split; [vm_compute; reflexivity|]. split; [run|]. vm_compute. discriminate. Qed.

(** the option center=False, undirected=True on a digraph *)
Definition g_eo := mkg true 4 [(0, 1, 2%Z); (1, 2, 3%Z); (3, 0, 9%Z)].
Example C79_options_ex : gwf g_eo /\ exists T T' T1 T2, seen g_eo (nx_ego_graph (fun _ => false) (fun _ _ => true) g_eo (KI 0) 1 true false false) (Val T) /\
  seen g_eo (nx_ego_graph (fun _ => false) (fun _ _ => true) g_eo (KI 0) 2 true false false) (Val T') /\
  seen g_eo (nx_ego_graph (fun _ => false) (fun _ _ => true) g_eo (KI 0) 1 true true false) (Val T1) /\
  seen g_eo (nx_ego_graph (fun _ => false) (fun _ _ => true) g_eo (KI 0) 1 false false false) (Val T2) /\
  gnodes T = [KI 0; KI 1] /\ gnodes T' = [KI 0; KI 1; KI 2] /\ gnodes T1 = [KI 0; KI 1; KI 3] /\ gnodes T2 = [KI 1].
Proof. split; [apply mkg_wf|]. do 4 eexists. do 4 (split; [eapply seen_after; [apply P_is_weakly_connected|vm_compute; reflexivity]|]). repeat split; vm_compute; reflexivity. Qed.

Print Assumptions C74_reachable.
Print Assumptions C74_lengths.
Print Assumptions C74_pair.
Print Assumptions C74_no_path.
Print Assumptions C74_all_pairs.
Print Assumptions C74_layers.
Print Assumptions C74_efficiency.
Print Assumptions C75_unweighted.
Print Assumptions C75_weighted.
Print Assumptions C76_floyd_warshall.
Print Assumptions C76_pair.
Print Assumptions C76_pair_total.
Print Assumptions C76_all_pairs.
Print Assumptions C76_path.
Print Assumptions C76_negative_cycle.
Print Assumptions C77_components.
Print Assumptions C79_cutoff.
Print Assumptions C79_cutoff_mono.
Print Assumptions C79_ego.
Print Assumptions C79_ego_options.
