(** * C44-C54: isolates, regularity, tournaments, simple paths, reciprocity, s-metric, communities,
    mutual weight, degree centrality, isomorphism tests *)
From Verif Require Import Base BaseProofs Model_Graph Model_Cache Spec_Cache CacheMath CacheProofs CacheProofs2
  Model_Keys Spec KeyProofs Spec_Run RunProofs Model_Bfs Model_Operators OperatorProofs Spec_Count Model_Measures CountProofs Props_Cuts Concrete.
From Coq Require Import Permutation Sorting.Sorted QArith.
Open Scope nat_scope.

(** ** Specification *)
(** the number the code works with: out + in when directed, neighbours when undirected *)
Definition ndeg (G : graph) (u : nkey) : nat := if g_dir G then out_degree G u + in_degree G u else out_degree G u.
Definition isolated (G : graph) (u : nkey) : Prop := node G u /\ forall v, ~ edge G u v /\ ~ edge G v u.

Lemma zinsert_perm x l : Permutation (zinsert x l) (x :: l).
Proof.
  induction l as [|y l IH]; simpl; [reflexivity|]. destruct (x <=? y)%Z; [reflexivity|].
  rewrite IH. apply perm_swap.
Qed.
Lemma zsort_perm l : Permutation (zsort l) l.
Proof. induction l as [|x l IH]; simpl; [reflexivity|]. rewrite zinsert_perm, IH. reflexivity. Qed.
Lemma zinsert_sorted x l : StronglySorted Z.le l -> StronglySorted Z.le (zinsert x l).
Proof.
  induction 1 as [|y l H IH F]; simpl; [repeat constructor|]. destruct (Z.leb_spec x y).
  - constructor; [constructor; assumption|]. constructor; [assumption|]. eapply Forall_impl; [|exact F]. simpl. lia.
  - constructor; [assumption|]. rewrite (Forall_forall). intros z Hz. apply (Permutation_in _ (zinsert_perm x l)) in Hz.
    destruct Hz as [<-|Hz]; [lia|]. rewrite Forall_forall in F. auto.
Qed.
Lemma zsort_sorted l : StronglySorted Z.le (zsort l).
Proof. induction l; simpl; [constructor|]. apply zinsert_sorted. assumption. Qed.
Section M.
Variable G : graph.
Hypothesis wf : gwf G.
Notation n := (glen G).
Notation A := (g_A G).
Let Hsq : ncols A = n. Proof. apply (sq_nrows G wf). Qed.
Let HmA : mwf A. Proof. apply wf. Qed.

Lemma ndeg_loop_free u : loop_free G -> ndeg G u = degree G u.
Proof.
  intros H. unfold ndeg, degree. destruct (g_dir G); [reflexivity|].
  destruct (has_edge G u u) eqn:E; [apply has_edge_true in E; destruct (H u E)|lia].
Qed.
Lemma ndeg_directed u : g_dir G = true -> ndeg G u = degree G u.
Proof. unfold ndeg, degree. intros ->. reflexivity. Qed.
(** vectors of counts, zero counts not stored *)
Definition dvec (d : vec Z) (F : nkey -> nat) : Prop :=
  vsize d = n /\ forall u i, kid G u = Some i -> vget d i = onz (F u).
Lemma dvec_has d F u i : dvec d F -> kid G u = Some i -> has (vget d i) = (0 <? F u).
Proof. intros [_ H] Hu. rewrite (H u i Hu), has_onz. destruct (F u); reflexivity. Qed.
Lemma dvec_nvals d F : dvec d F -> nvals d = count (fun u => 0 <? F u) (gnodes G).
Proof.
  intros H. unfold nvals. rewrite (proj1 H). symmetry. apply (count_nodes G wf). intros u i Hu. symmetry. eapply dvec_has; eassumption.
Qed.
Lemma dvec_out mask : mask = None -> dvec (msk mask (den_red G Row RCount SP)) (out_degree G).
Proof.
  intros ->. cbn [msk]. split; [rewrite vsize_den_red; reflexivity|]. intros u i Hu. rewrite (den_count G).
  rewrite vget_vbuild_lt by exact (kid_lt G wf _ _ Hu). rewrite (out_degree_id G wf u i Hu). reflexivity.
Qed.
Lemma dvec_in mask : mask = None -> dvec (msk mask (den_red G Col RCount SP)) (in_degree G).
Proof.
  intros ->. cbn [msk]. split; [rewrite vsize_den_red; reflexivity|]. intros u i Hu. rewrite (den_count G).
  rewrite vget_vbuild_lt by exact (kid_lt G wf _ _ Hu). rewrite (in_degree_id G wf u i Hu). reflexivity.
Qed.
Lemma degrees_plus_ok : exists d, dvec d (ndeg G) /\ answers_td G (degrees_plus G) (eq (Val d)).
Proof.
  unfold degrees_plus, ndeg. destruct (g_dir G) eqn:D.
  - exists (den_vec G (KTotal SP)). split.
    + split; [apply vsize_vbuild|]. intros u i Hu. cbn [den_vec]. rewrite vget_vbuild_lt by exact (kid_lt G wf _ _ Hu).
      rewrite (out_degree_id G wf u i Hu), (in_degree_id G wf u i Hu). reflexivity.
    + intros s HI. pose proof (get_total_p_ok G wf false None s HI ltac:(discriminate)) as H. unfold wp in H.
      split; [|split].
      * destruct (get_total G SP None s) as [o s']. destruct H as (-> & _ & _). reflexivity.
      * destruct (get_total G SP None s) as [o s']. destruct H as (_ & H & _). exact H.
      * intros HI' Hs. pose proof (get_total_p_ok G wf true None s HI') as H'. unfold wp in H'.
        destruct (get_total G SP None s) as [o s']. cbn [snd] in *. apply H'. intros _ _ Hself.
        destruct Hs as [Hs|Hs]; [congruence|assumption].
  - exists (msk None (den_red G Row RCount SP)). split; [apply dvec_out; reflexivity|].
    intros s HI. split; [|split].
    + symmetry. apply (get_red_plus_ok G wf false Row RCount None s HI).
    + apply (get_red_plus_ok G wf false Row RCount None s HI).
    + intros HI' _. apply (get_red_plus_ok G wf true Row RCount None s HI').
Qed.

(** ** C44 *)
Lemma len_nodes : List.length (gnodes G) = n.
Proof. unfold gnodes. rewrite map_length. exact (kok_len _ _ (gkok G wf)). Qed.
Lemma ndeg_zero u i : kid G u = Some i -> (ndeg G u = 0 <-> isolated G u).
Proof.
  intros Hu. assert (Hn : node G u) by (apply node_kid; eauto).
  assert (Ho : out_degree G u = 0 <-> forall v, ~ edge G u v).
  { unfold out_degree. rewrite count_zero. split.
    - intros H v He. assert (Hv : node G v) by (destruct He as [w Hw]; apply weight_nodes in Hw; tauto).
      apply has_edge_true in He. rewrite (H v Hv) in He. discriminate.
    - intros H v _. destruct (has_edge G u v) eqn:E; [|reflexivity]. apply has_edge_true in E. destruct (H v E). }
  assert (Hi : in_degree G u = 0 <-> forall v, ~ edge G v u).
  { unfold in_degree. rewrite count_zero. split.
    - intros H v He. assert (Hv : node G v) by (destruct He as [w Hw]; apply weight_nodes in Hw; tauto).
      apply has_edge_true in He. rewrite (H v Hv) in He. discriminate.
    - intros H v _. destruct (has_edge G v u) eqn:E; [|reflexivity]. apply has_edge_true in E. destruct (H v E). }
  unfold ndeg, isolated. destruct (g_dir G) eqn:D.
  - split.
    + intros H. split; [assumption|]. intros v. split; [apply Ho; lia|apply Hi; lia].
    + intros [_ H]. assert (out_degree G u = 0) by (apply Ho; apply H). assert (in_degree G u = 0) by (apply Hi; apply H). lia.
  - pose proof (in_out_degree G wf u D) as E. split.
    + intros H. split; [assumption|]. intros v. split; [apply Ho; lia|apply Hi; lia].
    + intros [_ H]. apply Ho. apply H.
Qed.
Theorem C44_is_isolate u :
  answers_td G (nx_is_isolate G u) (fun o =>
    match o with
    | Val b => node G u /\ (b = true <-> isolated G u)
    | Raise e => e = EKey /\ ~ node G u
    end).
Proof.
  unfold nx_is_isolate. destruct (kid G u) as [i|] eqn:Hu.
  - destruct degrees_plus_ok as (d & Hd & H). eapply (td_pure G _ (fun d => Val (negb (has (vget d i))))); [exact H|].
    split; [apply node_kid; eauto|]. rewrite (dvec_has d _ u i Hd Hu), <- (ndeg_zero u i Hu). destruct (ndeg G u); simpl; intuition discriminate.
  - apply td_raise. split; [reflexivity|]. rewrite node_kid. intros [i Hi]. congruence.
Qed.
Theorem C44_isolates : answers_td G (nx_isolates G) (fun o => exists r, o = Val r /\ is_set r (isolated G)).
Proof.
  unfold nx_isolates. destruct degrees_plus_ok as (d & Hd & H).
  eapply (td_pure G _ (fun d => Val (to_nodeset G (vcompl d)))); [exact H|]. eexists. split; [reflexivity|].
  apply (is_set_has G wf).
  - unfold vcompl. rewrite vsize_vbuild, (proj1 Hd). reflexivity.
  - intros u i Hu. assert (L : i < n) by exact (kid_lt G wf _ _ Hu). unfold vcompl. rewrite vget_vbuild_lt by (rewrite (proj1 Hd); assumption). unfold mNS.
    rewrite (dvec_has d _ u i Hd Hu), <- (ndeg_zero u i Hu). destruct (ndeg G u); simpl; intuition discriminate.
  - intros u [Hn _]. assumption.
Qed.
Theorem C44_number_of_isolates :
  answers_td G (nx_number_of_isolates G) (fun o => exists l, NoDup l /\ (forall u, In u l <-> isolated G u) /\ o = Val (List.length l)).
Proof.
  unfold nx_number_of_isolates. destruct degrees_plus_ok as (d & Hd & H).
  eapply (td_pure G _ (fun d => Val (vsize d - nvals d))); [exact H|].
  exists (filter (fun u => ndeg G u =? 0) (gnodes G)). split; [apply NoDup_filter, gnodes_nodup; assumption|]. split.
  - intros u. rewrite filter_In. split.
    + intros [Hn E]. apply Nat.eqb_eq in E. destruct (proj1 (node_kid G u) Hn) as [i Hi]. apply (ndeg_zero u i Hi). assumption.
    + intros Hi. split; [apply Hi|]. destruct (proj1 (node_kid G u) (proj1 Hi)) as [i Ki]. apply Nat.eqb_eq. apply (ndeg_zero u i Ki). assumption.
  - f_equal. rewrite (dvec_nvals d _ Hd), (proj1 Hd).
    assert (E : n = count (fun u => 0 <? ndeg G u) (gnodes G) + List.length (filter (fun u => ndeg G u =? 0) (gnodes G))).
    { transitivity (List.length (gnodes G)).
      - symmetry. apply len_nodes.
      - unfold count. clear. induction (gnodes G) as [|u l IH]; [reflexivity|]. cbn [filter]. destruct (Nat.ltb_spec 0 (ndeg G u)), (Nat.eqb_spec (ndeg G u) 0); cbn [List.length]; lia. }
    lia.
Qed.

(** ** C45 *)
Definition regular : Prop :=
  if g_dir G then exists d e, forall u, node G u -> out_degree G u = d /\ in_degree G u = e
  else exists d, forall u, node G u -> degree G u = d.
Lemma all_eq_dvec d F x : dvec d F -> nvals d = n -> (all_eq d (Z.of_nat x) = true <-> forall u, node G u -> F u = x).
Proof.
  intros Hd Hf. unfold all_eq. rewrite forallb_forall.
  assert (FULL : forall u, node G u -> 0 < F u).
  { intros u Hu. apply node_kid in Hu as [i Hi]. apply Nat.ltb_lt. rewrite <- (dvec_has d F u i Hd Hi).
    unfold nvals in Hf. rewrite (proj1 Hd) in Hf. apply (proj1 (cnt_all n _) Hf). exact (kid_lt G wf _ _ Hi). }
  split.
  - intros H u Hu. pose proof (FULL u Hu). apply node_kid in Hu as [i Hi]. specialize (H (Z.of_nat (F u))).
    apply Nat2Z.inj. apply Z.eqb_eq. apply H. unfold vvalues. apply in_map_iff. exists (i, Z.of_nat (F u)). split; [reflexivity|].
    apply in_vcoo. rewrite (proj2 Hd u i Hi). unfold onz. destruct (F u); [lia|reflexivity].
  - intros H z Hz. unfold vvalues in Hz. apply in_map_iff in Hz as ([i w] & <- & Hin). apply in_vcoo in Hin.
    pose proof (vget_some_lt _ _ _ Hin) as L. rewrite (proj1 Hd) in L. destruct (kid_key G wf i L) as [u Hu].
    rewrite (proj2 Hd u i Hu) in Hin. rewrite (H u) in Hin by (apply node_kid; eauto). unfold onz in Hin. destruct x; [discriminate|].
    injection Hin as <-. apply Z.eqb_refl.
Qed.
Lemma dvec_full d F : dvec d F -> (nvals d =? vsize d) = true <-> (forall u, node G u -> 0 < F u).
Proof.
  intros Hd. rewrite Nat.eqb_eq. unfold nvals. rewrite cnt_all, (proj1 Hd). split.
  - intros H u Hu. apply node_kid in Hu as [i Hi]. apply Nat.ltb_lt. rewrite <- (dvec_has d F u i Hd Hi). apply H. exact (kid_lt G wf _ _ Hi).
  - intros H i Hi. destruct (kid_key G wf i Hi) as [u Hu]. rewrite (dvec_has d F u i Hd Hu). apply Nat.ltb_lt, H. apply node_kid. eauto.
Qed.
Lemma get0_dvec d F : dvec d F -> get0 d = match n with 0 => Raise EIndex | _ => Val (oz (vget d 0)) end.
Proof. intros [H _]. unfold get0. rewrite H. destruct n; reflexivity. Qed.
Lemma nodes_empty : n = 0 <-> gnodes G = [].
Proof.
  rewrite <- len_nodes. destruct (gnodes G); simpl; split; try discriminate; auto.
Qed.
Lemma first_node : n <> 0 -> exists u, kid G u = Some 0.
Proof. intros H. apply (kid_key G wf). unfold glen in H. lia. Qed.
Lemma get0_val d F u0 : dvec d F -> kid G u0 = Some 0 -> get0 d = Val (Z.of_nat (F u0)).
Proof.
  intros Hd H0. rewrite (get0_dvec d F Hd). assert (L : 0 < n) by exact (kid_lt G wf _ _ H0). destruct n; [lia|].
  rewrite (proj2 Hd u0 0 H0), onz_zsum. reflexivity.
Qed.

(** all out-degrees (and all in-degrees) equal, and positive *)
Theorem C45_is_regular_partial :
  answers G (nx_is_regular G) (fun o =>
    match o with
    | Val b => gnodes G <> [] /\
        (b = true <-> exists d e, 0 < d /\ 0 < e /\ forall u, node G u -> out_degree G u = d /\ in_degree G u = e)
    | Raise e => e = EIndex /\ gnodes G = []
    end).
Proof.
  pose proof (dvec_out None eq_refl) as Ho. pose proof (dvec_in None eq_refl) as Hi.
  set (R := fun o : outcome bool => _).
  assert (F1 : forall d F, dvec d F -> (forall b, (exists u, node G u /\ F u = 0) -> b = false -> R (Val b)) -> True) by auto.
  clear F1.
  unfold nx_is_regular. destruct (g_dir G) eqn:D.
  - eapply answers_bind_GV; [apply (get_red_ok G wf true eq_refl)|].
    set (r := msk None (den_red G Row RCount SP)) in *. set (c := msk None (den_red G Col RCount SP)) in *.
    apply answers_if; intros E1.
    { apply answers_ret. unfold R. apply negb_true_iff in E1. split.
      - intros En. apply nodes_empty in En. assert (T : (nvals r =? vsize r) = true); [|congruence].
        apply (dvec_full r _ Ho). intros u Hu. apply node_kid in Hu as [i Hx]. apply (kid_lt G wf) in Hx. unfold glen in *. lia.
      - split; [discriminate|]. intros (d & e & Hd & He & H). exfalso. assert (T : (nvals r =? vsize r) = true); [|congruence].
        apply (dvec_full r _ Ho). intros u Hu. rewrite (proj1 (H u Hu)). assumption. }
    eapply answers_bind_GV; [apply (get_red_ok G wf true eq_refl)|]. fold c.
    apply answers_if; intros E2.
    { apply answers_ret. unfold R. apply negb_true_iff in E2. split.
      - intros En. apply nodes_empty in En. assert (T : (nvals c =? vsize c) = true); [|congruence].
        apply (dvec_full c _ Hi). intros u Hu. apply node_kid in Hu as [i Hx]. apply (kid_lt G wf) in Hx. unfold glen in *. lia.
      - split; [discriminate|]. intros (d & e & Hd & He & H). exfalso. assert (T : (nvals c =? vsize c) = true); [|congruence].
        apply (dvec_full c _ Hi). intros u Hu. rewrite (proj2 (H u Hu)). assumption. }
    apply negb_false_iff in E1, E2. pose proof (proj1 (dvec_full r _ Ho) E1) as P1. pose proof (proj1 (dvec_full c _ Hi) E2) as P2.
    apply Nat.eqb_eq in E1, E2. rewrite (proj1 Ho) in E1. rewrite (proj1 Hi) in E2.
    destruct (Nat.eq_dec n 0) as [Hn|Hn].
    { rewrite (get0_dvec r _ Ho), Hn. apply (answers_bind_e G _ _ EIndex); [apply answers_lifto; reflexivity|].
      split; [reflexivity|apply nodes_empty; assumption]. }
    destruct (first_node Hn) as [u0 H0]. assert (N0 : node G u0) by (apply node_kid; eauto).
    rewrite (get0_val r _ u0 Ho H0). apply (answers_ret_bind G).
    assert (Hne : gnodes G <> []) by (rewrite <- nodes_empty; assumption).
    pose proof (all_eq_dvec r _ (out_degree G u0) Ho E1) as A1.
    pose proof (all_eq_dvec c _ (in_degree G u0) Hi E2) as A2.
    apply answers_if; intros E3.
    { apply answers_ret. split; [assumption|]. split; [discriminate|]. intros (d & e & Hd & He & H). apply negb_true_iff in E3.
      assert (T : all_eq r (Z.of_nat (out_degree G u0)) = true); [|congruence]. apply A1. intros u Hu.
      rewrite (proj1 (H u Hu)), (proj1 (H u0 N0)). reflexivity. }
    apply negb_false_iff in E3. rewrite (get0_val c _ u0 Hi H0). apply (answers_ret_bind G). apply answers_ret. split; [assumption|].
    rewrite A2. split.
    + intros H. exists (out_degree G u0), (in_degree G u0). split; [apply P1; assumption|]. split; [apply P2; assumption|].
      intros u Hu. split; [apply A1; assumption|apply H; assumption].
    + intros (d & e & Hd & He & H) u Hu. rewrite (proj2 (H u Hu)), (proj2 (H u0 N0)). reflexivity.
  - eapply answers_bind_GV; [apply (get_red_ok G wf true eq_refl)|].
    set (r := msk None (den_red G Row RCount SP)) in *.
    apply answers_if; intros E1.
    { apply answers_ret. unfold R. apply negb_true_iff in E1. split.
      - intros En. apply nodes_empty in En. assert (T : (nvals r =? vsize r) = true); [|congruence].
        apply (dvec_full r _ Ho). intros u Hu. apply node_kid in Hu as [i Hx]. apply (kid_lt G wf) in Hx. unfold glen in *. lia.
      - split; [discriminate|]. intros (d & e & Hd & He & H). exfalso. assert (T : (nvals r =? vsize r) = true); [|congruence].
        apply (dvec_full r _ Ho). intros u Hu. rewrite (proj1 (H u Hu)). assumption. }
    apply negb_false_iff in E1. pose proof (proj1 (dvec_full r _ Ho) E1) as P1.
    apply Nat.eqb_eq in E1. rewrite (proj1 Ho) in E1.
    destruct (Nat.eq_dec n 0) as [Hn|Hn].
    { rewrite (get0_dvec r _ Ho), Hn. apply (answers_bind_e G _ _ EIndex); [apply answers_lifto; reflexivity|].
      split; [reflexivity|apply nodes_empty; assumption]. }
    destruct (first_node Hn) as [u0 H0]. assert (N0 : node G u0) by (apply node_kid; eauto).
    rewrite (get0_val r _ u0 Ho H0). apply (answers_ret_bind G). apply answers_ret. split; [rewrite <- nodes_empty; assumption|].
    rewrite (all_eq_dvec r _ (out_degree G u0) Ho E1). split.
    + intros H. exists (out_degree G u0), (out_degree G u0). split; [auto|]. split; [auto|]. intros u Hu.
      rewrite (in_out_degree G wf u D). auto.
    + intros (d & e & Hd & He & H) u Hu. rewrite (proj1 (H u Hu)), (proj1 (H u0 N0)). reflexivity.
Qed.
Lemma regular_pos : (exists u v, edge G u v) -> (g_dir G = false -> loop_free G) ->
  (regular <-> exists d e, 0 < d /\ 0 < e /\ forall u, node G u -> out_degree G u = d /\ in_degree G u = e).
Proof.
  intros (x & y & He) Hl. assert (Hx : node G x /\ node G y) by (destruct He as [w Hw]; apply weight_nodes in Hw; tauto).
  assert (P1 : 0 < out_degree G x) by (apply (count_nodes_pos G); exists y; split; [tauto|apply has_edge_true; assumption]).
  assert (P2 : 0 < in_degree G y) by (apply (count_nodes_pos G); exists x; split; [tauto|apply has_edge_true; assumption]).
  unfold regular. destruct (g_dir G) eqn:D.
  - split; [intros (d & e & H)|intros (d & e & _ & _ & H)]; exists d, e; [|assumption].
    rewrite <- (proj1 (H x (proj1 Hx))) at 1. rewrite <- (proj2 (H y (proj2 Hx))) at 1. auto.
  - assert (Q : forall u, degree G u = out_degree G u).
    { intros u. unfold degree. rewrite D. destruct (has_edge G u u) eqn:E; [|lia]. apply has_edge_true in E. destruct (Hl eq_refl u E). }
    split.
    + intros (d & H). exists d, d. rewrite <- (H x (proj1 Hx)), Q at 1. rewrite <- (H x (proj1 Hx)), Q at 1. split; [assumption|]. split; [assumption|].
      intros u Hu. rewrite (in_out_degree G wf u D), <- Q. auto.
    + intros (d & e & _ & _ & H). exists d. intros u Hu. rewrite Q. apply H. assumption.
Qed.
Theorem C45_is_regular : (exists u v, edge G u v) -> (g_dir G = false -> loop_free G) ->
  returns G (nx_is_regular G) (fun b => b = true <-> regular).
Proof.
  intros He Hl. eapply answers_conseq; [apply C45_is_regular_partial|]. intros [b|e]; simpl.
  - intros [_ H]. exists b. split; [reflexivity|]. rewrite H. symmetry. apply regular_pos; assumption.
  - intros [_ H]. exfalso. destruct He as (u & v & w & Hw). apply weight_nodes in Hw as [Hu _]. unfold node in Hu. rewrite H in Hu. destruct Hu.
Qed.
Theorem C45_is_k_regular k : loop_free G -> (k <> 0 \/ gnodes G = [] \/ exists u v, edge G u v) ->
  answers G (nx_is_k_regular G (Z.of_nat k)) (fun o =>
    match o with
    | Val b => g_dir G = false /\ (b = true <-> forall u, node G u -> degree G u = k)
    | Raise e => e = ENotImpl /\ g_dir G = true
    end).
Proof.
  intros Hl Hk. unfold nx_is_k_regular, only_undirected. destruct (g_dir G) eqn:D; [apply answers_raise; auto|].
  assert (Q : forall u, degree G u = out_degree G u).
  { intros u. unfold degree. rewrite D. destruct (has_edge G u u) eqn:E; [|lia]. apply has_edge_true in E. destruct (Hl u E). }
  pose proof (dvec_out None eq_refl) as Ho.
  eapply answers_bind_GV; [apply (get_red_ok G wf true eq_refl)|]. set (r := msk None (den_red G Row RCount SP)) in *.
  apply answers_if; intros E1; apply answers_ret; (split; [reflexivity|]).
  - apply negb_true_iff in E1. split; [discriminate|]. intros H. exfalso.
    assert (T : (nvals r =? vsize r) = true); [|congruence]. apply (dvec_full r _ Ho). intros u Hu. rewrite <- Q, (H u Hu).
    destruct Hk as [Hk|[Hk|(x & y & He)]]; [lia|unfold node in Hu; rewrite Hk in Hu; destruct Hu|].
    assert (Hx : node G x /\ node G y) by (destruct He as [w Hw]; apply weight_nodes in Hw; tauto).
    rewrite <- (H x (proj1 Hx)), Q. apply (count_nodes_pos G). exists y. split; [tauto|apply has_edge_true; assumption].
  - apply negb_false_iff, Nat.eqb_eq in E1. rewrite (proj1 Ho) in E1. rewrite (all_eq_dvec r _ k Ho E1).
    split; intros H u Hu; [rewrite Q|rewrite <- Q]; auto.
Qed.

(** ** C46 *)
Definition tournament : Prop := loop_free G /\ forall u v, node G u -> node G v -> u <> v ->
  (edge G u v /\ ~ edge G v u) \/ (edge G v u /\ ~ edge G u v).
Lemma total_le {X} (f g : X -> Z) l : (forall x, In x l -> (f x <= g x)%Z) -> (total f l <= total g l)%Z.
Proof.
  induction l as [|x l IH]; intros H; [reflexivity|]. rewrite !total_cons.
  pose proof (H x (or_introl eq_refl)). pose proof (IH (fun y Hy => H y (or_intror Hy))). lia.
Qed.
Lemma total_le_eq {X} (f g : X -> Z) l : (forall x, In x l -> (f x <= g x)%Z) -> total f l = total g l -> forall x, In x l -> f x = g x.
Proof.
  induction l as [|y l IH]; intros H E x Hx; [destruct Hx|]. rewrite !total_cons in E.
  pose proof (H y (or_introl eq_refl)) as H1. pose proof (total_le f g l (fun z Hz => H z (or_intror Hz))) as H2.
  destruct Hx as [<-|Hx]; [lia|]. apply IH; [intros z Hz; apply H; right; assumption|lia|assumption].
Qed.
Definition hz (u v : nkey) : Z := if has_edge G u v then 1%Z else 0%Z.
Lemma nvals_upairs : Z.of_nat (mnvals A) = total (fun e => if nkey_eqb (fst e) (snd e) then hz (fst e) (snd e) else hz (fst e) (snd e) + hz (snd e) (fst e))%Z (upairs (gnodes G)).
Proof.
  rewrite (CountProofs.mnvals_A G wf), total_count.
  rewrite (total_ext _ (fun e => hz (fst e) (snd e))) by (intros [u v] _; reflexivity).
  rewrite (total_pairs_upairs nkey_eqb hz _ (gnodes_nodup G wf) (nkey_eqb_in G)).
  apply total_ext. intros [u v] _. reflexivity.
Qed.
Lemma upairs_count : (2 * total (fun e => if nkey_eqb (fst e) (snd e) then 0 else 1) (upairs (gnodes G)) = Z.of_nat n * (Z.of_nat n - 1))%Z.
Proof.
  pose proof (total_pairs_upairs nkey_eqb (fun _ _ => 1%Z) (gnodes G) (gnodes_nodup G wf) (nkey_eqb_in G)) as H1.
  pose proof (total_pairs_upairs nkey_eqb (fun x y => if nkey_eqb x y then 1%Z else 0%Z) (gnodes G) (gnodes_nodup G wf) (nkey_eqb_in G)) as H2.
  assert (E1 : total (fun _ : nkey * nkey => 1%Z) (pairs (gnodes G)) = (Z.of_nat n * Z.of_nat n)%Z).
  { unfold pairs. rewrite total_prod. rewrite (total_ext _ (fun _ => (Z.of_nat n * 1)%Z)).
    - rewrite total_scale, <- total_length, len_nodes. reflexivity.
    - intros x _. rewrite <- total_length, len_nodes. lia. }
  assert (E2 : total (fun p : nkey * nkey => if nkey_eqb (fst p) (snd p) then 1%Z else 0%Z) (pairs (gnodes G)) = Z.of_nat n).
  { unfold pairs. rewrite total_prod. cbn [fst snd]. rewrite (total_ext _ (fun _ => 1%Z)).
    - rewrite <- total_length, len_nodes. reflexivity.
    - intros x Hx. pose proof (gnodes_nodup G wf) as ND. clear H1 H2 E1. induction (gnodes G) as [|y l IH]; [destruct Hx|].
      inversion ND as [|? ? N1 N2]; subst. rewrite total_cons. destruct Hx as [<-|Hx].
      + rewrite nkey_eqb_refl, total_zero; [reflexivity|]. intros z Hz. rewrite nkey_eqb_neq; [reflexivity|]. intros ->. contradiction.
      + rewrite nkey_eqb_neq by (intros ->; contradiction). rewrite IH by assumption. reflexivity. }
  cbn beta in H1, H2. rewrite E1 in H1. rewrite E2 in H2.
  assert (X : (total (fun p => if nkey_eqb (fst p) (snd p) then 1 else 1 + 1) (upairs (gnodes G)) =
    total (fun p => if nkey_eqb (fst p) (snd p) then (if nkey_eqb (fst p) (snd p) then 1 else 0) else (if nkey_eqb (fst p) (snd p) then 1 else 0) + (if nkey_eqb (snd p) (fst p) then 1 else 0)) (upairs (gnodes G)) + 2 * total (fun e => if nkey_eqb (fst e) (snd e) then 0 else 1) (upairs (gnodes G)))%Z).
  { rewrite <- total_scale, <- total_add. apply total_ext. intros [u v] _. cbn [fst snd].
    destruct (nkey_eqb u v) eqn:E; [reflexivity|]. destruct (nkey_eqb v u) eqn:E'; [|reflexivity].
    apply nkey_eqb_eq in E'. subst. rewrite nkey_eqb_refl in E. discriminate. }
  cbn beta in H1, H2, X. lia.
Qed.

Lemma two_cycle_free : (mnvals (mrestrict (msS A) (triu1 (mtrans A))) =? 0) = true <-> forall u v, u <> v -> ~ (edge G u v /\ edge G v u).
Proof.
  rewrite Nat.eqb_eq, mnvals_zero by apply mwf_mselect.
  assert (X : forall i j, mget (mrestrict (msS A) (triu1 (mtrans A))) i j = if msS A i j then if i <? j then mget A j i else None else None).
  { intros i j. unfold mrestrict, triu1. rewrite !mget_mselect, mget_mtrans by (assumption || apply mwf_mselect || apply mwf_mtrans). reflexivity. }
  split.
  - intros H u v Hne [H1 H2]. apply edge_iedge in H1 as (i & j & Ki & Kj & [w Hw]). apply edge_iedge in H2 as (j' & i' & Kj' & Ki' & [w' Hw']).
    assert (i' = i) by congruence. assert (j' = j) by congruence. subst.
    assert (i <> j) by (intros ->; apply Hne; eapply kid_inj; eassumption).
    pose proof (H i j) as Hij. pose proof (H j i) as Hji. rewrite X in Hij, Hji. unfold msS in *. rewrite Hw, Hw' in *. simpl in *.
    destruct (Nat.ltb_spec i j); [discriminate|]. destruct (Nat.ltb_spec j i); [discriminate|lia].
  - intros H i j. rewrite X. unfold msS. destruct (mget A i j) as [w|] eqn:E1; [|reflexivity]. simpl.
    destruct (Nat.ltb_spec i j); [|reflexivity]. destruct (mget A j i) as [w'|] eqn:E2; [|reflexivity]. exfalso.
    destruct (mget_some_lt _ _ _ _ HmA E1) as [Li Lj]. rewrite Hsq in Lj. destruct (kid_key G wf i Li) as [u Hu]. destruct (kid_key G wf j Lj) as [v Hv].
    apply (H u v); [intros ->; rewrite Hu in Hv; injection Hv as ->; lia|]. split; apply edge_iedge; [exists i, j|exists j, i]; unfold iedge; eauto.
Qed.
Theorem C46_is_tournament :
  answers G (nx_is_tournament G) (fun o =>
    match o with
    | Val b => g_dir G = true /\ (b = true <-> tournament)
    | Raise e => e = ENotImpl /\ g_dir G = false
    end).
Proof.
  unfold nx_is_tournament, only_directed. destruct (g_dir G) eqn:D; [|apply answers_raise; auto].
  rewrite Hsq. change (nrows A) with n.
  assert (DIV : forall k, k = (n * (n - 1)) / 2 <-> (2 * Z.of_nat k = Z.of_nat n * (Z.of_nat n - 1))%Z).
  { assert (Hev : exists k0, n * (n - 1) = 2 * k0).
    { pose proof upairs_count as U. set (t := total _ _) in U. destruct n as [|m]; [exists 0; reflexivity|].
      exists (Z.to_nat t). apply Nat2Z.inj. rewrite !Nat2Z.inj_mul. replace (S m - 1) with m by lia. rewrite Z2Nat.id by lia.
      replace (Z.of_nat m) with (Z.of_nat (S m) - 1)%Z by lia. simpl (Z.of_nat 2). lia. }
    destruct Hev as [k0 Hk0]. assert (E : n * (n - 1) / 2 = k0) by (rewrite Hk0, Nat.mul_comm; apply Nat.div_mul; lia).
    assert (HZ : (Z.of_nat n * (Z.of_nat n - 1) = 2 * Z.of_nat k0)%Z) by (clear - Hk0; destruct n; nia).
    intros k. rewrite E, HZ. lia. }
  pose proof upairs_count as U. pose proof nvals_upairs as NV.
  assert (T1 : tournament -> mnvals A = n * (n - 1) / 2).
  { intros [Hl Ht]. apply DIV. rewrite <- U. f_equal. rewrite NV. apply total_ext. intros [u v] Hin. apply in_upairs in Hin as [Hu Hv]. cbn [fst snd].
    unfold hz. destruct (nkey_eqb u v) eqn:E.
    - apply nkey_eqb_eq in E. subst. destruct (has_edge G v v) eqn:E; [|reflexivity]. apply has_edge_true in E. destruct (Hl v E).
    - assert (Hne : u <> v) by (intros ->; rewrite nkey_eqb_refl in E; discriminate).
      destruct (Ht u v Hu Hv Hne) as [[H1 H2]|[H1 H2]]; apply has_edge_true in H1; rewrite <- has_edge_true in H2; rewrite H1;
        [destruct (has_edge G v u)|destruct (has_edge G u v)]; try reflexivity; congruence. }
  apply answers_if; intros E1.
  { apply answers_ret. split; [reflexivity|]. split; [discriminate|]. intros H. apply T1 in H. rewrite H, Nat.eqb_refl in E1. discriminate. }
  apply negb_false_iff, Nat.eqb_eq in E1. eapply answers_bind_GV; [apply (has_self_edges_ok G wf true eq_refl)|].
  assert (SELF : den_bool G KSelf = false <-> loop_free G).
  { rewrite (loop_free_dcount G wf). simpl. rewrite negb_false_iff, Nat.eqb_eq. reflexivity. }
  apply answers_if; intros E2.
  { apply answers_ret. split; [reflexivity|]. split; [discriminate|]. intros [Hl _]. apply SELF in Hl. congruence. }
  apply SELF in E2. apply answers_ret. split; [reflexivity|]. rewrite two_cycle_free. split.
  - intros H2. split; [assumption|]. intros u v Hu Hv Hne.
    assert (EQ := total_le_eq (fun e => if nkey_eqb (fst e) (snd e) then hz (fst e) (snd e) else (hz (fst e) (snd e) + hz (snd e) (fst e))%Z)
       (fun e => if nkey_eqb (fst e) (snd e) then 0%Z else 1%Z) (upairs (gnodes G))).
    assert (K : forall x y, node G x -> node G y -> x <> y -> In (x, y) (upairs (gnodes G)) -> (hz x y + hz y x = 1)%Z).
    { intros x y _ _ Hxy Hin.
      assert (LE : forall e, In e (upairs (gnodes G)) ->
        ((if nkey_eqb (fst e) (snd e) then hz (fst e) (snd e) else hz (fst e) (snd e) + hz (snd e) (fst e)) <= (if nkey_eqb (fst e) (snd e) then 0 else 1))%Z).
      { intros [a b] _. cbn [fst snd]. unfold hz. destruct (nkey_eqb a b) eqn:Eab.
        - apply nkey_eqb_eq in Eab. subst. destruct (has_edge G b b) eqn:Eb; [|reflexivity]. apply has_edge_true in Eb. destruct (E2 b Eb).
        - assert (Hab : a <> b) by (intros ->; rewrite nkey_eqb_refl in Eab; discriminate). specialize (H2 a b Hab). rewrite <- !has_edge_true in H2.
          destruct (has_edge G a b), (has_edge G b a); solve [lia|destruct H2; auto]. }
      assert (TE := proj1 (DIV _) E1). assert (Q := EQ LE ltac:(lia) (x, y) Hin).
      cbn [fst snd] in Q. rewrite nkey_eqb_neq in Q by assumption. exact Q. }
    assert (W : (hz u v + hz v u = 1)%Z).
    { destruct (upairs_either _ _ _ Hu Hv) as [Hin|Hin]; [apply K; auto|]. rewrite Z.add_comm. apply K; auto. }
    unfold hz in W. rewrite <- !has_edge_true. destruct (has_edge G u v), (has_edge G v u); first [exfalso; lia|left; split; congruence|right; split; congruence].
  - intros [_ Ht] u v Hne [H1 H2]. assert (Hn : node G u /\ node G v) by (destruct H1 as [w Hw]; apply weight_nodes in Hw; tauto).
    destruct (Ht u v (proj1 Hn) (proj2 Hn) Hne) as [[_ X]|[_ X]]; contradiction.
Qed.

(** ** C47 *)
Lemma repeat_app_perm d F : dvec d F ->
  Permutation (repeat 0%Z (vsize d - nvals d) ++ vvalues d) (map (fun u => Z.of_nat (F u)) (gnodes G)).
Proof.
  intros Hd.
  assert (E : map (fun u => Z.of_nat (F u)) (gnodes G) = map (fun i => oz (vget d i)) (map snd (g_kid G))).
  { rewrite <- (gnodes_kid G wf), map_map. apply map_ext_in. intros u Hu. apply node_kid in Hu as [i Hi]. rewrite Hi. simpl.
    rewrite (proj2 Hd u i Hi), onz_zsum. reflexivity. }
  rewrite E. transitivity (map (fun i => oz (vget d i)) (seq 0 n)).
  - unfold vvalues, vcoo, nvals. rewrite (proj1 Hd). rewrite <- (seq_length n 0) at 1.
    replace (cnt n (fun i => has (vget d i))) with (List.length (filter (fun i => has (vget d i)) (seq 0 n))) by reflexivity.
    induction (seq 0 n) as [|i l IH]; [reflexivity|]. cbn [List.length filter map flat_map].
    destruct (vget d i) as [x|]; cbn [has oz].
    + cbn [List.length map app]. rewrite Nat.sub_succ. rewrite <- IH. cbn [snd]. symmetry. apply Permutation_middle.
    + rewrite Nat.sub_succ_l by (clear; induction l as [|y l IH]; simpl; [lia|]; destruct (has (vget d y)); simpl; lia). simpl. constructor. exact IH.
  - apply Permutation_map. symmetry. apply wf.
Qed.
Theorem C47_score_sequence :
  answers G (nx_score_sequence G) (fun o =>
    match o with
    | Val l => g_dir G = true /\ StronglySorted Z.le l /\ Permutation l (map (fun u => Z.of_nat (out_degree G u)) (gnodes G))
    | Raise e => e = ENotImpl /\ g_dir G = false
    end).
Proof.
  unfold nx_score_sequence, only_directed. destruct (g_dir G) eqn:D; [|apply answers_raise; auto].
  eapply answers_bind_GV; [apply (get_red_ok G wf true eq_refl)|]. pose proof (dvec_out None eq_refl) as Ho. set (r := msk None _) in *.
  apply answers_ret. split; [reflexivity|]. split.
  - assert (P : Forall (fun z => (0 <= z)%Z) (zsort (vvalues r))).
    { rewrite Forall_forall. intros z Hz. apply (Permutation_in _ (zsort_perm _)) in Hz. unfold vvalues in Hz. apply in_map_iff in Hz as ([i w] & <- & Hin).
      apply in_vcoo in Hin. pose proof (vget_some_lt _ _ _ Hin) as L. rewrite (proj1 Ho) in L. destruct (kid_key G wf i L) as [u Hu].
      rewrite (proj2 Ho u i Hu) in Hin. simpl. unfold onz in Hin. destruct (_ =? 0); [discriminate|]. injection Hin as <-. lia. }
    induction (vsize r - nvals r) as [|k IH]; simpl; [apply zsort_sorted|]. constructor; [assumption|]. apply Forall_app. split; [|assumption].
    rewrite Forall_forall. intros z Hz. apply repeat_spec in Hz. lia.
  - rewrite zsort_perm. apply repeat_app_perm. assumption.
Qed.

(** ** C52 *)
Theorem C52_mutual_weight u v :
  answers G (nx_mutual_weight G u v) (eq (Val (weight0 G u v + weight0 G v u)%Z)).
Proof.
  unfold nx_mutual_weight, weight0, weight. destruct (kid G u), (kid G v); apply answers_ret; reflexivity.
Qed.
Theorem C52_symmetric u v s : Inv G s -> fst (nx_mutual_weight G u v s) = fst (nx_mutual_weight G v u s).
Proof.
  intros HI. destruct (C52_mutual_weight u v s HI) as [<- _]. destruct (C52_mutual_weight v u s HI) as [<- _]. f_equal. lia.
Qed.

(** ** C53 *)
Definition centrality (F : nkey -> nat) (r : nodemap Q) : Prop :=
  exists c, is_map r (fun u x => node G u /\ x = c u) /\
    forall u, node G u -> (List.length (gnodes G) <= 1 -> c u = 1%Q) /\
      (1 < List.length (gnodes G) -> (c u == inject_Z (Z.of_nat (F u)) / inject_Z (Z.of_nat (List.length (gnodes G)) - 1))%Q).
Lemma centrality_ok d F : dvec d F -> centrality F (to_nodemap_fill G 0%Q (degree_centrality_of G d)).
Proof.
  intros Hd. exists (fun u => match kid G u with Some i => oget 0%Q (vget (degree_centrality_of G d) i) | None => 0%Q end). split.
  - apply is_map_fill; [assumption|]. intros k i Hk. rewrite Hk. reflexivity.
  - intros u Hu. apply node_kid in Hu as [i Hi]. rewrite Hi, len_nodes. assert (L : i < n) by exact (kid_lt G wf _ _ Hi).
    unfold degree_centrality_of. destruct (Nat.leb_spec n 1) as [H1|H1].
    + split; [|lia]. intros _. rewrite vget_vbuild_lt by assumption. reflexivity.
    + split; [lia|]. intros _. rewrite vget_vbuild_lt by assumption. rewrite (proj2 Hd u i Hi). rewrite Nat2Z.inj_sub by lia. simpl (Z.of_nat 1).
      unfold onz. destruct (Nat.eqb_spec (F u) 0) as [E|E]; simpl.
      * rewrite E. simpl. unfold Qdiv. rewrite Qmult_0_l. reflexivity.
      * unfold Qdiv. rewrite Qmult_1_l. apply Qmult_comm.
Qed.
Theorem C53_degree_centrality : (g_dir G = false -> loop_free G) ->
  answers_td G (nx_degree_centrality G) (fun o => exists r, o = Val r /\ centrality (degree G) r).
Proof.
  intros Hl. unfold nx_degree_centrality. destruct degrees_plus_ok as (d & Hd & H).
  eapply (td_pure G _ (fun d => Val (to_nodemap_fill G 0%Q (degree_centrality_of G d)))); [exact H|]. eexists. split; [reflexivity|].
  apply centrality_ok. split; [apply Hd|]. intros u i Hu. rewrite (proj2 Hd u i Hu). f_equal.
  destruct (g_dir G) eqn:D; [apply ndeg_directed; assumption|apply ndeg_loop_free; auto].
Qed.
(** with self-loops too: what the call computes for an undirected graph counts a self-loop once *)
Theorem C53_degree_centrality_undirected : g_dir G = false ->
  answers_td G (nx_degree_centrality G) (fun o => exists r, o = Val r /\ centrality (out_degree G) r).
Proof.
  intros D. unfold nx_degree_centrality. destruct degrees_plus_ok as (d & Hd & H).
  eapply (td_pure G _ (fun d => Val (to_nodemap_fill G 0%Q (degree_centrality_of G d)))); [exact H|]. eexists. split; [reflexivity|].
  apply centrality_ok. split; [apply Hd|]. intros u i Hu. rewrite (proj2 Hd u i Hu). f_equal. unfold ndeg. rewrite D. reflexivity.
Qed.
Theorem C53_in_degree_centrality :
  answers G (nx_in_degree_centrality G) (fun o =>
    match o with Val r => g_dir G = true /\ centrality (in_degree G) r | Raise e => e = ENotImpl /\ g_dir G = false end).
Proof.
  unfold nx_in_degree_centrality, only_directed. destruct (g_dir G) eqn:D; [|apply answers_raise; auto].
  eapply answers_bind_GV; [apply (get_red_ok G wf true eq_refl)|]. apply answers_ret. split; [reflexivity|]. apply centrality_ok.
  apply dvec_in. reflexivity.
Qed.
Theorem C53_out_degree_centrality :
  answers G (nx_out_degree_centrality G) (fun o =>
    match o with Val r => g_dir G = true /\ centrality (out_degree G) r | Raise e => e = ENotImpl /\ g_dir G = false end).
Proof.
  unfold nx_out_degree_centrality, only_directed. destruct (g_dir G) eqn:D; [|apply answers_raise; auto].
  eapply answers_bind_GV; [apply (get_red_ok G wf true eq_refl)|]. apply answers_ret. split; [reflexivity|]. apply centrality_ok.
  apply dvec_out. reflexivity.
Qed.

(** ** C50 *)
Lemma vsum_zsum' v : vsum v = zsum (vsize v) (fun i => oz (vget v i)).
Proof. unfold vsum, vreduce. apply oz_ored_plus. Qed.
Lemma s_metric_val d F : dvec d F ->
  vsum (mxv Z.add Z.mul (vm_inter op_first d A) d) =
  total (fun e => if has_edge G (fst e) (snd e) then Z.of_nat (F (fst e)) * Z.of_nat (F (snd e)) else 0)%Z (pairs (gnodes G)).
Proof.
  intros Hd. rewrite vsum_zsum'. unfold mxv at 1. rewrite vsize_vbuild. unfold vm_inter at 1. rewrite nrows_mbuild. symmetry.
  rewrite (total_node_pairs G wf _ (fun i j => if has (mget A i j) then oz (vget d i) * oz (vget d j) else 0)%Z).
  - apply zsum_ext. intros i Hi. rewrite vget_mxv by apply mwf_mbuild. rewrite oz_ored_plus. unfold vm_inter at 1. rewrite ncols_mbuild, Hsq.
    apply zsum_ext. intros j Hj. rewrite mget_vm_inter by assumption. unfold op_first.
    destruct (mget A i j), (vget d i), (vget d j); simpl; lia.
  - intros u v i j Hu Hv. cbn [fst snd]. rewrite (has_edge_kid G _ _ _ _ Hu Hv), (proj2 Hd u i Hu), (proj2 Hd v j Hv), !onz_zsum. reflexivity.
Qed.
Theorem C50_s_metric : g_dir G = false -> loop_free G ->
  answers_td G (nx_s_metric G) (fun o => exists x, o = Val x /\
    (x == inject_Z (total (fun e => Z.of_nat (degree G (fst e)) * Z.of_nat (degree G (snd e)))%Z (edges G)))%Q).
Proof.
  intros D Hl. unfold nx_s_metric. destruct degrees_plus_ok as (d & Hd & H).
  eapply (td_pure G _ (fun d => Val (inject_Z (vsum (mxv Z.add Z.mul (vm_inter op_first d A) d)) / 2)%Q)); [exact H|].
  eexists. split; [reflexivity|]. rewrite (s_metric_val d _ Hd).
  rewrite (total_edges_undirected G wf (fun u v => Z.of_nat (ndeg G u) * Z.of_nat (ndeg G v))%Z D Hl).
  rewrite (total_ext _ (fun e => 2 * (Z.of_nat (degree G (fst e)) * Z.of_nat (degree G (snd e))))%Z).
  - rewrite total_scale, inject_Z_mult. change (inject_Z 2) with 2%Q. field.
  - intros [u v] _. cbn [fst snd]. rewrite !ndeg_loop_free by assumption. lia.
Qed.

(** ** C51 *)
Lemma total_swap {X Y} (f : X -> Y -> Z) l l' : total (fun x => total (f x) l') l = total (fun y => total (fun x => f x y) l) l'.
Proof.
  induction l as [|x l IH].
  - symmetry. apply total_zero. reflexivity.
  - rewrite total_cons, IH, <- total_add. apply total_ext. intros y _. rewrite total_cons. reflexivity.
Qed.
Definition inb (inside : bool) (b : list nkey) (e : nkey * nkey) : bool :=
  mem (snd e) b && (if inside then mem (fst e) b else negb (mem (fst e) b)).
Lemma block_edges_ok v b inside : svec G v (fun u => mem u b) ->
  block_edges G inside v = total (fun e => if inb inside b e && has_edge G (fst e) (snd e) then 1 else 0)%Z (pairs (gnodes G)).
Proof.
  intros Hv. unfold block_edges. rewrite vsum_zsum'. rewrite vsize_vrestrict. unfold mxv at 1. rewrite vsize_vbuild. symmetry.
  rewrite (total_node_pairs G wf _ (fun i j => if has (vget v j) && (if inside then has (vget v i) else negb (has (vget v i))) && has (mget A i j) then 1 else 0)%Z).
  - apply zsum_ext. intros i Hi. rewrite vget_vrestrict, vget_mxv by assumption. rewrite Hsq. unfold mS, mNS.
    destruct inside; destruct (has (vget v i)) eqn:E; cbn [negb]; try rewrite oz_ored_plus;
      try (rewrite (zsum_ext n _ (fun _ => 0%Z)) by (intros j Hj; destruct (has (vget v j)); reflexivity); rewrite zsum_const; simpl; lia);
      apply zsum_ext; intros j Hj; destruct (mget A i j), (vget v j); reflexivity.
  - intros u x i j Hu Hx. unfold inb. cbn [fst snd]. rewrite (svec_has G _ _ _ _ Hv Hu), (svec_has G _ _ _ _ Hv Hx), (has_edge_kid G _ _ _ _ Hu Hx). reflexivity.
Qed.
Lemma sum_blocks_ok inside p acc :
  answers G (sum_blocks G (block_edges G inside) p acc) (eq (Val (acc +
    total (fun b => total (fun e => if inb inside b e && has_edge G (fst e) (snd e) then 1 else 0)%Z (pairs (gnodes G))) p)%Z)).
Proof.
  revert acc. induction p as [|b p IH]; intros acc; simpl.
  - apply answers_ret. f_equal. unfold total at 1. simpl. lia.
  - apply (answers_set_vec G wf). intros v Hv. eapply answers_conseq; [apply IH|]. intros o <-. f_equal. rewrite total_cons.
    rewrite (block_edges_ok v b inside Hv). lia.
Qed.
(** every node is in exactly one block *)
Definition partition_of (p : list (list nkey)) : Prop := forall u, node G u -> count (mem u) p = 1.
Definition same_block (p : list (list nkey)) (e : nkey * nkey) : bool := existsb (fun b => mem (fst e) b && mem (snd e) b) p.
Lemma count_cons {X} (q : X -> bool) x l : count q (x :: l) = (if q x then 1 else 0) + count q l.
Proof. unfold count. simpl. destruct (q x); reflexivity. Qed.
Lemma one_block e p : count (mem (snd e)) p = 1 ->
  total (fun b => if inb true b e then 1 else 0)%Z p = (if same_block p e then 1 else 0)%Z /\
  total (fun b => if inb false b e then 1 else 0)%Z p = (if same_block p e then 0 else 1)%Z.
Proof.
  assert (Z0 : forall p, count (mem (snd e)) p = 0 -> total (fun b => if inb true b e then 1 else 0)%Z p = 0%Z /\
     total (fun b => if inb false b e then 1 else 0)%Z p = 0%Z /\ same_block p e = false).
  { intros q H. rewrite count_zero in H. split; [|split].
    - apply total_zero. intros b Hb. unfold inb. rewrite (H b Hb). reflexivity.
    - apply total_zero. intros b Hb. unfold inb. rewrite (H b Hb). reflexivity.
    - unfold same_block. apply not_true_iff_false. intros Hx. apply existsb_exists in Hx as (b & Hb & Hm). rewrite (H b Hb), andb_false_r in Hm. discriminate. }
  induction p as [|b p IH]; [discriminate|]. rewrite count_cons. intros H. rewrite !total_cons. unfold same_block. cbn [existsb]. fold (same_block p e).
  unfold inb at 1 3. destruct (mem (snd e) b) eqn:E.
  - destruct (Z0 p ltac:(lia)) as (-> & -> & ->). destruct (mem (fst e) b); auto.
  - rewrite andb_false_r. cbn [andb orb]. destruct (IH ltac:(lia)) as [-> ->]. auto.
Qed.
Lemma community_total inside p : g_dir G = true ->
  total (fun b => total (fun e => if inb inside b e && has_edge G (fst e) (snd e) then 1 else 0)%Z (pairs (gnodes G))) p =
  total (fun e => total (fun b => if inb inside b e then 1 else 0)%Z p) (edges G).
Proof.
  intros D. rewrite (total_swap (fun b e => if inb inside b e && has_edge G (fst e) (snd e) then 1 else 0)%Z). unfold edges. rewrite D, total_filter. apply total_ext.
  intros e _. destruct (has_edge G (fst e) (snd e)).
  - apply total_ext. intros b _. rewrite andb_true_r. reflexivity.
  - apply total_zero. intros b _. rewrite andb_false_r. reflexivity.
Qed.
Lemma edges_nodes e : In e (edges G) -> node G (fst e) /\ node G (snd e).
Proof.
  unfold edges. rewrite filter_In. intros [H _]. destruct e as [u v]. destruct (g_dir G).
  - apply in_prod_iff in H. exact H.
  - apply in_upairs in H. exact H.
Qed.
Theorem C51_intra_community_edges p : g_dir G = true -> partition_of p ->
  returns G (nx_intra_community_edges G p) (fun z => z = Z.of_nat (count (same_block p) (edges G))).
Proof.
  intros D Hp. eapply answers_conseq; [apply sum_blocks_ok|]. intros o <-. eexists. split; [reflexivity|].
  rewrite community_total, total_count by assumption. apply total_ext. intros e He. apply one_block, Hp, edges_nodes. assumption.
Qed.
Theorem C51_inter_community_edges p : g_dir G = true -> partition_of p ->
  returns G (nx_inter_community_edges G p) (fun z => z = Z.of_nat (count (fun e => negb (same_block p e)) (edges G))).
Proof.
  intros D Hp. eapply answers_conseq; [apply sum_blocks_ok|]. intros o <-. eexists. split; [reflexivity|].
  rewrite community_total, total_count by assumption. apply total_ext. intros e He.
  destruct (one_block e p) as [_ H]; [apply Hp, edges_nodes; assumption|]. cbn beta in H. rewrite H. destruct (same_block p e); reflexivity.
Qed.
Theorem C51_together p s : g_dir G = true -> partition_of p -> Inv G s -> exists a b,
  fst (nx_intra_community_edges G p s) = Val a /\ fst (nx_inter_community_edges G p s) = Val b /\
  (a + b = Z.of_nat (List.length (edges G)))%Z.
Proof.
  intros D Hp HI. destruct (C51_intra_community_edges p D Hp s HI) as [(a & Ea & ->) _].
  destruct (C51_inter_community_edges p D Hp s HI) as [(b & Eb & ->) _]. do 2 eexists. split; [exact Ea|]. split; [exact Eb|].
  rewrite !total_count, total_length, <- total_add. apply total_ext. intros e _. destruct (same_block p e); reflexivity.
Qed.
(** undirected: every ordered pair of adjacent nodes is counted, so (loops aside) every edge twice *)
Theorem C51_undirected_partial p : g_dir G = false -> loop_free G -> partition_of p ->
  returns G (nx_intra_community_edges G p) (fun z => z = 2 * Z.of_nat (count (same_block p) (edges G)))%Z /\
  returns G (nx_inter_community_edges G p) (fun z => z = 2 * Z.of_nat (count (fun e => negb (same_block p e)) (edges G)))%Z.
Proof.
  intros D Hl Hp.
  assert (SB : forall u v, same_block p (u, v) = same_block p (v, u)).
  { intros u v. unfold same_block. apply existsb_ext_in. intros b _. cbn [fst snd]. apply andb_comm. }
  assert (CT : forall inside, total (fun b => total (fun e => if inb inside b e && has_edge G (fst e) (snd e) then 1 else 0)%Z (pairs (gnodes G))) p =
    total (fun e => if has_edge G (fst e) (snd e) then total (fun b => if inb inside b (fst e, snd e) then 1 else 0)%Z p else 0%Z) (pairs (gnodes G))).
  { intros inside. rewrite (total_swap (fun b e => if inb inside b e && has_edge G (fst e) (snd e) then 1 else 0)%Z). apply total_ext.
    intros [u v] _. cbn [fst snd]. destruct (has_edge G u v).
    - apply total_ext. intros b _. rewrite andb_true_r. reflexivity.
    - apply total_zero. intros b _. rewrite andb_false_r. reflexivity. }
  split; (eapply answers_conseq; [apply sum_blocks_ok|]; intros o <-; eexists; split; [reflexivity|]; rewrite CT).
  - rewrite (total_edges_undirected G wf (fun u v => total (fun b => if inb true b (u, v) then 1 else 0)%Z p) D Hl).
    rewrite total_count, <- total_scale, Z.add_0_l. apply total_ext. intros [u v] He. apply edges_nodes in He as [Hu Hv]. cbn [fst snd] in *.
    rewrite (proj1 (one_block (u, v) p (Hp v Hv))), (proj1 (one_block (v, u) p (Hp u Hu))), (SB v u). destruct (same_block p (u, v)); reflexivity.
  - rewrite (total_edges_undirected G wf (fun u v => total (fun b => if inb false b (u, v) then 1 else 0)%Z p) D Hl).
    rewrite total_count, <- total_scale, Z.add_0_l. apply total_ext. intros [u v] He. apply edges_nodes in He as [Hu Hv]. cbn [fst snd] in *.
    rewrite (proj2 (one_block (u, v) p (Hp v Hv))), (proj2 (one_block (v, u) p (Hp u Hu))), (SB v u). destruct (same_block p (u, v)); reflexivity.
Qed.

(** ** C48 *)
Definition simple_path (l : list nkey) : Prop :=
  l <> [] /\ (forall k, In k l -> node G k) /\ NoDup l /\ forall a u v b, l = a ++ u :: v :: b -> edge G u v.
Lemma mcoo_length {V} (M : mat V) : List.length (mcoo M) = mnvals M.
Proof.
  assert (X : forall i k, List.length (flat_map (fun j => match mget M i j with Some x => [(i, j, x)] | None => [] end) (seq 0 k)) = cnt k (fun j => has (mget M i j))).
  { intros i k. Local Transparent cnt. unfold cnt. induction (seq 0 k) as [|j l IH]; [reflexivity|]. simpl. rewrite app_length, IH.
    destruct (mget M i j); reflexivity. Local Opaque cnt. }
  unfold mcoo, mnvals. Local Transparent nsum. unfold nsum. induction (seq 0 (nrows M)) as [|i l IH]; [reflexivity|]. simpl. rewrite app_length, IH, X. reflexivity.
  Local Opaque nsum.
Qed.
Lemma mnvals_list {V} (M : mat V) l : mwf M -> NoDup l -> (forall i j, has (mget M i j) = true <-> In (i, j) l) -> mnvals M = List.length l.
Proof.
  intros Hw ND H. rewrite <- mcoo_length, <- (map_length fst). apply Permutation_length. apply NoDup_Permutation; [apply NoDup_mcoo|assumption|].
  intros [i j]. rewrite <- H, in_map_iff, has_true. split.
  - intros ([[a b] x] & [= -> ->] & Hin). apply in_mcoo in Hin; [eauto|assumption].
  - intros [x Hx]. exists (i, j, x). split; [reflexivity|]. apply in_mcoo; assumption.
Qed.
Lemma ids_known_all l ids : mapO (kid G) l = Some ids -> ids_known (g_kid G) l = ids.
Proof.
  revert ids. induction l as [|k l IH]; intros ids; simpl; [intros [= <-]; reflexivity|]. unfold kid at 1.
  destruct (dget (g_kid G) k) as [i|]; [|discriminate]. destruct (mapO (kid G) l) as [is|]; [|discriminate]. intros [= <-]. f_equal. auto.
Qed.
Lemma ids_known_short l : mapO (kid G) l = None -> List.length (ids_known (g_kid G) l) < List.length l.
Proof.
  assert (LE : forall l, List.length (ids_known (g_kid G) l) <= List.length l).
  { clear l. induction l as [|k l IH]; simpl; [lia|]. destruct (dget (g_kid G) k); simpl; lia. }
  induction l as [|k l IH]; simpl; [discriminate|]. unfold kid at 1. destruct (dget (g_kid G) k) as [i|]; simpl.
  - destruct (mapO (kid G) l); [discriminate|]. intros _. specialize (IH eq_refl). lia.
  - intros _. specialize (LE l). lia.
Qed.
Lemma steps_in {X} (l : list X) x y : In (x, y) (combine (removelast l) (tl l)) <-> exists a b, l = a ++ x :: y :: b.
Proof.
  induction l as [|z l IH]; simpl.
  - split; [intros []|]. intros (a & b & H). destruct a; discriminate.
  - destruct l as [|w l].
    + simpl. split; [intros []|]. intros (a & b & H). destruct a as [|? a]; [discriminate|]. injection H as _ H. destruct a; discriminate.
    + change (In (x, y) ((z, w) :: combine (removelast (w :: l)) (tl (w :: l))) <-> exists a b, z :: w :: l = a ++ x :: y :: b).
      split.
      * intros [[= -> ->]|H]; [exists [], l; reflexivity|]. apply IH in H as (a & b & ->). exists (z :: a), b. reflexivity.
      * intros (a & b & H). destruct a as [|? a]; [injection H as -> -> _; left; reflexivity|]. right. apply IH. injection H as _ H. eauto.
Qed.
Lemma steps_length {X} (l : list X) : List.length (combine (removelast l) (tl l)) = List.length l - 1.
Proof.
  rewrite combine_length. destruct l as [|x l]; [reflexivity|]. rewrite removelast_firstn_len, firstn_length. simpl. lia.
Qed.
Lemma combine_NoDup_fst {X Y} (a : list X) (b : list Y) : NoDup a -> NoDup (combine a b).
Proof.
  intros H. revert b. induction H as [|x a Hx H IH]; intros [|y b]; simpl; try constructor; [|apply IH].
  intros Hin. apply in_combine_l in Hin. contradiction.
Qed.
Lemma removelast_NoDup {X} (l : list X) : NoDup l -> NoDup (removelast l).
Proof.
  intros H. destruct l as [|x l]; [constructor|]. rewrite (app_removelast_last x (l := x :: l)) in H by discriminate. apply NoDup_remove_1 in H. rewrite app_nil_r in H. assumption.
Qed.
Lemma filter_all_length {X} (q : X -> bool) l : List.length (filter q l) = List.length l <-> forall x, In x l -> q x = true.
Proof.
  assert (LE : forall l : list X, List.length (filter q l) <= List.length l).
  { clear l. induction l as [|x l IH]; simpl; [lia|]. destruct (q x); simpl; lia. }
  induction l as [|x l IH]; simpl; [split; [intros _ x []|reflexivity]|]. destruct (q x) eqn:E; simpl.
  - split.
    + intros H y [<-|Hy]; [assumption|]. apply IH; [lia|assumption].
    + intros H. f_equal. apply IH. auto.
  - split; [specialize (LE l); lia|]. intros H. rewrite (H x (or_introl eq_refl)) in E. discriminate.
Qed.
Lemma mapO_split {X Y} (f : X -> option Y) a b ys : mapO f (a ++ b) = Some ys -> exists ya yb, mapO f a = Some ya /\ mapO f b = Some yb /\ ys = ya ++ yb.
Proof.
  revert ys. induction a as [|x a IH]; simpl; intros ys H; [exists [], ys; auto|].
  destruct (f x) as [y|]; [|discriminate]. destruct (mapO f (a ++ b)) as [ys'|] eqn:E; [|discriminate]. injection H as <-.
  destruct (IH _ eq_refl) as (ya & yb & -> & -> & ->). exists (y :: ya), yb. auto.
Qed.
Theorem C48_is_simple_path l : returns G (nx_is_simple_path G l) (fun b => b = true <-> simple_path l).
Proof.
  unfold returns, nx_is_simple_path.
  assert (K1 : forall k, in_graph G k = true <-> simple_path [k]).
  { intros k. rewrite <- node_in_graph. unfold simple_path. split.
    - intros H. split; [discriminate|]. split; [intros x [<-|[]]; assumption|]. split; [repeat constructor; intros []|].
      intros a u v b E. destruct a as [|? a]; [discriminate|]. injection E as _ E. destruct a; discriminate.
    - intros (_ & H & _). apply H. left. reflexivity. }
  destruct l as [|k [|k' l]].
  - apply answers_ret. eexists. split; [reflexivity|]. split; [discriminate|]. intros (H & _). congruence.
  - apply answers_ret. eexists. split; [reflexivity|]. apply K1.
  - set (nodes := k :: k' :: l). cbv zeta.
    destruct (mapO (kid G) nodes) as [ids|] eqn:Eids.
    + rewrite (ids_known_all _ _ Eids). pose proof (mapO_length _ _ _ Eids) as Hlen.
      set (steps := combine (removelast ids) (tl ids)). set (P := mbuild (nrows A) (ncols A) _).
      assert (Hin : forall k, In k nodes -> node G k).
      { intros x Hx. destruct (kid G x) eqn:Ex; [apply node_kid; eauto|]. exfalso. assert (mapO (kid G) nodes = None) by (apply mapO_none; eauto). congruence. }
      assert (ND : NoDup ids <-> NoDup nodes).
      { split; intros H.
        - apply (NoDup_map_inv (fun k => oget 0 (kid G k))). replace (map _ nodes) with ids; [assumption|].
          clear - Eids. revert ids Eids. induction nodes as [|x q IH]; simpl; intros ids; [intros [= <-]; reflexivity|].
          destruct (kid G x); [|discriminate]. destruct (mapO (kid G) q); [|discriminate]. intros [= <-]. simpl. f_equal. auto.
        - rewrite <- (map_id ids). apply (mapO_nodup (kid G) (fun x => x) (fun x => x) nodes ids Eids); [rewrite map_id; assumption|].
          intros x x' y y' Hx Hx' ->. eapply kid_inj; eassumption. }
      assert (ED : (forall a u v b, nodes = a ++ u :: v :: b -> edge G u v) <-> forall e, In e steps -> has (mget A (fst e) (snd e)) = true).
      { split.
        - intros H [i j] Hs. apply steps_in in Hs as (a & b & ->). apply has_true. cbn [fst snd].
          assert (Q : exists ka u v kb, nodes = ka ++ u :: v :: kb /\ kid G u = Some i /\ kid G v = Some j).
          { clear - Eids. revert a b Eids. induction nodes as [|x q IH]; simpl; intros a b; [destruct a; discriminate|].
            destruct (kid G x) as [ix|] eqn:Ex; [|discriminate]. destruct (mapO (kid G) q) as [iq|] eqn:Eq; [|discriminate]. intros [= H].
            destruct a as [|? a]; simpl in H.
            - injection H as -> ->. destruct q as [|y q]; [discriminate|]. simpl in Eq. destruct (kid G y) as [iy|] eqn:Ey; [|discriminate].
              destruct (mapO (kid G) q); [|discriminate]. injection Eq as -> _. exists [], x, y, q. auto.
            - injection H as -> ->. destruct (IH a b eq_refl) as (ka & u & v & kb & -> & H1 & H2). exists (x :: ka), u, v, kb. auto. }
          destruct Q as (ka & u & v & kb & Eq & Hu & Hv). pose proof (H _ _ _ _ Eq) as He. apply edge_iedge in He as (i' & j' & Hi' & Hj' & Hw).
          rewrite Hu in Hi'. rewrite Hv in Hj'. injection Hi' as ->. injection Hj' as ->. exact Hw.
        - intros H a u v b Eq. rewrite Eq in Eids. apply mapO_split in Eids as (ya & yb & H1 & H2 & H3). simpl in H2.
          destruct (kid G u) as [i|] eqn:Hu; [|discriminate]. destruct (kid G v) as [j|] eqn:Hv; [|discriminate].
          destruct (mapO (kid G) b) as [yb'|]; [|discriminate]. injection H2 as <-.
          specialize (H (i, j)). apply edge_iedge. exists i, j. split; [assumption|]. split; [assumption|]. apply has_true. apply H.
          apply steps_in. eauto. }
      assert (CNT : NoDup ids -> mnvals (minter op_second A P) = List.length (filter (fun e => has (mget A (fst e) (snd e))) steps)).
      { intros Hnd. apply mnvals_list; [apply mwf_mbuild|apply NoDup_filter, combine_NoDup_fst, removelast_NoDup; assumption|].
        intros i j. unfold minter. rewrite mget_mbuild. rewrite filter_In. cbn [fst snd].
        destruct (mget A i j) as [w|] eqn:Ew.
        - destruct (mget_some_lt _ _ _ _ HmA Ew) as [Li Lj]. pose proof Li as Li'. pose proof Lj as Lj'. apply Nat.ltb_lt in Li', Lj'. rewrite Li', Lj'. simpl.
          unfold P. rewrite mget_mbuild_lt by assumption. destruct (existsb _ steps) eqn:Ex; simpl.
          + apply existsb_exists in Ex as ([a b] & Hs & E). apply andb_prop in E as [E1 E2]. apply Nat.eqb_eq in E1, E2. simpl in *. subst. tauto.
          + split; [discriminate|]. intros [Hs _]. assert (existsb (fun e => (fst e =? i) && (snd e =? j)) steps = true); [|congruence].
            apply existsb_exists. exists (i, j). split; [assumption|]. simpl. rewrite !Nat.eqb_refl. reflexivity.
        - simpl. destruct (_ && _); simpl; split; try discriminate; intros [_ ?]; discriminate. }
      assert (LEA : mnvals (minter op_second A P) <= mnvals A).
      { unfold minter. rewrite mnvals_mbuild. unfold mnvals. apply nsum_le. intros i Hi. apply cnt_mono. intros j Hj Hh. rewrite has_oboth in Hh. apply andb_prop in Hh. tauto. }
      pose proof (steps_length ids) as SL. fold steps in SL.
      assert (SP : simple_path nodes <-> NoDup ids /\ forall e, In e steps -> has (mget A (fst e) (snd e)) = true).
      { unfold simple_path. rewrite ND, ED. split; [tauto|]. intros [H1 H2]. split; [discriminate|]. tauto. }
      rewrite <- filter_all_length in SP.
      apply answers_if; intros E1.
      { apply answers_ret. eexists. split; [reflexivity|]. split; [discriminate|]. intros H. apply SP in H as [H1 H2]. apply Nat.ltb_lt in E1.
        rewrite (CNT H1) in LEA. lia. }
      rewrite Hlen, Nat.eqb_refl. cbn [negb orb].
      apply answers_if; intros E2; apply answers_ret; (eexists; split; [reflexivity|]); rewrite SP.
      * split; [discriminate|]. intros [H1 _]. rewrite nodup_fixed_point, Hlen in E2 by assumption. apply Nat.ltb_lt in E2. lia.
      * assert (Hnd : NoDup ids).
        { apply Nat.ltb_ge in E2. apply (@NoDup_incl_NoDup _ (nodup Nat.eq_dec ids)); [apply NoDup_nodup|rewrite Hlen; lia|]. intros x Hx. apply nodup_In in Hx. assumption. }
        rewrite (CNT Hnd), Nat.eqb_eq. rewrite SL, Hlen. tauto.
    + assert (NS : ~ simple_path nodes).
      { intros (_ & H & _). apply mapO_none in Eids as (x & Hx & Ex). apply H in Hx. apply node_kid in Hx as [i Hi]. congruence. }
      apply answers_if; intros E1.
      { apply answers_ret. eexists. split; [reflexivity|]. split; [discriminate|contradiction]. }
      pose proof (ids_known_short _ Eids) as LT. destruct (Nat.eqb_spec (List.length (ids_known (g_kid G) nodes)) (List.length nodes)) as [E|E]; [lia|].
      cbn [negb orb]. apply answers_ret. eexists. split; [reflexivity|]. split; [discriminate|contradiction].
Qed.

(** ** C49 *)
Definition recip_degree (u : nkey) : nat := count (fun v => has_edge G u v && has_edge G v u) (gnodes G).
Lemma recip_id u i : kid G u = Some i -> recip_degree u = recipdeg G SP i.
Proof.
  intros Hu. apply (count_nodes G wf). intros v j Hv. rewrite (has_edge_kid G _ _ _ _ Hu Hv), (has_edge_kid G _ _ _ _ Hv Hu). reflexivity.
Qed.
Lemma reciprocity_ok p : answers G (reciprocity G (Some p)) (fun o => exists r, o = Val r /\ vsize r = n /\
  forall u i, kid G u = Some i -> vget r i = if p i && (0 <? out_degree G u + in_degree G u)
    then Some (inject_Z (2 * Z.of_nat (recip_degree u)) / inject_Z (Z.of_nat (out_degree G u + in_degree G u)))%Q else None).
Proof.
  unfold reciprocity. eapply answers_bind_GV; [apply (get_recip_ok G wf true eq_refl)|].
  eapply (answers_bind_v G _ _ (msk (Some p) (den_vec G (KTotal SP)))).
  - intros s HI. pose proof (get_total_p_ok G wf true (Some p) s HI ltac:(discriminate)) as H. unfold wp in H.
    destruct H as (-> & H & _). auto.
  - apply answers_ret. eexists. split; [reflexivity|]. cbn [msk den_vec]. split; [rewrite vsize_vbuild, vsize_vrestrict, vsize_vbuild; reflexivity|].
    intros u i Hu. assert (L : i < n) by exact (kid_lt G wf _ _ Hu).
    rewrite vget_vbuild_lt by (rewrite vsize_vrestrict, vsize_vbuild; exact L). rewrite !vget_vrestrict, !vget_vbuild_lt by exact L.
    rewrite (recip_id u i Hu), (out_degree_id G wf u i Hu), (in_degree_id G wf u i Hu). destruct (p i); [|reflexivity]. cbn [andb].
    assert (LE : recipdeg G SP i <= outdeg G SP i).
    { apply cnt_mono. intros j Hj H. apply andb_prop in H. tauto. }
    unfold onz. destruct (Nat.eqb_spec (recipdeg G SP i) 0) as [E|E]; destruct (Nat.eqb_spec (outdeg G SP i + indeg G SP i) 0) as [E'|E']; cbn [omap ounion].
    + destruct (Nat.ltb_spec 0 (outdeg G SP i + indeg G SP i)); [lia|reflexivity].
    + destruct (Nat.ltb_spec 0 (outdeg G SP i + indeg G SP i)); [|lia]. rewrite E. reflexivity.
    + lia.
    + destruct (Nat.ltb_spec 0 (outdeg G SP i + indeg G SP i)); [reflexivity|lia].
Qed.
(** 2 * |reciprocated| / (in-degree + out-degree) *)
Definition recip_of (u : nkey) : Q :=
  (inject_Z (2 * Z.of_nat (recip_degree u)) / inject_Z (Z.of_nat (degree G u)))%Q.
Theorem C49_reciprocity_node u :
  answers G (nx_reciprocity_node G u) (fun o =>
    match o with
    | Val x => g_dir G = true /\ node G u /\ 0 < degree G u /\ x = recip_of u
    | Raise e => (e = EType /\ g_dir G = false) \/ (e = EKey /\ ~ node G u) \/ (e = EAlg /\ node G u /\ degree G u = 0)
    end).
Proof.
  unfold nx_reciprocity_node, as_digraph. destruct (g_dir G) eqn:D; [|apply answers_raise; auto].
  apply answers_idx; [|intros H; right; left; split; [reflexivity|rewrite node_kid; intros [i Hi]; congruence]].
  intros i Hu. eapply answers_bind; [apply reciprocity_ok| |intros e (r & [=] & _)]. intros r (r' & [= <-] & Hs & Hr).
  rewrite (Hr u i Hu). unfold mS. rewrite vget_vscatter. assert (L : i < n) by exact (kid_lt G wf _ _ Hu). apply Nat.ltb_lt in L. rewrite L.
  simpl. rewrite Nat.eqb_refl. cbn [has andb orb]. assert (Nu : node G u) by (apply node_kid; eauto).
  assert (Dg : degree G u = out_degree G u + in_degree G u) by (unfold degree; rewrite D; reflexivity). unfold recip_of. rewrite Dg.
  destruct (Nat.ltb_spec 0 (out_degree G u + in_degree G u)); [apply answers_ret|apply answers_raise]; auto.
  right. right. split; [reflexivity|]. split; [assumption|lia].
Qed.
Theorem C49_reciprocity_nodes l :
  answers G (nx_reciprocity_nodes G l) (fun o =>
    match o with
    | Val r => g_dir G = true /\ (forall k, In k l -> node G k) /\
        is_map r (fun u x => In u l /\ 0 < degree G u /\ x = recip_of u)
    | Raise e => (e = EType /\ g_dir G = false) \/ (e = EKey /\ exists k, In k l /\ ~ node G k)
    end).
Proof.
  unfold nx_reciprocity_nodes, as_digraph. destruct (g_dir G) eqn:D; [|apply answers_raise; auto].
  apply (answers_list_vec G wf); [|intros k H1 H2; right; eauto]. intros v Hv Hn.
  eapply answers_bind; [apply reciprocity_ok| |intros e (r & [=] & _)]. intros r (r' & [= <-] & Hs & Hr). apply answers_ret.
  split; [reflexivity|]. split; [assumption|]. apply is_map_intro; [assumption|unfold glen in Hs; lia|]. intros k x.
  assert (Dg : degree G k = out_degree G k + in_degree G k) by (unfold degree; rewrite D; reflexivity). unfold recip_of. rewrite Dg. split.
  - intros (Hk & Hd & ->). destruct (proj1 (node_kid G k) (Hn k Hk)) as [i Hi]. exists i. split; [assumption|]. rewrite (Hr k i Hi). unfold mS.
    rewrite (svec_has G _ _ _ _ Hv Hi). apply mem_In in Hk. rewrite Hk. apply Nat.ltb_lt in Hd. rewrite Hd. reflexivity.
  - intros (i & Hi & H). rewrite (Hr k i Hi) in H. unfold mS in H. rewrite (svec_has G _ _ _ _ Hv Hi) in H.
    destruct (mem k l) eqn:M; [|discriminate]. cbn [andb] in H. apply mem_In in M.
    destruct (Nat.ltb_spec 0 (out_degree G k + in_degree G k)); [|discriminate]. injection H as <-. auto.
Qed.
Theorem C49_overall_reciprocity :
  answers G (nx_overall_reciprocity G) (fun o =>
    match o with
    | Val x => g_dir G = true /\ edges G <> [] /\
        (x == inject_Z (Z.of_nat (count (fun e => negb (nkey_eqb (fst e) (snd e)) && has_edge G (snd e) (fst e)) (edges G)))
              / inject_Z (Z.of_nat (List.length (edges G))))%Q
    | Raise e => (e = EType /\ g_dir G = false) \/ (e = EEmptyGraph /\ g_dir G = true /\ edges G = [])
    end).
Proof.
  unfold nx_overall_reciprocity, as_digraph, overall_reciprocity. destruct (g_dir G) eqn:D; [|apply answers_raise; auto].
  rewrite <- (edges_dir G wf D). destruct (Z.eqb_spec (Z.of_nat (List.length (edges G))) 0) as [E|E].
  { apply answers_raise. right. split; [reflexivity|]. split; [reflexivity|]. destruct (edges G); [reflexivity|discriminate]. }
  eapply answers_bind_GV; [apply (total_recip_plus_ok G wf true)|].
  eapply answers_bind_GV; [apply (has_self_edges_ok G wf true eq_refl)|].
  assert (V : den_int G SM = Z.of_nat (count (fun e => negb (nkey_eqb (fst e) (snd e)) && has_edge G (snd e) (fst e)) (edges G))).
  { unfold den_int. f_equal. unfold edges. rewrite D.
    transitivity (count (fun e => has_edge G (fst e) (snd e) && (negb (nkey_eqb (fst e) (snd e)) && has_edge G (snd e) (fst e))) (pairs (gnodes G))).
    - symmetry. rewrite (count_node_pairs G wf _ (fun i j => has (ent G SM i j) && has (ent G SM j i))).
      + apply nsum_ext. intros i Hi. reflexivity.
      + intros u v i j Hu Hv. cbn [fst snd]. rewrite (has_edge_kid G _ _ _ _ Hu Hv), (has_edge_kid G _ _ _ _ Hv Hu). simpl.
        rewrite (Nat.eqb_sym j i). destruct (Nat.eqb_spec i j) as [->|Hne].
        * assert (u = v) by (eapply kid_inj; eassumption). subst. rewrite nkey_eqb_refl. simpl. rewrite andb_false_r. reflexivity.
        * rewrite nkey_eqb_neq by congruence. reflexivity.
    - unfold count. induction (pairs (gnodes G)) as [|e l IH]; [reflexivity|]. simpl. destruct (has_edge G (fst e) (snd e)); simpl; [|exact IH].
      destruct (_ && _); simpl; lia. }
  assert (FIN : answers G (lifto (pdiv (den_int G SM) (Z.of_nat (List.length (edges G))))) (fun o =>
    match o with
    | Val x => true = true /\ edges G <> [] /\
        (x == inject_Z (Z.of_nat (count (fun e => negb (nkey_eqb (fst e) (snd e)) && has_edge G (snd e) (fst e)) (edges G)))
              / inject_Z (Z.of_nat (List.length (edges G))))%Q
    | Raise e => (e = EType /\ true = false) \/ (e = EEmptyGraph /\ true = true /\ edges G = [])
    end)).
  { apply answers_lifto. unfold pdiv. destruct (Z.eqb_spec (Z.of_nat (List.length (edges G))) 0); [contradiction|].
    split; [reflexivity|]. split; [intros X; rewrite X in E; apply E; reflexivity|]. rewrite V. reflexivity. }
  destruct (den_bool G KSelf) eqn:SE.
  - apply answers_assoc. eapply answers_bind_GV; [apply (get_diag_ok G wf true)|]. apply (answers_ret_bind G).
    cbn [msk den_vec]. rewrite nvals_vbuild. change (cnt (nrows A) (fun i => has (mget A i i))) with (dcount G).
    rewrite (int_split G). replace (den_int G SM + Z.of_nat (dcount G) - Z.of_nat (dcount G))%Z with (den_int G SM) by lia. exact FIN.
  - apply (answers_ret_bind G). rewrite (noself_int G wf SE). exact FIN.
Qed.
End M.

(** ** C54 *)
(** an isomorphism: a bijection of the nodes under which edges correspond *)
Definition isomorphism (G1 G2 : graph) (f : nkey -> nkey) : Prop :=
  g_dir G1 = g_dir G2 /\ (forall u, node G1 u -> node G2 (f u)) /\
  (forall u v, node G1 u -> node G1 v -> f u = f v -> u = v) /\
  (forall w, node G2 w -> exists u, node G1 u /\ f u = w) /\
  (forall u v, node G1 u -> node G1 v -> (edge G1 u v <-> edge G2 (f u) (f v))).
Definition isomorphic (G1 G2 : graph) : Prop := exists f, isomorphism G1 G2 f.
Lemma zlist_eqb_refl l : zlist_eqb l l = true.
Proof.
  unfold zlist_eqb. rewrite Nat.eqb_refl. simpl. induction l as [|x l IH]; [reflexivity|]. simpl. rewrite Z.eqb_refl. exact IH.
Qed.
Lemma zsorted_perm_eq (a b : list Z) : StronglySorted Z.le a -> StronglySorted Z.le b -> Permutation a b -> a = b.
Proof.
  revert b. induction a as [|x a IH]; intros b Ha Hb P.
  - apply Permutation_nil in P. congruence.
  - destruct b as [|y b]; [symmetry in P; apply Permutation_nil in P; discriminate|].
    inversion Ha as [|? ? H1 H2]; inversion Hb as [|? ? H3 H4]; subst.
    assert (x = y).
    { assert (In x (y :: b)) by (eapply Permutation_in; [exact P|left; reflexivity]).
      assert (In y (x :: a)) by (eapply Permutation_in; [symmetry; exact P|left; reflexivity]).
      rewrite Forall_forall in H2, H4. destruct H as [->|H]; [reflexivity|]. destruct H0 as [->|H0]; [reflexivity|].
      apply H2 in H0. apply H4 in H. lia. }
    subst. apply Permutation_cons_inv in P. f_equal. auto.
Qed.
Lemma zsort_eq a b : Permutation a b -> zsort a = zsort b.
Proof. intros P. apply zsorted_perm_eq; [apply zsort_sorted|apply zsort_sorted|].
  eapply Permutation_trans; [apply zsort_perm|]. eapply Permutation_trans; [exact P|]. symmetry. apply zsort_perm. Qed.
Lemma nodup_map_in {A B} (f : A -> B) l : (forall x y, In x l -> In y l -> f x = f y -> x = y) -> NoDup l -> NoDup (map f l).
Proof.
  induction l as [|a l IH]; intros HI HN; simpl; [constructor|]. inversion HN as [|? ? H1 H2]; subst. constructor.
  - rewrite in_map_iff. intros (x & E & Hx). apply HI in E; [subst; contradiction|right; assumption|left; reflexivity].
  - apply IH; [|assumption]. intros x y Hx Hy. apply HI; right; assumption.
Qed.
Section Iso.
Variables G1 G2 : graph.
Hypothesis wf1 : gwf G1.
Hypothesis wf2 : gwf G2.
Variable f : nkey -> nkey.
Hypothesis Hf : isomorphism G1 G2 f.
Lemma iso_nodes : Permutation (map f (gnodes G1)) (gnodes G2).
Proof.
  destruct Hf as (_ & H1 & H2 & H3 & _). apply NoDup_Permutation.
  - apply nodup_map_in; [intros u v Hu Hv; apply H2; assumption|apply gnodes_nodup; assumption].
  - apply gnodes_nodup; assumption.
  - intros w. rewrite in_map_iff. split; [intros (u & <- & Hu); apply H1; assumption|].
    intros Hw. destruct (H3 w Hw) as (u & Hu & E). eauto.
Qed.
Lemma iso_has_edge u v : node G1 u -> node G1 v -> has_edge G1 u v = has_edge G2 (f u) (f v).
Proof. intros Hu Hv. apply eq_true_iff_eq. rewrite !has_edge_true. apply Hf; assumption. Qed.
Lemma iso_ndeg u : node G1 u -> ndeg G1 u = ndeg G2 (f u).
Proof.
  intros Hu.
  assert (Ho : out_degree G1 u = out_degree G2 (f u)).
  { unfold out_degree. rewrite <- (count_perm _ _ _ iso_nodes), count_map. apply count_ext. intros v Hv. apply iso_has_edge; assumption. }
  assert (Hi : in_degree G1 u = in_degree G2 (f u)).
  { unfold in_degree. rewrite <- (count_perm _ _ _ iso_nodes), count_map. apply count_ext. intros v Hv. apply iso_has_edge; assumption. }
  unfold ndeg. rewrite (proj1 Hf), Ho, Hi. reflexivity.
Qed.
Lemma iso_values d1 d2 : dvec G1 d1 (ndeg G1) -> dvec G2 d2 (ndeg G2) -> Permutation (vvalues d1) (vvalues d2) /\ nvals d1 = nvals d2.
Proof.
  intros H1 H2.
  assert (NV : nvals d1 = nvals d2).
  { rewrite (dvec_nvals G1 wf1 d1 _ H1), (dvec_nvals G2 wf2 d2 _ H2). rewrite <- (count_perm _ _ _ iso_nodes), count_map. apply count_ext.
    intros u Hu. rewrite (iso_ndeg u Hu). reflexivity. }
  split; [|assumption].
  assert (LEN : vsize d1 = vsize d2).
  { rewrite (proj1 H1), (proj1 H2), <- (len_nodes G1 wf1), <- (len_nodes G2 wf2), <- (map_length f). apply Permutation_length. exact iso_nodes. }
  apply (Permutation_app_inv_l (repeat 0%Z (vsize d1 - nvals d1))). rewrite (repeat_app_perm G1 wf1 d1 _ H1).
  rewrite LEN, NV. rewrite (repeat_app_perm G2 wf2 d2 _ H2). rewrite <- (Permutation_map _ iso_nodes), map_map.
  rewrite (map_ext_in _ (fun u => Z.of_nat (ndeg G2 (f u)))); [reflexivity|]. intros u Hu. rewrite (iso_ndeg u Hu). reflexivity.
Qed.
End Iso.
Theorem C54_faster_could_be_isomorphic G1 G2 s1 s2 : gwf G1 -> gwf G2 -> InvF G1 false s1 -> InvF G2 false s2 ->
  isomorphic G1 G2 ->
  match nx_faster_could_be_isomorphic G1 G2 s1 s2 with (o, s1', s2') => o = Val true /\ InvF G1 false s1' /\ InvF G2 false s2' end.
Proof.
  intros wf1 wf2 I1 I2 [f Hf]. unfold nx_faster_could_be_isomorphic.
  assert (LEN : glen G1 = glen G2).
  { rewrite <- (len_nodes G1 wf1), <- (len_nodes G2 wf2), <- (map_length f). apply Permutation_length. eapply iso_nodes; eassumption. }
  rewrite LEN, Nat.eqb_refl. cbn [negb].
  destruct (degrees_plus_ok G1 wf1) as (d1 & H1 & A1). destruct (degrees_plus_ok G2 wf2) as (d2 & H2 & A2).
  destruct (A1 s1 I1) as (E1 & J1 & _). destruct (A2 s2 I2) as (E2 & J2 & _).
  destruct (degrees_plus G1 s1) as [o1 s1']. cbn [fst snd] in *. subst o1.
  destruct (degrees_plus G2 s2) as [o2 s2']. cbn [fst snd] in *. subst o2.
  split; [|auto]. f_equal. destruct (iso_values G1 G2 wf1 wf2 f Hf d1 d2 H1 H2) as [P NV].
  unfold faster_core. rewrite NV, Nat.eqb_refl. cbn [negb]. rewrite (zsort_eq _ _ P). apply zlist_eqb_refl.
Qed.

(** ** Refuted parts *)
Definition kk (i : Z) : nkey := KI i.
(** a graph without edges is regular of degree 0, but is_regular and is_k_regular(0) say no; a
    self-loop counts twice in a degree, but here only once *)
Theorem C45_edgeless_refuted : exists G, gwf G /\ g_dir G = false /\ (forall u, node G u -> degree G u = 0) /\
  fst (nx_is_regular G st0) = Val false /\ fst (nx_is_k_regular G 0 st0) = Val false.
Proof.
  exists (mkg false 2 []). split; [apply mkg_wf|]. split; [reflexivity|]. split.
  - intros u Hu. unfold node in Hu. vm_compute in Hu. destruct Hu as [<-|[<-|[]]]; reflexivity.
  - vm_compute. auto.
Qed.
Theorem C45_loop_refuted : exists G u v, gwf G /\ g_dir G = false /\ node G u /\ node G v /\ degree G u <> degree G v /\
  fst (nx_is_regular G st0) = Val true /\ fst (nx_is_k_regular G 1 st0) = Val true.
Proof.
  exists (mkg false 3 [(0, 0, 1%Z); (1, 2, 1%Z)]), (kk 0), (kk 1). split; [apply mkg_wf|]. split; [reflexivity|].
  vm_compute. repeat split; auto. discriminate.
Qed.
(** s_metric halves the sum, also for directed graphs where every edge appears once; and a self-loop
    contributes half of what it should *)
Theorem C50_refuted : exists G H x y, gwf G /\ g_dir G = true /\ loop_free G /\ gwf H /\ g_dir H = false /\
  fst (nx_s_metric G st0) = Val x /\ ~ (x == inject_Z (total (fun e => Z.of_nat (degree G (fst e)) * Z.of_nat (degree G (snd e)))%Z (edges G)))%Q /\
  fst (nx_s_metric H st0) = Val y /\ ~ (y == inject_Z (total (fun e => Z.of_nat (degree H (fst e)) * Z.of_nat (degree H (snd e)))%Z (edges H)))%Q.
Proof.
  exists (mkg true 2 [(0, 1, 1%Z)]), (mkg false 1 [(0, 0, 1%Z)]). do 2 eexists. split; [apply mkg_wf|]. split; [reflexivity|].
  split; [apply loop_free_dcount; [apply mkg_wf|vm_compute; reflexivity]|]. split; [apply mkg_wf|]. split; [reflexivity|].
  split; [vm_compute; reflexivity|]. split; [vm_compute; discriminate|]. split; [vm_compute; reflexivity|]. vm_compute. discriminate.
Qed.
(** undirected graphs: every edge is counted twice *)
Theorem C51_undirected_refuted : exists G p, gwf G /\ g_dir G = false /\ partition_of G p /\
  fst (nx_intra_community_edges G p st0) = Val 2%Z /\ count (same_block p) (edges G) = 1 /\
  fst (nx_inter_community_edges G p st0) = Val 2%Z /\ List.length (edges G) = 2.
Proof.
  exists (mkg false 3 [(0, 1, 1%Z); (1, 2, 1%Z)]), [[kk 0; kk 1]; [kk 2]]. split; [apply mkg_wf|]. split; [reflexivity|].
  split; [intros u Hu; unfold node in Hu; vm_compute in Hu; destruct Hu as [<-|[<-|[<-|[]]]]; reflexivity|]. vm_compute. auto.
Qed.
(** a self-loop counts once, not twice, in degree_centrality of an undirected graph *)
Theorem C53_loop_refuted : exists G u m x, gwf G /\ g_dir G = false /\ fst (nx_degree_centrality G st0) = Val m /\ nm_getitem m u = Val x /\
  ~ (x == inject_Z (Z.of_nat (degree G u)) / inject_Z (Z.of_nat (List.length (gnodes G)) - 1))%Q.
Proof.
  exists (mkg false 2 [(0, 0, 1%Z)]), (kk 0). do 2 eexists. split; [apply mkg_wf|]. split; [reflexivity|].
  split; [vm_compute; reflexivity|]. split; [vm_compute; reflexivity|]. vm_compute. discriminate.
Qed.

(** ** Concrete cases *)
Definition tour3 := mkg true 3 [(0, 1, 1%Z); (1, 2, 1%Z); (2, 0, 1%Z)].
Definition dg4 := mkg true 4 [(0, 1, 2%Z); (1, 0, 3%Z); (1, 2, 4%Z); (2, 2, 5%Z)].
Definition tri4 := mkg false 4 [(0, 1, 2%Z); (1, 2, 3%Z); (0, 2, 5%Z)].
Definition tri4' := mkg false 4 [(1, 2, 1%Z); (2, 3, 1%Z); (1, 3, 1%Z)].
Example C44_ex : fst (nx_number_of_isolates dg4 st0) = Val 1 /\ fst (nx_is_isolate dg4 (kk 3) st0) = Val true /\ fst (nx_is_isolate dg4 (kk 2) st0) = Val false.
Proof. vm_compute. auto. Qed.
Example C45_ex : (exists u v, edge tour3 u v) /\ fst (nx_is_regular tour3 st0) = Val true /\ fst (nx_is_regular dg4 st0) = Val false.
Proof. split; [exists (kk 0), (kk 1), 1%Z; reflexivity|vm_compute; auto]. Qed.
Example C46_ex : tournament tour3 /\ fst (nx_is_tournament tour3 st0) = Val true /\ fst (nx_is_tournament dg4 st0) = Val false.
Proof.
  split; [|vm_compute; auto]. pose proof (mkg_wf true 3 [(0, 1, 1%Z); (1, 2, 1%Z); (2, 0, 1%Z)]) as W.
  assert (H := C46_is_tournament tour3 W st0 ltac:(apply Inv_st0)). destruct H as [H _]. vm_compute (fst _) in H. apply H. reflexivity.
Qed.
Example C47_ex : fst (nx_score_sequence dg4 st0) = Val [0%Z; 1%Z; 1%Z; 2%Z].
Proof. vm_compute. reflexivity. Qed.
Example C48_ex : fst (nx_is_simple_path dg4 [kk 0; kk 1; kk 2] st0) = Val true /\ fst (nx_is_simple_path dg4 [kk 0; kk 1; kk 0] st0) = Val false.
Proof. vm_compute. auto. Qed.
Example C49_ex : exists x y, fst (nx_reciprocity_node dg4 (kk 1) st0) = Val x /\ (x == 2 # 3)%Q /\ fst (nx_overall_reciprocity dg4 st0) = Val y /\ (y == 1 # 2)%Q.
Proof. do 2 eexists. split; [vm_compute; reflexivity|]. split; [vm_compute; reflexivity|]. split; [vm_compute; reflexivity|]. vm_compute. reflexivity. Qed.
Example C50_ex : loop_free tri4 /\ exists x, fst (nx_s_metric tri4 st0) = Val x /\ (x == 12)%Q.
Proof.
  split; [apply loop_free_dcount; [apply mkg_wf|vm_compute; reflexivity]|]. eexists. split; [vm_compute; reflexivity|]. vm_compute. reflexivity.
Qed.
Example C51_ex : partition_of dg4 [[kk 0; kk 1]; [kk 2]; [kk 3]] /\ fst (nx_intra_community_edges dg4 [[kk 0; kk 1]; [kk 2]; [kk 3]] st0) = Val 3%Z /\
  fst (nx_inter_community_edges dg4 [[kk 0; kk 1]; [kk 2]; [kk 3]] st0) = Val 1%Z.
Proof.
  split; [intros u Hu; unfold node in Hu; vm_compute in Hu; destruct Hu as [<-|[<-|[<-|[<-|[]]]]]; reflexivity|]. vm_compute. auto.
Qed.
Example C54_ex : isomorphic tri4 tri4'.
Proof.
  exists (fun k => match k with KI z => KI ((z + 1) mod 4)%Z | k => k end).
  assert (N : forall G u, (G = tri4 \/ G = tri4') -> (node G u <-> u = kk 0 \/ u = kk 1 \/ u = kk 2 \/ u = kk 3)).
  { intros G u [-> | ->]; unfold node; vm_compute; intuition congruence. }
  split; [reflexivity|]. split; [|split; [|split]].
  - intros u Hu. apply (N tri4 u) in Hu; [|auto]. apply (N tri4'); [auto|]. destruct Hu as [->|[->|[->| ->]]]; vm_compute; auto.
  - intros u v Hu Hv. apply (N tri4) in Hu, Hv; auto. destruct Hu as [->|[->|[->| ->]]], Hv as [->|[->|[->| ->]]]; vm_compute; congruence.
  - intros w Hw. apply (N tri4') in Hw; [|auto]. destruct Hw as [->|[->|[->| ->]]]; [exists (kk 3)|exists (kk 0)|exists (kk 1)|exists (kk 2)];
      (split; [apply (N tri4); auto|reflexivity]).
  - intros u v Hu Hv. apply (N tri4) in Hu, Hv; auto. rewrite <- !has_edge_true.
    destruct Hu as [->|[->|[->| ->]]], Hv as [->|[->|[->| ->]]]; vm_compute; tauto.
Qed.

Print Assumptions C44_isolates.
Print Assumptions C44_is_isolate.
Print Assumptions C44_number_of_isolates.
Print Assumptions C45_is_regular.
Print Assumptions C45_is_k_regular.
Print Assumptions C46_is_tournament.
Print Assumptions C47_score_sequence.
Print Assumptions C48_is_simple_path.
Print Assumptions C49_reciprocity_nodes.
Print Assumptions C49_overall_reciprocity.
Print Assumptions C50_s_metric.
Print Assumptions C51_together.
Print Assumptions C51_undirected_partial.
Print Assumptions C52_mutual_weight.
Print Assumptions C53_degree_centrality.
Print Assumptions C54_faster_could_be_isomorphic.
