(** * C07-C13: reachability and unweighted distances *)
From Verif Require Import Base BaseProofs Model_Graph Model_Cache Spec_Cache CacheMath CacheProofs CacheProofs2
  Model_Keys Spec KeyProofs Spec_Run RunProofs Model_Utils Model_Bfs Bfs BfsProofs BfsProofs2 BfsProofs3 Walks Concrete Props_Utils.
From Coq Require Import QArith Permutation.
Open Scope nat_scope.

Section P.
Variable G : graph.
Hypothesis wf : gwf G.
Notation n := (nrows (g_A G)).
Definition EDr (tr : bool) : nkey -> nkey -> Prop := if tr then rev (edge G) else edge G.
Lemma lifted_Dr tr : lifted G (EDr tr) (Dr G tr).
Proof. destruct tr; simpl; [apply lifted_rev|]; apply lifted_edge; assumption. Qed.
Lemma bfs_plain_ans u cutoff tr (R : outcome (vec bool) -> Prop) :
  (forall i, kid G u = Some i -> i < n -> R (Val (plain_val G tr [i] cutoff))) -> (kid G u = None -> R (Raise EKey)) ->
  answers G (bfs_plain G u cutoff tr) R.
Proof.
  intros H1 H2. unfold bfs_plain. apply answers_idx; [|assumption]. intros i Hi.
  eapply answers_GV; [apply (bfs_plain_ix_ok G wf true)|]. apply H1; [assumption|]. eapply kid_lt; eassumption.
Qed.
Lemma not_node u : kid G u = None <-> ~ node G u.
Proof.
  rewrite (node_kid G). destruct (kid G u); split; intros H; try discriminate.
  - destruct H. eauto.
  - intros [i Hi]. discriminate.
  - reflexivity.
Qed.
Lemma plain_set_ans u tr (del : bool) : 
  answers G (rv <- bfs_plain G u None tr ;; i <- idx (kid G u) ;; ret (to_nodeset G (if del then vdel rv i else rv)))
    (fun o => match o with
              | Val r => node G u /\ is_set r (fun v => (del = true -> v <> u) /\ reach (EDr tr) u v)
              | Raise e => e = EKey /\ ~ node G u
              end).
Proof.
  eapply answers_bind; [apply bfs_plain_ans with (R := fun o => o = match kid G u with Some i => Val (plain_val G tr [i] None) | None => Raise EKey end)| |].
  - intros i -> _. reflexivity.
  - intros ->. reflexivity.
  - intros x. destruct (kid G u) as [i|] eqn:Eu; [|discriminate]. intros [= ->].
    assert (Hi : i < n) by (eapply kid_lt; eassumption).
    apply answers_idx; [|discriminate]. intros i' [= <-]. apply answers_ret. split; [apply node_kid; eauto|].
    assert (Hsz : vsize (plain_val G tr [i] None) = n) by (apply plain_val_size; try assumption; intros ? [<-|[]]; assumption).
    apply is_set_intro; [assumption| |].
    + destruct del; [unfold vdel; rewrite vsize_vbuild|]; lia.
    + intros k. rewrite (reach_lift G wf (EDr tr) (Dr G tr) u i k (lifted_Dr tr) Eu).
      assert (Hx : forall j, has (vget (if del then vdel (plain_val G tr [i] None) i else plain_val G tr [i] None) j) = true
                    <-> (del = true -> j <> i) /\ reach (Dr G tr) i j).
      { intros j. rewrite <- plain_val_reach1 by assumption. destruct del.
        - unfold vdel. rewrite vget_vbuild, Hsz. destruct (Nat.ltb_spec j n) as [Hj|Hj].
          + destruct (Nat.eqb_spec j i); split; [discriminate|intros [H _]; destruct (H eq_refl e)|auto|intros [_ H]; exact H].
          + split; [discriminate|]. intros [_ H]. apply has_vget_lt in H. lia.
        - split; [intros H; split; [discriminate|assumption]|tauto]. }
      split.
      * intros [H1 (j & Hj & H2)]. exists j. split; [assumption|]. apply Hx. split; [|assumption].
        intros Hd ->. apply (H1 Hd). eapply kid_inj; eassumption.
      * intros (j & Hj & H). apply Hx in H as [H1 H2]. split; [|eauto]. intros Hd ->. apply (H1 Hd). congruence.
  - intros e. destruct (kid G u) eqn:Eu; [discriminate|]. intros [= ->]. split; [reflexivity|]. apply not_node. assumption.
Qed.
End P.

Lemma answers_assoc2 (G : graph) {X Y Z' W} (m : M X) (f : X -> M Y) (g : X -> Y -> Z') (h : Z' -> W) R :
  answers G (x <- m ;; y <- f x ;; ret (h (g x y))) R ->
  answers G (x <- m ;; (z <- (y <- f x ;; ret (g x y)) ;; ret (h z))) R.
Proof.
  intros H s HI. specialize (H s HI). unfold bind in *. destruct (m s) as [[x|e] s']; [|exact H].
  destruct (f x s') as [[y|e] s2]; exact H.
Qed.

(** ** C07 *)
Theorem C07_descendants (G : graph) (u : nkey) : gwf G ->
  answers G (nx_descendants G u) (fun o =>
    match o with
    | Val r => node G u /\ is_set r (fun v => v <> u /\ reach (edge G) u v)
    | Raise e => e = EKey /\ ~ node G u
    end).
Proof.
  intros wf. unfold nx_descendants, descendants. apply answers_assoc. eapply answers_conseq.
  - apply answers_assoc2. exact (plain_set_ans G wf u false true).
  - intros [r|e]; [|auto]. intros [Hn H]. split; [assumption|]. eapply is_set_ext; [|exact H]. simpl. intuition.
Qed.
Theorem C07_ancestors (G : graph) (u : nkey) : gwf G ->
  answers G (nx_ancestors G u) (fun o =>
    match o with
    | Val r => node G u /\ is_set r (fun v => v <> u /\ reach (edge G) v u)
    | Raise e => e = EKey /\ ~ node G u
    end).
Proof.
  intros wf. unfold nx_ancestors, ancestors. apply answers_assoc. eapply answers_conseq.
  - apply answers_assoc2. exact (plain_set_ans G wf u true true).
  - intros [r|e]; [|auto]. intros [Hn H]. split; [assumption|]. eapply is_set_ext; [|exact H]. simpl.
    intros k. rewrite reach_rev. intuition.
Qed.

Theorem C07_node_connected_component (G : graph) (u : nkey) : gwf G -> g_dir G = false ->
  answers G (nx_node_connected_component G u) (fun o =>
    match o with
    | Val r => node G u /\ is_set r (fun v => reach (edge G) u v)
    | Raise e => e = EKey /\ ~ node G u
    end).
Proof.
  intros wf Hd. unfold nx_node_connected_component, node_connected_component. rewrite Hd.
  assert (Hp := plain_set_ans G wf u false false). intros s HI. specialize (Hp s HI). revert Hp.
  unfold bind, bfs_plain. destruct (kid G u) as [i|] eqn:Eu; simpl.
  - unfold bind. simpl. destruct (bfs_plain_ix G [i] None None false s) as [[r|e] s']; simpl; [|auto].
    intros [[H1 H2] H3]. split; [split; [assumption|]|assumption]. eapply is_set_ext; [|exact H2]. simpl. intuition discriminate.
  - auto.
Qed.
Theorem C07_node_connected_component_directed (G : graph) (u : nkey) : g_dir G = true -> raises G (nx_node_connected_component G u) ENotImpl.
Proof. intros Hd. unfold nx_node_connected_component. rewrite Hd. apply answers_raise. reflexivity. Qed.
(** decidable reachability is symmetric in an undirected graph, so the component is an equivalence class *)
Lemma edge_sym G : gwf G -> g_dir G = false -> forall u v, edge G u v -> edge G v u.
Proof.
  intros wf Hd u v H. apply edge_iedge in H as (i & j & Hi & Hj & H). apply edge_iedge. exists j, i. split; [assumption|]. split; [assumption|].
  apply (iedge_sym G wf Hd). assumption.
Qed.

(** ** C08 *)
Lemma level_map_ans G (wf : gwf G) u cutoff tr (R : nkey -> Z -> Prop) :
  (forall v x, R v x <-> exists d, x = Z.of_nat d /\ dist (EDr G tr) u v d /\ within cutoff d) ->
  answers G (if in_graph G u then v <- bfs_level G u None cutoff tr ;; ret (to_nodemap G v) else raise EKey) (fun o =>
    match o with
    | Val m => node G u /\ is_map m R
    | Raise e => e = EKey /\ ~ node G u
    end).
Proof.
  intros HR. apply answers_if.
  - intros Hin. assert (Hn := proj2 (node_in_graph G u) Hin). pose proof (proj1 (node_kid G u) Hn) as [i Hi].
    assert (Hl : i < nrows (g_A G)) by (eapply kid_lt; eassumption).
    eapply answers_bind_GV; [apply (bfs_level_ok G wf true u i tr cutoff Hi)|].
    apply answers_ret. split; [assumption|]. destruct (level_val_lev G tr i cutoff Hl) as [Hs _].
    apply is_map_intro; [assumption|lia|]. intros k x. rewrite HR. split.
    + intros (d & -> & H & Hw). apply (dist_lift G wf _ (Dr G tr) u i k d (lifted_Dr G wf tr) Hi) in H as (j & Hj & H).
      exists j. split; [assumption|]. apply level_val_spec; [assumption|assumption|]. eauto.
    + intros (j & Hj & H). apply level_val_spec in H as (d & -> & H & Hw); [|assumption|assumption].
      exists d. split; [reflexivity|]. split; [|assumption]. apply (dist_lift G wf _ (Dr G tr) u i k d (lifted_Dr G wf tr) Hi). eauto.
  - intros Hin. apply answers_raise. split; [reflexivity|]. intros H. apply node_in_graph in H. congruence.
Qed.
Theorem C08_single_source (G : graph) (u : nkey) (cutoff : option Z) : gwf G ->
  answers G (nx_single_source_spl G u cutoff) (fun o =>
    match o with
    | Val m => node G u /\ is_map m (fun v x => exists d, x = Z.of_nat d /\ dist (edge G) u v d /\ within cutoff d)
    | Raise e => e = EKey /\ ~ node G u
    end).
Proof. intros wf. apply (level_map_ans G wf u cutoff false). reflexivity. Qed.
Theorem C08_single_target (G : graph) (u : nkey) (cutoff : option Z) : gwf G ->
  answers G (nx_single_target_spl G u cutoff) (fun o =>
    match o with
    | Val m => node G u /\ is_map m (fun v x => exists d, x = Z.of_nat d /\ dist (edge G) v u d /\ within cutoff d)
    | Raise e => e = EKey /\ ~ node G u
    end).
Proof.
  intros wf. apply (level_map_ans G wf u cutoff true). intros v x. simpl.
  assert (E : forall d, dist (edge G) v u d <-> dist (rev (edge G)) u v d).
  { intros d. unfold dist. split; intros [H1 H2]; split.
    - apply walk_rev. assumption.
    - intros d' Hd. apply H2. apply walk_rev in Hd. eapply walk_iff; [|exact Hd]. reflexivity.
    - apply walk_rev in H1. eapply walk_iff; [|exact H1]. reflexivity.
    - intros d' Hd. apply H2. apply walk_rev. assumption. }
  split; intros (d & H1 & H2 & H3); exists d; rewrite ?E in *; auto.
Qed.

(** ** C10 *)
Lemma bidirectional_ans G (wf : gwf G) u v :
  answers G (bidirectional_spl G u v) (fun o =>
    match o with
    | Val x => node G u /\ node G v /\ exists d, x = Z.of_nat d /\ dist (edge G) u v d
    | Raise ENoPath => node G u /\ node G v /\ ~ reach (edge G) u v
    | Raise e => e = EKey /\ ~ (node G u /\ node G v)
    end).
Proof.
  unfold bidirectional_spl. destruct (in_graph G u) eqn:Eu; cbn [negb orb].
  2:{ apply answers_raise. split; [reflexivity|]. intros [H _]. apply node_in_graph in H. congruence. }
  destruct (in_graph G v) eqn:Ev; cbn [negb].
  2:{ apply answers_raise. split; [reflexivity|]. intros [_ H]. apply node_in_graph in H. congruence. }
  apply node_in_graph in Eu, Ev. apply answers_idx; [intros src Hs|intros H; apply not_node in H; tauto].
  apply answers_idx; [intros dst Hd|intros H; apply not_node in H; tauto].
  assert (Ls : src < nrows (g_A G)) by (eapply kid_lt; eassumption).
  assert (Ld : dst < nrows (g_A G)) by (eapply kid_lt; eassumption).
  destruct (Nat.eqb_spec src dst) as [->|Hne].
  - apply answers_ret. split; [assumption|]. split; [assumption|]. exists 0. split; [reflexivity|].
    rewrite (kid_inj G wf _ _ _ Hs Hd). split; [constructor|lia].
  - eapply answers_bind_GV; [apply (get_offdiag_ok G wf true)|]. cbn beta zeta.
    apply answers_lifto.
    pose proof (bidir_loop_ok (den_mat G KOff) (off_wf G) (off_sq G) src dst) as HB.
    rewrite (off_rows G) in *.
    set (q1 := vset (vempty (nrows (g_A G))) src true). set (q2 := vset (vempty (nrows (g_A G))) dst true).
    assert (HS : spl_spec (den_mat G KOff) src dst (bidir_loop (den_mat G KOff) ((nrows (g_A G) + 1) / 2) 1 q1 q1 q2 (vempty (nrows (g_A G))))).
    { apply (HB Ls Ld ((nrows (g_A G) + 1) / 2) 0); try (unfold q1, q2; rewrite ?vsize_vset, ?vsize_vempty; reflexivity).
      - intros j. unfold q1. rewrite has_vset_empty by assumption. rewrite (fresh0_src G [src] false). simpl. rewrite orb_false_r. destruct (j =? src); reflexivity.
      - intros j. unfold q1. rewrite has_vset_empty by assumption. rewrite (seen1_src G [src] false). simpl. rewrite orb_false_r. destruct (j =? src); reflexivity.
      - intros j. unfold q2. rewrite has_vset_empty by assumption. unfold fresh. simpl. rewrite orb_false_r. destruct (j =? dst); reflexivity.
      - intros j. rewrite vget_vempty. reflexivity.
      - intros d Hd0 [Hw _]. assert (d = 0) by lia. subst. inversion Hw. congruence.
      - pose proof (Nat.div_mod (nrows (g_A G) + 1) 2 ltac:(lia)). pose proof (Nat.mod_upper_bound (nrows (g_A G) + 1) 2 ltac:(lia)). lia. }
    assert (HE : forall d, dist (edge G) u v d <-> dist (Er (EA (den_mat G KOff))) src dst d).
    { intros d. rewrite (dist_lift G wf _ (iedge G) u src v d (lifted_edge G wf) Hs).
      rewrite (dist_off Nat.eq_dec (iedge G) (Er (EA (den_mat G KOff))) (fun a b => off_EA G wf a b)).
      split; [intros (j & Hj & H); congruence|eauto]. }
    destruct HS as [(d & -> & H)|[-> H]].
    + split; [assumption|]. split; [assumption|]. exists d. split; [reflexivity|]. apply HE. assumption.
    + split; [assumption|]. split; [assumption|]. intros Hr.
      assert (Hx : exists d, dist (edge G) u v d); [|destruct Hx as [d Hx]; apply HE in Hx; eapply H; eassumption].
      apply (reach_lift G wf _ (iedge G) u src v (lifted_edge G wf) Hs) in Hr as (j & Hj & Hr).
      pose proof (proj2 (plain_val_reach1 G wf false src Ls j) Hr) as Hp.
      apply (plain_val_dist1 G wf false src None Ls) in Hp as (d & Hp & _). exists d.
      apply (dist_lift G wf _ (iedge G) u src v d (lifted_edge G wf) Hs). eauto.
Qed.
Theorem C10_bidirectional_length (G : graph) (u v : nkey) : gwf G ->
  answers G (bidirectional_spl G u v) (fun o =>
    match o with
    | Val x => node G u /\ node G v /\ exists d, x = Z.of_nat d /\ dist (edge G) u v d
    | Raise ENoPath => node G u /\ node G v /\ ~ reach (edge G) u v
    | Raise e => e = EKey /\ ~ (node G u /\ node G v)
    end).
Proof. intros wf. apply bidirectional_ans. assumption. Qed.
Theorem C10_has_path (G : graph) (u v : nkey) : gwf G ->
  answers G (has_path G u v) (fun o =>
    match o with
    | Val b => node G u /\ node G v /\ (b = true <-> reach (edge G) u v)
    | Raise e => e = EKey /\ ~ (node G u /\ node G v)
    end).
Proof.
  intros wf. unfold has_path. eapply answers_try with (R0 := fun o => match o with
    | Val b => b = true /\ node G u /\ node G v /\ reach (edge G) u v
    | Raise ENoPath => node G u /\ node G v /\ ~ reach (edge G) u v
    | Raise e => e = EKey /\ ~ (node G u /\ node G v) end).
  - eapply answers_bind; [apply bidirectional_ans; assumption| |].
    + intros x (H1 & H2 & d & _ & H3 & _). apply answers_ret. repeat split; try assumption. exists d. assumption.
    + intros e H. exact H.
  - intros b (-> & H1 & H2 & H3). tauto.
  - intros [] H E; simpl in E; try discriminate; exact H.
  - intros [] H E; simpl in E; try discriminate. apply answers_ret. destruct H as (H1 & H2 & H3).
    repeat split; try assumption; [discriminate|tauto].
Qed.
(** efficiency: 1/distance, 0 when there is no path; equal endpoints are a division by zero *)
Theorem C10_efficiency (G : graph) (u v : nkey) : gwf G -> g_dir G = false ->
  answers G (nx_efficiency G u v) (fun o =>
    match o with
    | Val x => node G u /\ node G v /\ u <> v /\
               ((exists d, dist (edge G) u v (S d) /\ x == 1 / inject_Z (Z.of_nat (S d)))%Q \/ (~ reach (edge G) u v /\ x == 0)%Q)
    | Raise EZeroDiv => node G u /\ u = v
    | Raise e => e = EKey /\ ~ (node G u /\ node G v)
    end).
Proof.
  intros wf Hd. unfold nx_efficiency. rewrite Hd. unfold efficiency. eapply answers_try with (R0 := fun o => match o with
    | Val x => node G u /\ node G v /\ exists d, dist (edge G) u v (S d) /\ (x == 1 / inject_Z (Z.of_nat (S d)))%Q
    | Raise ENoPath => node G u /\ node G v /\ ~ reach (edge G) u v
    | Raise EZeroDiv => node G u /\ u = v
    | Raise e => e = EKey /\ ~ (node G u /\ node G v) end).
  - eapply answers_bind; [apply bidirectional_ans; assumption| |].
    + intros x (H1 & H2 & d & -> & H3). destruct d as [|d].
      * apply answers_raise. split; [assumption|]. destruct H3 as [H3 _]. inversion H3. reflexivity.
      * apply answers_if; [intros E; apply Z.eqb_eq in E; lia|]. intros _. apply answers_ret. split; [assumption|]. split; [assumption|].
        exists d. split; [assumption|reflexivity].
    + intros [] H; try exact H; destruct H as [H _]; discriminate.
  - intros x (H1 & H2 & d & H3 & H4). repeat split; try assumption.
    + intros ->. assert (dist (edge G) v v 0) by (split; [constructor|lia]). pose proof (dist_unique _ _ _ _ _ H3 H). lia.
    + left. eauto.
  - intros [] H E; simpl in E; try discriminate; exact H.
  - intros [] H E; simpl in E; try discriminate. apply answers_ret. destruct H as (H1 & H2 & H3).
    repeat split; try assumption.
    + intros ->. apply H3. apply reach_refl.
    + right. split; [assumption|reflexivity].
Qed.
Theorem C10_efficiency_directed (G : graph) (u v : nkey) : g_dir G = true -> raises G (nx_efficiency G u v) ENotImpl.
Proof. intros Hd. unfold nx_efficiency. rewrite Hd. apply answers_raise. reflexivity. Qed.

(** ** C11 *)
Lemma full_iff {V} (v : vec V) m : vsize v = m -> (nvals v = m <-> forall i, i < m -> has (vget v i) = true).
Proof.
  intros Hs. unfold nvals. rewrite Hs. apply cnt_all.
Qed.
Lemma no_nodes G : gwf G -> glen G = 0 <-> gnodes G = [].
Proof.
  intros wf. pose proof (kok_len _ _ (gkok G wf)) as H. unfold glen, gnodes. rewrite <- H. destruct (g_kid G); simpl; split; congruence.
Qed.
Definition nodes_empty (G : graph) : Prop := forall u, ~ node G u.
Lemma nodes_empty_iff G : gwf G -> glen G = 0 <-> nodes_empty G.
Proof.
  intros wf. rewrite (no_nodes G wf). unfold nodes_empty, node. destruct (gnodes G) as [|k l]; split; intros H; try discriminate.
  - intros u [].
  - reflexivity.
  - destruct (H k). left. reflexivity.
Qed.
Lemma conn_iff G (wf : gwf G) (E : nkey -> nkey -> Prop) (F : nat -> nat -> Prop) u i : lifted G E F -> (forall a b, E a b -> E b a) ->
  kid G u = Some i ->
  (forall j, j < nrows (g_A G) -> reach F i j) <-> (forall a b, node G a -> node G b -> reach E a b).
Proof.
  intros HL Hsym Hu. split.
  - intros H a b Ha Hb. apply node_kid in Ha as [ia Ha]. apply node_kid in Hb as [ib Hb].
    apply reach_trans with u.
    + apply reach_rev. apply (reach_ext E (rev E)); [intros x y; unfold rev; split; apply Hsym|].
      apply (reach_lift G wf E F u i a HL Hu). exists ia. split; [assumption|]. apply H. eapply kid_lt; eassumption.
    + apply (reach_lift G wf E F u i b HL Hu). exists ib. split; [assumption|]. apply H. eapply kid_lt; eassumption.
  - intros H j Hj. destruct (kid_key G wf j Hj) as [k Hk].
    assert (Hr : reach E u k) by (apply H; apply node_kid; eauto).
    apply (reach_lift G wf E F u i k HL Hu) in Hr as (j' & Hj' & Hr). congruence.
Qed.
Theorem C11_is_connected (G : graph) : gwf G -> g_dir G = false ->
  answers G (nx_is_connected G) (fun o =>
    match o with
    | Val b => ~ nodes_empty G /\ (b = true <-> forall u v, node G u -> node G v -> reach (edge G) u v)
    | Raise e => e = EPointless /\ nodes_empty G
    end).
Proof.
  intros wf Hd. unfold nx_is_connected, is_connected. rewrite Hd. destruct (Nat.eqb_spec (glen G) 0) as [E0|E0].
  { apply answers_raise. split; [reflexivity|]. apply nodes_empty_iff; assumption. }
  assert (Hne : ~ nodes_empty G) by (rewrite <- (nodes_empty_iff G wf); assumption).
  unfold first_node. destruct (gnodes G) as [|k l] eqn:Eg; [exfalso; apply E0, no_nodes; assumption|]. apply answers_ret_bind.
  assert (Hk : node G k) by (unfold node; rewrite Eg; left; reflexivity). apply node_kid in Hk as [i Hi].
  assert (Li : i < nrows (g_A G)) by (eapply kid_lt; eassumption).
  unfold bfs_plain. rewrite Hi. eapply answers_bind_GV with (v := plain_val G false [i] None).
  { intros s HI. apply (bfs_plain_ix_ok G wf true false [i] None s HI). }
  apply answers_ret. split; [assumption|].
  assert (Hs : vsize (plain_val G false [i] None) = nrows (g_A G)) by (apply plain_val_size; intros ? [<-|[]]; assumption).
  rewrite Nat.eqb_eq. unfold glen. rewrite (full_iff _ _ Hs).
  rewrite <- (conn_iff G wf (edge G) (iedge G) k i (lifted_edge G wf) (edge_sym G wf Hd) Hi).
  split; intros H j Hj; specialize (H j Hj); apply (plain_val_reach1 G wf false i Li); assumption.
Qed.
Theorem C11_is_weakly_connected (G : graph) : gwf G -> g_dir G = true ->
  answers G (nx_is_weakly_connected G) (fun o =>
    match o with
    | Val b => ~ nodes_empty G /\ (b = true <-> forall u v, node G u -> node G v -> reach (sym (edge G)) u v)
    | Raise e => e = EPointless /\ nodes_empty G
    end).
Proof.
  intros wf Hd. unfold nx_is_weakly_connected, is_weakly_connected. rewrite Hd. destruct (Nat.eqb_spec (glen G) 0) as [E0|E0].
  { apply answers_raise. split; [reflexivity|]. apply nodes_empty_iff; assumption. }
  assert (Hne : ~ nodes_empty G) by (rewrite <- (nodes_empty_iff G wf); assumption).
  unfold first_node. destruct (gnodes G) as [|k l] eqn:Eg; [exfalso; apply E0, no_nodes; assumption|]. apply answers_ret_bind.
  assert (Hk : node G k) by (unfold node; rewrite Eg; left; reflexivity). apply node_kid in Hk as [i Hi].
  assert (Li : i < nrows (g_A G)) by (eapply kid_lt; eassumption).
  eapply answers_bind_GV; [apply (bidir_gv G wf true k i Hi)|].
  apply answers_ret. split; [assumption|]. destruct (bidir_val_spec G wf i Li) as [Hs Hv].
  rewrite Nat.eqb_eq. unfold glen. rewrite (full_iff _ _ Hs).
  rewrite <- (conn_iff G wf (sym (edge G)) (sym (iedge G)) k i (lifted_sym G _ _ (lifted_edge G wf))); [|unfold sym; tauto|assumption].
  split; intros H j Hj; specialize (H j Hj); apply Hv; assumption.
Qed.
(** each is refused on the other kind of graph *)
Theorem C11_refused (G : graph) : (g_dir G = true -> raises G (nx_is_connected G) ENotImpl) /\ (g_dir G = false -> raises G (nx_is_weakly_connected G) ENotImpl).
Proof. unfold nx_is_connected, nx_is_weakly_connected. split; intros ->; apply answers_raise; reflexivity. Qed.

(** ** C12 *)
(** the nodes to start from: one node, or a collection of nodes.  A string that is not a node is, to python, the collection of its
    characters *)
Definition slist (G : graph) (srcs : sources) : list nkey :=
  match srcs with
  | One k => if in_graph G k then [k] else match k with KS t => map (fun c => KS (String c EmptyString)) (list_ascii_of_string t) | KI _ => [] end
  | Many l => l
  end.
Lemma mapOut_val {X Y} (f : X -> outcome Y) (g : X -> Y -> Prop) l : (forall x, In x l -> exists y, f x = Val y /\ g x y) ->
  exists ys, mapOut f l = Val ys /\ Forall2 g l ys.
Proof.
  induction l as [|x l IH]; intros H; simpl.
  - exists []. split; [reflexivity|constructor].
  - destruct (H x) as (y & -> & Hy); [left; reflexivity|]. destruct IH as (ys & -> & Hys); [intros; apply H; right; assumption|].
    exists (y :: ys). split; [reflexivity|constructor; assumption].
Qed.
Lemma Forall2_nth_error {X Y} (R : X -> Y -> Prop) l l' : Forall2 R l l' -> forall k y, nth_error l' k = Some y -> exists x, nth_error l k = Some x /\ R x y.
Proof.
  induction 1 as [|x y l l' Hxy H IH]; intros [|k] z Hz; simpl in *; try discriminate.
  - injection Hz as <-. eauto.
  - apply IH. assumption.
Qed.
Lemma Forall2_len {X Y} (R : X -> Y -> Prop) l l' : Forall2 R l l' -> List.length l = List.length l'.
Proof. induction 1; simpl; congruence. Qed.
Theorem C12_bfs_layers (G : graph) (srcs : sources) : gwf G ->
  answers G (nx_bfs_layers G srcs) (fun o =>
    match o with
    | Val Ls =>
        (forall z, srcs = One (KI z) -> node G (KI z)) /\ (forall u, In u (slist G srcs) -> node G u) /\
        (forall d l, nth_error Ls d = Some l ->
           l <> [] /\ NoDup l /\ forall v, In v l <-> dist_from (edge G) (fun u => In u (slist G srcs)) v d) /\
        (forall d v, List.length Ls <= d -> ~ dist_from (edge G) (fun u => In u (slist G srcs)) v d)
    | Raise e => (e = EKey /\ exists u, In u (slist G srcs) /\ ~ node G u) \/ (e = EType /\ exists z, srcs = One (KI z) /\ ~ node G (KI z))
    end).
Proof.
  intros wf. unfold nx_bfs_layers, bfs_layers. apply answers_assoc.
  assert (H0 : answers G (match srcs with One k => if in_graph G k then ret [k] else lifto (iter_key k) | Many l => ret l end)
    (fun o => match o with Val l => l = slist G srcs /\ (forall z, srcs = One (KI z) -> node G (KI z)) | Raise e => e = EType /\ exists z, srcs = One (KI z) /\ ~ node G (KI z) end)).
  { destruct srcs as [k|l]; [|apply answers_ret; split; [reflexivity|intros; discriminate]]. apply answers_if; intros Hin.
    - apply answers_ret. unfold slist. rewrite Hin. split; [reflexivity|]. intros z Ez. injection Ez as ->. apply node_in_graph. assumption.
    - apply answers_lifto. destruct k as [z|t]; cbn [iter_key].
      + split; [reflexivity|]. exists z. split; [reflexivity|]. intros Hk. apply node_in_graph in Hk. congruence.
      + unfold slist. rewrite Hin. split; [reflexivity|]. intros z Ez. discriminate. }
  eapply answers_bind; [exact H0| |intros e [-> H]; auto].
  intros l [-> Hz]. clear H0. apply answers_assoc. unfold list_to_ids.
  destruct (mapO (dget (g_kid G)) (slist G srcs)) as [ids|] eqn:Eids; simpl.
  2:{ eapply answers_bind_e; [apply answers_lifto; reflexivity|]. left. split; [reflexivity|].
      apply mapO_none in Eids as (u & Hu & Hn). exists u. split; [assumption|]. apply not_node. exact Hn. }
  eapply answers_bind_v; [apply answers_lifto; reflexivity|].
  change (mapO (kid G) (slist G srcs) = Some ids) in Eids.
  assert (Hnodes : forall u, In u (slist G srcs) -> node G u).
  { intros u Hu. destruct (kid G u) eqn:Eu; [apply node_kid; eauto|exfalso].
    assert (mapO (kid G) (slist G srcs) = None) by (apply mapO_none; eauto). congruence. }
  assert (Hids : forall i, In i ids -> i < nrows (g_A G)).
  { intros i Hi. apply (mapO_in _ _ _ Eids) in Hi as (u & _ & Hu). eapply kid_lt; eassumption. }
  destruct ids as [|i0 ids0] eqn:Ei.
  { apply answers_ret_bind. apply answers_lifto. simpl.
    split; [assumption|]. destruct (slist G srcs); [|apply mapO_length in Eids; discriminate]. split; [assumption|]. split; [intros [|d] l; discriminate|].
    intros d v _ [(u & [] & _) _]. }
  rewrite <- Ei in *. assert (Hi0 : In i0 ids) by (rewrite Ei; left; reflexivity). clear Ei. apply answers_assoc. eapply answers_bind_GV; [apply (get_offdiag_ok G wf true)|]. cbn beta zeta.
  rewrite (off_rows G). set (n := nrows (g_A G)) in *. set (A := den_mat G KOff).
  set (q := vscatter n ids true). apply answers_ret_bind. apply answers_lifto.
  set (S0 := fun j => existsb (Nat.eqb j) ids).
  assert (Sq : vsize q = n) by (unfold q, vscatter; apply vsize_vbuild).
  assert (Hq : forall j, has (vget q j) = fresh n (EA A) S0 0 j).
  { intros j. unfold q. rewrite vget_vscatter. transitivity (S0 j); [|symmetry; apply (fresh0_src G ids false)].
    unfold S0. destruct (Nat.ltb_spec j n); cbn [andb]; [destruct (existsb _ _); reflexivity|].
    destruct (existsb (Nat.eqb j) ids) eqn:E; [|reflexivity]. apply existsb_eqb in E. apply Hids in E. lia. }
  assert (HL := layers_loop_ok A (off_wf G) (off_sq G) S0).
  replace (nrows A) with n in HL by (symmetry; apply (off_rows G)).
  specialize (HL (src_lt G ids Hids) (n - 1) 0 (vempty n) q (vsize_vempty _) Sq
              (fun j => eq_trans (f_equal has (vget_vempty n j)) eq_refl) Hq).
  destruct HL as [HL1 HL2]; [lia|]. set (L := layers_loop A (n - 1) (vempty n) q) in *.
  assert (Hfresh : forall d j, fresh n (EA A) S0 d j = true <-> dist_from (iedge G) (fun i => In i ids) j d).
  { intros d j. apply (fresh_ids G wf false ids d j Hids). }
  assert (Hall : forall d v, nth_error (q :: L) d = Some v -> vsize v = n /\ (exists j, fresh n (EA A) S0 d j = true) /\ forall j, has (vget v j) = fresh n (EA A) S0 d j).
  { intros [|d] v Hv; simpl in Hv.
    - injection Hv as <-. split; [assumption|]. split; [|assumption]. exists i0. rewrite <- Hq. unfold q. rewrite vget_vscatter. replace (i0 <? n) with true by (symmetry; apply Nat.ltb_lt, Hids; assumption).
      rewrite (proj2 (existsb_eqb ids i0) Hi0). reflexivity.
    - assert (Hlt : d < List.length L) by (apply nth_error_Some; congruence).
      assert (v = nth d L []) by (symmetry; apply nth_error_nth; assumption). subst v. apply (HL1 d Hlt). }
  destruct (mapOut_val (vector_to_list (g_kid G)) (fun (v : vec bool) l => List.length l = nvals v /\ NoDup l /\ forall k, In k l <-> exists i, kid G k = Some i /\ has (vget v i) = true) (q :: L)) as (Ls & ELs & F2).
  { intros v Hv. apply In_nth_error in Hv as [d Hv]. apply Hall in Hv as (Hs & _).
    destruct (indices_keys G wf v) as (l & Hl & ND & Hn & Hin); [unfold n in Hs; lia|]. exists l. unfold vector_to_list. rewrite Hl.
    split; [reflexivity|]. auto. }
  rewrite ELs. split; [assumption|]. split; [assumption|]. split.
  - intros d l Hl. destruct (Forall2_nth_error _ _ _ F2 d l Hl) as (v & Hv & Hlen & ND & Hin).
    destruct (Hall d v Hv) as (Hs & [j Hj] & Hf).
    assert (Hkey : forall k, In k l <-> dist_from (edge G) (fun u => In u (slist G srcs)) k d).
    { intros k. rewrite Hin, (dist_from_lift G wf _ (iedge G) (slist G srcs) ids k d (lifted_edge G wf) Eids).
      split; intros (i & Hi & H); exists i; (split; [assumption|]).
      - apply Hfresh. rewrite <- Hf. assumption.
      - rewrite Hf. apply Hfresh. assumption. }
    split; [|split; assumption]. intros ->. rewrite <- Hf in Hj. simpl in Hlen. symmetry in Hlen. apply (proj1 (nvals_zero v)) with (i := j) in Hlen.
    rewrite Hlen in Hj. discriminate.
  - intros d v Hd Hdf. apply (dist_from_lift G wf _ (iedge G) (slist G srcs) ids v d (lifted_edge G wf) Eids) in Hdf as (j & Hj & Hdf).
    apply Hfresh in Hdf. rewrite (HL2 d j) in Hdf; [discriminate|]. apply Forall2_len in F2. simpl in F2. lia.
Qed.
Theorem C12_descendants_at_distance (G : graph) (u : nkey) (d : nat) : gwf G ->
  answers G (nx_descendants_at_distance G u (Z.of_nat d)) (fun o =>
    match o with
    | Val r => node G u /\ is_set r (fun v => dist (edge G) u v d)
    | Raise e => e = EKey /\ ~ node G u
    end).
Proof.
  intros wf. unfold nx_descendants_at_distance, descendants_at_distance. apply answers_assoc.
  apply answers_idx; [|intros H; split; [reflexivity|apply not_node; assumption]].
  intros i Hi. assert (Li : i < nrows (g_A G)) by (eapply kid_lt; eassumption).
  apply answers_assoc. eapply answers_bind_GV; [apply (get_offdiag_ok G wf true)|]. cbn beta zeta.
  rewrite (off_rows G). set (n := nrows (g_A G)) in *. set (A := den_mat G KOff).
  set (q := vset (vempty n) i true).
  assert (Sq : vsize q = n) by (unfold q; rewrite vsize_vset; apply vsize_vempty).
  set (S0 := fun j => existsb (Nat.eqb j) [i]).
  assert (Hq : forall j, has (vget q j) = fresh n (EA A) S0 0 j).
  { intros j. unfold q. rewrite has_vset_empty by assumption. transitivity (S0 j); [|symmetry; apply (fresh0_src G [i] false)].
    unfold S0. simpl. rewrite orb_false_r. destruct (j =? i); reflexivity. }
  assert (Hids : forall x, In x [i] -> x < nrows (g_A G)) by (intros ? [<-|[]]; assumption).
  assert (HD := dad_loop_ok A (off_wf G) (off_sq G) S0).
  replace (nrows A) with n in HD by (symmetry; apply (off_rows G)).
  specialize (HD (src_lt G [i] Hids) d 0 (vempty n) q (vsize_vempty _) Sq
              (fun j => eq_trans (f_equal has (vget_vempty n j)) eq_refl) Hq).
  assert (HR : forall v : vec bool, vsize v = n -> (forall j, has (vget v j) = fresh n (EA A) S0 d j) ->
            is_set (to_nodeset G v) (fun v => dist (edge G) u v d)).
  { intros v Hs Hv. apply is_set_intro; [assumption|unfold n in Hs; lia|]. intros k.
    rewrite (dist_lift G wf _ (iedge G) u i k d (lifted_edge G wf) Hi).
    split; intros (j & Hj & H); exists j; (split; [assumption|]).
    - rewrite Hv. apply (fresh_dist1 G wf false i d j Li). assumption.
    - apply (fresh_dist1 G wf false i d j Li). rewrite <- Hv. assumption. }
  destruct (Z.eqb_spec (Z.of_nat d) 0) as [E|E].
  - apply answers_ret_bind, answers_ret. split; [apply node_kid; eauto|]. apply HR; [assumption|]. replace d with 0 by lia. assumption.
  - apply answers_ret_bind, answers_ret. split; [apply node_kid; eauto|]. rewrite Nat2Z.id. apply HR; apply HD.
Qed.

(** a negative distance counts as 0: the answer is the node itself, although no node is at that distance *)
Lemma dad_negative (G : graph) (u : nkey) (d : Z) s : (d < 0)%Z -> nx_descendants_at_distance G u d s = nx_descendants_at_distance G u 0 s.
Proof.
  intros L. unfold nx_descendants_at_distance, descendants_at_distance. replace (d =? 0)%Z with false by (symmetry; apply Z.eqb_neq; lia).
  replace (Z.to_nat d) with 0 by lia. reflexivity.
Qed.
Theorem C12_negative (G : graph) (u : nkey) (d : Z) : gwf G -> (d < 0)%Z ->
  answers G (nx_descendants_at_distance G u d) (fun o =>
    match o with
    | Val r => node G u /\ is_set r (fun v => v = u)
    | Raise e => e = EKey /\ ~ node G u
    end).
Proof.
  intros wf L s HI. rewrite (dad_negative G u d s L). destruct (C12_descendants_at_distance G u 0 wf s HI) as [P Q]. split; [|exact Q].
  change (Z.of_nat 0) with 0%Z in P. destruct (fst (nx_descendants_at_distance G u 0 s)) as [r|e]; [|exact P]. destruct P as [N P]. split; [exact N|].
  eapply is_set_ext; [|exact P]. intros k. cbv beta. split.
  - intros [W _]. inversion W. reflexivity.
  - intros ->. split; [constructor|]. intros; lia.
Qed.
Theorem C12_negative_refuted : exists (G : graph) u d r, gwf G /\ (d < 0)%Z /\
  fst (nx_descendants_at_distance G u d st0) = Val r /\ ns_contains r u = Val true /\ ~ exists n, d = Z.of_nat n /\ dist (edge G) u u n.
Proof.
  exists (mkg true 2 [(0, 1, 1%Z)]), (KI 0), (-1)%Z. eexists. split; [apply mkg_wf|]. split; [lia|]. split; [vm_compute; reflexivity|]. split; [vm_compute; reflexivity|].
  intros (n & E & _). lia.
Qed.


(** ** C13 *)
(** every node reaches itself, so the common ancestors of u and v include u itself when u reaches v *)
(** what is returned for every directed graph, acyclic or not *)
Theorem C13_exact (G : graph) (u v : nkey) (default : option nkey) : gwf G -> g_dir G = true ->
  let common a := reach (edge G) a u /\ reach (edge G) a v in
  answers G (nx_lowest_common_ancestor G u v default) (fun o =>
    match o with
    | Val r =>
        node G u /\ node G v /\
        ((r = default /\ forall a, ~ common a) \/ (exists a, r = Some a /\ common a /\ forall b, edge G a b -> ~ common b))
    | Raise e => (e = EKey /\ ~ (node G u /\ node G v)) \/
        (e = EIndex /\ (exists a, common a) /\ forall a, common a -> exists b, edge G a b /\ common b)
    end).
Proof.
  intros wf Hd common. unfold nx_lowest_common_ancestor, lowest_common_ancestor. rewrite Hd.
  destruct (kid G u) as [i|] eqn:Eu.
  2:{ unfold bfs_plain at 1. rewrite Eu. eapply answers_bind_e; [eapply answers_bind_e; [apply answers_raise; reflexivity|reflexivity]|].
      left. split; [reflexivity|]. apply not_node in Eu. tauto. }
  assert (Li : i < nrows (g_A G)) by (eapply kid_lt; eassumption).
  eapply answers_bind_v; [apply bfs_plain_ans; [assumption|intros i' Hi' _; rewrite Eu in Hi'; injection Hi' as <-; reflexivity|congruence]|].
  destruct (kid G v) as [j|] eqn:Ev.
  2:{ unfold bfs_plain at 1. rewrite Ev. eapply answers_bind_e; [eapply answers_bind_e; [apply answers_raise; reflexivity|reflexivity]|].
      left. split; [reflexivity|]. apply not_node in Ev. tauto. }
  assert (Lj : j < nrows (g_A G)) by (eapply kid_lt; eassumption).
  eapply answers_bind_v; [apply bfs_plain_ans; [assumption|intros i' Hi' _; rewrite Ev in Hi'; injection Hi' as <-; reflexivity|congruence]|].
  cbn zeta. set (n := nrows (g_A G)) in *.
  set (vi := plain_val G true [i] None). set (vj := plain_val G true [j] None).
  assert (Si : vsize vi = n) by (apply plain_val_size; intros ? [<-|[]]; assumption).
  assert (Sj : vsize vj = n) by (apply plain_val_size; intros ? [<-|[]]; assumption).
  set (ca := vinter (@op_pairb bool bool) vi vj).
  assert (Sca : vsize ca = n) by (unfold ca, vinter; rewrite vsize_vbuild; assumption).
  set (CA := fun x => has (vget ca x)).
  assert (HCA : forall x, CA x = true <-> reach (iedge G) x i /\ reach (iedge G) x j).
  { intros x. unfold CA, ca, vinter. rewrite vget_vbuild, Si.
    rewrite <- (reach_rev (iedge G) x i), <- (reach_rev (iedge G) x j).
    rewrite <- (plain_val_reach1 G wf true i Li x), <- (plain_val_reach1 G wf true j Lj x). fold vi vj.
    destruct (Nat.ltb_spec x n) as [Hx|Hx].
    - destruct (vget vi x), (vget vj x); simpl; split; intros H; try discriminate; try tauto; destruct H; discriminate.
    - split; [discriminate|]. intros [H _]. apply has_vget_lt in H. lia. }
  assert (Hnu : node G u) by (apply node_kid; eauto). assert (Hnv : node G v) by (apply node_kid; eauto).
  assert (HK : forall a, (reach (edge G) a u /\ reach (edge G) a v) <-> exists x, kid G a = Some x /\ CA x = true).
  { intros a. rewrite <- (reach_rev (edge G) a u), <- (reach_rev (edge G) a v).
    pose proof (lifted_rev G _ _ (lifted_edge G wf)) as HL.
    rewrite (reach_lift G wf _ _ u i a HL Eu), (reach_lift G wf _ _ v j a HL Ev). split.
    - intros [(x & Hx & H1) (y & Hy & H2)]. assert (y = x) by congruence. subst y. exists x. split; [assumption|].
      apply HCA. rewrite reach_rev in H1, H2. auto.
    - intros (x & Hx & H). apply HCA in H as [H1 H2]. split; exists x; (split; [assumption|]); apply reach_rev; assumption. }
  destruct (Nat.eqb_spec (nvals ca) 0) as [E0|E0].
  { apply answers_ret. split; [assumption|]. split; [assumption|]. left. split; [reflexivity|].
    intros a H. apply HK in H as (x & _ & H). unfold CA in H. rewrite (proj1 (nvals_zero ca) E0) in H. discriminate. }
  set (oa := vwrite (mS ca) true vj (mxv op_any op_pairb (g_A G) ca)).
  set (c2 := vwrite (mNS oa) true ca ca).
  assert (Hoa : forall x, has (vget oa x) = CA x && existsb (fun y => has (mget (g_A G) x y) && CA y) (seq 0 n)).
  { intros x. unfold oa, vwrite. rewrite vget_vbuild, Sj. unfold mS. fold (CA x). destruct (Nat.ltb_spec x n) as [Hx|Hx].
    - destruct (CA x); cbn [andb]; [|reflexivity].
      rewrite (has_mxv (g_A G) (gw_mwf G wf) (gw_sq G wf)) by assumption. unfold EA, CA. fold n. induction (seq 0 n) as [|a l IH]; [reflexivity|]. simpl. rewrite IH, andb_comm. reflexivity.
    - destruct (CA x) eqn:Ex; [|reflexivity]. apply has_vget_lt in Ex. lia. }
  assert (Hc2 : forall x, has (vget c2 x) = true <-> CA x = true /\ forall y, CA y = true -> has (mget (g_A G) x y) = false).
  { intros x. unfold c2, vwrite. rewrite vget_vbuild, Sca. unfold mNS. rewrite Hoa.
    destruct (Nat.ltb_spec x n) as [Hx|Hx].
    - destruct (CA x) eqn:Ex; cbn [andb negb]; [|fold (CA x); rewrite Ex; split; [discriminate|intros [H _]; discriminate]].
      destruct (existsb _ _) eqn:Eb; cbn [negb].
      + split; [discriminate|]. intros [_ H]. apply existsb_exists in Eb as (y & _ & Hy). apply andb_true_iff in Hy as [H1 H2].
        rewrite (H y H2) in H1. discriminate.
      + fold (CA x). rewrite Ex. split; [|reflexivity]. intros _. split; [reflexivity|]. intros y Hy.
        destruct (has (mget (g_A G) x y)) eqn:Exy; [|reflexivity]. assert (Hex : existsb (fun y => has (mget (g_A G) x y) && CA y) (seq 0 n) = true); [|congruence].
        apply existsb_exists. exists y. split; [apply in_seq; apply has_vget_lt in Hy; lia|]. rewrite Exy, Hy. reflexivity.
    - split; [discriminate|]. intros [H _]. apply has_vget_lt in H. lia. }
  destruct (vindices c2) as [|r rest] eqn:Ev2.
  { apply answers_raise. right. split; [reflexivity|].
    assert (NONE : forall x, CA x = true -> exists y, CA y = true /\ has (mget (g_A G) x y) = true).
    { intros x Hx. destruct (existsb (fun y => CA y && has (mget (g_A G) x y)) (seq 0 n)) eqn:Eb.
      - apply existsb_exists in Eb as (y & _ & Hy). apply andb_true_iff in Hy. eauto.
      - exfalso. assert (In x (vindices c2)); [|rewrite Ev2 in H; destruct H]. apply in_vindices, Hc2. split; [assumption|]. intros y Hy.
        destruct (has (mget (g_A G) x y)) eqn:Exy; [|reflexivity].
        assert (Hex : existsb (fun y => CA y && has (mget (g_A G) x y)) (seq 0 n) = true); [|congruence].
        apply existsb_exists. exists y. split; [apply in_seq; apply has_vget_lt in Hy; lia|]. rewrite Exy, Hy. reflexivity. }
    split.
    - assert (0 < nvals ca) by lia. apply nvals_pos in H as (x & b & Hb).
      assert (Hx : CA x = true) by (unfold CA; rewrite Hb; reflexivity).
      assert (Lx : x < n) by (apply has_vget_lt in Hx; lia). destruct (kid_key G wf x Lx) as [a Ha]. exists a. apply HK. eauto.
    - intros a Ha. apply HK in Ha as (x & Hx & HC). destruct (NONE x HC) as (y & Hy & Hxy).
      assert (Ly : y < n) by (apply has_vget_lt in Hy; lia). destruct (kid_key G wf y Ly) as [b Hb]. exists b. split; [|apply HK; eauto].
      apply edge_iedge. exists x, y. split; [assumption|]. split; [assumption|]. apply has_true in Hxy as [w Hw]. exists w. assumption. }
  assert (Hr : has (vget c2 r) = true) by (apply in_vindices; rewrite Ev2; left; reflexivity).
  apply Hc2 in Hr as [Hr1 Hr2].
  assert (Lr : r < n) by (apply has_vget_lt in Hr1; lia). destruct (kid_key G wf r Lr) as [a Ha].
  apply answers_idx; [|intros H; apply kid_inv in Ha; [congruence|assumption]].
  intros a' Ha'. apply answers_ret. apply kid_inv in Ha; [|assumption]. assert (a' = a) by congruence. subst a'. apply kid_inv in Ha; [|assumption].
  split; [assumption|]. split; [assumption|]. right. exists a. split; [reflexivity|].
  split; [apply HK; eauto|].
  intros b Hab Hcb. apply HK in Hcb as (y & Hy & HCy). apply edge_iedge in Hab as (r' & y' & Hr' & Hy' & w & Hw).
  assert (r' = r) by congruence. assert (y' = y) by congruence. subst. specialize (Hr2 y HCy). rewrite Hw in Hr2. discriminate.
Qed.
Theorem C13_lowest_common_ancestor (G : graph) (u v : nkey) (default : option nkey) : gwf G -> g_dir G = true ->
  acyclic (edge G) ->
  answers G (nx_lowest_common_ancestor G u v default) (fun o =>
    match o with
    | Val r =>
        node G u /\ node G v /\
        ((r = default /\ forall a, ~ (reach (edge G) a u /\ reach (edge G) a v)) \/
         (exists a, r = Some a /\ reach (edge G) a u /\ reach (edge G) a v /\
            forall b, b <> a -> reach (edge G) a b -> ~ (reach (edge G) b u /\ reach (edge G) b v)))
    | Raise e => e = EKey /\ ~ (node G u /\ node G v)
    end).
Proof.
  intros wf Hd Hac. eapply answers_conseq; [apply C13_exact; assumption|]. intros [r|e].
  - intros (Nu & Nv & [H|(a & -> & [A1 A2] & H)]); (split; [assumption|]; split; [assumption|]); [left; assumption|right].
    exists a. split; [reflexivity|]. split; [assumption|]. split; [assumption|]. intros b Hb [d Hw] [B1 B2]. destruct d as [|d]; [inversion Hw; subst; congruence|].
    destruct (walk_uncons _ _ _ _ Hw) as (z & Haz & Hzb). apply (H z Haz). split; (eapply reach_trans; [exists d; exact Hzb|assumption]).
  - intros [H|(-> & [a0 Ha0] & H)]; [assumption|]. exfalso.
    assert (L : forall d, exists y, walk (edge G) a0 d y /\ reach (edge G) y u /\ reach (edge G) y v).
    { induction d as [|d (y & Hy & Cy)]; [exists a0; split; [constructor|assumption]|].
      destruct (H y Cy) as (z & Ez & Cz). exists z. split; [econstructor; eassumption|assumption]. }
    destruct (L (S (glen G))) as (y & Hw & _).
    assert (N0 : node G a0). { destruct (walk_uncons _ _ _ _ Hw) as (z & Hz & _). apply edge_iedge in Hz as (i & _ & Hi & _). apply node_kid. eauto. }
    apply node_kid in N0 as [i Hi]. destruct (proj1 (walk_lift G wf _ _ a0 i _ y (lifted_edge G wf) Hi) Hw) as (j & _ & Hw').
    apply (acyclic_bound (glen G)) in Hw'; [lia|intros a b; apply (iedge_bounds G wf)|].
    intros x d Hc. destruct (walk_uncons _ _ _ _ Hc) as (z & Hz & _). apply iedge_bounds in Hz as [Hx _]; [|assumption].
    destruct (kid_key G wf x Hx) as [k Hk]. apply (Hac k d). apply (walk_lift G wf _ _ k x (S d) k (lifted_edge G wf) Hk). eauto.
Qed.
Theorem C13_lowest_common_ancestor_undirected (G : graph) (u v : nkey) (default : option nkey) : g_dir G = false ->
  raises G (nx_lowest_common_ancestor G u v default) ENotImpl.
Proof. intros Hd. unfold nx_lowest_common_ancestor. rewrite Hd. apply answers_raise. reflexivity. Qed.

(** ** C09 *)
(** the internal numbering follows the insertion order of the nodes (true for every graph converted from networkx) *)
Definition ids_in_order (G : graph) : Prop := map snd (g_kid G) = seq 0 (glen G).
Lemma mapM_ans G {X Y} (f : X -> M Y) (g : X -> Y -> Prop) l :
  (forall x, In x l -> answers G (f x) (fun o => exists y, o = Val y /\ g x y)) ->
  answers G (mapM f l) (fun o => exists ys, o = Val ys /\ Forall2 g l ys).
Proof.
  induction l as [|x l IH]; intros H; simpl.
  - apply answers_ret. exists []. split; [reflexivity|constructor].
  - eapply answers_bind; [apply H; left; reflexivity| |intros e (y & Hy & _); discriminate].
    intros y (y' & [= <-] & Hy). eapply answers_bind; [apply IH; intros; apply H; right; assumption| |intros e (ys & Hys & _); discriminate].
    intros ys (ys' & [= <-] & Hys). apply answers_ret. exists (y :: ys). split; [reflexivity|]. constructor; assumption.
Qed.
Definition row_ok (G : graph) (cutoff : option Z) (u : nkey) (m : nodemap Z) : Prop :=
  is_map m (fun v x => exists d, x = Z.of_nat d /\ dist (edge G) u v d /\ within cutoff d).
Lemma levels_row G (wf : gwf G) cutoff ids r u : (forall i, In i ids -> i < nrows (g_A G)) -> r < List.length ids ->
  kid G u = Some (nth r ids 0) -> row_ok G cutoff u (to_nodemap G (mrow (bfs_levels_ix (Bm G false) ids cutoff) r)).
Proof.
  intros Hids Hr Hu. destruct (levels_ix_spec G wf ids cutoff Hids) as (H1 & H2 & H3 & H4).
  apply is_map_intro; [assumption| |].
  - unfold vsize. rewrite (mrow_length _ r H3) by (rewrite H1; assumption). rewrite H2. lia.
  - intros k x. change (vget (mrow ?D r)) with (mget D r). split.
    + intros (d & -> & H & Hw). apply (dist_lift G wf _ _ u _ k d (lifted_edge G wf) Hu) in H as (j & Hj & H).
      exists j. split; [assumption|]. change (mget (bfs_levels_ix (Bm G false) ids cutoff) r j = Some (Z.of_nat d)). apply H4; eauto.
    + intros (j & Hj & H). apply (proj1 (H4 r j x Hr)) in H as (d & -> & H & Hw).
      exists d. split; [reflexivity|]. split; [|assumption]. apply (dist_lift G wf _ _ u _ k d (lifted_edge G wf) Hu). eauto.
Qed.
Lemma offdiag_Bm G : den_mat G KOff = Bm G false.
Proof. unfold Bm. reflexivity. Qed.
Lemma nodes_ids G (wf : gwf G) l : (forall u, In u l -> node G u) ->
  exists ids, list_to_ids (g_kid G) l = Val ids /\ List.length ids = List.length l /\
    (forall i, In i ids -> i < nrows (g_A G)) /\ forall r, r < List.length l -> kid G (nth r l (KI 0)) = Some (nth r ids 0).
Proof.
  intros Hl. destruct (mapO_total (kid G) l) as [ids Hids].
  { intros u Hu. apply node_kid. apply Hl. assumption. }
  exists ids. unfold list_to_ids. change (mapO (dget (g_kid G)) l) with (mapO (kid G) l). rewrite Hids. split; [reflexivity|].
  pose proof (mapO_length _ _ _ Hids) as Hlen. split; [assumption|]. split.
  - intros i Hi. apply (mapO_in _ _ _ Hids) in Hi as (u & _ & Hu). eapply kid_lt; eassumption.
  - intros r Hr. destruct (mapO_nth _ _ _ Hids r (nth r l (KI 0))) as (y & Hy & Hk); [apply nth_error_nth'; assumption|].
    rewrite Hk. f_equal. symmetry. apply nth_error_nth. assumption.
Qed.
Theorem C09_all_pairs_partial (G : graph) (pyfloat : list Ascii.ascii -> option Q) (isz : Z) (cutoff : option Z) (chunk : chunkarg) : gwf G ->
  answers G (nx_all_pairs_spl pyfloat isz G cutoff chunk) (fun o =>
    match o with
    | Val L =>
        Permutation (map fst L) (gnodes G) /\ (ids_in_order G -> map fst L = gnodes G) /\
        forall u m, In (u, m) L -> is_map m (fun v x => exists d, x = Z.of_nat d /\ dist (edge G) u v d /\ within cutoff d)
    | Raise e => normalize_chunksize pyfloat chunk (Z.of_nat (glen G) * isz) (Some (Z.of_nat (glen G))) = Raise e
    end).
Proof.
  intros wf. unfold nx_all_pairs_spl. destruct (normalize_chunksize _ _ _ _) as [cs|e] eqn:EN.
  2:{ eapply answers_bind_e; [apply answers_lifto; reflexivity|reflexivity]. }
  eapply answers_bind_v; [apply answers_lifto; reflexivity|].
  destruct cs as [c|].
  - destruct (Z.ltb_spec c 2) as [Hc|Hc].
    + eapply answers_conseq.
      * apply mapM_ans with (g := fun u p => fst p = u /\ row_ok G cutoff u (snd p)). intros u Hu.
        assert (Hn : node G u) by exact Hu. pose proof (proj1 (node_in_graph G u) Hn) as Hin.
        pose proof (level_map_ans G wf u cutoff false (fun v x => exists d, x = Z.of_nat d /\ dist (edge G) u v d /\ within cutoff d) (fun v x => iff_refl _)) as HA.
        rewrite Hin in HA. unfold single_source_spl.
        intros s HI. specialize (HA s HI). unfold bind in *. destruct (bfs_level G u None cutoff false s) as [[d|e] s']; simpl in *.
        -- destruct HA as [[_ HA] HI']. split; [|assumption]. exists (u, to_nodemap G d). simpl. auto.
        -- destruct HA as [[_ HA] _]. tauto.
      * intros o (L & -> & F2). assert (Hf : map fst L = gnodes G).
        { clear -F2. induction F2 as [|u p l L [<- _] F2 IH]; simpl; congruence. }
        rewrite Hf. split; [reflexivity|]. split; [reflexivity|]. intros u m Hin.
        clear -F2 Hin. induction F2 as [|u' p l L [<- Hp] F2 IH]; [destruct Hin|]. destruct Hin as [->|Hin]; [exact Hp|auto].
    + destruct (C66_partition c (gnodes G) true) as (chunks & -> & Hcat & _); [lia|].
      eapply answers_bind.
      * apply mapM_ans with (g := fun p L => match p with Elem _ => False | Chunk cur => map fst L = cur /\ forall u m, In (u, m) L -> row_ok G cutoff u m end).
        intros p Hp. apply in_map_iff in Hp as (cur & <- & Hcur).
        assert (Hnode : forall u, In u cur -> node G u).
        { intros u Hu. unfold node. rewrite <- Hcat. apply in_concat. eauto. }
        destruct (nodes_ids G wf cur Hnode) as (ids & Hids & Hlen & Hlt & Hnth).
        unfold all_pairs_spl, bfs_levels. apply answers_assoc, answers_assoc. eapply answers_bind_GV; [apply (get_offdiag_ok G wf true)|].
        apply answers_assoc. rewrite Hids. eapply answers_bind_v; [apply answers_lifto; reflexivity|].
        apply answers_ret_bind. cbn [andb]. apply answers_ret_bind. apply answers_ret.
        eexists. split; [reflexivity|]. split.
        -- rewrite map_map. simpl. clear. assert (forall a, map snd (combine (seq a (List.length cur)) cur) = cur) as H; [|apply H].
           induction cur as [|u cur IH]; intros a; simpl; [reflexivity|]. rewrite IH. reflexivity.
        -- intros u m Hin. apply in_map_iff in Hin as ([r u'] & [= <- <-] & Hin). cbn [fst snd].
           assert (Hr : r < List.length cur /\ nth r cur (KI 0) = u').
           { assert (Hin0 := Hin). apply In_nth with (d := (0, KI 0)) in Hin as (q & Hq & Hin).
             rewrite combine_length, seq_length, Nat.min_id in Hq. rewrite combine_nth in Hin by apply seq_length.
             rewrite seq_nth in Hin by assumption. injection Hin as <- <-. simpl. auto. }
           destruct Hr as [Hr <-]. change (row_ok G cutoff (nth r cur (KI 0)) (to_nodemap G (mrow (bfs_levels_ix (Bm G false) ids cutoff) r))). apply levels_row; [assumption|assumption|lia|]. apply Hnth. assumption.
      * intros Ls (Ls' & [= <-] & F2). apply answers_ret.
        assert (Hcc : map fst (List.concat Ls) = List.concat chunks /\ forall u m, In (u, m) (List.concat Ls) -> row_ok G cutoff u m).
        { clear -F2. remember (map Chunk chunks) as pl eqn:Epl. revert chunks Epl. induction F2 as [|p L pl Ls Hp F2 IH]; intros chunks Epl.
          - destruct chunks; [|discriminate]. split; [reflexivity|intros ? ? []].
          - destruct chunks as [|cur chunks]; [discriminate|]. injection Epl as -> ->. destruct Hp as [H1 H2].
            destruct (IH chunks eq_refl) as [I1 I2]. simpl. rewrite map_app, H1, I1. split; [reflexivity|].
            intros u m Hin. apply in_app_or in Hin as [Hin|Hin]; eauto. }
        destruct Hcc as [Hf Hr]. rewrite Hf, Hcat. split; [reflexivity|]. split; [reflexivity|]. exact Hr.
      * intros e (y & Hy & _). discriminate.
  - unfold all_pairs_spl, bfs_levels. apply answers_assoc, answers_assoc. eapply answers_bind_GV; [apply (get_offdiag_ok G wf true)|].
    apply answers_ret_bind. apply answers_ret_bind. apply answers_lifto.
    rewrite (off_rows G), offdiag_Bm. set (n := nrows (g_A G)).
    assert (Hids : forall i, In i (seq 0 n) -> i < n) by (intros i Hi; apply in_seq in Hi; lia).
    destruct (levels_ix_spec G wf (seq 0 n) cutoff Hids) as (H1 & H2 & H3 & H4). rewrite seq_length in H1.
    set (D := bfs_levels_ix (Bm G false) (seq 0 n) cutoff) in *.
    assert (Hrow : forall i, i < n -> has (vget (rows_of D) i) = true).
    { intros i Hi. unfold rows_of, vmap. rewrite vget_vbuild, vsize_vbuild, H1. replace (i <? n) with true by (symmetry; apply Nat.ltb_lt; assumption).
      rewrite vget_vbuild_lt by assumption.
      assert (Hii : mget D i i = Some 0%Z).
      { apply H4; [rewrite seq_length; assumption|]. exists 0. split; [reflexivity|]. split.
        - rewrite seq_nth by assumption. split; [constructor|lia].
        - unfold within. destruct cutoff; [lia|exact I]. }
      assert (Hh : has (ored op_any (ncols D) (fun j => mget D i j)) = true).
      { rewrite has_ored. apply negb_true_iff, Nat.eqb_neq. assert (0 < cnt (ncols D) (fun j => has (mget D i j))); [|lia].
        apply cnt_pos. exists i. split; [unfold n in Hi; lia|]. rewrite Hii. reflexivity. }
      destruct (ored _ _ _); [reflexivity|discriminate]. }
    assert (Srow : vsize (rows_of D) = n) by (unfold rows_of, vmap; rewrite !vsize_vbuild; assumption).
    unfold nnm_items, rm_iter. simpl.
    destruct (indices_keys G wf (rows_of D)) as (ks & Hks & ND & _ & Hin); [unfold n in Srow; lia|]. rewrite Hks. simpl.
    destruct (mapOut_val (fun k => match nnm_getitem (RM D (g_kid G) (Some (rows_of D)) None) k with Val (m, _) => Val (k, m) | Raise e => Raise e end)
              (fun k p => fst p = k /\ row_ok G cutoff k (snd p)) ks) as (L & EL & F2).
    { intros k Hk. apply Hin in Hk as (i & Hi & Hr). unfold nnm_getitem. simpl. fold (kid G k). rewrite Hi, Hr.
      eexists. split; [reflexivity|]. split; [reflexivity|]. simpl.
      assert (Li : i < n) by (eapply kid_lt; eassumption).
      apply (levels_row G wf cutoff (seq 0 n) i k); [assumption|rewrite seq_length; assumption|]. rewrite seq_nth by assumption. assumption. }
    rewrite EL. assert (Hf : map fst L = ks) by (clear -F2; induction F2 as [|u p l L [<- _] F2 IH]; simpl; congruence).
    split; [|split].
    + rewrite Hf. apply NoDup_Permutation; [assumption|apply (gw_keys G wf)|]. intros k. rewrite Hin. split.
      * intros (i & Hi & _). apply node_kid. eauto.
      * intros Hk. apply node_kid in Hk as [i Hi]. exists i. split; [assumption|]. apply Hrow. eapply kid_lt; eassumption.
    + intros Ho. rewrite Hf. assert (Ev : vindices (rows_of D) = map snd (g_kid G)).
      { rewrite Ho. unfold glen. rewrite vindices_filter, Srow. fold n.
        assert (forall l, (forall i, In i l -> i < n) -> filter (fun i => has (vget (rows_of D) i)) l = l) as Hfil; [|apply Hfil; assumption].
        induction l as [|a l IH]; intros Hl; simpl; [reflexivity|]. rewrite Hrow by (apply Hl; left; reflexivity). rewrite IH; [reflexivity|].
        intros i Hi. apply Hl. right. assumption. }
      rewrite Ev in Hks. unfold gnodes.
      assert (NDs : NoDup (map snd (g_kid G))) by (eapply kok_nd_snd, gkok; assumption).
      assert (Hm : forall l ks, incl l (g_kid G) -> mapO (ikey (g_kid G)) (map snd l) = Some ks -> ks = map fst l).
      { induction l as [|[k i] l IH]; intros ks0 Hi; simpl; [intros [= <-]; reflexivity|].
        rewrite (In_ikey (g_kid G) i k NDs) by (apply Hi; left; reflexivity).
        destruct (mapO (ikey (g_kid G)) (map snd l)) as [ks1|] eqn:E1; [|discriminate]. intros [= <-]. f_equal. apply IH; [|reflexivity].
        intros x Hx. apply Hi. right. assumption. }
      apply Hm; [apply incl_refl|assumption].
    + intros u m Hin'. clear -F2 Hin'. induction F2 as [|u' p l L [<- Hp] F2 IH]; [destruct Hin'|]. destruct Hin' as [->|Hin']; [exact Hp|auto].
Qed.
(** ... so with ids in insertion order the sequence of keys is G's own order whatever the chunking; without, it depends on it *)
Definition G_perm : graph := {| g_dir := true; g_A := mbuild 2 2 (eget true [(0, 1, 1%Z)]); g_dt := DInt; g_iso := false;
                                g_kid := [(KI 5, 1); (KI 7, 0)] |}.
Lemma G_perm_wf : gwf G_perm.
Proof.
  pose proof (mkg_wf true 2 [(0, 1, 1%Z)]) as [H1 H2 H3 H4 H5 _ _]. constructor; auto.
  - repeat constructor; simpl; intuition discriminate.
  - simpl. apply perm_swap.
Qed.
Definition no_float (s : list Ascii.ascii) : option Q := None.
Theorem C09_order_refuted : gwf G_perm /\
  match fst (nx_all_pairs_spl no_float 8 G_perm None CANone st0), fst (nx_all_pairs_spl no_float 8 G_perm None (CANum 1) st0) with
  | Val L1, Val L2 => map fst L1 = [KI 7; KI 5] /\ map fst L2 = [KI 5; KI 7]
  | _, _ => False
  end.
Proof. split; [apply G_perm_wf|]. vm_compute. auto. Qed.
(** algorithms-level [nodes=]: one row per requested node, in the order requested *)
Theorem C09_nodes (G : graph) (cutoff : option Z) (nodes : list nkey) : gwf G -> (forall u, In u nodes -> node G u) ->
  answers G (all_pairs_spl G cutoff (Some nodes) false) (fun o =>
    exists D, o = Val D /\ nrows D = List.length nodes /\
      forall r u, nth_error nodes r = Some u -> is_map (to_nodemap G (mrow D r)) (fun v x => exists d, x = Z.of_nat d /\ dist (edge G) u v d /\ within cutoff d)).
Proof.
  intros wf Hn. destruct (nodes_ids G wf nodes Hn) as (ids & Hids & Hlen & Hlt & Hnth).
  unfold all_pairs_spl, bfs_levels. apply answers_assoc. eapply answers_bind_GV; [apply (get_offdiag_ok G wf true)|].
  apply answers_assoc. rewrite Hids. eapply answers_bind_v; [apply answers_lifto; reflexivity|].
  apply answers_ret_bind. cbn [andb]. apply answers_ret. eexists. split; [reflexivity|]. rewrite offdiag_Bm.
  destruct (levels_ix_spec G wf ids cutoff Hlt) as (H1 & _). split; [rewrite H1; assumption|].
  intros r u Hu. assert (Hr : r < List.length nodes) by (apply nth_error_Some; congruence).
  apply levels_row; [assumption|assumption|lia|]. rewrite <- (Hnth r Hr). f_equal. symmetry. apply nth_error_nth. assumption.
Qed.
(** [rv[ids, :] = D]: row i of the expanded matrix is the row of D for the node with id i, or empty *)
Definition expanded {V} (D : mat V) (ids : list nat) : mat V :=
  mbuild (ncols D) (ncols D) (fun i j => match find (fun r => nth r ids 0 =? i) (seq 0 (List.length ids)) with Some r => mget D r j | None => None end).
Lemma expanded_row {V} (D : mat V) ids i : mwf D -> nrows D = List.length ids -> i < ncols D ->
  (exists r, r < List.length ids /\ nth r ids 0 = i /\ mrow (expanded D ids) i = mrow D r) \/
  (~ In i ids /\ forall j, vget (mrow (expanded D ids) i) j = None).
Proof.
  intros W N L. unfold expanded. rewrite mrow_mbuild by assumption. destruct (find _ _) as [r|] eqn:F.
  - left. apply find_some in F as [F1 F2]. apply in_seq in F1. apply Nat.eqb_eq in F2. exists r. split; [lia|]. split; [assumption|].
    rewrite <- (vbuild_vget (mrow D r)). unfold vsize. rewrite mrow_length by (try assumption; lia). apply vbuild_ext. reflexivity.
  - right. split; [|intros j; rewrite vget_vbuild; destruct (j <? ncols D); reflexivity]. intros Hin. apply In_nth with (d := 0) in Hin as (r & Hr & E).
    apply find_none with (x := r) in F; [|apply in_seq; lia]. apply Nat.eqb_neq in F. contradiction.
Qed.
Lemma nodes_in_ids G (wf : gwf G) nodes ids u i : List.length ids = List.length nodes ->
  (forall r, r < List.length nodes -> kid G (nth r nodes (KI 0)) = Some (nth r ids 0)) -> kid G u = Some i -> (In u nodes <-> In i ids).
Proof.
  intros L H Hu. split; intros Hin; (apply In_nth with (d := KI 0) in Hin || apply In_nth with (d := 0) in Hin); destruct Hin as (r & Hr & E).
  - rewrite <- E, H in Hu by assumption. injection Hu as <-. apply nth_In. lia.
  - rewrite L in Hr. specialize (H r Hr). rewrite E in H. rewrite (kid_inj G wf _ _ _ Hu H). apply nth_In. assumption.
Qed.
(** with expand_output=True and fewer nodes requested than there are, the row of every node: empty unless
    the node was requested *)
Theorem C09_nodes_expand (G : graph) (cutoff : option Z) (nodes : list nkey) : gwf G -> (forall u, In u nodes -> node G u) ->
  List.length nodes < glen G ->
  answers G (all_pairs_spl G cutoff (Some nodes) true) (fun o =>
    exists D, o = Val D /\ nrows D = glen G /\
      forall u i, kid G u = Some i -> is_map (to_nodemap G (mrow D i)) (fun v x => In u nodes /\ exists d, x = Z.of_nat d /\ dist (edge G) u v d /\ within cutoff d)).
Proof.
  intros wf Hn Hl. destruct (nodes_ids G wf nodes Hn) as (ids & Hids & Hlen & Hlt & Hnth).
  unfold all_pairs_spl, bfs_levels. apply answers_assoc. eapply answers_bind_GV; [apply (get_offdiag_ok G wf true)|].
  apply answers_assoc. rewrite Hids. eapply answers_bind_v; [apply answers_lifto; reflexivity|].
  apply answers_ret_bind. rewrite offdiag_Bm.
  destruct (levels_ix_spec G wf ids cutoff Hlt) as (H1 & H2 & H3 & H4). set (D := bfs_levels_ix (Bm G false) ids cutoff) in *.
  assert (E : ncols D =? nrows D = false) by (apply Nat.eqb_neq; rewrite H1, H2, Hlen; unfold glen in Hl; lia). rewrite E. cbn [andb negb].
  eapply answers_bind_v; [apply answers_lifto; reflexivity|]. apply answers_ret. eexists. split; [reflexivity|].
  fold (expanded D ids). split; [unfold expanded; rewrite nrows_mbuild; exact H2|].
  intros u i Hu. assert (Li : i < ncols D) by (rewrite H2; exact (kid_lt G wf _ _ Hu)).
  destruct (expanded_row D ids i H3 H1 Li) as [(r & Hr & Er & ->)|[Hni Hno]].
  - assert (Hin : In u nodes) by (apply (nodes_in_ids G wf nodes ids u i Hlen Hnth Hu); rewrite <- Er; apply nth_In; assumption).
    eapply is_map_ext; [|apply (levels_row G wf cutoff ids r u Hlt Hr); rewrite Er; exact Hu].
    intros v x. split; [intros K; split; assumption|intros [_ K]; exact K].
  - assert (Hnin : ~ In u nodes) by (rewrite (nodes_in_ids G wf nodes ids u i Hlen Hnth Hu); assumption).
    apply is_map_intro; [assumption| |].
    + unfold expanded. rewrite mrow_mbuild by assumption. rewrite vsize_vbuild. lia.
    + intros v x. split; [tauto|]. intros (j & _ & K). rewrite Hno in K. discriminate.
Qed.
(** expand_output=True does nothing when as many nodes are requested as there are, even in another order:
    row 0 of the result is then not the row of node id 0 *)
Theorem C09_expand_refuted : gwf (mkg true 2 [(0, 1, 1%Z)]) /\
  match fst (all_pairs_spl (mkg true 2 [(0, 1, 1%Z)]) None (Some [KI 1; KI 0]) true st0) with
  | Val D => mget D 0 0 = None /\ mget D 0 1 = Some 0%Z
  | Raise _ => False
  end.
Proof. split; [apply mkg_wf|]. vm_compute. auto. Qed.

Example C09_nodes_expand_ex :
  match fst (all_pairs_spl (mkg true 3 [(0, 1, 1%Z); (1, 2, 1%Z)]) None (Some [KI 2; KI 0]) true st0) with
  | Val D => mget D 0 2 = Some 2%Z /\ mget D 1 1 = None /\ mget D 2 2 = Some 0%Z
  | Raise _ => False
  end.
Proof. vm_compute. auto. Qed.

(** ** Concrete instances *)
(** 0 -> 1 -> 3, 0 -> 2 -> 3, 4 isolated, self-loop at 1 *)
Definition ex_dag : graph := mkg true 5 [(0, 1, 7%Z); (0, 2, 1%Z); (1, 3, 1%Z); (2, 3, 1%Z)].
Definition ex_und : graph := mkg false 4 [(0, 1, 1%Z); (1, 1, 5%Z); (1, 2, 1%Z)].
Lemma acyclic_rank {X} (E : X -> X -> Prop) (f : X -> nat) : (forall a b, E a b -> f a < f b) -> acyclic E.
Proof.
  intros H x d Hw. assert (L : forall d y, walk E x d y -> f x + d <= f y); [|apply L in Hw; lia].
  clear d Hw. intros d y Hw. induction Hw as [|d y z _ IH HE]; [lia|]. apply H in HE. lia.
Qed.
Example C13_ex_acyclic : acyclic (edge ex_dag).
Proof.
  apply acyclic_rank with (f := fun k => match kid ex_dag k with Some i => i | None => 0 end).
  intros a b H. apply edge_iedge in H as (i & j & -> & -> & w & H). revert H. unfold ex_dag, mkg; cbn [g_A]. rewrite mget_mbuild.
  destruct (Nat.ltb_spec i 5), (Nat.ltb_spec j 5); cbn [andb]; try discriminate.
  do 5 (destruct i as [|i]; [do 5 (destruct j as [|j]; [simpl; intros; try discriminate; lia|]); lia|]). lia.
Qed.
Example C07_ex : exists s r, nx_descendants ex_dag (KI 0) st0 = (Val r, s) /\ ns_iter r = Val [KI 1; KI 2; KI 3].
Proof. eexists. eexists. split; [reflexivity|]. vm_compute. reflexivity. Qed.
Example C08_ex : exists s r, nx_single_source_spl ex_dag (KI 0) (Some 1%Z) st0 = (Val r, s) /\ nm_iter r = Val [KI 0; KI 1; KI 2].
Proof. eexists. eexists. split; [reflexivity|]. vm_compute. reflexivity. Qed.
Example C10_ex : exists s, bidirectional_spl ex_dag (KI 0) (KI 3) st0 = (Val 2%Z, s) /\
                 exists s', bidirectional_spl ex_dag (KI 3) (KI 0) st0 = (Raise ENoPath, s').
Proof. eexists. split; [reflexivity|]. eexists. reflexivity. Qed.
Example C11_ex : fst (nx_is_connected ex_und st0) = Val false /\ fst (nx_is_connected (mkg false 3 [(0, 1, 1%Z); (1, 2, 1%Z)]) st0) = Val true /\
                 fst (nx_is_weakly_connected (mkg true 3 [(0, 1, 1%Z); (2, 1, 1%Z)]) st0) = Val true.
Proof. vm_compute. auto. Qed.
Definition ex_abc : graph := mkgk true [KS "a"; KS "b"; KS "c"] [(0, 2, 1%Z)].
Example C12_ex_string : gwf ex_abc /\ fst (nx_bfs_layers ex_abc (One (KS "ab")) st0) = Val [[KS "a"; KS "b"]; [KS "c"]].
Proof. split; [apply mkgk_wf; repeat constructor; simpl; intuition discriminate|vm_compute; reflexivity]. Qed.
Example C12_ex : fst (nx_bfs_layers ex_dag (Many [KI 1; KI 2]) st0) = Val [[KI 1; KI 2]; [KI 3]].
Proof. vm_compute. reflexivity. Qed.
Example C13_ex : fst (nx_lowest_common_ancestor ex_dag (KI 1) (KI 2) None st0) = Val (Some (KI 0)) /\
                 fst (nx_lowest_common_ancestor ex_dag (KI 1) (KI 4) (Some (KI 9)) st0) = Val (Some (KI 9)).
Proof. vm_compute. auto. Qed.
Example C09_ex : match fst (nx_all_pairs_spl no_float 8 ex_dag None (CANum 2) st0) with
                 | Val L => map fst L = [KI 0; KI 1; KI 2; KI 3; KI 4] | Raise _ => False end.
Proof. vm_compute. reflexivity. Qed.

Print Assumptions C07_descendants.
Print Assumptions C07_ancestors.
Print Assumptions C07_node_connected_component.
Print Assumptions C08_single_source.
Print Assumptions C08_single_target.
Print Assumptions C09_all_pairs_partial.
Print Assumptions C09_order_refuted.
Print Assumptions C09_nodes.
Print Assumptions C09_expand_refuted.
Print Assumptions C09_nodes_expand.
Print Assumptions C10_bidirectional_length.
Print Assumptions C10_has_path.
Print Assumptions C10_efficiency.
Print Assumptions C10_efficiency_directed.
Print Assumptions C11_is_connected.
Print Assumptions C11_is_weakly_connected.
Print Assumptions C12_bfs_layers.
Print Assumptions C12_descendants_at_distance.
Print Assumptions C13_exact.
Print Assumptions C13_lowest_common_ancestor.
Print Assumptions C13_lowest_common_ancestor_undirected.
Print Assumptions C07_node_connected_component_directed.
Print Assumptions C11_refused.
