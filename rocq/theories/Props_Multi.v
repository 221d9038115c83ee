(** * C94: multigraphs *)
From Verif Require Import Base BaseProofs Model_Graph Model_Cache Spec_Cache CacheMath CacheProofs CacheProofs2
  Model_Keys Spec KeyProofs Spec_Run RunProofs Model_Utils Model_Bfs BfsProofs3 Walks Model_Operators OperatorProofs Props_Operators Props_Bfs
  Spec_Count Model_Measures CountProofs Props_Cuts Props_Measures Props_Triad Spec_Weighted Model_Weighted Props_Weighted Props_PathHist
  Model_Dense Props_Dense Model_Cluster Spec_Cluster ClusterProofs Props_Cluster Model_Ego Model_Linalg Spec_Linalg Props_Linalg
  Spec_Iso IsoProofs Model_Rank Spec_Rank Props_Pagerank Model_Nx Props_Nx Concrete Props_Numbering Model_Convert Props_Convert
  Model_Public Spec_Public Props_Public Model_Multi Spec_Multi.
From Coq Require Import QArith Qcanon Permutation.
Open Scope nat_scope.
Local Notation answers := Spec_Run.answers.

(** ** the conversion of a networkx multigraph *)
Lemma dget_mapv {V W} (f : V -> W) (l : list (nkey * V)) k : dget (map (fun kv => (fst kv, f (snd kv))) l) k = omap f (dget l k).
Proof. induction l as [|[k' v] l IH]; [reflexivity|]. cbn [map dget fst snd]. destruct (nkey_eqb k k'); [reflexivity|exact IH]. Qed.
Definition merged (N : nxmulti) (w : option nkey) (dt : option dtype) : nxgraph :=
  {| nx_dir := xm_dir N; nx_nattr := xm_nattr N;
     nx_adj := map (fun nb => (fst nb, map (fun vl => (fst vl, [(KS "weight", oget 0%Z (summed w dt (snd vl)))])) (snd nb))) (xm_adj N) |}.
Lemma merged_data N w dt u v : nx_data (merged N w dt) u v = omap (fun l => [(KS "weight", oget 0%Z (summed w dt l))]) (xm_data N u v).
Proof.
  unfold nx_data, xm_data. cbn [merged nx_adj]. rewrite (dget_mapv (fun nb => map (fun vl => (fst vl, [(KS "weight", oget 0%Z (summed w dt (snd vl)))])) nb)).
  destruct (dget (xm_adj N) u) as [nb|]; [|reflexivity]. cbn [omap]. apply (dget_mapv (fun l => [(KS "weight", oget 0%Z (summed w dt l))])).
Qed.
Lemma merged_nodes N w dt : nx_nodes (merged N w dt) = xm_nodes N.
Proof. unfold nx_nodes, xm_nodes. cbn [merged nx_adj]. rewrite map_map. reflexivity. Qed.
Lemma merged_wf N w dt : xmwf N -> nxwf (merged N w dt).
Proof.
  intros H. constructor.
  - rewrite merged_nodes. apply H.
  - intros u v x E. rewrite merged_data in E. destruct (xm_data N u v) as [l|] eqn:El; [|discriminate]. rewrite merged_nodes. apply (xw_ends N H u v l El).
  - intros D u v. rewrite !merged_data. rewrite (xw_sym N H D u v). reflexivity.
Qed.
Definition read_of (dt : option dtype) : option nkey := match dt with Some DBool => None | _ => Some (KS "weight") end.
Lemma from_multi_merged orc dir N w dt : xmwf N -> from_multi orc dir N w dt = from_networkx_as orc dir (merged N w dt) (read_of dt) dt.
Proof.
  intros H. unfold from_multi, from_networkx_as, from_networkx. rewrite merged_nodes. unfold new_graph. cbn [g_A g_dt g_iso g_kid].
  assert (E : forall u v, summed w dt (xm_edges N u v) = match nx_data (merged N w dt) u v with Some x => Some (edge_value (read_of dt) x) | None => None end).
  { intros u v. rewrite merged_data. unfold xm_edges. destruct (xm_data N u v) as [l|] eqn:El; [|reflexivity]. cbn [oget omap].
    pose proof (xw_some N H u v l El) as Hl. destruct l as [|e l]; [congruence|]. unfold summed. destruct dt as [[| | |]|]; reflexivity. }
  match goal with |- context[mbuild ?n ?m ?f] => set (F := f) end.
  match goal with |- _ = {| g_dir := _; g_A := mbuild ?n ?m ?f; g_dt := _; g_iso := _; g_kid := _ |} => assert (EM : mbuild n m F = mbuild n m f) end.
  { apply mbuild_ext. intros i j _ _. unfold F. destruct (nth_error (xm_nodes N) i); [|reflexivity]. destruct (nth_error (xm_nodes N) j); [|reflexivity]. apply E. }
  rewrite EM. reflexivity.
Qed.
Definition is_bool (dt : option dtype) : bool := match dt with Some DBool => true | _ => false end.
Lemma worth_sum w l : fold_right (fun e z => (edge_value w (snd e) + z)%Z) 0%Z l = total (edge_worth w) l.
Proof.
  unfold total. induction l as [|e l IH]; [reflexivity|]. cbn [fold_right map]. rewrite IH. f_equal.
Qed.
Lemma merged_weight N w dt u v : xmwf N -> nx_weight (merged N w dt) (read_of dt) u v = multi_weight (is_bool dt) N w u v.
Proof.
  intros H. unfold nx_weight, multi_weight, multi_worth. rewrite merged_data. unfold xm_edges. destruct (xm_data N u v) as [l|] eqn:El; [|reflexivity].
  cbn [omap oget]. pose proof (xw_some N H u v l El) as Hl. destruct l as [|e l]; [congruence|]. cbn [summed oget].
  rewrite worth_sum. destruct dt as [[| | |]|]; reflexivity.
Qed.
Theorem C94_from_networkx orc dir N w dt : xmwf N -> dtype_ok dt w -> (dir = false -> xm_dir N = false) ->
  represents (from_multi orc dir N w dt) dir (xm_nodes N) (multi_weight (is_bool dt) N w).
Proof.
  intros H Hd Hs. rewrite (from_multi_merged _ _ _ _ _ H).
  assert (Hd' : dtype_ok dt (read_of dt)) by (destruct Hd as [->|[->|[-> ->]]]; [left|right; left|right; right]; auto).
  destruct (as_represents orc (merged N w dt) (read_of dt) dt dir (merged_wf N w dt H) Hd' Hs) as (P1 & P2 & P3 & P4).
  split; [exact P1|]. split; [exact P2|]. split; [rewrite P3; apply merged_nodes|]. intros u v. rewrite P4. apply merged_weight. exact H.
Qed.
(** without an attribute the weight is the number of parallel edges *)
Theorem C94_counts N u v : multi_weight false N None u v = match xm_edges N u v with [] => None | l => Some (Z.of_nat (List.length l)) end.
Proof.
  unfold multi_weight, multi_worth. destruct (xm_edges N u v) as [|e l]; [reflexivity|]. f_equal. unfold total, edge_worth. generalize (e :: l).
  intros L. induction L as [|x L IH]; [reflexivity|]. cbn [map fold_right List.length]. rewrite IH. lia.
Qed.

(** ** every other public function: what C92 says about it holds, for the simple graph with the summed weights *)
Section Lift.
Variable orc : mat Z -> bool.
Context {X : Type} (K : graph -> Model_Graph.st -> Prop) (w : option nkey) (dt : option dtype) (f : graph -> M X) (R : graph -> outcome X -> Prop).
Hypothesis K0 : starts_ok K.
Hypothesis Hdt : dtype_ok dt w.
Lemma lib_any G s : serves K None w (any_graph orc w dt f) R -> gwf G -> K G s -> R G (fst (f G s)).
Proof. intros H wf HK. destruct (H (AGraph G s) (conj wf HK)) as (G' & _ & E & HR). cbn [stands_for] in E. subst G'. exact HR. Qed.
Lemma lib_directed G s : serves K (Some true) w (a_digraph orc w dt f) R -> gwf G -> g_dir G = true -> K G s -> R G (fst (f G s)).
Proof.
  intros H wf D HK. specialize (H (AGraph G s) (conj wf HK)). cbn [refused] in H. rewrite D in H. cbn [Bool.eqb] in H. destruct H as (G' & _ & E & HR). cbn [stands_for] in E. subst G'.
  unfold a_digraph, call in HR. cbn [decorated to_directed_graph no_undirected] in HR. rewrite D in HR. exact HR.
Qed.
Lemma lib_undirected G s : serves K (Some false) w (an_undirected_graph orc w dt f) R -> gwf G -> g_dir G = false -> K G s -> R G (fst (f G s)).
Proof.
  intros H wf D HK. specialize (H (AGraph G s) (conj wf HK)). cbn [refused] in H. rewrite D in H. cbn [Bool.eqb] in H. destruct H as (G' & _ & E & HR). cbn [stands_for] in E. subst G'.
  unfold an_undirected_graph, call in HR. cbn [decorated to_undirected_graph no_directed] in HR. rewrite D in HR. exact HR.
Qed.
Lemma same_any a : m_any orc w dt f (MArg a) = any_graph orc w dt f a.
Proof. unfold m_any, m_call, any_graph, call. cbn [all_pass decorated m_to_graph]. unfold simple_result. destruct (to_graph orc a w dt) as [[G s]|e]; cbn [obind fst snd]; destruct a; reflexivity. Qed.
Lemma same_directed a : m_directed orc w dt f (MArg a) = a_digraph orc w dt f a.
Proof.
  unfold m_directed, m_call, a_digraph, call. cbn [all_pass m_to_directed_graph]. unfold simple_result, nif_undirected, no_undirected.
  destruct a as [G s|N|A d| |]; cbn [not_implemented_for fst snd obind asks_directed decorated]; try reflexivity.
  - destruct (g_dir G) eqn:D; cbn [Bool.eqb]; [|reflexivity]. cbn [to_directed_graph]. rewrite D. reflexivity.
  - destruct (nx_dir N) eqn:D; cbn [Bool.eqb]; [|reflexivity]. cbn [to_directed_graph]. rewrite D. reflexivity.
  - destruct (to_directed_graph orc (AMatrix A d) w dt) as [[G s]|e]; reflexivity.
Qed.
Lemma same_undirected a : m_undirected orc w dt f (MArg a) = an_undirected_graph orc w dt f a.
Proof.
  unfold m_undirected, m_call, an_undirected_graph, call. cbn [all_pass m_to_undirected_graph]. unfold simple_result, nif_directed, no_directed.
  destruct a as [G s|N|A d| |]; cbn [not_implemented_for fst snd obind asks_directed decorated]; try reflexivity.
  - destruct (g_dir G) eqn:D; cbn [Bool.eqb]; reflexivity.
  - destruct (nx_dir N) eqn:D; cbn [Bool.eqb]; reflexivity.
  - destruct (to_undirected_graph orc (AMatrix A d) w dt) as [[G s]|e]; reflexivity.
Qed.
Theorem C94_any_function : serves K None w (any_graph orc w dt f) R -> mserves (is_bool dt) K None w (m_any orc w dt f) R.
Proof.
  intros H [a|G s|N] Ha; cbn [mgiven mrefused mstands_for] in *.
  - specialize (H a Ha). rewrite same_any. exact H.
  - destruct Ha as [wf HK]. exists G. split; [assumption|]. split; [reflexivity|]. apply (lib_any G s H wf HK).
  - pose proof (C94_from_networkx orc (xm_dir N) N w dt Ha Hdt (fun E => E)) as P. eexists. split; [exact (proj1 P)|]. split; [exact P|].
    apply (lib_any _ st0 H (proj1 P)). apply K0, P.
Qed.
Theorem C94_directed_function : serves K (Some true) w (a_digraph orc w dt f) R -> mserves (is_bool dt) K (Some true) w (m_directed orc w dt f) R.
Proof.
  intros H [a|G s|N] Ha; cbn [mgiven mrefused mstands_for] in *.
  - specialize (H a Ha). rewrite same_directed. exact H.
  - destruct Ha as [wf HK]. unfold m_directed, m_call. cbn [all_pass not_implemented_for nif_undirected fst snd obind asks_directed m_to_directed_graph].
    destruct (g_dir G) eqn:D; cbn [Bool.eqb obind]; [|reflexivity]. exists G. split; [assumption|]. split; [reflexivity|]. apply (lib_directed G s H wf D HK).
  - unfold m_directed, m_call. cbn [all_pass not_implemented_for nif_undirected fst snd obind asks_directed m_to_directed_graph].
    destruct (xm_dir N) eqn:D; cbn [Bool.eqb obind]; [|reflexivity].
    assert (P : represents (from_multi orc true N w dt) true (xm_nodes N) (multi_weight (is_bool dt) N w)) by (apply C94_from_networkx; [assumption|assumption|discriminate]).
    eexists. split; [exact (proj1 P)|]. split; [exact P|]. apply (lib_directed _ st0 H (proj1 P)); [reflexivity|]. apply K0, P.
Qed.
Theorem C94_undirected_function : serves K (Some false) w (an_undirected_graph orc w dt f) R -> mserves (is_bool dt) K (Some false) w (m_undirected orc w dt f) R.
Proof.
  intros H [a|G s|N] Ha; cbn [mgiven mrefused mstands_for] in *.
  - specialize (H a Ha). rewrite same_undirected. exact H.
  - destruct Ha as [wf HK]. unfold m_undirected, m_call. cbn [all_pass not_implemented_for nif_directed fst snd obind asks_directed m_to_undirected_graph].
    destruct (g_dir G) eqn:D; cbn [Bool.eqb obind]; [reflexivity|]. exists G. split; [assumption|]. split; [reflexivity|]. apply (lib_undirected G s H wf D HK).
  - unfold m_undirected, m_call. cbn [all_pass not_implemented_for nif_directed fst snd obind asks_directed m_to_undirected_graph].
    destruct (xm_dir N) eqn:D; cbn [Bool.eqb obind]; [reflexivity|].
    assert (P : represents (from_multi orc false N w dt) false (xm_nodes N) (multi_weight (is_bool dt) N w)) by (apply C94_from_networkx; auto).
    eexists. split; [exact (proj1 P)|]. split; [exact P|]. apply (lib_undirected _ st0 H (proj1 P)); [reflexivity|]. apply K0, P.
Qed.
End Lift.

(** ** functions that refuse multigraphs, and change nothing for other arguments *)
Section Refuse.
Variable orc : mat Z -> bool.
Lemma nifm a : multigraph a -> not_implemented_for nif_multigraph a = Raise ENotImpl.
Proof. destruct a; [intros []| |]; reflexivity. Qed.
Lemma nif_cases dm a : multigraph a -> not_implemented_for dm a = Val tt \/ not_implemented_for dm a = Raise ENotImpl.
Proof.
  intros H. destruct a as [a|G s|N], dm as [[d|] [m|]]; try destruct H; cbn [not_implemented_for fst snd asks_multi asks_directed obind];
  repeat (match goal with |- context[Bool.eqb ?x ?y] => destruct (Bool.eqb x y) end; cbn [obind]); auto.
Qed.
Lemma refuses1 {X} conv (f : bool -> graph -> M X) a : multigraph a -> fst (m_call [nif_multigraph] conv f a) = Raise ENotImpl.
Proof. intros H. unfold m_call. cbn [all_pass]. rewrite (nifm a H). reflexivity. Qed.
Lemma refuses2 {X} d conv (f : bool -> graph -> M X) a : multigraph a -> fst (m_call [d; nif_multigraph] conv f a) = Raise ENotImpl.
Proof. intros H. unfold m_call. cbn [all_pass]. destruct (nif_cases d a H) as [->| ->]; cbn [obind]; [|reflexivity]. rewrite (nifm a H). reflexivity. Qed.
(** neither a library multigraph nor a networkx multigraph gets through *)
Theorem C94_refused a : multigraph a ->
  (forall fuel k, fst (m_k_truss orc fuel k a) = Raise ENotImpl) /\
  fst (m_is_tournament orc a) = Raise ENotImpl /\ fst (m_score_sequence orc a) = Raise ENotImpl /\ fst (m_tournament_matrix orc a) = Raise ENotImpl /\
  (forall r l, fst (m_bethe_hessian_matrix orc r l a) = Raise ENotImpl) /\
  (forall l w, fst (m_modularity_matrix orc l w a) = Raise ENotImpl) /\
  (forall l w, fst (m_directed_modularity_matrix orc l w a) = Raise ENotImpl) /\
  (forall sqr mi tol ns w, fst (m_eigenvector_centrality orc sqr mi tol ns w a) = Raise ENotImpl) /\
  (forall sqr fl al be mi tol ns no w, fst (m_katz_centrality orc sqr fl al be mi tol ns no w a) = Raise ENotImpl).
Proof. intros H. repeat split; intros; first [apply refuses2; exact H | apply refuses1; exact H]. Qed.

Lemma same2_undirected {X} w dt (f : graph -> M X) a :
  m_call [nif_directed; nif_multigraph] (m_to_undirected_graph orc w dt) (fun _ => f) (MArg a) = an_undirected_graph orc w dt f a.
Proof.
  rewrite <- same_undirected. unfold m_undirected, m_call. cbn [all_pass]. destruct (not_implemented_for nif_directed (MArg a)) as [[]|e] eqn:E; [|reflexivity].
  destruct a; try discriminate; reflexivity.
Qed.
Lemma same2_directed {X} w dt (f : graph -> M X) a :
  m_call [nif_undirected; nif_multigraph] (m_to_directed_graph orc w dt) (fun _ => f) (MArg a) = a_digraph orc w dt f a.
Proof.
  rewrite <- same_directed. unfold m_directed, m_call. cbn [all_pass]. destruct (not_implemented_for nif_undirected (MArg a)) as [[]|e] eqn:E; [|reflexivity].
  destruct a; try discriminate; reflexivity.
Qed.
Lemma same1_any {X} w dt (f : graph -> M X) a :
  m_call [nif_multigraph] (m_to_graph orc w dt) (fun _ => f) (MArg a) = not_for_multigraphs (any_graph orc w dt f) a.
Proof.
  unfold m_call. cbn [all_pass]. destruct a as [G s|N|A d| |]; cbn [not_for_multigraphs]; try reflexivity; rewrite <- same_any; reflexivity.
Qed.
Lemma same_recip {X} w dt (f : graph -> M X) a :
  m_call [nif_undirected_multigraph] (m_to_directed_graph orc w dt) (fun _ => f) (MArg a) = a_digraph_unchecked orc w dt f a.
Proof.
  unfold m_call, a_digraph_unchecked, call. cbn [all_pass]. destruct a as [G s|N|A d| |];
    cbn [not_implemented_for nif_undirected_multigraph fst snd asks_multi asks_directed obind Bool.eqb m_to_directed_graph to_directed_graph decorated]; try reflexivity.
  - destruct (g_dir G); reflexivity.
  - destruct (nx_dir N); reflexivity.
  - unfold simple_result. destruct (graph_of_matrix orc true A d) as [G|e]; reflexivity.
Qed.
(** what is no multigraph is treated as C92 says *)
Theorem C94_simple_unchanged a :
  (forall fuel k, m_k_truss orc fuel k (MArg a) = p_k_truss orc fuel k a) /\
  m_is_tournament orc (MArg a) = p_is_tournament orc a /\ m_score_sequence orc (MArg a) = p_score_sequence orc a /\
  m_tournament_matrix orc (MArg a) = p_tournament_matrix orc a /\
  (forall r l, m_bethe_hessian_matrix orc r l (MArg a) = p_bethe_hessian_matrix orc r l a) /\
  (forall l w, m_modularity_matrix orc l w (MArg a) = p_modularity_matrix orc l w a) /\
  (forall l w, m_directed_modularity_matrix orc l w (MArg a) = p_directed_modularity_matrix orc l w a) /\
  (forall sqr mi tol ns w, m_eigenvector_centrality orc sqr mi tol ns w (MArg a) = p_eigenvector_centrality orc sqr mi tol ns w a) /\
  (forall sqr fl al be mi tol ns no w, m_katz_centrality orc sqr fl al be mi tol ns no w (MArg a) = p_katz_centrality orc sqr fl al be mi tol ns no w a) /\
  m_overall_reciprocity orc (MArg a) = p_overall_reciprocity orc a /\
  (forall u, m_reciprocity_node orc u (MArg a) = p_reciprocity_node orc u a) /\
  (forall l, m_reciprocity_nodes orc l (MArg a) = p_reciprocity_nodes orc l a) /\
  (forall S T w, m_cut_size orc S T w (MArg a) = p_cut_size orc S T w a) /\
  (forall S w, m_volume orc S w (MArg a) = p_volume orc S w a) /\
  (forall l w, m_adjacency_matrix orc l w (MArg a) = p_adjacency_matrix orc l w a) /\
  (forall l w, m_laplacian_matrix orc l w (MArg a) = p_laplacian_matrix orc l w a).
Proof.
  split; [intros; apply same2_undirected|]. split; [apply same2_directed|]. split; [apply same2_directed|]. split; [apply same2_directed|].
  split; [intros; apply same2_undirected|]. split; [intros; apply same2_undirected|]. split; [intros; apply same2_directed|].
  split; [intros; apply same1_any|]. split; [intros; apply same1_any|].
  split; [apply same_recip|]. split; [intros; apply same_recip|]. split; [intros; apply same_recip|].
  assert (SA : forall X w dt (f : bool -> graph -> M X), m_call [] (m_to_graph orc w dt) f (MArg a) = any_graph orc w dt (f false) a).
  { intros X w dt f. rewrite <- same_any. unfold m_any, m_call. cbn [all_pass m_to_graph]. unfold simple_result. destruct (to_graph orc a w dt) as [[G s]|e]; reflexivity. }
  split; [intros S T w|split; [intros S w|split; intros l w]].
  - unfold m_cut_size, m_asking, p_cut_size, asks_multigraph. destruct a; cbn [asks_multi]; try reflexivity; apply SA.
  - unfold m_volume, m_asking, p_volume, asks_multigraph. destruct a; cbn [asks_multi]; try reflexivity; apply SA.
  - apply SA.
  - apply SA.
Qed.
(** reciprocity: a directed multigraph is not refused, its parallel edges count once; an undirected one is *)
Theorem C94_reciprocity a : multigraph a -> mgiven consistent None a ->
  match mrefused (Some true) a with
  | Some e => fst (m_overall_reciprocity orc a) = Raise ENotImpl /\ (forall u, fst (m_reciprocity_node orc u a) = Raise ENotImpl) /\
              (forall l, fst (m_reciprocity_nodes orc l a) = Raise ENotImpl)
  | None => exists G, gwf G /\ mstands_for true (Some true) None a G /\
      (match fst (m_overall_reciprocity orc a) with
       | Val x => edges G <> [] /\
           (x == inject_Z (Z.of_nat (count (fun e => negb (nkey_eqb (fst e) (snd e)) && has_edge G (snd e) (fst e)) (edges G)))
                 / inject_Z (Z.of_nat (List.length (edges G))))%Q
       | Raise e => e = EEmptyGraph /\ edges G = []
       end) /\
      (forall u, match fst (m_reciprocity_node orc u a) with
       | Val x => node G u /\ 0 < degree G u /\ x = recip_of G u
       | Raise e => (e = EKey /\ ~ node G u) \/ (e = EAlg /\ node G u /\ degree G u = 0)
       end) /\
      (forall l, match fst (m_reciprocity_nodes orc l a) with
       | Val r => (forall k, In k l -> node G k) /\ is_map r (fun u x => In u l /\ 0 < degree G u /\ x = recip_of G u)
       | Raise e => e = EKey /\ exists k, In k l /\ ~ node G k
       end)
  end.
Proof.
  intros HM HG.
  assert (LIB : forall G s, gwf G -> g_dir G = true -> consistent G s ->
      (match fst (nx_overall_reciprocity G s) with
       | Val x => edges G <> [] /\
           (x == inject_Z (Z.of_nat (count (fun e => negb (nkey_eqb (fst e) (snd e)) && has_edge G (snd e) (fst e)) (edges G)))
                 / inject_Z (Z.of_nat (List.length (edges G))))%Q
       | Raise e => e = EEmptyGraph /\ edges G = []
       end) /\
      (forall u, match fst (nx_reciprocity_node G u s) with
       | Val x => node G u /\ 0 < degree G u /\ x = recip_of G u
       | Raise e => (e = EKey /\ ~ node G u) \/ (e = EAlg /\ node G u /\ degree G u = 0)
       end) /\
      (forall l, match fst (nx_reciprocity_nodes G l s) with
       | Val r => (forall k, In k l -> node G k) /\ is_map r (fun u x => In u l /\ 0 < degree G u /\ x = recip_of G u)
       | Raise e => e = EKey /\ exists k, In k l /\ ~ node G k
       end)).
  { intros G s wf D HK. split; [|split].
    - destruct (C49_overall_reciprocity G wf s HK) as [H _]. destruct (fst _) as [x|e]; [exact (proj2 H)|]. destruct H as [[_ H]|(H1 & _ & H2)]; [congruence|auto].
    - intros u. destruct (C49_reciprocity_node G wf u s HK) as [H _]. destruct (fst _) as [x|e]; [exact (proj2 H)|]. destruct H as [[_ H]|H]; [congruence|exact H].
    - intros l. destruct (C49_reciprocity_nodes G wf l s HK) as [H _]. destruct (fst _) as [x|e]; [exact (proj2 H)|]. destruct H as [[_ H]|H]; [congruence|exact H]. }
  unfold m_overall_reciprocity, m_reciprocity_node, m_reciprocity_nodes, m_call.
  destruct a as [a|G s|N]; [destruct HM| |]; cbn [mrefused mgiven mstands_for all_pass not_implemented_for nif_undirected_multigraph fst snd asks_multi asks_directed obind Bool.eqb m_to_directed_graph] in *.
  - destruct HG as [wf HK]. destruct (g_dir G) eqn:D; cbn [Bool.eqb obind]; [|repeat split; reflexivity]. exists G. split; [assumption|]. split; [reflexivity|]. exact (LIB G s wf D HK).
  - destruct (xm_dir N) eqn:D; cbn [Bool.eqb obind]; [|repeat split; reflexivity].
    assert (P : represents (from_multi orc true N None (Some DBool)) true (xm_nodes N) (multi_weight true N None)).
    { apply (C94_from_networkx orc true N None (Some DBool) HG); [apply dt_bool|discriminate]. }
    exists (from_multi orc true N None (Some DBool)). split; [exact (proj1 P)|]. split; [exact P|]. apply (LIB _ st0 (proj1 P)); [reflexivity|]. apply (ok_inv _ (proj1 P)).
Qed.
End Refuse.

(** ** the functions that know about multigraphs *)
Section Know.
Variable orc : mat Z -> bool.
Lemma total_app' {A} (f : A -> Z) l l' : total f (l ++ l') = (total f l + total f l')%Z.
Proof. unfold total. rewrite map_app. induction (map f l) as [|z zs IH]; [reflexivity|]. cbn [app fold_right]. rewrite IH. lia. Qed.
Lemma total_prod {A B} (f : A * B -> Z) (l : list A) (l' : list B) : total f (list_prod l l') = total (fun u => total (fun v => f (u, v)) l') l.
Proof. induction l as [|a l IH]; [reflexivity|]. cbn [list_prod]. rewrite total_app', total_map, IH. reflexivity. Qed.
Lemma represented_crossing G N w P Q : represents G (xm_dir N) (xm_nodes N) (multi_weight false N w) -> crossing G true P Q = multi_crossing N w P Q.
Proof.
  intros (_ & _ & HN & HW). unfold crossing, multi_crossing, pairs. rewrite total_prod, HN, total_filter. apply total_ext. intros u _. cbn [fst snd].
  destruct (P u); cbn [andb]; [|apply total_zero; reflexivity]. rewrite total_filter. apply total_ext. intros v _. destruct (Q v); [|reflexivity].
  cbn [ewt]. unfold weight0. rewrite HW. unfold multi_weight, multi_worth. destruct (xm_edges N u v); reflexivity.
Qed.
(** cut_size of a networkx multigraph: all parallel edges count, with their values *)
Theorem C94_cut_size N S T w : xmwf N -> (T = None -> xm_dir N = false) ->
  fst (m_cut_size orc S T w (MNx N)) =
  Val (multi_crossing N w (fun k => mem k S) (in_T S T) + if xm_dir N then multi_crossing N w (in_T S T) (fun k => mem k S) else 0)%Z.
Proof.
  intros H HT. pose proof (C94_from_networkx orc (xm_dir N) N w None H (or_introl eq_refl) (fun E => E)) as P. cbn [is_bool] in P.
  unfold m_cut_size, m_asking, m_call. cbn [asks_multi all_pass m_to_graph orb fst].
  set (G := from_multi orc (xm_dir N) N w None) in *. pose proof (proj1 P) as wf. pose proof (proj1 (proj2 P)) as D.
  destruct (C38_cut_size G wf S T true ltac:(intros E; rewrite D; auto) st0 (Inv_st0 _ true)) as [(z & E & ->) _]. rewrite E. unfold cut. rewrite D.
  rewrite !(represented_crossing G N w _ _ P). reflexivity.
Qed.
(** volume, undirected; directed multigraphs: C94_volume_refuted *)
Theorem C94_volume N S w : xmwf N -> xm_dir N = false -> match fst (m_volume orc S w (MNx N)) with
    | Val z => (forall k, In k S -> In k (xm_nodes N)) /\ z = multi_crossing N w (fun k => mem k S) (fun _ => true)
    | Raise e => e = EKey /\ exists k, In k S /\ ~ In k (xm_nodes N)
    end.
Proof.
  intros H HD. pose proof (C94_from_networkx orc (xm_dir N) N w None H (or_introl eq_refl) (fun E => E)) as P. cbn [is_bool] in P.
  unfold m_volume, m_asking, m_call. cbn [asks_multi all_pass m_to_graph orb fst].
  set (G := from_multi orc (xm_dir N) N w None) in *. pose proof (proj1 P) as wf. pose proof (proj1 (proj2 P)) as D. pose proof (proj1 (proj2 (proj2 P))) as HN.
  destruct (C39_volume G wf S true ltac:(intros _; congruence) st0 (Inv_st0 _ true)) as [HR _]. destruct (fst _) as [z|e]; unfold node in HR; rewrite HN in HR; [|exact HR].
  destruct HR as [H1 ->]. split; [exact H1|]. unfold vol, multi_crossing, members. rewrite HN. apply total_ext. intros u _.
  rewrite total_filter. apply total_ext. intros v _. cbn [ewt]. unfold weight0. rewrite (proj2 (proj2 (proj2 P))). unfold multi_weight, multi_worth. destruct (xm_edges N u v); reflexivity.
Qed.
(** adjacency_matrix and laplacian_matrix, with a weight attribute: the sums *)
Lemma mserves_flag {X} K w (f : bool -> graph -> M X) (R : graph -> outcome X -> Prop) : starts_ok K ->
  (forall b G s, gwf G -> K G s -> R G (fst (f b G s))) -> mserves false K None w (m_call [] (m_to_graph orc w None) f) R.
Proof.
  intros K0 H a Ha. pose proof (C94_any_function orc K w None (f match a with MArg _ => false | MLib _ _ => true | MNx _ => false end) R K0 (or_introl eq_refl)) as L.
  specialize (L (serves_any orc K w None _ R K0 (or_introl eq_refl) (fun G s wf HK => H _ G s wf HK)) a Ha).
  destruct (mrefused None a) as [e|] eqn:E.
  - destruct a as [a|G s|N]; cbn [mrefused] in E; try discriminate. rewrite <- L. unfold m_any, m_call. cbn [all_pass m_to_graph]. unfold simple_result.
    destruct (to_graph orc a w None) as [[G s]|e']; reflexivity.
  - destruct L as (G & wf & HS & HR). exists G. split; [assumption|]. split; [exact HS|].
    revert HR. unfold m_any, m_call. cbn [all_pass]. destruct a as [a|G' s|N]; cbn [m_to_graph]; try exact (fun x => x). unfold simple_result. destruct (to_graph orc a w None) as [[G' s]|e']; exact (fun x => x).
Qed.
Theorem C94_adjacency_matrix nodelist attr : mserves false consistent None (Some attr) (m_adjacency_matrix orc nodelist (Some attr)) (fun G o => matrix_ans G nodelist o (fun M l =>
    is_matrix 0%Z M l (adj G true) /\
    forall a b u v, nth_error l a = Some u -> nth_error l b = Some v -> (has (mget M a b) = true <-> edge G u v))).
Proof. apply mserves_flag; [exact ok_inv|]. intros b G s wf HK. replace (b || has (Some attr)) with true by (destruct b; reflexivity). apply (C55_adjacency G wf nodelist true s HK). Qed.
Theorem C94_laplacian_matrix nodelist attr : mserves false consistent None (Some attr) (m_laplacian_matrix orc nodelist (Some attr)) (fun G o => no_dup nodelist ->
    matrix_ans G nodelist o (fun M l => is_matrix 0%Z M l (lap G true l))).
Proof. apply mserves_flag; [exact ok_inv|]. intros b G s wf HK H1. replace (b || has (Some attr)) with true by (destruct b; reflexivity). apply (C55_laplacian G wf nodelist true (fun _ => or_introl eq_refl) H1 s HK). Qed.

(** edge_boundary without data: every pair as often as there are parallel edges, whatever their attributes *)
Lemma occurrences_app {D} u v (l l' : list (nkey * nkey * D)) : occurrences u v (l ++ l') = occurrences u v l + occurrences u v l'.
Proof. unfold occurrences, count. rewrite filter_app, app_length. reflexivity. Qed.
Lemma occurrences_repeat {D} u v a b (x : D) n : occurrences u v (repeat (a, b, x) n) = if nkey_eqb a u && nkey_eqb b v then n else 0.
Proof. unfold occurrences, count. induction n as [|n IH]; cbn [repeat filter fst snd]; destruct (nkey_eqb a u && nkey_eqb b v) eqn:E; cbn [List.length]; try lia; reflexivity. Qed.
Lemma occurrences_boundary (l : list (nkey * nkey * option Z)) u v : NoDup (map fst l) ->
  let L := flat_map (fun e => match e with (a, b, x) => repeat (a, b, @None (nkey * Z)) (match x with Some z => Z.to_nat z | None => 0 end) end) l in
  (forall z, In (u, v, Some z) l -> occurrences u v L = Z.to_nat z) /\ ((forall x, ~ In (u, v, x) l) -> occurrences u v L = 0).
Proof.
  induction l as [|[[a b] x] l IH]; intros ND; cbn zeta.
  - split; [intros z []|reflexivity].
  - cbn [map fst] in ND. inversion ND as [|p q Hn ND']; subst. destruct (IH ND') as [IH1 IH2]. cbn [flat_map]. rewrite occurrences_app, occurrences_repeat.
    assert (NO : a = u -> b = v -> forall x', ~ In (u, v, x') l).
    { intros -> -> x' Hx. apply Hn. apply in_map_iff. exists (u, v, x'). auto. }
    split.
    + intros z [E|Hz].
      * injection E as -> -> ->. rewrite !nkey_eqb_refl. cbn [andb]. rewrite IH2; [lia|]. apply NO; reflexivity.
      * rewrite (IH1 z Hz). destruct (nkey_eqb a u && nkey_eqb b v) eqn:E; [|reflexivity]. apply andb_prop in E as [E1 E2]. apply nkey_eqb_eq in E1, E2. exfalso. apply (NO E1 E2 _ Hz).
    + intros H. rewrite IH2; [|intros x' Hx; apply (H x'); right; assumption]. destruct (nkey_eqb a u && nkey_eqb b v) eqn:E; [|reflexivity].
      apply andb_prop in E as [E1 E2]. apply nkey_eqb_eq in E1, E2. subst. exfalso. apply (H x). left. reflexivity.
Qed.
Theorem C94_edge_boundary N S T data : xmwf N -> attribute_asked data None ->
  exists l, fst (m_edge_boundary orc S T data (MNx N)) = Val l /\ (forall u v x, In (u, v, x) l -> x = None) /\
    forall u v,
      let wanted := In u S /\ match T with Some T' => In v T' | None => ~ In v S /\ exists y, xm_edges N v y <> [] end in
      (wanted -> occurrences u v l = List.length (xm_edges N u v)) /\ (~ wanted -> occurrences u v l = 0).
Proof.
  intros H HA. apply attribute_fun in HA. pose proof (C94_from_networkx orc (xm_dir N) N None None H (or_introl eq_refl) (fun E => E)) as P. cbn [is_bool] in P.
  unfold m_edge_boundary, m_asking. cbn [asks_multi]. rewrite <- HA. unfold m_call. cbn [all_pass m_to_graph has orb fst].
  set (G := from_multi orc (xm_dir N) N None None) in *. pose proof (proj1 P) as wf. pose proof (proj1 (proj2 (proj2 P))) as HN. pose proof (proj2 (proj2 (proj2 P))) as HW.
  destruct (C36_exact G wf S T true st0 (Inv_st0 _ true)) as [HR _]. revert HR. unfold bind.
  destruct (nx_edge_boundary G S T true st0) as [o s1]. cbn [fst snd]. intros (l & -> & ND & HL).
  assert (ED : forall a b, edge G a b <-> xm_edges N a b <> []).
  { intros a b. unfold edge. rewrite HW, C94_counts. destruct (xm_edges N a b) as [|e0 l0]; split; intros X; try congruence; [destruct X; discriminate|]. eexists. reflexivity. }
  assert (FL : isfloat (g_dt G) && negb (List.length l =? 0) = false).
  { destruct l as [|[[a b] x] l]; [apply andb_false_r|]. cbn [List.length Nat.eqb negb]. rewrite andb_true_r.
    assert (X : In (a, b, x) ((a, b, x) :: l)) by (left; reflexivity). apply HL in X as (_ & _ & z & Hz & _). rewrite HW in Hz.
    unfold G, from_multi, new_graph. cbn [g_dt oget]. destruct (xm_nodes N) as [|k ks] eqn:EN; [|reflexivity]. exfalso.
    unfold multi_weight, xm_edges, xm_data in Hz. unfold xm_nodes in EN. apply map_eq_nil in EN. rewrite EN in Hz. discriminate. }
  cbn [andb]. rewrite FL. cbn [fst ret]. eexists. split; [reflexivity|]. split.
  - intros u v x Hx. apply in_flat_map in Hx as ([[a b] y] & _ & Hx). apply repeat_spec in Hx. congruence.
  - intros u v. destruct (occurrences_boundary l u v ND) as [O1 O2]. split.
    + intros [H1 H2]. destruct (xm_edges N u v) as [|e0 l0] eqn:EE.
      * apply O2. intros x Hx. apply HL in Hx as (_ & _ & z & Hz & _). rewrite HW, C94_counts, EE in Hz. discriminate.
      * rewrite <- (Nat2Z.id (List.length (e0 :: l0))). apply O1. apply HL. split; [exact H1|]. split.
        -- destruct T; [exact H2|]. destruct H2 as [Q1 [y Q2]]. split; [exact Q1|]. exists y. apply ED. exact Q2.
        -- exists (Z.of_nat (List.length (e0 :: l0))). rewrite HW, C94_counts, EE. auto.
    + intros NW. apply O2. intros x Hx. apply NW. apply HL in Hx as (H1 & H2 & _). split; [exact H1|]. destruct T; [exact H2|]. destruct H2 as [Q1 [y Q2]]. split; [exact Q1|]. exists y. apply ED. exact Q2.
Qed.
(** library multigraphs: a value of the matrix is the number of parallel edges (or the sum of their values), so these functions always use it,
    whatever [weight] says *)
Theorem C94_library_multigraph G s w : gwf G -> consistent G s ->
  (forall S T, (T = None -> g_dir G = false) -> fst (m_cut_size orc S T w (MLib G s)) = Val (cut G true (fun k => mem k S) (in_T S T))) /\
  (forall S, g_dir G = false -> match fst (m_volume orc S w (MLib G s)) with
     | Val z => (forall k, In k S -> node G k) /\ z = vol G true (fun k => mem k S)
     | Raise e => e = EKey /\ exists k, In k S /\ ~ node G k
     end) /\
  (forall nodelist, matrix_ans G nodelist (fst (m_adjacency_matrix orc nodelist w (MLib G s))) (fun M l => is_matrix 0%Z M l (adj G true))) /\
  (forall nodelist, no_dup nodelist -> matrix_ans G nodelist (fst (m_laplacian_matrix orc nodelist w (MLib G s))) (fun M l => is_matrix 0%Z M l (lap G true l))) /\
  (forall S T data, attribute_asked data None -> g_dt G <> DFloat -> exists l, fst (m_edge_boundary orc S T data (MLib G s)) = Val l /\
     forall u v,
      let wanted := In u S /\ match T with Some T' => In v T' | None => ~ In v S /\ exists y, edge G v y end in
      (wanted -> occurrences u v l = match weight G u v with Some z => Z.to_nat z | None => 0 end) /\ (~ wanted -> occurrences u v l = 0)).
Proof.
  intros wf HI. repeat apply conj.
  - intros S T HT. unfold m_cut_size, m_asking, m_call. cbn [asks_multi all_pass m_to_graph orb fst].
    destruct (C38_cut_size G wf S T true HT s HI) as [(z & E & ->) _]. exact E.
  - intros S HD. unfold m_volume, m_asking, m_call. cbn [asks_multi all_pass m_to_graph orb fst].
    exact (proj1 (C39_volume G wf S true (fun _ => HD) s HI)).
  - intros nodelist. unfold m_adjacency_matrix, m_call. cbn [all_pass m_to_graph orb fst].
    pose proof (proj1 (C55_adjacency G wf nodelist true s HI)) as H. unfold matrix_ans in *. destruct (fst _) as [M0|e]; [|exact H].
    destruct H as (l & H1 & H2 & H3 & _). exists l. auto.
  - intros nodelist ND. unfold m_laplacian_matrix, m_call. cbn [all_pass m_to_graph orb fst].
    exact (proj1 (C55_laplacian G wf nodelist true (fun _ => or_introl eq_refl) ND s HI)).
  - intros S T data HA HF. apply attribute_fun in HA.
    unfold m_edge_boundary, m_asking. cbn [asks_multi]. rewrite <- HA. unfold m_call. cbn [all_pass m_to_graph has orb fst].
    destruct (C36_exact G wf S T true s HI) as [HR _]. revert HR. unfold bind.
    destruct (nx_edge_boundary G S T true s) as [o s1]. cbn [fst snd]. intros (l & -> & ND & HL).
    replace (isfloat (g_dt G)) with false by (destruct (g_dt G); try reflexivity; congruence). cbn [andb fst ret]. eexists. split; [reflexivity|].
    intros u v. destruct (occurrences_boundary l u v ND) as [O1 O2]. split.
    + intros [H1 H2]. destruct (weight G u v) as [z|] eqn:EE.
      * apply O1. apply HL. split; [exact H1|]. split; [exact H2|]. exists z. auto.
      * apply O2. intros x Hx. apply HL in Hx as (_ & _ & z & Hz & _). congruence.
    + intros NW. apply O2. intros x Hx. apply NW. apply HL in Hx as (H1 & H2 & _). split; assumption.
Qed.
(** the conversion functions themselves, which can be called on their own *)
Theorem C94_conversions w dt : dtype_ok dt w ->
  (forall N, xmwf N -> match m_to_directed_graph orc w dt (MNx N) with
     | Val (m, G, s) => m = false /\ s = st0 /\ represents G true (xm_nodes N) (multi_weight (is_bool dt) N w)
     | Raise e => e = EType /\ xm_dir N = false
     end) /\
  (forall N, xmwf N -> xm_dir N = false -> exists G, m_to_undirected_graph orc w dt (MNx N) = Val (false, G, st0) /\ represents G false (xm_nodes N) (multi_weight (is_bool dt) N w)) /\
  (forall N, xmwf N -> exists G, m_to_graph orc w dt (MNx N) = Val (false, G, st0) /\ represents G (xm_dir N) (xm_nodes N) (multi_weight (is_bool dt) N w)) /\
  (forall G s, m_to_graph orc w dt (MLib G s) = Val (true, G, s) /\ m_to_undirected_graph orc w dt (MLib G s) = Val (true, G, s) /\
     m_to_directed_graph orc w dt (MLib G s) = if g_dir G then Val (true, G, s) else Raise EType).
Proof.
  intros HD. repeat apply conj.
  - intros N H. cbn [m_to_directed_graph]. destruct (xm_dir N) eqn:D; [|auto]. split; [reflexivity|]. split; [reflexivity|]. apply C94_from_networkx; auto. discriminate.
  - intros N H D. cbn [m_to_undirected_graph]. eexists. split; [reflexivity|]. apply C94_from_networkx; auto.
  - intros N H. cbn [m_to_graph]. eexists. split; [reflexivity|]. apply C94_from_networkx; auto.
  - intros G s. auto.
Qed.
End Know.

(** ** some of the functions that treat a multigraph as a simple graph: reachability is right, ... *)
Section Inst.
Variable orc : mat Z -> bool.
Theorem C94_has_path u v : mserves false consistent None None (m_any orc None None (fun G => has_path G u v)) (fun G o => match o with
    | Val b => node G u /\ node G v /\ (b = true <-> reach (edge G) u v)
    | Raise e => e = EKey /\ ~ (node G u /\ node G v)
    end).
Proof. apply (C94_any_function orc consistent None None); [exact ok_inv|apply dt_none|apply C92_has_path]. Qed.
Theorem C94_node_connected_component u : mserves false consistent (Some false) None (m_undirected orc None None (fun G => nx_node_connected_component G u)) (fun G o => match o with
    | Val r => node G u /\ is_set r (fun v => reach (edge G) u v)
    | Raise e => e = EKey /\ ~ node G u
    end).
Proof. apply (C94_undirected_function orc consistent None None); [exact ok_inv|apply dt_none|apply C92_node_connected_component]. Qed.
Theorem C94_is_weakly_connected : mserves false consistent (Some true) None (m_directed orc None None nx_is_weakly_connected) (fun G o => match o with
    | Val b => ~ Props_Bfs.nodes_empty G /\ (b = true <-> forall u v, node G u -> node G v -> reach (Spec.sym (edge G)) u v)
    | Raise e => e = EPointless /\ Props_Bfs.nodes_empty G
    end).
Proof. apply (C94_directed_function orc consistent None None); [exact ok_inv|apply dt_none|apply C92_is_weakly_connected]. Qed.
(** ... PageRank uses the sums, as in networkx, ... *)
Theorem C94_pagerank em alpha pers max_iter tol nstart w dang :
  mserves false iso_consistent None w (m_any orc w (Some DFloat) (fun G => nx_pagerank em G alpha pers max_iter tol nstart dang)) (fun G o =>
    is_dict nstart -> is_dict pers -> is_dict dang -> rows_nonzero G true (gnodes G) -> (exists u v, edge G u v) ->
    pagerank_ans G em alpha pers nstart dang max_iter tol o).
Proof. apply (C94_any_function orc iso_consistent w (Some DFloat)); [exact ok_iso|apply dt_float|apply C92_pagerank]. Qed.
(** ... and so does Bellman-Ford, unlike networkx (C94_parallel_edges_refuted) *)
Theorem C94_single_source_bellman_ford_partial u w : mserves false consistent None w (m_any orc w None (fun G => nx_single_source_bf G u)) (fun G o => Props_Weighted.iso_has_edge G -> match o with
    | Val m => node G u /\ ~ neg_cycle_from (weight G) u /\
               is_map m (shortest (weight G) u) /\
               forall v, wreach (weight G) u v -> exists x, nm_getitem m v = Val x
    | Raise e => (e = EKey /\ ~ node G u) \/ (e = EUnbounded /\ node G u /\ neg_cycle_from (weight G) u)
    end).
Proof. apply (C94_any_function orc consistent w None); [exact ok_inv|apply dt_none|apply C92_single_source_bellman_ford]. Qed.
(** if no two edges are parallel, these are the weights of the multigraph's only edges *)
Theorem C94_no_parallel N w u v : (List.length (xm_edges N u v) <= 1)%nat ->
  multi_weight false N w u v = match xm_edges N u v with [] => None | e :: _ => Some (edge_worth w e) end.
Proof. unfold multi_weight, multi_worth. destruct (xm_edges N u v) as [|e [|e' l]]; cbn [List.length]; intros H; [reflexivity| |lia]. unfold total. cbn [map fold_right]. rewrite Z.add_0_r. reflexivity. Qed.

(** ** the operators *)
Definition library_multigraph (a : marg) : Prop := match a with MLib _ _ => True | _ => False end.
Lemma m_to_graph_flag a m G s : m_to_graph orc None None a = Val (m, G, s) -> (m = true <-> library_multigraph a).
Proof.
  destruct a as [a|G' s'|N]; cbn [m_to_graph library_multigraph]; [|intros E; injection E as <- _ _; tauto|intros E; injection E as <- _ _; split; [discriminate|tauto]].
  unfold simple_result. destruct (to_graph orc a None None) as [[G' s']|e]; [|discriminate]. intros E. injection E as <- _ _. split; [discriminate|tauto].
Qed.
(** a library multigraph is refused: with NotImplementedError beside another one, with NetworkXError beside anything else that can be
    converted at all *)
Theorem C94_operators_refuse op a b :
  (library_multigraph a -> library_multigraph b -> m_op2 orc op a b = Raise ENotImpl) /\
  (library_multigraph a -> ~ library_multigraph b -> m_op2 orc op a b = Raise (match mrefused None b with Some e => e | None => EAlg end)) /\
  (~ library_multigraph a -> library_multigraph b -> m_op2 orc op a b = Raise (match mrefused None a with Some e => e | None => EAlg end)).
Proof.
  assert (CV : forall c, ~ library_multigraph c -> match mrefused None c with Some e => m_to_graph orc None None c = Raise e | None => exists G s, m_to_graph orc None None c = Val (false, G, s) end).
  { intros [c|G s|N] H; [|destruct H; exact Logic.I|cbn [mrefused m_to_graph]; eauto]. cbn [mrefused m_to_graph]. unfold simple_result.
    destruct c as [G s|N|A d| |]; cbn [refused to_graph obind fst snd]; eauto. unfold graph_of_matrix. destruct (nrows A =? ncols A); cbn [obind]; eauto. }
  unfold m_op2. split; [|split].
  - destruct a as [|G s|]; try (intros []; fail). destruct b as [|H s'|]; try (intros _ []; fail). intros _ _. reflexivity.
  - destruct a as [|G s|]; try (intros []; fail). intros _ Hb. specialize (CV b Hb). cbn [m_to_graph obind]. destruct (mrefused None b) as [e|]; [rewrite CV; reflexivity|].
    destruct CV as (H & s' & ->). reflexivity.
  - intros Ha. destruct b as [|H s'|]; try (intros []; fail). intros _. specialize (CV a Ha). destruct (mrefused None a) as [e|]; [rewrite CV; reflexivity|].
    destruct CV as (G & s & ->). reflexivity.
Qed.
Theorem C94_operators_simple op a b : m_op2 orc op (MArg a) (MArg b) = nx_op2 orc op a b.
Proof.
  unfold m_op2, nx_op2. cbn [m_to_graph]. unfold simple_result. destruct (to_graph orc a None None) as [[G s]|e]; cbn [obind fst snd]; [|reflexivity].
  destruct (to_graph orc b None None) as [[H s']|e]; reflexivity.
Qed.
(** networkx multigraphs are never refused, although the check is there: they are converted to simple graphs before it.  networkx
    raises NetworkXError for a multigraph and a simple graph *)
Theorem C94_operators_networkx_refuted op N M : xmwf N -> nxwf M -> exists G H,
  represents G (xm_dir N) (xm_nodes N) (multi_weight false N None) /\ represents H (nx_dir M) (nx_nodes M) (nx_weight M None) /\
  m_op2 orc op (MNx N) (MArg (ANx M)) = op G H /\ m_op2 orc op (MArg (ANx M)) (MNx N) = op H G.
Proof.
  intros HN HM. exists (from_multi orc (xm_dir N) N None None), (from_networkx_as orc (nx_dir M) M None None).
  split; [apply (C94_from_networkx orc (xm_dir N) N None None HN (or_introl eq_refl) (fun E => E))|].
  split; [apply (as_represents orc M None None (nx_dir M) HM (or_introl eq_refl) (fun E => E))|]. split; reflexivity.
Qed.
(** complement and reverse of a library multigraph are library multigraphs, of a networkx multigraph simple graphs *)
Theorem C94_unary op a : match m_op1 orc op a with
  | Val (m, R) => (m = true <-> library_multigraph a) /\ exists G s, m_to_graph orc None None a = Val (m, G, s) /\ op G = Val R
  | Raise e => mrefused None a = Some e \/ exists m G s, m_to_graph orc None None a = Val (m, G, s) /\ op G = Raise e
  end.
Proof.
  unfold m_op1. destruct (m_to_graph orc None None a) as [[[m G] s]|e] eqn:E; cbn [obind fst snd].
  - destruct (op G) as [R|e] eqn:EO; cbn [obind]; [|right; eauto 6]. split; [apply (m_to_graph_flag _ _ _ _ E)|eauto].
  - left. destruct a as [a|G s|N]; try discriminate. cbn [mrefused m_to_graph] in *. unfold simple_result in E.
    destruct a as [G s|N|A d| |]; cbn [refused to_graph obind] in *; try discriminate; [|congruence]. unfold graph_of_matrix in E. destruct (nrows A =? ncols A); cbn [obind] in *; congruence.
Qed.

(** ** the dispatcher: a multigraph becomes a library multigraph with the sums, and comes back as a simple graph *)
(** an edge has the attribute [a] *)
Definition mcarries (N : nxmulti) (a : nkey) : Prop := exists u nb v l k x z, In (u, nb) (xm_adj N) /\ In (v, l) nb /\ In (k, x) l /\ In (a, z) x.
Definition only_mattr (N : nxmulti) (a : nkey) : Prop := mcarries N a /\ forall b, mcarries N b -> b = a.
Inductive mrequested (N : nxmulti) (edge_attrs : option (list (nkey * option Z))) (preserve : bool) (weight : option nkey) : option nkey -> Prop :=
| mrq_preserve a : preserve = true -> only_mattr N a -> mrequested N edge_attrs preserve weight (Some a)
| mrq_attr a d : (preserve = false \/ forall b, ~ mcarries N b) -> edge_attrs = Some [(a, d)] -> mrequested N edge_attrs preserve weight (Some a)
| mrq_weight : (preserve = false \/ forall b, ~ mcarries N b) -> edge_attrs = None \/ edge_attrs = Some [] -> mrequested N edge_attrs preserve weight weight.
Lemma names_mcarries N a : In a (xm_attr_names N) <-> mcarries N a.
Proof.
  unfold xm_attr_names, mcarries. rewrite in_flat_map. split.
  - intros ([u nb] & H1 & H2). apply in_flat_map in H2 as ([v l] & H2 & H3). apply in_flat_map in H3 as ([k x] & H3 & H4). apply in_map_iff in H4 as ([b z] & E & H4). cbn [fst snd] in *. subst.
    exists u, nb, v, l, k, x, z. auto.
  - intros (u & nb & v & l & k & x & z & H1 & H2 & H3 & H4). exists (u, nb). split; [assumption|]. apply in_flat_map. exists (v, l). split; [assumption|].
    apply in_flat_map. exists (k, x). split; [assumption|]. apply in_map_iff. exists (a, z). auto.
Qed.
Lemma mdedup_cases N : (exists a, dedup (xm_attr_names N) = [a] /\ only_mattr N a) \/ (dedup (xm_attr_names N) = [] /\ forall b, ~ mcarries N b) \/
  (exists a b l, dedup (xm_attr_names N) = a :: b :: l /\ mcarries N a /\ mcarries N b /\ a <> b).
Proof.
  destruct (dedup_ok (xm_attr_names N)) as [ND H]. destruct (dedup (xm_attr_names N)) as [|a [|b l]] eqn:E.
  - right. left. split; [reflexivity|]. intros b Hb. apply names_mcarries, H in Hb. destruct Hb.
  - left. exists a. split; [reflexivity|]. split; [apply names_mcarries, H; simpl; auto|]. intros b Hb. apply names_mcarries, H in Hb as [->|[]]. reflexivity.
  - right. right. exists a, b, l. split; [reflexivity|]. split; [apply names_mcarries, H; simpl; auto|]. split; [apply names_mcarries, H; simpl; auto|].
    inversion ND as [|? ? N1 _]; subst. intros ->. apply N1. simpl. auto.
Qed.
Theorem C94_convert_from_nx N edge_attrs node_attrs pe pn weight : xmwf N ->
  match m_convert_from_nx orc N edge_attrs node_attrs pe pn weight with
  | Val a => node_attrs = false /\ (pn = true -> xm_nattr N = false) /\ exists G w, a = MLib G st0 /\ mrequested N edge_attrs pe weight w /\
      represents G (xm_dir N) (xm_nodes N) (multi_weight false N w)
  | Raise e =>
      (e = ENotImpl /\ ((pe = true /\ exists a b, mcarries N a /\ mcarries N b /\ a <> b) \/ node_attrs = true \/ (pn = true /\ xm_nattr N = true) \/
         (exists l, edge_attrs = Some l /\ 1 < List.length l) \/ exists a z, edge_attrs = Some [(a, Some z)] /\ z <> 1%Z))
      \/ (e = EType /\ weight <> None /\ (pe = true \/ exists l, edge_attrs = Some l /\ l <> []))
  end.
Proof.
  intros H. unfold m_convert_from_nx.
  assert (FIN : forall w, mrequested N edge_attrs pe weight w -> exists G w0, MLib (from_multi orc (xm_dir N) N w None) st0 = MLib G st0 /\ mrequested N edge_attrs pe weight w0 /\
      represents G (xm_dir N) (xm_nodes N) (multi_weight false N w0)).
  { intros w R. eexists _, w. split; [reflexivity|]. split; [exact R|]. apply (C94_from_networkx orc (xm_dir N) N w None H (or_introl eq_refl) (fun E => E)). }
  assert (STD : (pe = false \/ forall b, ~ mcarries N b) ->
    match (if node_attrs then Raise ENotImpl else if pn && xm_nattr N then Raise ENotImpl else
      obind (match edge_attrs with
         | None | Some [] => Val weight
         | Some [(a, default)] => if has weight then Raise EType else match default with None => Val (Some a) | Some z => if (z =? 1)%Z then Val (Some a) else Raise ENotImpl end
         | Some _ => Raise ENotImpl
         end) (fun weight => Val (MLib (from_multi orc (xm_dir N) N weight None) st0))) with
    | Val a => node_attrs = false /\ (pn = true -> xm_nattr N = false) /\ exists G w, a = MLib G st0 /\ mrequested N edge_attrs pe weight w /\
        represents G (xm_dir N) (xm_nodes N) (multi_weight false N w)
    | Raise e =>
        (e = ENotImpl /\ ((pe = true /\ exists a b, mcarries N a /\ mcarries N b /\ a <> b) \/ node_attrs = true \/ (pn = true /\ xm_nattr N = true) \/
           (exists l, edge_attrs = Some l /\ 1 < List.length l) \/ exists a z, edge_attrs = Some [(a, Some z)] /\ z <> 1%Z))
        \/ (e = EType /\ weight <> None /\ (pe = true \/ exists l, edge_attrs = Some l /\ l <> []))
    end).
  { intros HC. destruct node_attrs; [auto 10|]. destruct (pn && xm_nattr N) eqn:P; [apply andb_true_iff in P; auto 10|].
    assert (NA : pn = true -> xm_nattr N = false) by (intros ->; exact P).
    destruct edge_attrs as [[|[a d] [|p l]]|]; cbn [obind].
    - split; [reflexivity|]. split; [exact NA|]. apply FIN. apply mrq_weight; auto.
    - destruct weight as [x|]; cbn [has obind].
      + right. split; [reflexivity|]. split; [discriminate|]. right. eexists. split; [reflexivity|discriminate].
      + destruct d as [z|]; cbn [obind]; [destruct (Z.eqb_spec z 1) as [Ez|Ez]; cbn [obind]|].
        * split; [reflexivity|]. split; [exact NA|]. apply FIN. eapply mrq_attr; eauto.
        * left. split; [reflexivity|]. do 4 right. eauto.
        * split; [reflexivity|]. split; [exact NA|]. apply FIN. eapply mrq_attr; eauto.
    - left. split; [reflexivity|]. do 3 right. left. eexists. split; [reflexivity|]. cbn [List.length]. lia.
    - split; [reflexivity|]. split; [exact NA|]. apply FIN. apply mrq_weight; auto. }
  destruct pe; [|cbn [obind]; apply STD; left; reflexivity].
  destruct (mdedup_cases N) as [(a & D & O)|[[D O]|(a & b & l & D & H1 & H2 & H3)]]; rewrite D; cbn [obind].
  - destruct node_attrs; [auto 10|]. destruct (pn && xm_nattr N) eqn:P; [apply andb_true_iff in P; auto 10|].
    destruct weight as [x|]; cbn [has obind]; [right; split; [reflexivity|split; [discriminate|auto]]|].
    split; [reflexivity|]. split; [intros ->; exact P|]. apply FIN. apply mrq_preserve; auto.
  - apply STD. right. exact O.
  - left. split; [reflexivity|]. left. split; [reflexivity|]. exists a, b. auto.
Qed.
Theorem C94_round_trip_refuted N weight : xmwf N -> exists G N' s,
  m_convert_from_nx orc N None false false false weight = Val (MLib G st0) /\
  convert_graph_to_nx G st0 = (Val N', s) /\
  nx_shows N' (xm_dir N) (xm_nodes N) (fun u v => match xm_edges N u v with [] => None | _ => Some [(KS "weight", multi_worth N weight u v)] end).
Proof.
  intros H. pose proof (C94_from_networkx orc (xm_dir N) N weight None H (or_introl eq_refl) (fun E => E)) as P. cbn [is_bool] in P.
  set (G := from_multi orc (xm_dir N) N weight None) in *. destruct P as (wf & D & HN & HW).
  assert (E : m_convert_from_nx orc N None false false false weight = Val (MLib G st0)) by reflexivity.
  destruct (C64_to_networkx G (Some (KS "weight")) wf st0 (Inv_st0 _ true)) as [(N' & E' & HS) _].
  destruct (convert_graph_to_nx G st0) as [o s] eqn:EC. exists G, N', s. split; [exact E|]. split.
  - unfold convert_graph_to_nx in *. rewrite EC in *. cbn [fst] in E'. rewrite E'. reflexivity.
  - destruct HS as (S1 & S2 & S3 & S4). split; [congruence|]. split; [congruence|]. split; [exact S3|]. intros u v. rewrite S4, HW. unfold multi_weight. destruct (xm_edges N u v); reflexivity.
Qed.
End Inst.

(** ** concrete multigraphs: two nodes and two parallel edges of weight 2 and 3 *)
Definition nxm2 : nxmulti := {| xm_dir := false; xm_nattr := false;
  xm_adj := [(KI 0, [(KI 1, [(KI 0, [(KS "weight", 2%Z)]); (KI 1, [(KS "weight", 3%Z)])])]);
             (KI 1, [(KI 0, [(KI 0, [(KS "weight", 2%Z)]); (KI 1, [(KS "weight", 3%Z)])])])] |}.
Definition nxm2d : nxmulti := {| xm_dir := true; xm_nattr := false;
  xm_adj := [(KI 0, [(KI 1, [(KI 0, [(KS "weight", 2%Z)]); (KI 1, [(KS "weight", 3%Z)])])]); (KI 1, [])] |}.
Lemma nxm2_wf : xmwf nxm2.
Proof.
  assert (D : forall u v l, xm_data nxm2 u v = Some l -> ((u = KI 0 /\ v = KI 1) \/ (u = KI 1 /\ v = KI 0)) /\ l <> []).
  { intros u v l. unfold xm_data. cbn [nxm2 xm_adj dget]. destruct (nkey_eqb u (KI 0)) eqn:E; [|destruct (nkey_eqb u (KI 1)) eqn:E']; cbn [dget]; try discriminate.
    - destruct (nkey_eqb v (KI 1)) eqn:E2; [|discriminate]. intros X. injection X as <-. apply nkey_eqb_eq in E, E2. split; [auto|discriminate].
    - destruct (nkey_eqb v (KI 0)) eqn:E2; [|discriminate]. intros X. injection X as <-. apply nkey_eqb_eq in E', E2. split; [auto|discriminate]. }
  constructor.
  - repeat constructor; simpl; intuition congruence.
  - intros u v l H. apply (D u v l H).
  - intros u v l H. apply D in H as [[[-> ->]|[-> ->]] _]; simpl; auto.
  - intros _ u v. destruct (xm_data nxm2 u v) as [l|] eqn:E.
    + pose proof (D _ _ _ E) as [[[-> ->]|[-> ->]] _]; vm_compute in E |- *; congruence.
    + destruct (xm_data nxm2 v u) as [l|] eqn:E2; [|reflexivity]. pose proof (D _ _ _ E2) as [[[-> ->]|[-> ->]] _]; vm_compute in E; discriminate.
Qed.
Lemma nxm2d_wf : xmwf nxm2d.
Proof.
  assert (D : forall u v l, xm_data nxm2d u v = Some l -> (u = KI 0 /\ v = KI 1) /\ l <> []).
  { intros u v l. unfold xm_data. cbn [nxm2d xm_adj dget]. destruct (nkey_eqb u (KI 0)) eqn:E; [|destruct (nkey_eqb u (KI 1)) eqn:E']; cbn [dget]; try discriminate.
    destruct (nkey_eqb v (KI 1)) eqn:E2; [|discriminate]. intros X. injection X as <-. apply nkey_eqb_eq in E, E2. split; [auto|discriminate]. }
  constructor.
  - repeat constructor; simpl; intuition congruence.
  - intros u v l H. apply (D u v l H).
  - intros u v l H. apply D in H as [[-> ->] _]; simpl; auto.
  - discriminate.
Qed.
(** functions of single edges go wrong: the distance is 2, and the answer 5; the degree centralities are 2, and the answers 1; the
    edge expansion is 2, and the answer 1 *)
Theorem C94_parallel_edges_refuted : xmwf nxm2 /\
  fst (m_any (fun _ => false) (Some (KS "weight")) None (fun G => nx_bf_path_length G (KI 0) (KI 1)) (MNx nxm2)) = Val 5%Z /\
  match fst (m_any (fun _ => false) None None nx_degree_centrality (MNx nxm2)) with Val r => nm_getitem r (KI 0) = Val (1 # 1)%Q | Raise _ => False end /\
  (exists q, fst (m_any (fun _ => false) None None (fun G => nx_edge_expansion G [KI 0] None false) (MNx nxm2)) = Val q /\ (q == 1)%Q) /\
  fst (m_cut_size (fun _ => false) [KI 0] None None (MNx nxm2)) = Val 2%Z.
Proof. split; [apply nxm2_wf|]. split; [vm_compute; reflexivity|]. split; [vm_compute; reflexivity|]. split; [eexists; split; [vm_compute; reflexivity|reflexivity]|vm_compute; reflexivity]. Qed.
(** with data, each of the two edges should come once with its own data; instead the sum comes five times; and the edge disappears if
    the sum is not positive *)
Theorem C94_edge_boundary_data_refuted : xmwf nxm2 /\
  fst (m_edge_boundary (fun _ => false) [KI 0] None DataYes (MNx nxm2)) = Val (repeat (KI 0, KI 1, Some (KS "weight", 5%Z)) 5) /\
  fst (m_edge_boundary (fun _ => false) [KI 0] None DataNo (MNx nxm2)) = Val (repeat (KI 0, KI 1, None) 2).
Proof. split; [apply nxm2_wf|]. split; vm_compute; reflexivity. Qed.
(** adjacency_matrix(weight=None) should count the edges; it does for a library multigraph, but not for the networkx multigraph *)
Theorem C94_adjacency_refuted : xmwf nxm2 /\
  (exists A, fst (m_adjacency_matrix (fun _ => false) None None (MNx nxm2)) = Val A /\ mget A 0 1 = Some 1%Z) /\
  (exists A, fst (m_adjacency_matrix (fun _ => false) None None (MLib (from_multi (fun _ => false) false nxm2 None None) st0)) = Val A /\ mget A 0 1 = Some 2%Z).
Proof. split; [apply nxm2_wf|]. split; eexists; (split; [vm_compute; reflexivity|vm_compute; reflexivity]). Qed.
(** volume of a directed multigraph sums the wrong degrees: node 0 has out-degree 2 and the answer is 0; the simple graph is right *)
Theorem C94_volume_refuted : xmwf nxm2d /\ fst (m_volume (fun _ => false) [KI 0] None (MNx nxm2d)) = Val 0%Z /\
  fst (m_volume (fun _ => false) [KI 1] None (MNx nxm2d)) = Val 2%Z.
Proof. split; [apply nxm2d_wf|]. split; vm_compute; reflexivity. Qed.
(** directed multigraphs are said to be refused by reciprocity and are not *)
Theorem C94_reciprocity_refuted : xmwf nxm2d /\ (exists q, fst (m_overall_reciprocity (fun _ => false) (MNx nxm2d)) = Val q /\ (q == 0)%Q) /\
  fst (m_is_tournament (fun _ => false) (MNx nxm2d)) = Raise ENotImpl.
Proof. split; [apply nxm2d_wf|]. split; [eexists; split; [vm_compute; reflexivity|reflexivity]|vm_compute; reflexivity]. Qed.
(** the union of a multigraph and a simple graph is accepted *)
Example C94_ex_union : exists R, m_op2 (fun _ => false) (fun G H => Model_Operators.union (fun _ => false) G H []) (MNx nxm2) (MArg (ANx nx3)) = Raise EAlg /\
  m_op2 (fun _ => false) (disjoint_union (fun _ => false)) (MNx nxm2) (MArg (ANx nx3)) = Val R /\ List.length (gnodes R) = 5.
Proof. eexists. split; [vm_compute; reflexivity|]. split; [vm_compute; reflexivity|reflexivity]. Qed.
(** non-vacuity: hypotheses of the theorems above on the two multigraphs *)
Example C94_ex : mgiven consistent None (MNx nxm2) /\ mgiven consistent (Some true) (MNx nxm2d) /\ mrefused (Some true) (MNx nxm2) = Some ENotImpl /\
  multi_weight false nxm2 (Some (KS "weight")) (KI 0) (KI 1) = Some 5%Z /\ multi_weight false nxm2 None (KI 0) (KI 1) = Some 2%Z /\
  multi_weight true nxm2 None (KI 0) (KI 1) = Some 1%Z /\
  fst (m_cut_size (fun _ => false) [KI 0] (Some [KI 1]) (Some (KS "weight")) (MNx nxm2d)) = Val 5%Z.
Proof. split; [apply nxm2_wf|]. split; [apply nxm2d_wf|]. repeat split; vm_compute; reflexivity. Qed.

Print Assumptions C94_from_networkx.
Print Assumptions C94_counts.
Print Assumptions C94_any_function.
Print Assumptions C94_directed_function.
Print Assumptions C94_undirected_function.
Print Assumptions C94_refused.
Print Assumptions C94_simple_unchanged.
Print Assumptions C94_reciprocity.
Print Assumptions C94_cut_size.
Print Assumptions C94_volume.
Print Assumptions C94_adjacency_matrix.
Print Assumptions C94_laplacian_matrix.
Print Assumptions C94_library_multigraph.
Print Assumptions C94_conversions.
Print Assumptions C94_edge_boundary.
Print Assumptions C94_has_path.
Print Assumptions C94_node_connected_component.
Print Assumptions C94_is_weakly_connected.
Print Assumptions C94_pagerank.
Print Assumptions C94_single_source_bellman_ford_partial.
Print Assumptions C94_no_parallel.
Print Assumptions C94_operators_refuse.
Print Assumptions C94_operators_simple.
Print Assumptions C94_operators_networkx_refuted.
Print Assumptions C94_unary.
Print Assumptions C94_convert_from_nx.
Print Assumptions C94_round_trip_refuted.
Print Assumptions C94_parallel_edges_refuted.
Print Assumptions C94_edge_boundary_data_refuted.
Print Assumptions C94_adjacency_refuted.
Print Assumptions C94_volume_refuted.
Print Assumptions C94_reciprocity_refuted.
