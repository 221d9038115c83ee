(** * C71: what may be passed as a graph; C72: what networkx gets back *)
From Verif Require Import Base BaseProofs Model_Graph Model_Cache Spec_Cache CacheMath CacheProofs CacheProofs2
  Model_Keys Spec KeyProofs Spec_Run RunProofs Model_Bfs BfsProofs3 Walks Model_Operators OperatorProofs Props_Operators Props_Bfs
  Spec_Count Model_Measures CountProofs Props_Cuts Props_Measures Spec_Weighted Model_Weighted Props_Weighted
  Model_Dense Props_Dense Model_Cluster Spec_Cluster ClusterProofs Props_Cluster Model_Nx Props_Nx Concrete Props_Numbering Model_Convert.
From Coq Require Import QArith Qcanon Permutation.
Open Scope nat_scope.

(** ** Vocabulary: a networkx graph's nodes, edges and weights *)
Definition nx_node (N : nxgraph) (u : nkey) : Prop := In u (nx_nodes N).
Definition nx_edge (N : nxgraph) (u v : nkey) : Prop := exists x, nx_data N u v = Some x.
(** the weight of an edge is its attribute [w], 1 where it has none, and 1 everywhere for weight=None *)
Definition nx_weight (N : nxgraph) (w : option nkey) (u v : nkey) : option Z :=
  match nx_data N u v with
  | None => None
  | Some x => match w with None => Some 1%Z | Some a => match dget x a with Some z => Some z | None => Some 1%Z end end
  end.
(** [G] is the graph with these nodes (in this order) and weights *)
Definition represents (G : graph) (dir : bool) (nodes : list nkey) (W : nkey -> nkey -> option Z) : Prop :=
  gwf G /\ g_dir G = dir /\ gnodes G = nodes /\ forall u v, weight G u v = W u v.
(** the dtypes that are used: none, float, and bool for unit weights *)
Definition dtype_ok (dt : option dtype) (w : option nkey) : Prop := dt = None \/ dt = Some DFloat \/ (dt = Some DBool /\ w = None).
(** a matrix' nodes are its row numbers *)
Definition mnodes (A : mat Z) : list nkey := map (fun i => KI (Z.of_nat i)) (seq 0 (nrows A)).
Definition mweight (A : mat Z) (u v : nkey) : option Z :=
  match u, v with KI a, KI b => if (0 <=? a)%Z && (0 <=? b)%Z then mget A (Z.to_nat a) (Z.to_nat b) else None | _, _ => None end.
Definition mok (A : mat Z) (d : dtype) : Prop := mwf A /\ (nonneg_dtype d = true -> forall i j x, mget A i j = Some x -> (0 <= x)%Z).
Definition msymmetric (A : mat Z) : Prop := forall i j, mget A i j = mget A j i.

Section C71.
Variable orc : mat Z -> bool.

Lemma nx_weight_value N w u v : nx_weight N w u v = omap (edge_value w) (nx_data N u v).
Proof. unfold nx_weight. destruct (nx_data N u v) as [x|]; [|reflexivity]. destruct w as [a|]; [|reflexivity]. simpl. destruct (dget x a); reflexivity. Qed.
Lemma as_represents N w dt dir : nxwf N -> dtype_ok dt w -> (dir = false -> nx_dir N = false) ->
  represents (from_networkx_as orc dir N w dt) dir (nx_nodes N) (nx_weight N w).
Proof.
  intros wf Hd Hs. destruct (C64_from_networkx orc N w wf) as (W & A & B & K & C). set (G := from_networkx orc N w) in *.
  split; [|split; [reflexivity|split; [exact B|]]].
  2:{ intros u v. rewrite nx_weight_value. apply C. }
  constructor; cbn [from_networkx_as g_A g_dir g_iso g_dt g_kid]; try apply W.
  - intros Ed. apply (gw_sym G W). rewrite A. apply Hs. assumption.
  - intros Hn i j x Hx. destruct Hd as [->|[->|[-> ->]]]; cbn [oget] in Hn.
    + apply (gw_nn G W Hn i j x Hx).
    + discriminate.
    + pose proof (mget_some_lt _ _ _ _ (gw_mwf G W) Hx) as [Li Lj].
      destruct (kid_key G W i Li) as [u Hu]. destruct (kid_key G W j) as [v Hv]; [pose proof (gw_sq G W); unfold glen; lia|].
      assert (E : weight G u v = Some x) by (rewrite (weight_kid G u v i j Hu Hv); assumption).
      rewrite C in E. destruct (nx_data N u v); [|discriminate]. injection E as <-. cbn [edge_value]. lia.
Qed.
Lemma matrix_represents dir A d : mok A d -> nrows A = ncols A -> (dir = false -> msymmetric A) ->
  represents (new_graph orc dir A d (range_kid (nrows A))) dir (mnodes A) (mweight A).
Proof.
  intros [H1 H2] Hsq Hs. split.
  { apply new_graph_wf; auto; [apply range_kid_fst|rewrite range_kid_snd; apply Permutation_refl]. }
  split; [reflexivity|]. split; [unfold gnodes, new_graph, mnodes, range_kid; cbn [g_kid]; rewrite map_map; reflexivity|].
  intros u v. unfold weight, kid. cbn [new_graph g_kid g_A].
  assert (KN : forall k, (exists i, dget (range_kid (nrows A)) k = Some i /\ k = KI (Z.of_nat i) /\ i < nrows A) \/
                         (dget (range_kid (nrows A)) k = None /\ forall z, k = KI z -> (z < 0 \/ Z.of_nat (nrows A) <= z)%Z)).
  { intros k. destruct (dget (range_kid (nrows A)) k) as [i|] eqn:E; [left; exists i; split; [reflexivity|apply range_kid_get; assumption]|].
    right. split; [reflexivity|]. intros z ->. destruct (Z.ltb_spec z 0); [auto|]. destruct (Z.leb_spec (Z.of_nat (nrows A)) z); [auto|].
    assert (X : dget (range_kid (nrows A)) (KI z) = Some (Z.to_nat z)) by (apply range_kid_get; split; [f_equal; lia|lia]). congruence. }
  unfold mweight.
  destruct (KN u) as [(i & -> & -> & Li)|[-> Hu]].
  - destruct (KN v) as [(j & -> & -> & Lj)|[-> Hv]].
    + rewrite (proj2 (Z.leb_le 0 (Z.of_nat i))), (proj2 (Z.leb_le 0 (Z.of_nat j))) by lia. cbn [andb]. rewrite !Nat2Z.id. reflexivity.
    + destruct v as [z|]; [|reflexivity]. destruct (Z.leb_spec 0 z); [|rewrite andb_false_r; reflexivity]. rewrite (proj2 (Z.leb_le 0 (Z.of_nat i))) by lia. cbn [andb].
      symmetry. apply mget_out; [assumption|]. destruct (Hv z eq_refl); lia.
  - destruct u as [z|]; [|reflexivity]. destruct v as [z'|]; [|reflexivity]. destruct (Z.leb_spec 0 z); [|reflexivity]. destruct (0 <=? z')%Z; [|reflexivity]. cbn [andb].
    symmetry. apply mget_out; [assumption|]. destruct (Hu z eq_refl); lia.
Qed.

(** None counts as an empty graph *)
Lemma none_represents dir : represents (graph_of_none orc dir) dir [] (fun _ _ => None).
Proof.
  assert (E : nrows (mbuild 0 0 (fun _ _ : nat => @None Z)) = 0) by reflexivity.
  pose proof (matrix_represents dir (mbuild 0 0 (fun _ _ => None)) DFloat) as H. unfold graph_of_none. rewrite E in H. destruct H as (H1 & H2 & H3 & H4).
  - split; [apply mwf_mbuild|]. intros X. discriminate X.
  - reflexivity.
  - intros _ i j. rewrite !mget_mbuild. reflexivity.
  - split; [exact H1|]. split; [exact H2|]. split; [exact H3|]. intros u v. rewrite H4. unfold mweight. destruct u as [a|], v as [b|]; try reflexivity.
    destruct ((0 <=? a)%Z && (0 <=? b)%Z); [rewrite mget_mbuild; destruct (_ && _)|]; reflexivity.
Qed.

(** ** C71: the conversions *)
(** what a valid argument stands for; a networkx graph and a Matrix get a fresh cache *)
Definition arg_ok (a : garg) : Prop :=
  match a with AGraph G s => gwf G /\ Inv G s | ANx N => nxwf N | AMatrix A d => mok A d | AOther | ANone => True end.
Theorem C71_to_graph a w dt : arg_ok a -> dtype_ok dt w ->
  match to_graph orc a w dt with
  | Val (G, s) =>
      gwf G /\ Inv G s /\
      match a with
      | AGraph G' s' => G = G' /\ s = s'
      | ANx N => represents G (nx_dir N) (nx_nodes N) (nx_weight N w)
      | AMatrix A d => represents G true (mnodes A) (mweight A)
      | AOther => False
      | ANone => represents G true [] (fun _ _ => None)
      end
  | Raise e => (e = EType /\ a = AOther) \/ (e = EValue /\ exists A d, a = AMatrix A d /\ nrows A <> ncols A)
  end.
Proof.
  intros Ha Hd. destruct a as [G s|N|A d| |]; cbn [to_graph arg_ok] in *.
  - tauto.
  - pose proof (as_represents N w dt (nx_dir N) Ha Hd (fun E => E)) as R. split; [apply R|]. split; [apply Inv_st0|]. exact R.
  - unfold graph_of_matrix. destruct (Nat.eqb_spec (nrows A) (ncols A)) as [E|E]; cbn [obind].
    + pose proof (matrix_represents true A d Ha E (fun X => ltac:(discriminate X))) as R. split; [apply R|]. split; [apply Inv_st0|]. exact R.
    + right. eauto.
  - auto.
  - pose proof (none_represents true) as R. split; [apply R|]. split; [apply Inv_st0|]. exact R.
Qed.
Theorem C71_to_directed_graph a w dt : arg_ok a -> dtype_ok dt w ->
  match to_directed_graph orc a w dt with
  | Val (G, s) =>
      gwf G /\ Inv G s /\ g_dir G = true /\
      match a with
      | AGraph G' s' => G = G' /\ s = s'
      | ANx N => nx_dir N = true /\ represents G true (nx_nodes N) (nx_weight N w)
      | AMatrix A d => represents G true (mnodes A) (mweight A)
      | AOther => False
      | ANone => represents G true [] (fun _ _ => None)
      end
  | Raise e => (e = EType /\ (a = AOther \/ (exists N, a = ANx N /\ nx_dir N = false) \/ exists G s, a = AGraph G s /\ g_dir G = false)) \/
               (e = EValue /\ exists A d, a = AMatrix A d /\ nrows A <> ncols A)
  end.
Proof.
  intros Ha Hd. destruct a as [G s|N|A d| |]; cbn [to_directed_graph arg_ok] in *.
  - destruct (g_dir G) eqn:E; [tauto|]. left. split; [reflexivity|]. right. right. eauto.
  - destruct (nx_dir N) eqn:E.
    + pose proof (as_represents N w dt true Ha Hd (fun X => ltac:(discriminate X))) as R. split; [apply R|]. split; [apply Inv_st0|]. split; [reflexivity|auto].
    + left. split; [reflexivity|]. right. left. eauto.
  - unfold graph_of_matrix. destruct (Nat.eqb_spec (nrows A) (ncols A)) as [E|E]; cbn [obind].
    + pose proof (matrix_represents true A d Ha E (fun X => ltac:(discriminate X))) as R. split; [apply R|]. split; [apply Inv_st0|]. split; [reflexivity|]. exact R.
    + right. eauto.
  - auto.
  - pose proof (none_represents true) as R. split; [apply R|]. split; [apply Inv_st0|]. split; [reflexivity|exact R].
Qed.
(** for undirected algorithms: only where the argument really is undirected *)
Definition undirected_arg (a : garg) : Prop :=
  match a with AGraph G _ => g_dir G = false | ANx N => nx_dir N = false | AMatrix A _ => msymmetric A | AOther | ANone => True end.
Theorem C71_to_undirected_graph_partial a w dt : arg_ok a -> dtype_ok dt w -> undirected_arg a ->
  match to_undirected_graph orc a w dt with
  | Val (G, s) =>
      gwf G /\ Inv G s /\ g_dir G = false /\
      match a with
      | AGraph G' s' => G = G' /\ s = s'
      | ANx N => represents G false (nx_nodes N) (nx_weight N w)
      | AMatrix A d => represents G false (mnodes A) (mweight A)
      | AOther => False
      | ANone => represents G false [] (fun _ _ => None)
      end
  | Raise e => (e = EType /\ a = AOther) \/ (e = EValue /\ exists A d, a = AMatrix A d /\ nrows A <> ncols A)
  end.
Proof.
  intros Ha Hd Hu. destruct a as [G s|N|A d| |]; cbn [to_undirected_graph arg_ok undirected_arg] in *.
  - tauto.
  - pose proof (as_represents N w dt false Ha Hd (fun _ => Hu)) as R. split; [apply R|]. split; [apply Inv_st0|]. split; [reflexivity|exact R].
  - unfold graph_of_matrix. destruct (Nat.eqb_spec (nrows A) (ncols A)) as [E|E]; cbn [obind].
    + pose proof (matrix_represents false A d Ha E (fun _ => Hu)) as R. split; [apply R|]. split; [apply Inv_st0|]. split; [reflexivity|exact R].
    + right. eauto.
  - auto.
  - pose proof (none_represents false) as R. split; [apply R|]. split; [apply Inv_st0|]. split; [reflexivity|exact R].
Qed.
(** a decorated function refuses exactly the graphs of the wrong direction; matrices pass *)
Theorem C71_decorated no a :
  match decorated no a with
  | Val _ => True
  | Raise e => exists d, no = Some d /\
      ((e = ENotImpl /\ ((exists G s, a = AGraph G s /\ g_dir G = d) \/ exists N, a = ANx N /\ nx_dir N = d)) \/ (e = EAttr /\ (a = AOther \/ a = ANone)))
  end.
Proof.
  destruct no as [d|]; [|exact I]. destruct a as [G s|N|A d'| |]; cbn [decorated].
  - destruct (Bool.eqb (g_dir G) d) eqn:E; [|exact I]. apply eqb_prop in E. exists d. split; [reflexivity|]. left. split; [reflexivity|]. left. eauto.
  - destruct (Bool.eqb (nx_dir N) d) eqn:E; [|exact I]. apply eqb_prop in E. exists d. split; [reflexivity|]. left. split; [reflexivity|]. right. eauto.
  - exact I.
  - exists d. auto.
  - exists d. auto.
Qed.

(** ** the same call on a networkx graph: a theorem about every cache state of the converted graph transfers *)
Theorem C71_call {X} N w dt (f : graph -> M X) (P : outcome X -> Prop) : nxwf N -> dtype_ok dt w ->
  (forall G, represents G (nx_dir N) (nx_nodes N) (nx_weight N w) -> P (fst (f G st0))) ->
  P (fst (call None (fun a => to_graph orc a w dt) f (ANx N))).
Proof. intros wf Hd H. unfold call. cbn [decorated to_graph]. cbn [fst]. apply H. apply as_represents; auto. Qed.
Theorem C71_call_undirected {X} N w dt (f : graph -> M X) (P : outcome X -> Prop) : nxwf N -> dtype_ok dt w ->
  (nx_dir N = true -> P (Raise ENotImpl)) ->
  (forall G, nx_dir N = false -> represents G false (nx_nodes N) (nx_weight N w) -> P (fst (f G st0))) ->
  P (fst (call (Some true) (fun a => to_undirected_graph orc a w dt) f (ANx N))).
Proof.
  intros wf Hd H1 H2. unfold call. cbn [decorated to_undirected_graph]. destruct (nx_dir N) eqn:E; cbn [Bool.eqb fst]; [auto|].
  apply H2; [reflexivity|]. apply as_represents; auto.
Qed.
Theorem C71_call_directed {X} N w dt (f : graph -> M X) (P : outcome X -> Prop) : nxwf N -> dtype_ok dt w ->
  (nx_dir N = false -> P (Raise ENotImpl)) ->
  (forall G, nx_dir N = true -> represents G true (nx_nodes N) (nx_weight N w) -> P (fst (f G st0))) ->
  P (fst (call (Some false) (fun a => to_directed_graph orc a w dt) f (ANx N))).
Proof.
  intros wf Hd H1 H2. unfold call. cbn [decorated to_directed_graph]. destruct (nx_dir N) eqn:E; cbn [Bool.eqb fst]; [|auto].
  apply H2; [reflexivity|]. apply as_represents; auto. discriminate.
Qed.

Section R.
Variables (N : nxgraph) (G : graph) (w : option nkey) (dir : bool).
Hypothesis R : represents G dir (nx_nodes N) (nx_weight N w).
Lemma rp_node u : node G u <-> nx_node N u.
Proof. unfold node, nx_node. destruct R as (_ & _ & -> & _). reflexivity. Qed.
Lemma rp_weight u v : weight G u v = nx_weight N w u v. Proof. apply R. Qed.
Lemma rp_edge u v : edge G u v <-> nx_edge N u v.
Proof.
  unfold edge, nx_edge. rewrite rp_weight. unfold nx_weight. destruct (nx_data N u v) as [x|].
  - split; intros _; [eauto|]. destruct w as [a|]; [destruct (dget x a)|]; eauto.
  - split; intros [? ?]; discriminate.
Qed.
Lemma rp_has u v : has_edge G u v = has (nx_data N u v).
Proof. unfold has_edge. rewrite rp_weight. unfold nx_weight. destruct (nx_data N u v) as [x|]; [|reflexivity]. destruct w as [a|]; [destruct (dget x a)|]; reflexivity. Qed.
End R.

(** ** stated for networkx graphs *)
Theorem C71_descendants N u : nxwf N ->
  match fst (call None (fun a => to_graph orc a None None) (fun G => nx_descendants G u) (ANx N)) with
  | Val r => nx_node N u /\ is_set r (fun v => v <> u /\ reach (nx_edge N) u v)
  | Raise e => e = EKey /\ ~ nx_node N u
  end.
Proof.
  intros wf. apply (C71_call N None None _ (fun o => match o with Val r => _ | Raise e => _ end) wf (or_introl eq_refl)). intros G R.
  destruct (C07_descendants G u (proj1 R) st0 (Inv_st0 G true)) as [H _]. revert H. destruct (fst _) as [r|e]; rewrite (rp_node _ _ _ _ R u).
  - intros [H1 H2]. split; [assumption|]. refine (is_set_ext _ _ _ _ H2). intros v. cbv beta. rewrite (reach_iff _ _ (rp_edge _ _ _ _ R)). reflexivity.
  - tauto.
Qed.
Theorem C71_ancestors N u : nxwf N ->
  match fst (call None (fun a => to_graph orc a None None) (fun G => nx_ancestors G u) (ANx N)) with
  | Val r => nx_node N u /\ is_set r (fun v => v <> u /\ reach (nx_edge N) v u)
  | Raise e => e = EKey /\ ~ nx_node N u
  end.
Proof.
  intros wf. apply (C71_call N None None _ (fun o => match o with Val r => _ | Raise e => _ end) wf (or_introl eq_refl)). intros G R.
  destruct (C07_ancestors G u (proj1 R) st0 (Inv_st0 G true)) as [H _]. revert H. destruct (fst _) as [r|e]; rewrite (rp_node _ _ _ _ R u).
  - intros [H1 H2]. split; [assumption|]. refine (is_set_ext _ _ _ _ H2). intros v. cbv beta. rewrite (reach_iff _ _ (rp_edge _ _ _ _ R)). reflexivity.
  - tauto.
Qed.
Theorem C71_single_source_shortest_path_length N u cutoff : nxwf N ->
  match fst (call None (fun a => to_graph orc a None None) (fun G => nx_single_source_spl G u cutoff) (ANx N)) with
  | Val m => nx_node N u /\ is_map m (fun v x => exists d, x = Z.of_nat d /\ dist (nx_edge N) u v d /\ within cutoff d)
  | Raise e => e = EKey /\ ~ nx_node N u
  end.
Proof.
  intros wf. apply (C71_call N None None _ (fun o => match o with Val r => _ | Raise e => _ end) wf (or_introl eq_refl)). intros G R.
  destruct (C08_single_source G u cutoff (proj1 R) st0 (Inv_st0 G true)) as [H _]. revert H. destruct (fst _) as [r|e]; rewrite (rp_node _ _ _ _ R u).
  - intros [H1 H2]. split; [assumption|]. refine (is_map_ext _ _ _ _ H2). intros v x. cbv beta.
    split; intros (d & E1 & E2 & E3); exists d; (split; [assumption|split; [|assumption]]); apply (dist_iff _ _ (rp_edge _ _ _ _ R)); assumption.
  - tauto.
Qed.
Theorem C71_has_path N u v : nxwf N ->
  match fst (call None (fun a => to_graph orc a None None) (fun G => has_path G u v) (ANx N)) with
  | Val b => nx_node N u /\ nx_node N v /\ (b = true <-> reach (nx_edge N) u v)
  | Raise e => e = EKey /\ ~ (nx_node N u /\ nx_node N v)
  end.
Proof.
  intros wf. apply (C71_call N None None _ (fun o => match o with Val r => _ | Raise e => _ end) wf (or_introl eq_refl)). intros G R.
  destruct (C10_has_path G u v (proj1 R) st0 (Inv_st0 G true)) as [H _]. revert H. destruct (fst _) as [r|e]; rewrite (rp_node _ _ _ _ R u), (rp_node _ _ _ _ R v).
  - rewrite (reach_iff _ _ (rp_edge _ _ _ _ R)). tauto.
  - tauto.
Qed.
Theorem C71_is_connected N : nxwf N ->
  match fst (call (Some true) (fun a => to_undirected_graph orc a None None) nx_is_connected (ANx N)) with
  | Val b => nx_dir N = false /\ nx_nodes N <> [] /\ (b = true <-> forall u v, nx_node N u -> nx_node N v -> reach (nx_edge N) u v)
  | Raise e => (e = ENotImpl /\ nx_dir N = true) \/ (e = EPointless /\ nx_dir N = false /\ nx_nodes N = [])
  end.
Proof.
  intros wf. apply (C71_call_undirected N None None _ (fun o => match o with Val r => _ | Raise e => _ end) wf (or_introl eq_refl)); [auto|]. intros G Hd R.
  destruct (C11_is_connected G (proj1 R) (proj1 (proj2 R)) st0 (Inv_st0 G true)) as [H _]. revert H.
  assert (E : Props_Bfs.nodes_empty G <-> nx_nodes N = []).
  { unfold Props_Bfs.nodes_empty, node. destruct R as (_ & _ & -> & _). split; [|intros ->; auto]. destruct (nx_nodes N) as [|k l]; [reflexivity|]. intros H. destruct (H k). left. reflexivity. }
  destruct (fst _) as [r|e]; rewrite E.
  - intros [H1 H2]. split; [assumption|]. split; [assumption|]. rewrite H2. split; intros H u v Hu Hv.
    + apply (reach_iff _ _ (rp_edge _ _ _ _ R)). apply H; apply (rp_node _ _ _ _ R); assumption.
    + apply (reach_iff _ _ (rp_edge _ _ _ _ R)). apply H; apply (rp_node _ _ _ _ R); assumption.
  - tauto.
Qed.
Theorem C71_node_connected_component N u : nxwf N ->
  match fst (call (Some true) (fun a => to_undirected_graph orc a None None) (fun G => nx_node_connected_component G u) (ANx N)) with
  | Val r => nx_dir N = false /\ nx_node N u /\ is_set r (fun v => reach (nx_edge N) u v)
  | Raise e => (e = ENotImpl /\ nx_dir N = true) \/ (e = EKey /\ nx_dir N = false /\ ~ nx_node N u)
  end.
Proof.
  intros wf. apply (C71_call_undirected N None None _ (fun o => match o with Val r => _ | Raise e => _ end) wf (or_introl eq_refl)); [auto|]. intros G Hd R.
  destruct (C07_node_connected_component G u (proj1 R) (proj1 (proj2 R)) st0 (Inv_st0 G true)) as [H _]. revert H.
  destruct (fst _) as [r|e]; rewrite (rp_node _ _ _ _ R u).
  - intros [H1 H2]. split; [assumption|]. split; [assumption|]. refine (is_set_ext _ _ _ _ H2). intros v. cbv beta. apply (reach_iff _ _ (rp_edge _ _ _ _ R)).
  - tauto.
Qed.
Theorem C71_is_weakly_connected N : nxwf N ->
  match fst (call (Some false) (fun a => to_directed_graph orc a None None) nx_is_weakly_connected (ANx N)) with
  | Val b => nx_dir N = true /\ nx_nodes N <> [] /\ (b = true <-> forall u v, nx_node N u -> nx_node N v -> reach (sym (nx_edge N)) u v)
  | Raise e => (e = ENotImpl /\ nx_dir N = false) \/ (e = EPointless /\ nx_dir N = true /\ nx_nodes N = [])
  end.
Proof.
  intros wf. apply (C71_call_directed N None None _ (fun o => match o with Val r => _ | Raise e => _ end) wf (or_introl eq_refl)); [auto|]. intros G Hd R.
  destruct (C11_is_weakly_connected G (proj1 R) (proj1 (proj2 R)) st0 (Inv_st0 G true)) as [H _]. revert H.
  assert (E : Props_Bfs.nodes_empty G <-> nx_nodes N = []).
  { unfold Props_Bfs.nodes_empty, node. destruct R as (_ & _ & -> & _). split; [|intros ->; auto]. destruct (nx_nodes N) as [|k l]; [reflexivity|]. intros H. destruct (H k). left. reflexivity. }
  assert (SE : forall x y, sym (edge G) x y <-> sym (nx_edge N) x y) by (intros x y; unfold sym; rewrite !(rp_edge _ _ _ _ R); reflexivity).
  destruct (fst _) as [r|e]; rewrite E.
  - intros [H1 H2]. split; [assumption|]. split; [assumption|]. rewrite H2. split; intros H u v Hu Hv.
    + apply (reach_iff _ _ SE). apply H; apply (rp_node _ _ _ _ R); assumption.
    + apply (reach_iff _ _ SE). apply H; apply (rp_node _ _ _ _ R); assumption.
  - tauto.
Qed.
(** Bellman-Ford by the edges' attribute [w]; on graphs that have an edge (C14_iso_empty_refuted) *)
Theorem C71_single_source_bellman_ford N u w : nxwf N -> (exists x y, nx_edge N x y) ->
  match fst (call None (fun a => to_graph orc a w None) (fun G => nx_single_source_bf G u) (ANx N)) with
  | Val m => nx_node N u /\ ~ neg_cycle_from (nx_weight N w) u /\ is_map m (shortest (nx_weight N w) u) /\
             forall v, wreach (nx_weight N w) u v -> exists x, nm_getitem m v = Val x
  | Raise e => (e = EKey /\ ~ nx_node N u) \/ (e = EUnbounded /\ nx_node N u /\ neg_cycle_from (nx_weight N w) u)
  end.
Proof.
  intros wf He. apply (C71_call N w None _ (fun o => match o with Val r => _ | Raise e => _ end) wf (or_introl eq_refl)). intros G R.
  assert (Hi : iso_has_edge G) by (intros _; destruct He as (x & y & E); exists x, y; apply (rp_edge _ _ _ _ R); assumption).
  destruct (C14_single_source G u (proj1 R) Hi st0 (Inv_st0 G true)) as [H _]. revert H.
  pose proof (rp_weight _ _ _ _ R) as W.
  destruct (fst _) as [r|e]; rewrite (rp_node _ _ _ _ R u), (neg_cycle_from_iff _ _ W).
  - intros (H1 & H2 & H3 & H4). split; [assumption|]. split; [assumption|]. split.
    + refine (is_map_ext _ _ _ _ H3). intros v x. cbv beta. apply (shortest_iff _ _ W).
    + intros v Hv. apply H4. apply (wreach_iff _ _ W). assumption.
  - tauto.
Qed.
(** triangles: pairs of neighbours that are neighbours; self-loops do not count *)
Definition nx_nbr (N : nxgraph) (u v : nkey) : bool := negb (nkey_eqb u v) && has (nx_data N u v).
Definition nx_triangles_at (N : nxgraph) (v : nkey) : nat :=
  count (fun p => nx_nbr N v (fst p) && nx_nbr N v (snd p) && nx_nbr N (fst p) (snd p)) (upairs (nx_nodes N)).
Theorem C71_triangles N : nxwf N -> nx_nodes N <> [] ->
  match fst (call (Some true) (fun a => to_undirected_graph orc a None (Some DBool)) (fun G => nx_triangles G AllNodes) (ANx N)) with
  | Val (RMap m) => nx_dir N = false /\ is_map m (fun k x => nx_node N k /\ x = Z.of_nat (nx_triangles_at N k))
  | Val _ => False
  | Raise e => e = ENotImpl /\ nx_dir N = true
  end.
Proof.
  intros wf Hn. apply (C71_call_undirected N None (Some DBool) _ (fun o => match o with Val (RMap m) => _ | Val _ => _ | Raise e => _ end) wf (or_intror (or_intror (conj eq_refl eq_refl)))); [auto|]. intros G Hd R.
  destruct (C20_triangles G (proj1 R) AllNodes (proj1 (proj2 R)) (fun k X => ltac:(discriminate X)) st0 (Inv_st0 G true)) as [H _]. revert H.
  destruct (fst _) as [[|t|m]|e].
  - destruct R as (_ & _ & -> & _). contradiction.
  - intros (k & X & _). discriminate.
  - intros [_ H2]. split; [assumption|]. refine (is_map_ext _ _ _ _ H2). intros k x. cbv beta. cbn [wanted]. rewrite (rp_node _ _ _ _ R k).
    assert (E : triangles_at G k = nx_triangles_at N k).
    { unfold triangles_at, nx_triangles_at. rewrite (proj1 (proj2 (proj2 R))). apply count_ext. intros p _. unfold nbr, nx_nbr. rewrite !(rp_has _ _ _ _ R). reflexivity. }
    rewrite E. reflexivity.
  - intros (_ & l & u & X & _). discriminate.
Qed.
End C71.
(** ** C71, refuted: undirected functions do not check that their argument is undirected *)
(** square_clustering carries no decorator, so a networkx DiGraph reaches to_undirected_graph, which makes an "undirected" graph with
    the edge 0 -> 1 and no edge 1 -> 0 of it *)
Definition nxd : nxgraph := {| nx_dir := true; nx_nattr := false; nx_adj := [(KI 0, [(KI 1, [])]); (KI 1, [])] |}.
Lemma nxd_wf : nxwf nxd.
Proof.
  constructor.
  - repeat constructor; simpl; intuition congruence.
  - intros u v x H. unfold nx_data in H. cbn [nxd nx_adj dget] in H. destruct (nkey_eqb u (KI 0)); cbn [dget] in H.
    + destruct (nkey_eqb v (KI 1)) eqn:E; [|discriminate]. apply nkey_eqb_eq in E. subst. simpl. auto.
    + destruct (nkey_eqb u (KI 1)); cbn [dget] in H; discriminate.
  - discriminate.
Qed.
Theorem C71_digraph_as_undirected_refuted : nxwf nxd /\ decorated None (ANx nxd) = Val tt /\
  exists G, to_undirected_graph (fun _ => false) (ANx nxd) None None = Val (G, st0) /\
    g_dir G = false /\ edge G (KI 0) (KI 1) /\ ~ edge G (KI 1) (KI 0) /\ ~ gwf G.
Proof.
  split; [apply nxd_wf|]. split; [reflexivity|]. eexists. split; [reflexivity|]. split; [reflexivity|].
  split; [exists 1%Z; vm_compute; reflexivity|]. split; [intros [x Hx]; vm_compute in Hx; discriminate|].
  intros wf. pose proof (gw_sym _ wf eq_refl 0 1) as H. vm_compute in H. discriminate.
Qed.
(** a Matrix passes every decorator: is_connected says yes or no for the same links, depending on their orientation *)
Definition m_star : mat Z := mbuild 3 3 (fun i j => if (i =? 0) && negb (j =? 0) then Some 1%Z else None).
Definition m_star_T : mat Z := mbuild 3 3 (fun i j => mget m_star j i).
Theorem C71_matrix_is_connected_refuted : mok m_star DInt /\ nrows m_star = ncols m_star /\
  fst (call (Some true) (fun a => to_undirected_graph (fun _ => false) a None None) nx_is_connected (AMatrix m_star DInt)) = Val true /\
  fst (call (Some true) (fun a => to_undirected_graph (fun _ => false) a None None) nx_is_connected (AMatrix m_star_T DInt)) = Val false.
Proof. split; [split; [apply mwf_mbuild|discriminate]|]. split; [reflexivity|]. split; vm_compute; reflexivity. Qed.
(** non-vacuity *)
Example C71_ex_nx : nxwf nx3 /\
  match fst (call None (fun a => to_graph (fun _ => true) a None None) (fun G => nx_descendants G (KI 1)) (ANx nx3)) with
  | Val r => ns_iter r = Val [KS "b"]
  | Raise _ => False
  end /\
  (exists x y, nx_edge nx3 x y) /\
  match fst (call None (fun a => to_graph (fun _ => true) a (Some (KS "weight")) None) (fun G => nx_single_source_bf G (KI 1)) (ANx nx3)) with
  | Val m => nm_getitem m (KS "b") = Val 1%Z
  | Raise _ => False
  end.
Proof. split; [apply nx3_wf|]. split; [vm_compute; reflexivity|]. split; [exists (KI 1), (KS "b"), []; vm_compute; reflexivity|vm_compute; reflexivity]. Qed.

(** ** C72: results handed back to networkx *)
(** the edge data of a result: the matrix value under "weight" *)
Definition nx_is (N : nxgraph) (dir : bool) (P : nkey -> Prop) (W : nkey -> nkey -> option Z) : Prop :=
  nx_dir N = dir /\ NoDup (nx_nodes N) /\ (forall k, nx_node N k <-> P k) /\
  forall u v, nx_data N u v = match W u v with Some x => Some [(KS "weight", x)] | None => None end.
Section C72.
Variable orc : mat Z -> bool.
(** what the two-step conversion sees: the graph with the requested weights *)
Definition seen (N : nxgraph) (ea : option (list (nkey * option Z))) (pe : bool) (G : graph) : Prop :=
  exists w, requested N ea pe None w /\ represents G (nx_dir N) (nx_nodes N) (nx_weight N w).
Lemma convert_seen N ea pe pn G : nxwf N -> convert_from_nx orc N ea false pe pn None = Val G -> seen N ea pe G.
Proof. intros wf E. destruct (C68_convert orc N ea false pe pn None G wf E) as (w & H & R). exists w. split; [assumption|exact R]. Qed.
Lemma back R dir P W : is_graph R dir P W -> exists N', fst (convert_graph_to_nx R st0) = Val N' /\ nx_is N' dir P W.
Proof.
  intros (wf & D & HP & HW). destruct (C64_to_networkx R (Some (KS "weight")) wf st0 (Inv_st0 R true)) as [(N' & E & S1 & S2 & S3 & S4) _].
  exists N'. split; [assumption|]. split; [congruence|]. split; [rewrite S2; apply (gnodes_nodup R wf)|]. split.
  - intros k. unfold nx_node. rewrite S2. apply HP.
  - intros u v. rewrite S4, HW. reflexivity.
Qed.
(** a function with one graph argument: if it maps every graph with N's nodes and weights to one with nodes P and weights W,
    the caller gets the networkx graph with nodes P and weights W; it fails where the conversion in does, or where f fails *)
Theorem C72_graph f N ea pe pn : nxwf N ->
  match dispatched_graph orc f N ea pe pn with
  | Val N' => exists w G, requested N ea pe None w /\ represents G (nx_dir N) (nx_nodes N) (nx_weight N w) /\
      exists R, f G = Val R /\ forall dir P W, is_graph R dir P W -> nx_is N' dir P W
  | Raise e => convert_from_nx orc N ea false pe pn None = Raise e \/
      exists w G, requested N ea pe None w /\ represents G (nx_dir N) (nx_nodes N) (nx_weight N w) /\
        (f G = Raise e \/ exists R, f G = Val R /\ ~ gwf R)
  end.
Proof.
  intros wf. unfold dispatched_graph. destruct (convert_from_nx orc N ea false pe pn None) as [G|e] eqn:E; cbn [obind]; [|auto].
  destruct (convert_seen N ea pe pn G wf E) as (w & Rq & Rp). destruct (f G) as [R|e] eqn:EF; cbn [obind].
  2:{ right. exists w, G. auto. }
  destruct (fst (convert_graph_to_nx R st0)) as [N'|e] eqn:E2.
  - exists w, G. split; [assumption|]. split; [assumption|]. exists R. split; [assumption|]. intros dir P W HR.
    destruct (back R dir P W HR) as (N2 & E3 & H). congruence.
  - right. exists w, G. split; [assumption|]. split; [assumption|]. right. exists R. split; [assumption|]. intros wR.
    destruct (back R (g_dir R) (node R) (weight R)) as (N2 & E3 & H); [split; [assumption|]; split; [reflexivity|]; split; [reflexivity|reflexivity]|congruence].
Qed.
Definition nx_in (N : nxgraph) (u : nkey) : bool := existsb (nkey_eqb u) (nx_nodes N).
Theorem C72_complement N ea pe pn : nxwf N ->
  match dispatched_graph orc (fun G => Val (Model_Operators.complement orc G)) N ea pe pn with
  | Val N' => nx_is N' (nx_dir N) (nx_node N)
      (fun u v => if nkey_eqb u v then None else if nx_in N u && nx_in N v then match nx_data N u v with None => Some 1%Z | Some _ => None end else None)
  | Raise e => convert_from_nx orc N ea false pe pn None = Raise e
  end.
Proof.
  intros wf. pose proof (C72_graph (fun G => Val (Model_Operators.complement orc G)) N ea pe pn wf) as H. destruct (dispatched_graph _ _ _ _ _ _) as [N'|e].
  - destruct H as (w & G & _ & Rp & R & [= <-] & H). pose proof (C33_complement orc G (proj1 Rp)) as (A & B & C & D).
    apply H. split; [assumption|]. split; [rewrite B; apply Rp|]. split; [intros k; rewrite C; apply (rp_node _ _ _ _ Rp)|]. intros u v. rewrite D.
    assert (IN : forall k, in_graph G k = nx_in N k).
    { intros k. unfold nx_in. rewrite <- (proj1 (proj2 (proj2 Rp))). destruct (existsb (nkey_eqb k) (gnodes G)) eqn:E.
      - apply node_in_graph. apply existsb_exists in E as (x & Hx & E). apply nkey_eqb_eq in E. subst. exact Hx.
      - destruct (in_graph G k) eqn:E2; [|reflexivity]. apply node_in_graph in E2. assert (X : existsb (nkey_eqb k) (gnodes G) = true); [|congruence].
        apply existsb_exists. exists k. split; [exact E2|apply nkey_eqb_refl]. }
    rewrite !IN, (rp_weight _ _ _ _ Rp). unfold nx_weight. destruct (nx_data N u v) as [x|]; [|reflexivity].
    destruct w as [a|]; [destruct (dget x a)|]; reflexivity.
  - destruct H as [H|(w & G & _ & Rp & [H|(R & [= <-] & H)])]; [assumption|discriminate|]. destruct H. apply (C33_complement orc G (proj1 Rp)).
Qed.
Theorem C72_reverse N ea pe pn : nxwf N ->
  match dispatched_graph orc (reverse orc) N ea pe pn with
  | Val N' => nx_dir N = true /\ exists w, requested N ea pe None w /\ nx_is N' true (nx_node N) (fun u v => nx_weight N w v u)
  | Raise e => convert_from_nx orc N ea false pe pn None = Raise e \/ (e = EAlg /\ nx_dir N = false)
  end.
Proof.
  intros wf. pose proof (C72_graph (reverse orc) N ea pe pn wf) as H. destruct (dispatched_graph _ _ _ _ _ _) as [N'|e].
  - destruct H as (w & G & Rq & Rp & R & HR & H). pose proof (C34_reverse orc G (proj1 Rp)) as X. rewrite HR in X. destruct X as (D & (A1 & A2 & A3 & A4) & _).
    split; [rewrite <- D; symmetry; apply Rp|]. exists w. split; [assumption|]. apply H. split; [assumption|]. split; [assumption|].
    split; [intros k; rewrite A3; apply (rp_node _ _ _ _ Rp)|]. intros u v. rewrite A4. apply (rp_weight _ _ _ _ Rp).
  - destruct H as [H|(w & G & _ & Rp & [H|(R & HR & H)])]; [auto| |].
    + pose proof (C34_reverse orc G (proj1 Rp)) as X. rewrite H in X. destruct X as [-> D]. right. split; [reflexivity|]. rewrite <- D. symmetry. apply Rp.
    + pose proof (C34_reverse orc G (proj1 Rp)) as X. rewrite HR in X. destruct H. apply X.
Qed.
(** two graphs *)
Theorem C72_graph2 f N1 N2 ea pe pn : nxwf N1 -> nxwf N2 ->
  match dispatched_graph2 orc f N1 N2 ea pe pn with
  | Val N' => exists w1 w2 G H, requested N1 ea pe None w1 /\ requested N2 ea pe None w2 /\
      represents G (nx_dir N1) (nx_nodes N1) (nx_weight N1 w1) /\ represents H (nx_dir N2) (nx_nodes N2) (nx_weight N2 w2) /\
      exists R, f G H = Val R /\ forall dir P W, is_graph R dir P W -> nx_is N' dir P W
  | Raise e => convert_from_nx orc N1 ea false pe pn None = Raise e \/ convert_from_nx orc N2 ea false pe pn None = Raise e \/
      exists w1 w2 G H, requested N1 ea pe None w1 /\ requested N2 ea pe None w2 /\
      represents G (nx_dir N1) (nx_nodes N1) (nx_weight N1 w1) /\ represents H (nx_dir N2) (nx_nodes N2) (nx_weight N2 w2) /\
        (f G H = Raise e \/ exists R, f G H = Val R /\ ~ gwf R)
  end.
Proof.
  intros wf wf'. unfold dispatched_graph2. destruct (convert_from_nx orc N1 ea false pe pn None) as [G|e] eqn:E; cbn [obind]; [|auto].
  destruct (convert_from_nx orc N2 ea false pe pn None) as [H|e] eqn:E'; cbn [obind]; [|auto].
  destruct (convert_seen N1 ea pe pn G wf E) as (w & Rq & Rp). destruct (convert_seen N2 ea pe pn H wf' E') as (w' & Rq' & Rp').
  destruct (f G H) as [R|e] eqn:EF; cbn [obind].
  2:{ right. right. exists w, w', G, H. auto 6. }
  destruct (fst (convert_graph_to_nx R st0)) as [N'|e] eqn:E2.
  - exists w, w', G, H. do 4 (split; [assumption|]). exists R. split; [assumption|]. intros dir P W HR.
    destruct (back R dir P W HR) as (N3 & E3 & HH). congruence.
  - right. right. exists w, w', G, H. do 4 (split; [assumption|]). right. exists R. split; [assumption|]. intros wR.
    destruct (back R (g_dir R) (node R) (weight R)) as (N3 & E3 & HH); [split; [assumption|]; split; [reflexivity|]; split; [reflexivity|reflexivity]|congruence].
Qed.
Theorem C72_union N1 N2 ea pe pn : nxwf N1 -> nxwf N2 -> (nx_dir N1 = false -> nx_dir N2 = false) ->
  match dispatched_graph2 orc (fun G H => union orc G H []) N1 N2 ea pe pn with
  | Val N' => (forall k, nx_node N1 k -> ~ nx_node N2 k) /\
      exists w1 w2, requested N1 ea pe None w1 /\ requested N2 ea pe None w2 /\
      nx_is N' (nx_dir N1) (fun k => nx_node N1 k \/ nx_node N2 k)
        (fun u v => match nx_weight N1 w1 u v with Some x => Some x | None => nx_weight N2 w2 u v end)
  | Raise e => convert_from_nx orc N1 ea false pe pn None = Raise e \/ convert_from_nx orc N2 ea false pe pn None = Raise e \/
      (e = EAlg /\ exists k, nx_node N1 k /\ nx_node N2 k)
  end.
Proof.
  intros wf wf' Hd. pose proof (C72_graph2 (fun G H => union orc G H []) N1 N2 ea pe pn wf wf') as H. destruct (dispatched_graph2 _ _ _ _ _ _ _) as [N'|e].
  - destruct H as (w1 & w2 & G & H & Rq1 & Rq2 & Rp1 & Rp2 & R & HR & HH).
    pose proof (C26_union_plain orc G H (proj1 Rp1) (proj1 Rp2)) as X. rewrite HR in X. destruct X as (D & A1 & A2 & A3 & A4); [destruct Rp1 as (_ & -> & _), Rp2 as (_ & -> & _); assumption|].
    split; [intros k Hk Hk'; apply (D k); [apply (rp_node _ _ _ _ Rp1)|apply (rp_node _ _ _ _ Rp2)]; assumption|].
    exists w1, w2. split; [assumption|]. split; [assumption|]. apply HH. split; [assumption|]. split; [rewrite A2; apply Rp1|]. split.
    + intros k. rewrite A3, (rp_node _ _ _ _ Rp1), (rp_node _ _ _ _ Rp2). reflexivity.
    + intros u v. rewrite A4, (rp_weight _ _ _ _ Rp1), (rp_weight _ _ _ _ Rp2). reflexivity.
  - destruct H as [H|[H|(w1 & w2 & G & H & Rq1 & Rq2 & Rp1 & Rp2 & X)]]; [auto|auto|].
    pose proof (C26_union_plain orc G H (proj1 Rp1) (proj1 Rp2)) as Y.
    assert (DD : g_dir G = false -> g_dir H = false) by (destruct Rp1 as (_ & -> & _), Rp2 as (_ & -> & _); assumption).
    destruct X as [X|(R & X & NW)]; rewrite X in Y; specialize (Y DD).
    + right. right. destruct Y as [-> (k & K1 & K2)]. split; [reflexivity|]. exists k. split; [apply (rp_node _ _ _ _ Rp1)|apply (rp_node _ _ _ _ Rp2)]; assumption.
    + destruct NW. apply Y.
Qed.
Theorem C72_difference N1 N2 ea pe pn : nxwf N1 -> nxwf N2 -> (nx_dir N1 = false -> nx_dir N2 = false) ->
  match dispatched_graph2 orc (difference orc) N1 N2 ea pe pn with
  | Val N' => (forall k, nx_node N1 k <-> nx_node N2 k) /\
      nx_is N' (nx_dir N1) (nx_node N1) (fun u v => match nx_data N1 u v, nx_data N2 u v with Some _, None => Some 1%Z | _, _ => None end)
  | Raise e => convert_from_nx orc N1 ea false pe pn None = Raise e \/ convert_from_nx orc N2 ea false pe pn None = Raise e \/
      (e = EAlg /\ ~ forall k, nx_node N1 k <-> nx_node N2 k)
  end.
Proof.
  intros wf wf' Hd. pose proof (C72_graph2 (difference orc) N1 N2 ea pe pn wf wf') as H. destruct (dispatched_graph2 _ _ _ _ _ _ _) as [N'|e].
  - destruct H as (w1 & w2 & G & H & Rq1 & Rq2 & Rp1 & Rp2 & R & HR & HH).
    pose proof (C29_difference orc G H (proj1 Rp1) (proj1 Rp2)) as X. rewrite HR in X. destruct X as (D & A1 & A2 & A3 & A4); [destruct Rp1 as (_ & -> & _), Rp2 as (_ & -> & _); assumption|].
    split; [intros k; rewrite <- (rp_node _ _ _ _ Rp1), <- (rp_node _ _ _ _ Rp2); apply D|].
    apply HH. split; [assumption|]. split; [rewrite A2; apply Rp1|]. split.
    + intros k. rewrite A3. apply (rp_node _ _ _ _ Rp1).
    + intros u v. rewrite A4, (rp_weight _ _ _ _ Rp1), (rp_weight _ _ _ _ Rp2). unfold nx_weight.
      destruct (nx_data N1 u v) as [x|], (nx_data N2 u v) as [y|]; try reflexivity; destruct w1 as [a|], w2 as [b|]; try destruct (dget x a); try destruct (dget y b); reflexivity.
  - destruct H as [H|[H|(w1 & w2 & G & H & Rq1 & Rq2 & Rp1 & Rp2 & X)]]; [auto|auto|].
    pose proof (C29_difference orc G H (proj1 Rp1) (proj1 Rp2)) as Y.
    assert (DD : g_dir G = false -> g_dir H = false) by (destruct Rp1 as (_ & -> & _), Rp2 as (_ & -> & _); assumption).
    destruct X as [X|(R & X & NW)]; rewrite X in Y; specialize (Y DD).
    + right. right. destruct Y as [-> K]. split; [reflexivity|]. intros F. apply K. intros k. rewrite (rp_node _ _ _ _ Rp1), (rp_node _ _ _ _ Rp2). apply F.
    + destruct NW. apply Y.
Qed.
Theorem C72_symmetric_difference N1 N2 ea pe pn : nxwf N1 -> nxwf N2 -> (nx_dir N1 = false -> nx_dir N2 = false) ->
  match dispatched_graph2 orc (symmetric_difference orc) N1 N2 ea pe pn with
  | Val N' => (forall k, nx_node N1 k <-> nx_node N2 k) /\
      nx_is N' (nx_dir N1) (nx_node N1) (fun u v => match nx_data N1 u v, nx_data N2 u v with Some _, None | None, Some _ => Some 1%Z | _, _ => None end)
  | Raise e => convert_from_nx orc N1 ea false pe pn None = Raise e \/ convert_from_nx orc N2 ea false pe pn None = Raise e \/
      (e = EAlg /\ ~ forall k, nx_node N1 k <-> nx_node N2 k)
  end.
Proof.
  intros wf wf' Hd. pose proof (C72_graph2 (symmetric_difference orc) N1 N2 ea pe pn wf wf') as H. destruct (dispatched_graph2 _ _ _ _ _ _ _) as [N'|e].
  - destruct H as (w1 & w2 & G & H & Rq1 & Rq2 & Rp1 & Rp2 & R & HR & HH).
    pose proof (C30_symmetric_difference orc G H (proj1 Rp1) (proj1 Rp2)) as X. rewrite HR in X. destruct X as (D & A1 & A2 & A3 & A4); [destruct Rp1 as (_ & -> & _), Rp2 as (_ & -> & _); assumption|].
    split; [intros k; rewrite <- (rp_node _ _ _ _ Rp1), <- (rp_node _ _ _ _ Rp2); apply D|].
    apply HH. split; [assumption|]. split; [rewrite A2; apply Rp1|]. split.
    + intros k. rewrite A3. apply (rp_node _ _ _ _ Rp1).
    + intros u v. rewrite A4, (rp_weight _ _ _ _ Rp1), (rp_weight _ _ _ _ Rp2). unfold nx_weight.
      destruct (nx_data N1 u v) as [x|], (nx_data N2 u v) as [y|]; try reflexivity; destruct w1 as [a|], w2 as [b|]; try destruct (dget x a); try destruct (dget y b); reflexivity.
  - destruct H as [H|[H|(w1 & w2 & G & H & Rq1 & Rq2 & Rp1 & Rp2 & X)]]; [auto|auto|].
    pose proof (C30_symmetric_difference orc G H (proj1 Rp1) (proj1 Rp2)) as Y.
    assert (DD : g_dir G = false -> g_dir H = false) by (destruct Rp1 as (_ & -> & _), Rp2 as (_ & -> & _); assumption).
    destruct X as [X|(R & X & NW)]; rewrite X in Y; specialize (Y DD).
    + right. right. destruct Y as [-> K]. split; [reflexivity|]. intros F. apply K. intros k. rewrite (rp_node _ _ _ _ Rp1), (rp_node _ _ _ _ Rp2). apply F.
    + destruct NW. apply Y.
Qed.
Theorem C72_intersection N1 N2 ea pe pn : nxwf N1 -> nxwf N2 -> (nx_dir N1 = false -> nx_dir N2 = false) ->
  match dispatched_graph2 orc (intersection orc) N1 N2 ea pe pn with
  | Val N' => nx_is N' (nx_dir N1) (fun k => nx_node N1 k /\ nx_node N2 k)
        (fun u v => match nx_data N1 u v, nx_data N2 u v with Some _, Some _ => Some 1%Z | _, _ => None end)
  | Raise e => convert_from_nx orc N1 ea false pe pn None = Raise e \/ convert_from_nx orc N2 ea false pe pn None = Raise e
  end.
Proof.
  intros wf wf' Hd. pose proof (C72_graph2 (intersection orc) N1 N2 ea pe pn wf wf') as H. destruct (dispatched_graph2 _ _ _ _ _ _ _) as [N'|e].
  - destruct H as (w1 & w2 & G & H & Rq1 & Rq2 & Rp1 & Rp2 & R & HR & HH).
    destruct (C28_intersection orc G H (proj1 Rp1) (proj1 Rp2)) as (R' & E & A1 & A2 & A3 & A4); [destruct Rp1 as (_ & -> & _), Rp2 as (_ & -> & _); assumption|].
    rewrite HR in E. injection E as <-. apply HH. split; [assumption|]. split; [rewrite A2; apply Rp1|]. split.
    + intros k. rewrite A3, (rp_node _ _ _ _ Rp1), (rp_node _ _ _ _ Rp2). reflexivity.
    + intros u v. rewrite A4, (rp_weight _ _ _ _ Rp1), (rp_weight _ _ _ _ Rp2). unfold nx_weight.
      destruct (nx_data N1 u v) as [x|], (nx_data N2 u v) as [y|]; try reflexivity; destruct w1 as [a|], w2 as [b|]; try destruct (dget x a); try destruct (dget y b); reflexivity.
  - destruct H as [H|[H|(w1 & w2 & G & H & Rq1 & Rq2 & Rp1 & Rp2 & X)]]; [auto|auto|].
    destruct (C28_intersection orc G H (proj1 Rp1) (proj1 Rp2)) as (R' & E & A); [destruct Rp1 as (_ & -> & _), Rp2 as (_ & -> & _); assumption|].
    destruct X as [X|(R & X & NW)]; rewrite X in E; [discriminate|]. injection E as <-. destruct NW. apply A.
Qed.
Theorem C72_compose_partial N1 N2 ea pe pn : nxwf N1 -> nxwf N2 -> (nx_dir N1 = false -> nx_dir N2 = false) ->
  (forall k, nx_node N1 k <-> nx_node N2 k) \/ (forall k, nx_node N1 k -> ~ nx_node N2 k) ->
  match dispatched_graph2 orc (compose orc) N1 N2 ea pe pn with
  | Val N' => exists w1 w2, requested N1 ea pe None w1 /\ requested N2 ea pe None w2 /\
      nx_is N' (nx_dir N1) (fun k => nx_node N1 k \/ nx_node N2 k)
        (fun u v => match nx_weight N2 w2 u v with Some x => Some x | None => nx_weight N1 w1 u v end)
  | Raise e => convert_from_nx orc N1 ea false pe pn None = Raise e \/ convert_from_nx orc N2 ea false pe pn None = Raise e
  end.
Proof.
  intros wf wf' Hd Hn. pose proof (C72_graph2 (compose orc) N1 N2 ea pe pn wf wf') as H.
  assert (T : forall w1 w2 G H, represents G (nx_dir N1) (nx_nodes N1) (nx_weight N1 w1) -> represents H (nx_dir N2) (nx_nodes N2) (nx_weight N2 w2) ->
    exists R, compose orc G H = Val R /\ is_graph R (g_dir G) (fun k => node G k \/ node H k) (fun u v => match weight H u v with Some w => Some w | None => weight G u v end)).
  { intros w1 w2 G0 H0 Rp1 Rp2. apply (C31_compose_partial orc G0 H0 (proj1 Rp1) (proj1 Rp2)); [destruct Rp1 as (_ & -> & _), Rp2 as (_ & -> & _); assumption|].
    destruct Hn as [Hn|Hn]; [left|right]; intros k; rewrite (rp_node _ _ _ _ Rp1), (rp_node _ _ _ _ Rp2); apply Hn. }
  destruct (dispatched_graph2 _ _ _ _ _ _ _) as [N'|e].
  - destruct H as (w1 & w2 & G & H & Rq1 & Rq2 & Rp1 & Rp2 & R & HR & HH).
    destruct (T w1 w2 G H Rp1 Rp2) as (R' & E & A1 & A2 & A3 & A4). rewrite HR in E. injection E as <-.
    exists w1, w2. split; [assumption|]. split; [assumption|]. apply HH. split; [assumption|]. split; [rewrite A2; apply Rp1|]. split.
    + intros k. rewrite A3, (rp_node _ _ _ _ Rp1), (rp_node _ _ _ _ Rp2). reflexivity.
    + intros u v. rewrite A4, (rp_weight _ _ _ _ Rp1), (rp_weight _ _ _ _ Rp2). reflexivity.
  - destruct H as [H|[H|(w1 & w2 & G & H & Rq1 & Rq2 & Rp1 & Rp2 & X)]]; [auto|auto|].
    destruct (T w1 w2 G H Rp1 Rp2) as (R' & E & A).
    destruct X as [X|(R & X & NW)]; rewrite X in E; [discriminate|]. injection E as <-. destruct NW. apply A.
Qed.

(** matrices *)
(** the functions of the dispatcher that return a matrix (interface.py 89-94, 99, 122, 159) *)
Definition matrix_functions : list string :=
  ["bethe_hessian_matrix"; "adjacency_matrix"; "laplacian_matrix"; "normalized_laplacian_matrix"; "directed_modularity_matrix"; "modularity_matrix";
   "google_matrix"; "floyd_warshall_numpy"; "tournament_matrix"]%string.
(** each has a container assigned, with the same shape, and every entry keeps its place and value; dense results are 0 elsewhere *)
Theorem C72_matrix {V} (zero : V) name (A : mat V) : In name matrix_functions -> mwf A ->
  match convert_matrix_to_nx zero name A with
  | Sparse B => B = A
  | Dense l => List.length l = nrows A /\ (forall r, In r l -> List.length r = ncols A) /\
      forall i j, i < nrows A -> j < ncols A -> exists r, nth_error l i = Some r /\ nth_error r j = Some (match mget A i j with Some x => x | None => zero end)
  | RuntimeError => False
  end.
Proof.
  intros Hn wf.
  assert (X : List.length (to_dense zero A) = nrows A /\ (forall r, In r (to_dense zero A) -> List.length r = ncols A) /\
      forall i j, i < nrows A -> j < ncols A -> exists r, nth_error (to_dense zero A) i = Some r /\ nth_error r j = Some (match mget A i j with Some x => x | None => zero end)).
  { unfold to_dense. assert (LR : forall i, i < nrows A -> exists r, nth_error (rows A) i = Some r).
    { intros i Hi. destruct (nth_error (rows A) i) eqn:E; [eauto|]. apply nth_error_None in E. unfold nrows in Hi. lia. }
    split; [rewrite map_length; reflexivity|]. split.
    - intros r Hr. apply in_map_iff in Hr as (r0 & <- & Hr). rewrite map_length. apply (proj1 (Forall_forall _ _) wf). assumption.
    - intros i j Hi Hj. destruct (LR i Hi) as [r Hr]. exists (map (oget zero) r). split; [apply map_nth_error; assumption|].
      assert (Lr : List.length r = ncols A) by (apply (proj1 (Forall_forall _ _) wf); eapply nth_error_In; eassumption).
      destruct (nth_error r j) as [o|] eqn:Eo; [|apply nth_error_None in Eo; lia].
      rewrite (map_nth_error (oget zero) j r Eo). f_equal.
      assert (E1 : mrow A i = r) by (apply nth_error_nth; exact Hr). assert (E2 : vget r j = o) by (apply nth_error_nth; exact Eo).
      unfold mget. rewrite E1, E2. destruct o; reflexivity. }
  unfold convert_matrix_to_nx. cbn [matrix_functions In] in Hn.
  destruct Hn as [<-|[<-|[<-|[<-|[<-|[<-|[<-|[<-|[<-|[]]]]]]]]]]; cbn [existsb sparse_names dense_names String.eqb Ascii.eqb Bool.eqb orb]; first [reflexivity|exact X].
Qed.
(** which container: numpy arrays for the functions whose networkx counterpart returns one, scipy sparse arrays for the
    other five, and an exception for any other name *)
Theorem C72_container {V} (zero : V) name (A : mat V) :
  match convert_matrix_to_nx zero name A with
  | Sparse _ => In name ["adjacency_matrix"; "bethe_hessian_matrix"; "laplacian_matrix"; "normalized_laplacian_matrix"; "tournament_matrix"]%string
  | Dense _ => In name ["directed_modularity_matrix"; "floyd_warshall_numpy"; "google_matrix"; "modularity_matrix"]%string
  | RuntimeError => ~ In name matrix_functions
  end.
Proof.
  unfold convert_matrix_to_nx, sparse_names, dense_names. cbn [existsb].
  repeat match goal with |- context[String.eqb name ?x] => destruct (String.eqb_spec name x) as [->|]; cbn [orb In]; [auto 12|] end.
  cbn [matrix_functions In]. intuition congruence.
Qed.
(** floyd_warshall_numpy: right where every node reaches every other ... *)
Theorem C72_floyd_warshall_numpy_partial N pk w : nxwf N ->
  (forall u, ~ neg_cycle (nx_weight N (Some w)) u) ->
  (forall u v, nx_node N u -> nx_node N v -> wreach (nx_weight N (Some w)) u v) ->
  exists l, dispatched_matrix orc 0%Z "floyd_warshall_numpy" (fun G => nx_fw_numpy pk G None true) N (Some [(w, Some 1%Z)]) false false = Val (Dense l) /\
    List.length l = List.length (nx_nodes N) /\
    forall i j u v, nth_error (nx_nodes N) i = Some u -> nth_error (nx_nodes N) j = Some v ->
      exists r x, nth_error l i = Some r /\ nth_error r j = Some x /\ shortest (nx_weight N (Some w)) u v x.
Proof.
  intros wf Hn Hr. unfold dispatched_matrix, convert_from_nx. cbn [obind has andb]. rewrite Z.eqb_refl. cbn [obind].
  destruct (C64_from_networkx orc N (Some w) wf) as (W & A & B & K & C). set (G := from_networkx orc N (Some w)) in *.
  assert (Rp : represents G (nx_dir N) (nx_nodes N) (nx_weight N (Some w))).
  { split; [assumption|]. split; [assumption|]. split; [assumption|]. intros u v. rewrite nx_weight_value. apply C. }
  pose proof (rp_weight _ _ _ _ Rp) as RW.
  assert (EW : forall u v, eweight true G u v = nx_weight N (Some w) u v) by (intros u v; unfold eweight; apply RW).
  assert (Hn' : true = true -> forall u, ~ neg_cycle (weight G) u) by (intros _ u; rewrite (neg_cycle_iff _ _ RW); apply Hn).
  destruct (C18_numpy_default pk G true W Hn' st0 (Inv_st0 G true)) as [(D & E & D1 & D2 & D3) _]. rewrite E. cbn [obind].
  assert (LN : glen G = List.length (nx_nodes N)) by (rewrite <- B; symmetry; apply (len_nodes G W)).
  assert (G1 : forall i j u v, nth_error (nx_nodes N) i = Some u -> nth_error (nx_nodes N) j = Some v -> exists x, mget D i j = Some x /\ shortest (nx_weight N (Some w)) u v x).
  { intros i j u v Hi Hj. assert (Ku : kid G u = Some i) by (apply K; assumption). assert (Kv : kid G v = Some j) by (apply K; assumption).
    destruct (D3 i j u v Ku Kv) as [S1 S2]. destruct S2 as [x Hx].
    - apply (wreach_iff _ _ EW). apply Hr; eapply nth_error_In; eassumption.
    - exists x. split; [assumption|]. apply (shortest_iff _ _ EW). apply S1. assumption. }
  eexists. split; [reflexivity|].
  assert (WD : nrows D = List.length (rows D)) by reflexivity.
  split; [unfold to_dense; rewrite map_length; rewrite <- LN, <- D1; reflexivity|].
  intros i j u v Hi Hj. destruct (G1 i j u v Hi Hj) as (x & Hx & Hs).
  unfold mget in Hx. destruct (nth_error (rows D) i) as [r|] eqn:Er.
  2:{ unfold vget, mrow in Hx. apply nth_error_None in Er. pose proof (nth_overflow (rows D) [] Er) as E0. rewrite E0 in Hx. destruct j; discriminate. }
  assert (E1 : mrow D i = r) by (apply nth_error_nth; exact Er). rewrite E1 in Hx. destruct (nth_error r j) as [o|] eqn:Eo.
  2:{ unfold vget in Hx. apply nth_error_None in Eo. pose proof (nth_overflow r None Eo) as E0. rewrite E0 in Hx. discriminate. }
  assert (E2 : vget r j = o) by (apply nth_error_nth; exact Eo). rewrite E2 in Hx.
  exists (map (oget 0%Z) r), x. split; [unfold to_dense; apply map_nth_error; assumption|]. split; [|assumption].
  rewrite (map_nth_error _ _ _ Eo). subst o. reflexivity.
Qed.
End C72.
(** ... but where a node is not reachable, 0 is reported, as for a node and itself; networkx says infinity *)
Definition nx_far : nxgraph := {| nx_dir := false; nx_nattr := false;
  nx_adj := [(KI 0, [(KI 1, [(KS "weight", 5%Z)])]); (KI 1, [(KI 0, [(KS "weight", 5%Z)])]); (KI 2, [])] |}.
Theorem C72_floyd_warshall_numpy_refuted pk :
  dispatched_matrix (fun _ => false) 0%Z "floyd_warshall_numpy" (fun G => nx_fw_numpy (fun _ _ _ => pk) G None true) nx_far (Some [(KS "weight", Some 1%Z)]) false false
    = Val (Dense [[0; 5; 0]; [5; 0; 0]; [0; 0; 0]])%Z /\
  ~ wreach (nx_weight nx_far (Some (KS "weight"))) (KI 0) (KI 2).
Proof.
  split; [destruct pk; vm_compute; reflexivity|].
  intros (d & x & W). inversion W as [|d' x' y w' z W' E]; subst. unfold nx_weight, nx_data in E. cbn [nx_far nx_adj dget] in E.
  destruct (nkey_eqb y (KI 0)); cbn in E; [discriminate|]. destruct (nkey_eqb y (KI 1)); cbn in E; [discriminate|]. destruct (nkey_eqb y (KI 2)); cbn in E; discriminate.
Qed.
(** and with the edge attributes preserved, an attribute of another name comes back as "weight" *)
Theorem C72_attribute_name_refuted : exists N N', nxwf N /\ nx_data N (KI 0) (KI 1) = Some [(KS "color", 7%Z)] /\
  dispatched_graph2 (fun _ => false) (fun G H => union (fun _ => false) G H []) N {| nx_dir := true; nx_adj := []; nx_nattr := false |} None true true = Val N' /\
  nx_data N' (KI 0) (KI 1) = Some [(KS "weight", 7%Z)].
Proof.
  exists {| nx_dir := true; nx_nattr := false; nx_adj := [(KI 0, [(KI 1, [(KS "color", 7%Z)])]); (KI 1, [])] |}. eexists. split; [|split; [reflexivity|split; [vm_compute; reflexivity|vm_compute; reflexivity]]].
  constructor.
  - repeat constructor; simpl; intuition congruence.
  - intros u v x H. unfold nx_data in H. cbn [nx_adj dget] in H. destruct (nkey_eqb u (KI 0)); cbn [dget] in H.
    + destruct (nkey_eqb v (KI 1)) eqn:E; [|discriminate]. apply nkey_eqb_eq in E. subst. simpl. auto.
    + destruct (nkey_eqb u (KI 1)); cbn [dget] in H; discriminate.
  - discriminate.
Qed.
Example C72_ex : exists N', dispatched_graph (fun _ => true) (fun G => Val (Model_Operators.complement (fun _ => true) G)) nx3 None false false = Val N' /\
  nx_nodes N' = [KS "b"; KI 1; KI 0] /\ nx_data N' (KS "b") (KI 0) = Some [(KS "weight", 1%Z)] /\ nx_data N' (KS "b") (KI 1) = None.
Proof. eexists. split; [vm_compute; reflexivity|]. repeat split. Qed.
Print Assumptions C71_to_graph.
Print Assumptions C71_to_directed_graph.
Print Assumptions C71_to_undirected_graph_partial.
Print Assumptions C71_call.
Print Assumptions C71_single_source_bellman_ford.
Print Assumptions C71_triangles.
Print Assumptions C71_digraph_as_undirected_refuted.
Print Assumptions C71_matrix_is_connected_refuted.
Print Assumptions C72_graph.
Print Assumptions C72_complement.
Print Assumptions C72_reverse.
Print Assumptions C72_graph2.
Print Assumptions C72_union.
Print Assumptions C72_symmetric_difference.
Print Assumptions C72_intersection.
Print Assumptions C72_compose_partial.
Print Assumptions C72_difference.
Print Assumptions C72_matrix.
Print Assumptions C72_container.
Print Assumptions C72_floyd_warshall_numpy_partial.
Print Assumptions C72_floyd_warshall_numpy_refuted.
Print Assumptions C72_attribute_name_refuted.
