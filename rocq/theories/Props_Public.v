(** * C92: the public functions, on a library graph, a networkx graph or a Matrix *)
From Verif Require Import Base BaseProofs Model_Graph Model_Cache Spec_Cache CacheMath CacheProofs CacheProofs2
  Model_Keys Spec KeyProofs Spec_Run RunProofs Model_Utils Model_Bfs BfsProofs3 Walks Model_Operators OperatorProofs Props_Operators Props_Bfs
  Spec_Count Model_Measures CountProofs Props_Cuts Props_Measures Props_Triad Spec_Weighted Model_Weighted Props_Weighted Props_PathHist
  Model_Dense Props_Dense Model_Cluster Spec_Cluster ClusterProofs Props_Cluster Props_Square Props_SquareExact Props_Gdeg Props_Truss Model_Ego Props_Ego Model_Linalg Spec_Linalg Props_Linalg
  Spec_Iso IsoProofs Model_Rank Spec_Rank Props_Pagerank Props_Google Props_Power Props_Katz Model_Nx Props_Nx Concrete Props_Numbering Model_Convert Props_Convert
  Model_Public Spec_Public.
From Coq Require Import QArith Qcanon Permutation Sorted.
Open Scope nat_scope.
Local Notation answers := Spec_Run.answers.

Section P.
Variable orc : mat Z -> bool.
(** a property of fresh caches *)
Definition starts_ok (K : graph -> Model_Graph.st -> Prop) : Prop := forall G, gwf G -> K G st0.
Lemma ok_inv : starts_ok consistent. Proof. intros G _. apply (Inv_st0 _ true). Qed.
Lemma ok_td : starts_ok td_consistent. Proof. intros G _. apply InvF_weak. apply (Inv_st0 _ true). Qed.
Lemma ok_nd : starts_ok nd_consistent. Proof. intros G _. split; [apply (Inv_st0 _ true)|apply nd_ok_st0]. Qed.
Lemma ok_iso : starts_ok iso_consistent. Proof. intros G _. split; [apply (Inv_st0 _ true)|apply iso_known_st0]. Qed.

Section Lift.
Context {X : Type} (K : graph -> Model_Graph.st -> Prop) (w : option nkey) (dt : option dtype) (f : graph -> M X) (R : graph -> outcome X -> Prop).
Hypothesis K0 : starts_ok K.
Hypothesis Hdt : dtype_ok dt w.
Lemma tf {P : Prop} : true = false -> P. Proof. discriminate. Qed.
Lemma serves_any : (forall G s, gwf G -> K G s -> R G (fst (f G s))) -> serves K None w (any_graph orc w dt f) R.
Proof.
  intros H a Ha. unfold any_graph, call. destruct a as [G s|N|A d| |]; cbn [given refused stands_for decorated to_graph] in *.
  - destruct Ha. exists G. cbn [fst]. auto.
  - pose proof (as_represents orc N w dt (nx_dir N) Ha Hdt (fun E => E)) as P. eexists. split; [exact (proj1 P)|]. split; [exact P|]. cbn [fst]. apply H; [apply P|apply K0, P].
  - unfold graph_of_matrix. destruct (Nat.eqb_spec (nrows A) (ncols A)) as [E|E]; [|reflexivity]. cbn [obind].
    pose proof (matrix_represents orc true A d (proj1 Ha) E tf) as P. eexists. split; [exact (proj1 P)|]. split; [exact P|]. cbn [fst]. apply H; [apply P|apply K0, P].
  - reflexivity.
  - pose proof (none_represents orc true) as P. eexists. split; [exact (proj1 P)|]. split; [exact P|]. cbn [fst]. apply H; [apply P|apply K0, P].
Qed.
Lemma serves_directed : (forall G s, gwf G -> g_dir G = true -> K G s -> R G (fst (f G s))) -> serves K (Some true) w (a_digraph orc w dt f) R.
Proof.
  intros H a Ha. unfold a_digraph, call, no_undirected. destruct a as [G s|N|A d| |]; cbn [given refused stands_for decorated to_directed_graph] in *.
  - destruct (g_dir G) eqn:E; cbn [Bool.eqb]; [|reflexivity]. destruct Ha. exists G. cbn [fst]. auto.
  - destruct (nx_dir N) eqn:E; cbn [Bool.eqb]; [|reflexivity].
    pose proof (as_represents orc N w dt true Ha Hdt tf) as P. eexists. split; [exact (proj1 P)|]. split; [exact P|]. cbn [fst]. apply H; [apply P|apply P|apply K0, P].
  - unfold graph_of_matrix. destruct (Nat.eqb_spec (nrows A) (ncols A)) as [E|E]; [|reflexivity]. cbn [obind].
    pose proof (matrix_represents orc true A d (proj1 Ha) E tf) as P. eexists. split; [exact (proj1 P)|]. split; [exact P|]. cbn [fst]. apply H; [apply P|apply P|apply K0, P].
  - reflexivity.
  - reflexivity.
Qed.
Lemma serves_undirected : (forall G s, gwf G -> g_dir G = false -> K G s -> R G (fst (f G s))) -> serves K (Some false) w (an_undirected_graph orc w dt f) R.
Proof.
  intros H a Ha. unfold an_undirected_graph, call, no_directed. destruct a as [G s|N|A d| |]; cbn [given refused stands_for decorated to_undirected_graph] in *.
  - destruct (g_dir G) eqn:E; cbn [Bool.eqb]; [reflexivity|]. destruct Ha. exists G. cbn [fst]. auto.
  - destruct (nx_dir N) eqn:E; cbn [Bool.eqb]; [reflexivity|].
    pose proof (as_represents orc N w dt false Ha Hdt (fun _ => E)) as P. eexists. split; [exact (proj1 P)|]. split; [exact P|]. cbn [fst]. apply H; [apply P|apply P|apply K0, P].
  - unfold graph_of_matrix. destruct (Nat.eqb_spec (nrows A) (ncols A)) as [E|E]; [|reflexivity]. cbn [obind].
    pose proof (matrix_represents orc false A d (proj1 Ha) E (fun _ => proj2 Ha eq_refl)) as P. eexists. split; [exact (proj1 P)|]. split; [exact P|]. cbn [fst]. apply H; [apply P|apply P|apply K0, P].
  - reflexivity.
  - reflexivity.
Qed.
Lemma serves_unchecked : (forall G s, gwf G -> g_dir G = true -> K G s -> R G (fst (f G s))) -> serves_digraphs K w (a_digraph_unchecked orc w dt f) R.
Proof.
  intros H a Ha. unfold a_digraph_unchecked, call. destruct a as [G s|N|A d| |]; cbn [given refused stands_for decorated to_directed_graph] in *.
  - destruct (g_dir G) eqn:E; cbn [Bool.eqb]; [|reflexivity]. destruct Ha. exists G. cbn [fst]. auto.
  - destruct (nx_dir N) eqn:E; cbn [Bool.eqb]; [|reflexivity].
    pose proof (as_represents orc N w dt true Ha Hdt tf) as P. eexists. split; [exact (proj1 P)|]. split; [exact P|]. cbn [fst]. apply H; [apply P|apply P|apply K0, P].
  - unfold graph_of_matrix. destruct (Nat.eqb_spec (nrows A) (ncols A)) as [E|E]; [|reflexivity]. cbn [obind].
    pose proof (matrix_represents orc true A d (proj1 Ha) E tf) as P. eexists. split; [exact (proj1 P)|]. split; [exact P|]. cbn [fst]. apply H; [apply P|apply P|apply K0, P].
  - reflexivity.
  - reflexivity.
Qed.
End Lift.
Lemma dt_none w : dtype_ok None w. Proof. left. reflexivity. Qed.
Lemma dt_float w : dtype_ok (Some DFloat) w. Proof. right. left. reflexivity. Qed.
Lemma dt_bool : dtype_ok (Some DBool) None. Proof. right. right. auto. Qed.


(** ** searches *)
Theorem C92_descendants u : serves consistent None None (p_descendants orc u) (fun G o => match o with
    | Val r => node G u /\ is_set r (fun v => v <> u /\ reach (edge G) u v)
    | Raise e => e = EKey /\ ~ node G u
    end).
Proof. apply serves_any; [exact ok_inv|apply dt_none|]. intros G s wf HK. apply (C07_descendants G u wf s HK). Qed.
Theorem C92_ancestors u : serves consistent None None (p_ancestors orc u) (fun G o => match o with
    | Val r => node G u /\ is_set r (fun v => v <> u /\ reach (edge G) v u)
    | Raise e => e = EKey /\ ~ node G u
    end).
Proof. apply serves_any; [exact ok_inv|apply dt_none|]. intros G s wf HK. apply (C07_ancestors G u wf s HK). Qed.
Theorem C92_node_connected_component u : serves consistent (Some false) None (p_node_connected_component orc u) (fun G o => match o with
    | Val r => node G u /\ is_set r (fun v => reach (edge G) u v)
    | Raise e => e = EKey /\ ~ node G u
    end).
Proof. apply serves_undirected; [exact ok_inv|apply dt_none|]. intros G s wf D HK. apply (C07_node_connected_component G u wf D s HK). Qed.
Theorem C92_single_source_shortest_path_length u cutoff : serves consistent None None (p_single_source_spl orc u cutoff) (fun G o => match o with
    | Val m => node G u /\ is_map m (fun v x => exists d, x = Z.of_nat d /\ dist (edge G) u v d /\ within cutoff d)
    | Raise e => e = EKey /\ ~ node G u
    end).
Proof. apply serves_any; [exact ok_inv|apply dt_none|]. intros G s wf HK. apply (C08_single_source G u cutoff wf s HK). Qed.
Theorem C92_single_target_shortest_path_length u cutoff : serves consistent None None (p_single_target_spl orc u cutoff) (fun G o => match o with
    | Val m => node G u /\ is_map m (fun v x => exists d, x = Z.of_nat d /\ dist (edge G) v u d /\ within cutoff d)
    | Raise e => e = EKey /\ ~ node G u
    end).
Proof. apply serves_any; [exact ok_inv|apply dt_none|]. intros G s wf HK. apply (C08_single_target G u cutoff wf s HK). Qed.
Theorem C92_all_pairs_shortest_path_length pyfloat isz cutoff chunk : serves consistent None None (p_all_pairs_spl orc pyfloat isz cutoff chunk) (fun G o => match o with
    | Val L =>
        Permutation (map fst L) (gnodes G) /\ (ids_in_order G -> map fst L = gnodes G) /\
        forall u m, In (u, m) L -> is_map m (fun v x => exists d, x = Z.of_nat d /\ dist (edge G) u v d /\ within cutoff d)
    | Raise e => normalize_chunksize pyfloat chunk (Z.of_nat (glen G) * isz) (Some (Z.of_nat (glen G))) = Raise e
    end).
Proof. apply serves_any; [exact ok_inv|apply dt_none|]. intros G s wf HK. apply (C09_all_pairs_partial G pyfloat isz cutoff chunk wf s HK). Qed.
Theorem C92_has_path u v : serves consistent None None (p_has_path orc u v) (fun G o => match o with
    | Val b => node G u /\ node G v /\ (b = true <-> reach (edge G) u v)
    | Raise e => e = EKey /\ ~ (node G u /\ node G v)
    end).
Proof. apply serves_any; [exact ok_inv|apply dt_none|]. intros G s wf HK. apply (C10_has_path G u v wf s HK). Qed.
Theorem C92_efficiency u v : serves consistent (Some false) None (p_efficiency orc u v) (fun G o => match o with
    | Val x => node G u /\ node G v /\ u <> v /\
               ((exists d, dist (edge G) u v (S d) /\ x == 1 / inject_Z (Z.of_nat (S d)))%Q \/ (~ reach (edge G) u v /\ x == 0)%Q)
    | Raise EZeroDiv => node G u /\ u = v
    | Raise e => e = EKey /\ ~ (node G u /\ node G v)
    end).
Proof. apply serves_undirected; [exact ok_inv|apply dt_none|]. intros G s wf D HK. apply (C10_efficiency G u v wf D s HK). Qed.
Theorem C92_is_connected : serves consistent (Some false) None (p_is_connected orc) (fun G o => match o with
    | Val b => ~ Props_Bfs.nodes_empty G /\ (b = true <-> forall u v, node G u -> node G v -> reach (edge G) u v)
    | Raise e => e = EPointless /\ Props_Bfs.nodes_empty G
    end).
Proof. apply serves_undirected; [exact ok_inv|apply dt_none|]. intros G s wf D HK. apply (C11_is_connected G wf D s HK). Qed.
Theorem C92_is_weakly_connected : serves consistent (Some true) None (p_is_weakly_connected orc) (fun G o => match o with
    | Val b => ~ Props_Bfs.nodes_empty G /\ (b = true <-> forall u v, node G u -> node G v -> reach (Spec.sym (edge G)) u v)
    | Raise e => e = EPointless /\ Props_Bfs.nodes_empty G
    end).
Proof. apply serves_directed; [exact ok_inv|apply dt_none|]. intros G s wf D HK. apply (C11_is_weakly_connected G wf D s HK). Qed.
Theorem C92_bfs_layers srcs : serves consistent None None (p_bfs_layers orc srcs) (fun G o => match o with
    | Val Ls =>
        (forall z, srcs = One (KI z) -> node G (KI z)) /\ (forall u, In u (slist G srcs) -> node G u) /\
        (forall d l, nth_error Ls d = Some l ->
           l <> [] /\ NoDup l /\ forall v, In v l <-> dist_from (edge G) (fun u => In u (slist G srcs)) v d) /\
        (forall d v, List.length Ls <= d -> ~ dist_from (edge G) (fun u => In u (slist G srcs)) v d)
    | Raise e => (e = EKey /\ exists u, In u (slist G srcs) /\ ~ node G u) \/ (e = EType /\ exists z, srcs = One (KI z) /\ ~ node G (KI z))
    end).
Proof. apply serves_any; [exact ok_inv|apply dt_none|]. intros G s wf HK. apply (C12_bfs_layers G srcs wf s HK). Qed.
Theorem C92_descendants_at_distance u d : serves consistent None None (p_descendants_at_distance orc u (Z.of_nat d)) (fun G o => match o with
    | Val r => node G u /\ is_set r (fun v => dist (edge G) u v d)
    | Raise e => e = EKey /\ ~ node G u
    end).
Proof. apply serves_any; [exact ok_inv|apply dt_none|]. intros G s wf HK. apply (C12_descendants_at_distance G u d wf s HK). Qed.
Theorem C92_lowest_common_ancestor u v default : serves consistent (Some true) None (p_lowest_common_ancestor orc u v default) (fun G o => 
    let common a := reach (edge G) a u /\ reach (edge G) a v in
    match o with
    | Val r =>
        node G u /\ node G v /\
        ((r = default /\ forall a, ~ common a) \/ (exists a, r = Some a /\ common a /\ forall b, edge G a b -> ~ common b))
    | Raise e => (e = EKey /\ ~ (node G u /\ node G v)) \/
        (e = EIndex /\ (exists a, common a) /\ forall a, common a -> exists b, edge G a b /\ common b)
    end).
Proof. apply serves_directed; [exact ok_inv|apply dt_none|]. intros G s wf D HK. apply (C13_exact G u v default wf D s HK). Qed.

(** ** shortest paths by weight: the attribute [w], 1 where an edge has none *)
Theorem C92_single_source_bellman_ford u w : serves consistent None w (p_single_source_bf orc u w) (fun G o => Props_Weighted.iso_has_edge G -> match o with
    | Val m => node G u /\ ~ neg_cycle_from (weight G) u /\
               is_map m (shortest (weight G) u) /\
               forall v, wreach (weight G) u v -> exists x, nm_getitem m v = Val x
    | Raise e => (e = EKey /\ ~ node G u) \/ (e = EUnbounded /\ node G u /\ neg_cycle_from (weight G) u)
    end).
Proof. apply serves_any; [exact ok_inv|apply dt_none|]. intros G s wf HK. intros Hi. apply (C14_single_source G u wf Hi s HK). Qed.
Theorem C92_all_pairs_bellman_ford pyfloat isz chunk w : serves consistent None w (p_all_pairs_bf orc pyfloat isz chunk w) (fun G o => Props_Weighted.iso_has_edge G -> match o with
    | Val L =>
        Permutation (map fst L) (gnodes G) /\ (ids_in_order G -> map fst L = gnodes G) /\
        forall u m, In (u, m) L -> ~ neg_cycle_from (weight G) u /\ is_map m (shortest (weight G) u) /\
                                   forall v, wreach (weight G) u v -> exists x, nm_getitem m v = Val x
    | Raise e => normalize_chunksize pyfloat chunk (Z.of_nat (glen G) * isz) (Some (Z.of_nat (glen G))) = Raise e \/
                 (e = EUnbounded /\ exists u, node G u /\ neg_cycle_from (weight G) u)
    end).
Proof. apply serves_any; [exact ok_inv|apply dt_none|]. intros G s wf HK. intros Hi. apply (C14_all_pairs G pyfloat isz chunk wf Hi s HK). Qed.
Theorem C92_bellman_ford_path_length_partial u v w : serves consistent None w (p_bf_path_length orc u v w) (fun G o => Props_Weighted.iso_has_edge G -> match o with
    | Val x => (exists d, wwalk (weight G) u d x v) /\ (~ neg_cycle_from (weight G) u -> shortest (weight G) u v x)
    | Raise e => (e = EKey /\ ~ (node G u /\ node G v)) \/
                 (e = EUnbounded /\ neg_cycle_from (weight G) u) \/
                 (e = ENoPath /\ node G u /\ node G v /\ ~ wreach (weight G) u v)
    end).
Proof. apply serves_any; [exact ok_inv|apply dt_none|]. intros G s wf HK. intros Hi. apply (C15_path_length_partial G u v wf Hi s HK). Qed.
Theorem C92_bellman_ford_path fuel u v w : serves consistent None w (p_bf_path orc fuel u v w) (fun G o => glen G <= fuel -> ~ neg_cycle_from (weight G) u -> match o with
    | Val (Some l) => node G u /\ node G v /\
        ((l = [] /\ ~ wreach (weight G) u v) \/
         exists l' x, l = u :: l' /\ List.last l u = v /\ wpath (weight G) l x /\ shortest (weight G) u v x)
    | Val None => False
    | Raise e => (e = EKey /\ ~ (node G u /\ node G v)) \/
        (e = EUnbounded /\ g_iso G = true /\ exists x y z, weight G x y = Some z /\ (z < 0)%Z) \/
        ((e = EUnbounded \/ e = EValue) /\ g_iso G = false /\ (exists x, edge G x x) /\ exists x y z, weight G x y = Some z /\ (z < 0)%Z)
    end).
Proof. apply serves_any; [exact ok_inv|apply dt_none|]. intros G s wf HK. intros Hf Hn. apply (C16_returned G fuel u v wf Hf Hn s HK). Qed.
Theorem C92_negative_edge_cycle w : serves nd_consistent None w (p_negative_edge_cycle orc w) (fun G o => exists b, o = Val b /\
    (b = true <-> exists u, neg_cycle (weight G) u) /\
    (g_dir G = false -> (b = true <-> exists u v x, weight G u v = Some x /\ (x < 0)%Z))).
Proof. apply serves_any; [exact ok_nd|apply dt_none|]. intros G s wf HK. apply (C17_negative_edge_cycle_partial G wf s (proj1 HK) (proj2 HK)). Qed.
Theorem C92_floyd_warshall pk w : serves consistent None w (p_floyd_warshall orc pk w) (fun G o => (has w = true -> forall u, ~ neg_cycle (weight G) u) -> exists D, o = Val D /\
    (exists l, rm_iter D = Val l /\ Permutation l (gnodes G)) /\
    (forall u m D', nnm_getitem D u = Val (m, D') -> is_map m (shortest (eweight (has w) G) u)) /\
    (forall u v x, nn_get D u v = Val x <-> node G u /\ node G v /\ shortest (eweight (has w) G) u v x) /\
    (forall u v, node G u -> wreach (eweight (has w) G) u v -> exists x, nn_get D u v = Val x)).
Proof. apply serves_any; [exact ok_inv|apply dt_none|]. intros G s wf HK. intros Hn. apply (C18_floyd_warshall pk G (has w) wf Hn s HK). Qed.
Theorem C92_floyd_warshall_numpy pk w : serves consistent None w (p_fw_numpy orc pk None w) (fun G o => (has w = true -> forall u, ~ neg_cycle (weight G) u) -> exists D, o = Val D /\
    nrows D = glen G /\ ncols D = glen G /\
    forall a b u v, kid G u = Some a -> kid G v = Some b ->
      (forall x, mget D a b = Some x <-> shortest (eweight (has w) G) u v x) /\
      (wreach (eweight (has w) G) u v -> exists x, mget D a b = Some x)).
Proof. apply serves_any; [exact ok_inv|apply dt_none|]. intros G s wf HK. intros Hn. apply (C18_numpy_default pk G (has w) wf Hn s HK). Qed.
Theorem C92_floyd_warshall_numpy_partial pk l w : serves consistent None w (p_fw_numpy orc pk (Some l) w) (fun G o => (has w = true -> forall u, ~ neg_cycle (weight G) u) -> 
    (g_dir G = false -> forall a u, nth_error l a = Some u -> kid G u = Some a) -> match o with
    | Val D => Permutation l (gnodes G) /\ nrows D = glen G /\ ncols D = glen G /\
        forall a b u v, nth_error l a = Some u -> nth_error l b = Some v ->
          (forall x, mget D a b = Some x <-> shortest (eweight (has w) G) u v x) /\
          (wreach (eweight (has w) G) u v -> exists x, mget D a b = Some x)
    | Raise e => (e = EAlg /\ ~ (NoDup l /\ List.length l = glen G)) \/ (e = EKey /\ exists u, In u l /\ ~ node G u)
    end).
Proof. apply serves_any; [exact ok_inv|apply dt_none|]. intros G s wf HK. intros Hn Hp. apply (C18_numpy_partial pk G l (has w) wf Hn Hp s HK). Qed.
Theorem C92_floyd_warshall_distance pk w : serves consistent None w (p_fw_pred_dist orc pk w) (fun G o => (has w = true -> forall u, ~ neg_cycle (weight G) u) -> exists PD, o = Val PD /\
    rm_iter (snd PD) = Val (gnodes G) /\
    forall u v, (forall x, nn_get (snd PD) u v = Val (Fin x) <-> node G u /\ node G v /\ shortest (eweight (has w) G) u v x) /\
                (nn_get (snd PD) u v = Val Inf <-> node G u /\ node G v /\ ~ wreach (eweight (has w) G) u v)).
Proof. apply serves_any; [exact ok_inv|apply dt_none|]. intros G s wf HK. intros Hn. apply (C18_pred_distance pk G (has w) wf Hn s HK). Qed.
Theorem C92_floyd_warshall_predecessor_partial pk w : serves consistent None w (p_fw_pred_dist orc pk w) (fun G o => g_dir G = true -> (has w = true -> forall u, ~ neg_cycle (weight G) u) -> exists PD, o = Val PD /\
    (forall u v p, pred_get (fst PD) u v = Val p ->
       exists x y, eweight (has w) G p v = Some x /\ shortest (eweight (has w) G) u p y /\ shortest (eweight (has w) G) u v (y + x)%Z) /\
    (forall u v, node G u -> u <> v -> wreach (eweight (has w) G) u v -> exists p, pred_get (fst PD) u v = Val p) /\
    forall u, pred_get (fst PD) u u = Raise EKey).
Proof. apply serves_any; [exact ok_inv|apply dt_none|]. intros G s wf HK. intros Hd Hn. apply (C19_predecessors_partial pk G (has w) wf Hd Hn s HK). Qed.

(** ** clustering *)
Theorem C92_triangles nodes : serves consistent (Some false) None (p_triangles orc nodes) (fun G o => (forall k, nodes = OneNode k -> node G k) -> match o with
    | Val REmpty => gnodes G = []
    | Val (ROne t) => exists k, nodes = OneNode k /\ t = Z.of_nat (triangles_at G k)
    | Val (RMap m) => (forall k, nodes <> OneNode k) /\ is_map m (fun k x => wanted G nodes k /\ x = Z.of_nat (triangles_at G k))
    | Raise e => e = EKey /\ exists l u, nodes = Nodes l /\ In u l /\ ~ node G u
    end).
Proof. apply serves_undirected; [exact ok_inv|exact dt_bool|]. intros G s wf D HK. intros Hk. apply (C20_triangles G wf nodes D Hk s HK). Qed.
Theorem C92_clustering mhr cbrt nodes w mx : serves consistent None w (p_clustering orc mhr cbrt nodes w) (fun G o => 
    (g_dir G = true -> loop_free G) -> (forall k, nodes = OneNode k -> node G k) -> scale G (has w) mx -> mx <> Some 0%Z -> match o with
    | Val REmpty => gnodes G = []
    | Val (ROne t) => exists k, nodes = OneNode k /\ t = clustering_at G (coef G cbrt mx) k
    | Val (RMap m) => (forall k, nodes <> OneNode k) /\ is_map m (fun k x => wanted G nodes k /\ x = clustering_at G (coef G cbrt mx) k)
    | Raise e => (e = EKey /\ exists l u, nodes = Nodes l /\ In u l /\ ~ node G u) \/
                 (e = EAttr /\ has w = true /\ mhr = false /\ ~ loop_free G)
    end).
Proof. apply serves_any; [exact ok_inv|apply dt_none|]. intros G s wf HK. intros Hl Hk Hs Hm. apply (C21_clustering G wf mhr cbrt (has w) mx nodes Hl Hk Hs Hm s HK). Qed.
Theorem C92_transitivity x : serves consistent None None (p_transitivity orc x) (fun G o => trans_cached G x -> exists x', o = Val (transitivity_of G, x') /\ trans_cached G x').
Proof. apply serves_any; [exact ok_inv|exact dt_bool|]. intros G s wf HK. intros Hx. destruct (C20_transitivity G wf x Hx s HK) as [(x' & H1 & H2 & _) _]. eauto. Qed.
Theorem C92_average_clustering_partial mhr cbrt nodes w count_zeros x mx : serves consistent None w (p_average_clustering orc mhr cbrt nodes w count_zeros x) (fun G o =>
    (g_dir G = true -> loop_free G) -> scale G (has w) mx -> mx <> Some 0%Z -> avg_cached G cbrt mx x -> (forall k, nodes <> OneNode k) ->
    let l := match nodes with Nodes l => members G (fun u => mem u l) | _ => gnodes G end in
    match o with
    | Val (q, x') => mean_count G count_zeros l <> 0 /\ q = mean G count_zeros (clustering_at G (coef G cbrt mx)) l /\ avg_cached G cbrt mx x'
    | Raise e => (e = EZeroDiv /\ mean_count G count_zeros l = 0) \/
                 (e = EKey /\ exists l u, nodes = Nodes l /\ In u l /\ ~ node G u) \/
                 (e = EAttr /\ has w = true /\ mhr = false /\ ~ loop_free G)
    end).
Proof.
  apply serves_any; [exact ok_inv|apply dt_none|]. intros G s wf HK. intros H1 H2 H3 H4 H5.
  destruct (C21_average_clustering_partial G wf mhr cbrt (has w) count_zeros mx nodes x H1 H2 H3 H4 H5 s HK) as [H _]. revert H. cbv zeta.
  destruct (fst _) as [[q x2]|e]; tauto.
Qed.
(** square_clustering has no decorator and converts to an undirected graph: only for arguments that are undirected *)
Theorem C92_square_clustering_partial nodes si cs a : given consistent (Some false) a -> undirected_arg a -> cs <> Some 1%Z \/ si = true ->
  match a with
  | AOther => fst (p_square_clustering orc nodes si (Val cs) a) = Raise EType
  | ANone => nodes = AllNodes -> fst (p_square_clustering orc nodes si (Val cs) a) = Val REmpty
  | _ => match refused (Some false) a with
    | Some e => fst (p_square_clustering orc nodes si (Val cs) a) = Raise e
    | None => exists G, gwf G /\ stands_for (Some false) None a G /\ ((forall k, nodes = OneNode k -> node G k) -> exists val,
    (forall k, node G k -> squares_counted G k = 0%Z \/ squares_counted_of G k <> 0%Z -> val k = square_code G k) /\
    match fst (p_square_clustering orc nodes si (Val cs) a) with
    | Val REmpty => gnodes G = []
    | Val (ROne q) => exists k, nodes = OneNode k /\ q = val k /\ (squares_counted G k = 0 \/ squares_counted_of G k <> 0)%Z
    | Val (RMap (Some m)) =>
        match nodes with
        | AllNodes => is_map m (fun k x => node G k /\ x = val k)
        | Nodes l => is_map m (fun k x => In k l /\ squares_counted G k <> 0%Z /\ x = val k)
        | OneNode _ => False
        end
    | Val (RMap None) => cs <> None /\ (nodes = Nodes [] \/ (nodes = AllNodes /\ forall u v, ~ edge G u v))
    | Raise e => (e = EKey /\ exists l u, nodes = Nodes l /\ In u l /\ ~ node G u) \/
        (e = EZeroDiv /\ exists k, nodes = OneNode k /\ squares_counted G k <> 0%Z /\ squares_counted_of G k = 0%Z)
    end)
    end
  end.
Proof.
  intros Ha Hu Hc. pose proof (C71_to_undirected_graph_partial orc a None None) as T. destruct a as [G s|N|A d| |]; cbn [refused given undirected_arg stands_for] in *.
  - rewrite Hu. cbn [Bool.eqb]. exists G. destruct Ha as [wf HI]. split; [assumption|]. split; [reflexivity|]. intros Hk. apply (C23_square_clustering_exact G wf Hu nodes si cs Hc Hk s HI).
  - rewrite Hu. cbn [Bool.eqb]. specialize (T Ha (or_introl eq_refl) Hu). cbn [to_undirected_graph] in T. destruct T as (wf & HI & D & R). eexists. split; [exact wf|]. split; [exact R|].
    intros Hk. apply (C23_square_clustering_exact _ wf D nodes si cs Hc Hk st0 HI).
  - specialize (T (proj1 Ha) (or_introl eq_refl) Hu). cbn [to_undirected_graph] in T. unfold p_square_clustering, call. cbn [decorated to_undirected_graph].
    unfold graph_of_matrix in *. destruct (nrows A =? ncols A); [|reflexivity]. cbn [obind] in *. destruct T as (wf & HI & D & R). eexists. split; [exact wf|]. split; [exact R|].
    intros Hk. apply (C23_square_clustering_exact _ wf D nodes si cs Hc Hk st0 HI).
  - reflexivity.
  - intros ->. reflexivity.
Qed.
Theorem C92_generalized_degree_partial nodes : serves consistent (Some false) None (p_generalized_degree orc nodes) (fun G o => (forall k, nodes <> OneNode k) -> match o with
    | Val REmpty => gnodes G = []
    | Val (ROne _) => False
    | Val (RMap r) =>
        (exists l, rm_iter r = Val l /\ NoDup l /\ forall v, In v l <-> wanted G nodes v /\ 0 < deg0 G v) /\
        forall v, match vnm_getitem r v with
                  | Val (row, _) => wanted G nodes v /\ 0 < deg0 G v /\
                      forall k, vm_getitem row k = if k <? glen G - 1 then Val (onz (gdeg G v k)) else Raise EIndex
                  | Raise e => e = EKey /\ ~ (wanted G nodes v /\ 0 < deg0 G v)
                  end
    | Raise e => e = EKey /\ exists l u, nodes = Nodes l /\ In u l /\ ~ node G u
    end).
Proof. apply serves_undirected; [exact ok_inv|apply dt_none|]. intros G s wf D HK. intros Hk. apply (C24_generalized_degree_partial G wf nodes D Hk s HK). Qed.
Theorem C92_k_truss fuel k : serves consistent (Some false) None (p_k_truss orc fuel k) (fun G o => glen G * glen G < fuel -> exists T, o = Val (Some T) /\ gwf T /\ g_dir T = false /\
    truss G k (has_edge T) /\
    (forall E, truss G k E -> forall u v, E u v = true -> has_edge T u v = true) /\
    (forall u, node T u <-> exists v, has_edge T u v = true) /\
    (forall u v x, weight T u v = Some x ->
       if (k <? 3)%Z then weight G u v = Some x else x = Z.of_nat (count (fun y => has_edge T u y && has_edge T v y) (gnodes G)))).
Proof. apply serves_undirected; [exact ok_inv|exact dt_bool|]. intros G s wf D HK. intros Hf. apply (C25_k_truss G wf orc fuel k D Hf s HK). Qed.
Theorem C92_ego_graph pick u r center undirected : serves consistent None None (p_ego_graph orc pick u r center undirected None) (fun G o => 
    ego_ans G u (fun v => exists d, dist (ego_edge G undirected) u v d /\ within (Some r) d) center o).
Proof. apply serves_any; [exact ok_inv|apply dt_none|]. intros G s wf HK. apply (C59_ego_graph orc pick G wf u r center undirected s HK). Qed.
Theorem C92_ego_graph_distance pick u r center undirected w : serves consistent None (Some w) (p_ego_graph orc pick u r center undirected (Some w)) (fun G o => 
    (0 <= r)%Z -> (forall v w x, weight G v w = Some x -> (0 <= x)%Z) ->
    (undirected && g_dir G = true -> forall v w x y, weight G v w = Some x -> weight G w v = Some y -> x = y) ->
    (exists v w x, weight G v w = Some x /\ x <> 0%Z) ->
    ego_ans G u (fun v => exists x, shortest (ego_weight G undirected) u v x /\ (x <= r)%Z) center o).
Proof. apply serves_any; [exact ok_inv|apply dt_none|]. intros G s wf HK. intros H1 H2 H3 H4. apply (C59_ego_weighted orc pick G wf u r center undirected H1 H2 H3 (or_introl H4) s HK). Qed.

(** ** boundaries and cuts *)
Theorem C92_node_boundary S T : serves consistent None None (p_node_boundary orc S T) (fun G o => exists r, o = Val r /\
    is_set r (fun v => ~ In v S /\ (forall T', T = Some T' -> In v T') /\ exists u, In u S /\ edge G u v)).
Proof. apply serves_any; [exact ok_inv|apply dt_none|]. intros G s wf HK. apply (C37_node_boundary G wf S T s HK). Qed.
Theorem C92_normalized_cut_size S T w : serves consistent None w (p_normalized_cut_size orc S T w) (fun G o => let P := fun k => mem k S in let Q := in_T S T in match o with
    | Val x => vol G false P <> 0%Z /\ vol G false Q <> 0%Z /\
        (x == inject_Z (cut G false P Q) * (1 / inject_Z (vol G false P) + 1 / inject_Z (vol G false Q)))%Q
    | Raise e => e = EZeroDiv /\ (vol G false P = 0%Z \/ vol G false Q = 0%Z)
    end).
Proof. apply serves_any; [exact ok_inv|apply dt_none|]. intros G s wf HK. apply (C40_normalized_cut_size G wf S T (has w) s HK). Qed.
Theorem C92_conductance S T w : serves consistent None w (p_conductance orc S T w) (fun G o => let P := fun k => mem k S in let Q := in_T S T in match o with
    | Val x => (x == inject_Z (cut G false P Q) / inject_Z (Z.min (vol G false P) (vol G false Q)))%Q /\
               Z.min (vol G false P) (vol G false Q) <> 0%Z
    | Raise e => e = EZeroDiv /\ Z.min (vol G false P) (vol G false Q) = 0%Z
    end).
Proof. apply serves_any; [exact ok_inv|apply dt_none|]. intros G s wf HK. apply (C40_conductance G wf S T (has w) s HK). Qed.
Theorem C92_edge_expansion S T w : serves consistent None w (p_edge_expansion orc S T w) (fun G o => (T = None -> g_dir G = false) -> let P := fun k => mem k S in let Q := in_T S T in match o with
    | Val x => (x == inject_Z (cut G false P Q) / inject_Z (Z.min (card G P) (card G Q)))%Q /\ Z.min (card G P) (card G Q) <> 0%Z
    | Raise e => e = EZeroDiv /\ Z.min (card G P) (card G Q) = 0%Z
    end).
Proof. apply serves_any; [exact ok_inv|apply dt_none|]. intros G s wf HK. intros Ht. apply (C41_edge_expansion G wf S T (has w) Ht s HK). Qed.
Theorem C92_mixing_expansion S T w : serves consistent None w (p_mixing_expansion orc S T w) (fun G o => g_dir G = false -> loop_free G -> let P := fun k => mem k S in let Q := in_T S T in match o with
    | Val x => edges G <> [] /\ (x == inject_Z (cut G false P Q) / inject_Z (2 * Z.of_nat (List.length (edges G))))%Q
    | Raise e => e = EZeroDiv /\ edges G = []
    end).
Proof. apply serves_any; [exact ok_inv|apply dt_none|]. intros G s wf HK. intros Hd Hl. apply (C41_mixing_expansion G wf S T (has w) Hd Hl s HK). Qed.
Theorem C92_node_expansion S : serves consistent None None (p_node_expansion orc S) (fun G o => match o with
    | Val x => (forall k, In k S -> node G k) /\ (exists k, In k S) /\
        (x == inject_Z (card G (neighbour_of G S)) / inject_Z (card G (fun k => mem k S)))%Q
    | Raise e => (e = EKey /\ exists k, In k S /\ ~ node G k) \/ (e = EZeroDiv /\ S = [])
    end).
Proof. apply serves_any; [exact ok_inv|apply dt_none|]. intros G s wf HK. apply (C42_node_expansion G wf S s HK). Qed.
Theorem C92_boundary_expansion S : serves consistent None None (p_boundary_expansion orc S) (fun G o => match o with
    | Val x => card G (fun k => mem k S) <> 0%Z /\
        (x == inject_Z (card G (fun v => negb (mem v S) && neighbour_of G S v)) / inject_Z (card G (fun k => mem k S)))%Q
    | Raise e => e = EZeroDiv /\ card G (fun k => mem k S) = 0%Z
    end).
Proof. apply serves_any; [exact ok_inv|apply dt_none|]. intros G s wf HK. apply (C42_boundary_expansion G wf S s HK). Qed.
Theorem C92_is_dominating_set S : serves consistent None None (p_is_dominating_set orc S) (fun G o => exists r, o = Val r /\
    (r = true <-> forall v, node G v -> ~ In v S -> exists u, In u S /\ edge G u v)).
Proof. apply serves_any; [exact ok_inv|apply dt_none|]. intros G s wf HK. apply (C43_is_dominating_set G wf S s HK). Qed.

(** ** measures *)
Theorem C92_is_isolate u : serves td_consistent None None (p_is_isolate orc u) (fun G o => match o with
    | Val b => node G u /\ (b = true <-> isolated G u)
    | Raise e => e = EKey /\ ~ node G u
    end).
Proof. apply serves_any; [exact ok_td|apply dt_none|]. intros G s wf HK. apply (C44_is_isolate G wf u s HK). Qed.
Theorem C92_isolates : serves td_consistent None None (p_isolates orc) (fun G o => exists r, o = Val r /\ is_set r (isolated G)).
Proof. apply serves_any; [exact ok_td|apply dt_none|]. intros G s wf HK. apply (C44_isolates G wf s HK). Qed.
Theorem C92_number_of_isolates : serves td_consistent None None (p_number_of_isolates orc) (fun G o => exists l, NoDup l /\ (forall u, In u l <-> isolated G u) /\ o = Val (List.length l)).
Proof. apply serves_any; [exact ok_td|apply dt_none|]. intros G s wf HK. apply (C44_number_of_isolates G wf s HK). Qed.
Theorem C92_is_regular : serves consistent None None (p_is_regular orc) (fun G o => (exists u v, edge G u v) -> (g_dir G = false -> loop_free G) -> exists b, o = Val b /\ (b = true <-> regular G)).
Proof. apply serves_any; [exact ok_inv|apply dt_none|]. intros G s wf HK. intros H1 H2. apply (C45_is_regular G wf H1 H2 s HK). Qed.
Theorem C92_is_k_regular k : serves consistent (Some false) None (p_is_k_regular orc (Z.of_nat k)) (fun G o => 
    loop_free G -> (k <> 0 \/ gnodes G = [] \/ exists u v, edge G u v) -> match o with
    | Val b => g_dir G = false /\ (b = true <-> forall u, node G u -> degree G u = k)
    | Raise e => e = ENotImpl /\ g_dir G = true
    end).
Proof. apply serves_undirected; [exact ok_inv|apply dt_none|]. intros G s wf D HK. intros H1 H2. apply (C45_is_k_regular G wf k H1 H2 s HK). Qed.
Theorem C92_is_tournament : serves consistent (Some true) None (p_is_tournament orc) (fun G o => match o with
    | Val b => g_dir G = true /\ (b = true <-> tournament G)
    | Raise e => e = ENotImpl /\ g_dir G = false
    end).
Proof. apply serves_directed; [exact ok_inv|apply dt_none|]. intros G s wf D HK. apply (C46_is_tournament G wf s HK). Qed.
Theorem C92_score_sequence : serves consistent (Some true) None (p_score_sequence orc) (fun G o => match o with
    | Val l => g_dir G = true /\ StronglySorted Z.le l /\ Permutation l (map (fun u => Z.of_nat (out_degree G u)) (gnodes G))
    | Raise e => e = ENotImpl /\ g_dir G = false
    end).
Proof. apply serves_directed; [exact ok_inv|apply dt_none|]. intros G s wf D HK. apply (C47_score_sequence G wf s HK). Qed.
Theorem C92_tournament_matrix : serves consistent (Some true) None (p_tournament_matrix orc) (fun G o => match o with
    | Val M => g_dir G = true /\ exists l, row_order G None l /\
        is_matrix 0%Z M l (fun u v => weight0 G u v - weight0 G v u)%Z /\
        forall a b u v, nth_error l a = Some u -> nth_error l b = Some v -> (has (mget M a b) = true <-> edge G u v \/ edge G v u)
    | Raise e => e = ENotImpl /\ g_dir G = false
    end).
Proof. apply serves_directed; [exact ok_inv|apply dt_none|]. intros G s wf D HK. apply (C85_tournament_matrix G wf s HK). Qed.
Theorem C92_is_triad : serves consistent None None (p_is_triad orc) (fun G o => exists b, o = Val b /\
    (b = true <-> g_dir G = true /\ List.length (gnodes G) = 3 /\ loop_free G)).
Proof. apply serves_any; [exact ok_inv|apply dt_none|]. intros G s wf HK. apply (C85_is_triad G wf s HK). Qed.
Theorem C92_is_simple_path l : serves consistent None None (p_is_simple_path orc l) (fun G o => exists b, o = Val b /\ (b = true <-> simple_path G l)).
Proof. apply serves_any; [exact ok_inv|apply dt_none|]. intros G s wf HK. apply (C48_is_simple_path G wf l s HK). Qed.
Theorem C92_overall_reciprocity : serves_digraphs consistent None (p_overall_reciprocity orc) (fun G o => match o with
    | Val x => edges G <> [] /\
        (x == inject_Z (Z.of_nat (count (fun e => negb (nkey_eqb (fst e) (snd e)) && has_edge G (snd e) (fst e)) (edges G)))
              / inject_Z (Z.of_nat (List.length (edges G))))%Q
    | Raise e => (e = EEmptyGraph /\ edges G = [])
    end).
Proof.
  apply serves_unchecked; [exact ok_inv|exact dt_bool|]. intros G s wf D HK. destruct (C49_overall_reciprocity G wf s HK) as [H _].
  destruct (fst _) as [x|e]; [exact (proj2 H)|]. destruct H as [[_ H]|(H1 & _ & H2)]; [congruence|auto].
Qed.
Theorem C92_reciprocity_node u : serves_digraphs consistent None (p_reciprocity_node orc u) (fun G o => match o with
    | Val x => node G u /\ 0 < degree G u /\ x = recip_of G u
    | Raise e => (e = EKey /\ ~ node G u) \/ (e = EAlg /\ node G u /\ degree G u = 0)
    end).
Proof.
  apply serves_unchecked; [exact ok_inv|exact dt_bool|]. intros G s wf D HK. destruct (C49_reciprocity_node G wf u s HK) as [H _].
  destruct (fst _) as [x|e]; [exact (proj2 H)|]. destruct H as [[_ H]|H]; [congruence|exact H].
Qed.
Theorem C92_reciprocity_nodes l : serves_digraphs consistent None (p_reciprocity_nodes orc l) (fun G o => match o with
    | Val r => (forall k, In k l -> node G k) /\
        is_map r (fun u x => In u l /\ 0 < degree G u /\ x = recip_of G u)
    | Raise e => (e = EKey /\ exists k, In k l /\ ~ node G k)
    end).
Proof.
  apply serves_unchecked; [exact ok_inv|exact dt_bool|]. intros G s wf D HK. destruct (C49_reciprocity_nodes G wf l s HK) as [H _].
  destruct (fst _) as [x|e]; [exact (proj2 H)|]. destruct H as [[_ H]|H]; [congruence|exact H].
Qed.
Theorem C92_s_metric : serves td_consistent None None (p_s_metric orc) (fun G o => g_dir G = false -> loop_free G -> exists x, o = Val x /\
    (x == inject_Z (total (fun e => Z.of_nat (degree G (fst e)) * Z.of_nat (degree G (snd e)))%Z (edges G)))%Q).
Proof. apply serves_any; [exact ok_td|apply dt_none|]. intros G s wf HK. intros H1 H2. apply (C50_s_metric G wf H1 H2 s HK). Qed.
Theorem C92_mutual_weight u v w : serves consistent None w (p_mutual_weight orc u v w) (fun G o => Val (weight0 G u v + weight0 G v u)%Z = o).
Proof. apply serves_any; [exact ok_inv|apply dt_none|]. intros G s wf HK. apply (C52_mutual_weight G u v s HK). Qed.
Theorem C92_intra_community_edges p : serves consistent None None (p_intra_community_edges orc p) (fun G o => g_dir G = true -> partition_of G p -> exists z, o = Val z /\ z = Z.of_nat (count (same_block p) (edges G))).
Proof. apply serves_any; [exact ok_inv|apply dt_none|]. intros G s wf HK. intros H1 H2. apply (C51_intra_community_edges G wf p H1 H2 s HK). Qed.
Theorem C92_inter_community_edges p : serves consistent None None (p_inter_community_edges orc p) (fun G o => g_dir G = true -> partition_of G p -> exists z, o = Val z /\ z = Z.of_nat (count (fun e => negb (same_block p e)) (edges G))).
Proof. apply serves_any; [exact ok_inv|apply dt_none|]. intros G s wf HK. intros H1 H2. apply (C51_inter_community_edges G wf p H1 H2 s HK). Qed.
Theorem C92_degree_centrality : serves td_consistent None None (p_degree_centrality orc) (fun G o => (g_dir G = false -> loop_free G) -> exists r, o = Val r /\ centrality G (degree G) r).
Proof. apply serves_any; [exact ok_td|apply dt_none|]. intros G s wf HK. intros H1. apply (C53_degree_centrality G wf H1 s HK). Qed.
Theorem C92_in_degree_centrality : serves consistent (Some true) None (p_in_degree_centrality orc) (fun G o => match o with Val r => g_dir G = true /\ centrality G (in_degree G) r | Raise e => e = ENotImpl /\ g_dir G = false end).
Proof. apply serves_directed; [exact ok_inv|apply dt_none|]. intros G s wf D HK. apply (C53_in_degree_centrality G wf s HK). Qed.
Theorem C92_out_degree_centrality : serves consistent (Some true) None (p_out_degree_centrality orc) (fun G o => match o with Val r => g_dir G = true /\ centrality G (out_degree G) r | Raise e => e = ENotImpl /\ g_dir G = false end).
Proof. apply serves_directed; [exact ok_inv|apply dt_none|]. intros G s wf D HK. apply (C53_out_degree_centrality G wf s HK). Qed.

(** ** boundaries and cuts of library and networkx graphs *)
Lemma serves_multi {X} K w (f : graph -> M X) R : serves K None w (any_graph orc w None f) R -> serves_graphs K w (asks_multigraph (any_graph orc w None f)) R.
Proof. intros H a Ha. specialize (H a Ha). destruct a as [G s|N|A d| |]; cbn [refused asks_multigraph] in *; try reflexivity; exact H. Qed.
Lemma serves_not_multi {X} K w (f : garg -> pub X) R : serves K None w f R -> serves_objects K w (not_for_multigraphs f) R.
Proof. intros H a Ha. specialize (H a Ha). destruct a as [G s|N|A d| |]; cbn [not_for_multigraphs] in *; try reflexivity; exact H. Qed.
(** nothing but the pairs without data, and with data each pair with its value under the attribute's name *)
(** the attribute asked for: data=True is "weight", a false data (also 0 and the empty name) is none *)
Definition attribute_asked (data : data_arg) (w : option nkey) : Prop :=
  match data with
  | DataNo => w = None
  | DataYes => w = Some (KS "weight")
  | DataAttr k => (w = None <-> k = KI 0 \/ k = KS "") /\ (w = None \/ w = Some k)
  end.
Lemma attribute_weight data : attribute_asked data (data_weight data).
Proof.
  destruct data as [| |k]; cbn [attribute_asked data_weight]; try reflexivity. destruct k as [z|t]; cbn [falsy].
  - destruct (Z.eqb_spec z 0) as [->|H]; (split; [split; [intros E|intros [E|E]]|]); auto; try discriminate; injection E; intros; subst; congruence.
  - destruct (String.eqb_spec t "") as [->|H]; (split; [split; [intros E|intros [E|E]]|]); auto; try discriminate; injection E; intros; subst; congruence.
Qed.
Lemma attribute_fun data w : attribute_asked data w -> w = data_weight data.
Proof.
  pose proof (attribute_weight data) as H. destruct data as [| |k]; cbn [attribute_asked] in *; try congruence.
  intros [H1 H2]. destruct H as [H3 H4]. destruct H2 as [E|E], H4 as [E'|E']; try congruence.
  - apply H1 in E. apply H3 in E. congruence.
  - apply H3 in E'. apply H1 in E'. congruence.
Qed.
Theorem C92_edge_boundary S T data w : attribute_asked data w -> serves_graphs consistent w (p_edge_boundary orc S T data) (fun G o => exists l, o = Val l /\
    NoDup (map fst l) /\
    forall u v x, In (u, v, x) l <->
      In u S /\ match T with Some T' => In v T' | None => ~ In v S /\ exists y, edge G v y end /\
      exists z, weight G u v = Some z /\ x = match w with Some k => Some (k, z) | None => None end).
Proof.
  intros Hw. apply attribute_fun in Hw as ->. unfold p_edge_boundary. apply serves_multi. apply serves_any; [exact ok_inv|apply dt_none|]. intros G s wf HK.
  destruct (C36_exact G wf S T (has (data_weight data)) s HK) as [HR _]. revert HR. unfold bind.
  destruct (nx_edge_boundary G S T (has (data_weight data)) s) as [o s1]. cbn [fst snd]. intros (l & -> & ND & HL). cbn [ret fst].
  eexists. split; [reflexivity|]. split.
  - rewrite map_map. erewrite map_ext; [exact ND|]. intros [[u v] x]. reflexivity.
  - intros u v x. rewrite in_map_iff. split.
    + intros ([[u' v'] y] & E & Hin). injection E as -> -> <-. apply HL in Hin. destruct Hin as (H1 & H2 & z & H3 & H4). split; [assumption|]. split; [assumption|]. exists z. split; [assumption|].
      subst y. destruct (data_weight data); reflexivity.
    + intros (H1 & H2 & z & H3 & ->). exists (u, v, if has (data_weight data) then Some z else None). split.
      * destruct (data_weight data); reflexivity.
      * apply HL. split; [assumption|]. split; [assumption|]. exists z. auto.
Qed.
Theorem C92_cut_size S T w : serves_graphs consistent w (p_cut_size orc S T w) (fun G o => (T = None -> g_dir G = false) ->
    o = Val (cut G (has w) (fun k => mem k S) (in_T S T))).
Proof.
  unfold p_cut_size. apply serves_multi. apply serves_any; [exact ok_inv|apply dt_none|]. intros G s wf HK HT.
  destruct (C38_cut_size G wf S T (has w) HT s HK) as [(z & E & ->) _]. exact E.
Qed.
Theorem C92_volume S w : serves_graphs consistent w (p_volume orc S w) (fun G o => (has w = true -> g_dir G = false) -> match o with
    | Val z => (forall k, In k S -> node G k) /\ z = vol G (has w) (fun k => mem k S)
    | Raise e => e = EKey /\ exists k, In k S /\ ~ node G k
    end).
Proof.
  unfold p_volume. apply serves_multi. apply serves_any; [exact ok_inv|apply dt_none|]. intros G s wf HK Hd.
  apply (C39_volume G wf S (has w) Hd s HK).
Qed.

(** ** matrices *)
Theorem C92_adjacency_matrix nodelist w : serves consistent None w (p_adjacency_matrix orc nodelist w) (fun G o => matrix_ans G nodelist o (fun M l =>
    is_matrix 0%Z M l (adj G (has w)) /\
    forall a b u v, nth_error l a = Some u -> nth_error l b = Some v -> (has (mget M a b) = true <-> edge G u v))).
Proof. apply serves_any; [exact ok_inv|apply dt_none|]. intros G s wf HK. apply (C55_adjacency G wf nodelist (has w) s HK). Qed.
Theorem C92_laplacian_matrix nodelist w : serves consistent None w (p_laplacian_matrix orc nodelist w) (fun G o =>
    (g_dir G = true -> has w = true \/ nodelist <> None) -> no_dup nodelist ->
    matrix_ans G nodelist o (fun M l => is_matrix 0%Z M l (lap G (has w) l))).
Proof. apply serves_any; [exact ok_inv|apply dt_none|]. intros G s wf HK. intros H1 H2. apply (C55_laplacian G wf nodelist (has w) H1 H2 s HK). Qed.
Theorem C92_normalized_laplacian_matrix sqr nodelist w : serves consistent None w (p_normalized_laplacian_matrix orc sqr nodelist w) (fun G o =>
    (g_dir G = true -> has w = true \/ nodelist <> None) -> no_dup nodelist -> (forall l, row_order G nodelist l -> rows_nonzero G (has w) l) ->
    matrix_ans G nodelist o (fun M l => is_matrix 0%Qc M l (nlap sqr G (has w) l))).
Proof. apply serves_any; [exact ok_inv|apply dt_none|]. intros G s wf HK. intros H1 H2 H3. apply (C55_normalized_laplacian G wf sqr nodelist (has w) H1 H2 H3 s HK). Qed.
Theorem C92_bethe_hessian_matrix r nodelist : serves consistent (Some false) None (p_bethe_hessian_matrix orc r nodelist) (fun G o => no_dup nodelist ->
    match o with
    | Raise EZeroDiv => r = None /\ (forall u v, ~ edge G u v)
    | _ => matrix_ans G nodelist o (fun M l => is_matrix 0%Qc M l (bethe G (match r with Some r => r | None => default_r (out_degree G) G end) l)) /\
           ((exists M, o = Val M) -> r = None -> exists u v, edge G u v)
    end).
Proof. apply serves_undirected; [exact ok_inv|apply dt_none|]. intros G s wf D HK. intros H1. destruct (C55_bethe_hessian G wf r nodelist H1 s HK) as [H _]. rewrite D in H. exact H. Qed.
Theorem C92_modularity_matrix nodelist w : serves consistent (Some false) w (p_modularity_matrix orc nodelist w) (fun G o =>
    no_dup nodelist -> (forall l, row_order G nodelist l -> total_nonzero G (has w) l) ->
    matrix_ans G nodelist o (fun M l => is_matrix 0%Qc M l (modul G (has w) l))).
Proof. apply serves_undirected; [exact ok_inv|apply dt_none|]. intros G s wf D HK. intros H1 H2. destruct (C55_modularity G wf nodelist (has w) H1 H2 s HK) as [H _]. rewrite D in H. exact H. Qed.
Theorem C92_directed_modularity_matrix nodelist w : serves consistent (Some true) w (p_directed_modularity_matrix orc nodelist w) (fun G o =>
    (forall l, row_order G nodelist l -> total_nonzero G (has w) l) ->
    matrix_ans G nodelist o (fun M l => is_matrix 0%Qc M l (modul G (has w) l))).
Proof. apply serves_directed; [exact ok_inv|apply dt_none|]. intros G s wf D HK. intros H1. destruct (C55_directed_modularity G wf nodelist (has w) H1 s HK) as [H _]. rewrite D in H. exact H. Qed.
Theorem C92_google_matrix alpha pers nodelist w dang : serves consistent None w (p_google_matrix orc alpha pers nodelist w dang) (fun G o => is_dict pers -> is_dict dang -> rows_match G nodelist ->
    (forall l, row_order G nodelist l -> rows_nonzero G true l /\ dangling_read G l dang) -> google_ans G alpha pers dang nodelist o).
Proof. apply serves_any; [exact ok_inv|apply dt_float|]. intros G s wf HK. intros H1 H2 H3 H4. apply (C56_google G wf alpha pers dang nodelist H1 H2 H3 H4 s HK). Qed.

(** ** scores *)
Theorem C92_pagerank em alpha pers max_iter tol nstart w dang : serves iso_consistent None w (p_pagerank orc em alpha pers max_iter tol nstart w dang) (fun G o => 
    is_dict nstart -> is_dict pers -> is_dict dang -> rows_nonzero G true (gnodes G) -> (exists u v, edge G u v) ->
    pagerank_ans G em alpha pers nstart dang max_iter tol o).
Proof. apply serves_any; [exact ok_iso|apply dt_float|]. intros G s wf HK. intros H1 H2 H3 H4 H5. apply (C57_pagerank G wf em alpha pers nstart dang max_iter tol H1 H2 H3 H4 H5 s (proj1 HK) (proj2 HK)). Qed.
Theorem C92_eigenvector_centrality sqr max_iter tol nstart w : serves_objects consistent w (p_eigenvector_centrality orc sqr max_iter tol nstart w) (fun G o => is_dict nstart ->
    let F := eig_next sqr G in let x0 := distr (gnodes G) nstart in match o with
    | Val m => exists k, first_settled G F x0 tol max_iter k /\ is_map m (fun u q => node G u /\ spread G (Spec_Rank.given nstart) k u /\ q = iterate F k x0 u)
    | Raise EConv => never_settled G F x0 tol max_iter
    | Raise EPointless => gnodes G = []
    | Raise EKey => foreign G nstart
    | Raise EValue => no_entries nstart
    | Raise EAlg => sums_to_zero (gnodes G) nstart
    | Raise _ => False
    end).
Proof. apply serves_not_multi, serves_any; [exact ok_inv|apply dt_float|]. intros G s wf HK. intros H1. apply (C58_eigenvector G wf sqr max_iter tol nstart H1 s HK). Qed.
Theorem C92_katz_centrality_partial sqr fl alpha beta max_iter tol nstart normalized w : serves_objects iso_consistent w (p_katz_centrality orc sqr fl alpha beta max_iter tol nstart normalized w) (fun G o => 
    is_dict nstart -> is_dict (beta_dict beta) -> adds_everywhere G fl beta nstart ->
    let F := katz_next G alpha (beta_val beta) in let x0 := katz_start nstart in match o with
    | Val None => gnodes G = []
    | Val (Some m) => exists k, first_settled G F x0 tol max_iter k /\
        is_map m (fun u q => node G u /\ q = (if normalized then divided (l2norm sqr G (iterate F k x0)) (iterate F k x0) u else iterate F k x0 u))
    | Raise EConv => never_settled G F x0 tol max_iter
    | Raise EKey => foreign G nstart \/ foreign G (beta_dict beta)
    | Raise EValue => no_entries nstart
    | Raise EAlg => exists d u, beta = inr d /\ node G u /\ ~ In u (map fst d)
    | Raise _ => False
    end).
Proof. apply serves_not_multi, serves_any; [exact ok_iso|apply dt_float|]. intros G s wf HK. intros H1 H2 H3. apply (C58_katz_partial G wf sqr fl alpha beta max_iter tol nstart normalized H1 H2 H3 s (proj1 HK) (proj2 HK)). Qed.
Theorem C92_hits max_iter tol nstart normalized : serves consistent None (Some (KS "weight")) (p_hits orc max_iter tol nstart normalized) (fun G o => is_dict nstart ->
    let P := starts nstart in let f := hits_sparse G P (distr (gnodes G) nstart) in match o with
    | Val None => gnodes G = []
    | Val (Some (h, a)) => exists k, first_close G f tol max_iter k /\
        let hv := f k in let av := from_preds G (f (k - 1)) in
        is_map h (fun u q => node G u /\ q = if normalized then divided (qtotal hv (gnodes G)) hv u else hv u) /\
        is_map a (fun u q => node G u /\ q = divided (if normalized then qtotal av (gnodes G) else largest av (filter (pointed G (scored G P (k - 1))) (gnodes G))) av u)
    | Raise EConv => never_close G f tol max_iter /\ 1 <= max_iter
    | Raise EKey => foreign G nstart
    | Raise EValue => no_entries nstart \/ max_iter = 0
    | Raise EZeroDiv => sums_to_zero (gnodes G) nstart
    | Raise _ => False
    end).
Proof. apply serves_any; [exact ok_inv|apply dt_float|]. intros G s wf HK. intros H1. apply (C58_hits_exact G wf max_iter tol nstart normalized H1 s HK). Qed.
End P.

(** ** the attributes of a networkx graph that the call does not ask for do not matter *)
Lemma convert_attr orc dir dt w N1 N2 : nx_dir N1 = nx_dir N2 -> nx_nodes N1 = nx_nodes N2 -> (forall u v, nx_weight N1 w u v = nx_weight N2 w u v) ->
  from_networkx_as orc dir N1 w dt = from_networkx_as orc dir N2 w dt.
Proof.
  intros E1 E2 E3. unfold from_networkx_as. cbv zeta. assert (E : from_networkx orc N1 w = from_networkx orc N2 w); [|rewrite E; reflexivity].
  unfold from_networkx. cbv zeta. rewrite E1, E2. f_equal. apply mbuild_ext. intros i j Hi Hj.
  destruct (nth_error (nx_nodes N2) i) as [u|]; [|reflexivity]. destruct (nth_error (nx_nodes N2) j) as [v|]; [|reflexivity].
  specialize (E3 u v). rewrite !nx_weight_value in E3. destruct (nx_data N1 u v), (nx_data N2 u v); simpl in E3; congruence.
Qed.
Theorem C92_only_the_attribute {X} orc w dt (f : graph -> M X) N1 N2 :
  nx_dir N1 = nx_dir N2 -> nx_nodes N1 = nx_nodes N2 -> (forall u v, nx_weight N1 w u v = nx_weight N2 w u v) ->
  any_graph orc w dt f (ANx N1) = any_graph orc w dt f (ANx N2) /\ a_digraph orc w dt f (ANx N1) = a_digraph orc w dt f (ANx N2) /\
  an_undirected_graph orc w dt f (ANx N1) = an_undirected_graph orc w dt f (ANx N2).
Proof.
  intros E1 E2 E3. unfold any_graph, a_digraph, an_undirected_graph, call. cbn [decorated no_undirected no_directed to_graph to_directed_graph to_undirected_graph].
  rewrite E1, !(convert_attr orc _ dt w N1 N2 E1 E2 E3). auto.
Qed.
(** without a weight only the nodes and the edges matter *)
Theorem C92_no_weight {X} orc dt (f : graph -> M X) N1 N2 :
  nx_dir N1 = nx_dir N2 -> nx_nodes N1 = nx_nodes N2 -> (forall u v, nx_edge N1 u v <-> nx_edge N2 u v) ->
  any_graph orc None dt f (ANx N1) = any_graph orc None dt f (ANx N2) /\ a_digraph orc None dt f (ANx N1) = a_digraph orc None dt f (ANx N2) /\
  an_undirected_graph orc None dt f (ANx N1) = an_undirected_graph orc None dt f (ANx N2).
Proof.
  intros E1 E2 E3. apply C92_only_the_attribute; auto. intros u v. specialize (E3 u v). unfold nx_edge, nx_weight in *.
  destruct (nx_data N1 u v) as [x|], (nx_data N2 u v) as [y|]; try reflexivity; exfalso; [destruct (proj1 E3)|destruct (proj2 E3)]; eauto; discriminate.
Qed.
(** converting the graph first and passing the result gives the same answer *)
Theorem C92_convert_first {X} orc w (f : graph -> M X) N :
  fst (any_graph orc w None f (ANx N)) = fst (any_graph orc w None f (AGraph (from_networkx orc N w) st0)) /\
  fst (a_digraph orc w None f (ANx N)) = fst (a_digraph orc w None f (AGraph (from_networkx orc N w) st0)) /\
  fst (an_undirected_graph orc w None f (ANx N)) = fst (an_undirected_graph orc w None f (AGraph (from_networkx orc N w) st0)).
Proof.
  unfold any_graph, a_digraph, an_undirected_graph, call, from_networkx_as.
  cbn [decorated no_undirected no_directed to_graph to_directed_graph to_undirected_graph]. unfold from_networkx_as. cbn [oget].
  change (g_dir (from_networkx orc N w)) with (nx_dir N).
  split; [|split].
  - reflexivity.
  - destruct (nx_dir N) eqn:E; cbn [Bool.eqb fst]; [|reflexivity]. unfold from_networkx, new_graph. rewrite E. reflexivity.
  - destruct (nx_dir N) eqn:E; cbn [Bool.eqb fst]; [reflexivity|]. unfold from_networkx, new_graph. rewrite E. reflexivity.
Qed.

(** ** weight=None does not mean "every edge counts 1" for a library graph: the stored weights are used all the same,
    and so is any other name.  The networkx graph with the same weights is treated as networkx does. *)
Definition g_w5 : graph := mkg true 2 [(0, 1, 5%Z)].
Definition nx_w5 : nxgraph := {| nx_dir := true; nx_nattr := false; nx_adj := [(KI 0, [(KI 1, [(KS "weight", 5%Z); (KS "time", 9%Z)])]); (KI 1, [])] |}.
Lemma nx_w5_wf : nxwf nx_w5.
Proof.
  constructor.
  - repeat constructor; simpl; intuition congruence.
  - intros u v x H. unfold nx_data in H. cbn [nx_w5 nx_adj dget] in H. destruct (nkey_eqb u (KI 0)); cbn [dget] in H.
    + destruct (nkey_eqb v (KI 1)) eqn:E; [|discriminate]. apply nkey_eqb_eq in E. subst. simpl. auto.
    + destruct (nkey_eqb u (KI 1)); cbn [dget] in H; discriminate.
  - discriminate.
Qed.
Theorem C92_weight_none_refuted : gwf g_w5 /\ nxwf nx_w5 /\
  fst (p_bf_path_length (fun _ => false) (KI 0) (KI 1) None (AGraph g_w5 st0)) = Val 5%Z /\
  fst (p_bf_path_length (fun _ => false) (KI 0) (KI 1) None (ANx nx_w5)) = Val 1%Z /\
  fst (p_bf_path_length (fun _ => false) (KI 0) (KI 1) (Some (KS "time")) (AGraph g_w5 st0)) = Val 5%Z /\
  fst (p_bf_path_length (fun _ => false) (KI 0) (KI 1) (Some (KS "time")) (ANx nx_w5)) = Val 9%Z /\
  fst (p_mutual_weight (fun _ => false) (KI 0) (KI 1) None (AGraph g_w5 st0)) = Val 5%Z /\
  fst (p_mutual_weight (fun _ => false) (KI 0) (KI 1) None (ANx nx_w5)) = Val 1%Z.
Proof. split; [apply mkg_wf|]. split; [apply nx_w5_wf|]. repeat split; vm_compute; reflexivity. Qed.
(** a Matrix is accepted by node_boundary and conductance, but edge_boundary, cut_size and volume fail on every Matrix *)
Theorem C92_matrix_refuted : let A := mbuild 2 2 (fun i j => if i =? j then None else Some 1%Z) in mok A DInt /\ msymmetric A /\
  (exists x, fst (p_conductance (fun _ => false) [KI 0] None None (AMatrix A DInt)) = Val x /\ (x == 2)%Q) /\
  fst (p_cut_size (fun _ => false) [KI 0] None None (AMatrix A DInt)) = Raise EAttr /\
  fst (p_volume (fun _ => false) [KI 0] None (AMatrix A DInt)) = Raise EAttr /\
  fst (p_edge_boundary (fun _ => false) [KI 0] None DataNo (AMatrix A DInt)) = Raise EAttr.
Proof.
  cbv zeta. split; [split; [apply mwf_mbuild|discriminate]|]. split.
  { intros i j. rewrite !mget_mbuild. destruct (Nat.ltb_spec i 2), (Nat.ltb_spec j 2); cbn [andb]; try reflexivity. rewrite (Nat.eqb_sym j i). reflexivity. }
  split; [eexists; split; [vm_compute; reflexivity|reflexivity]|]. repeat split; reflexivity.
Qed.
(** edge_boundary(data="time") yields ("time", value) pairs (a dict) where networkx yields the bare value *)
Theorem C92_edge_boundary_data_refuted : nxwf nx_w5 /\
  fst (p_edge_boundary (fun _ => false) [KI 0] (Some [KI 1]) (DataAttr (KS "time")) (ANx nx_w5)) = Val [(KI 0, KI 1, Some (KS "time", 9%Z))].
Proof. split; [apply nx_w5_wf|vm_compute; reflexivity]. Qed.

(** None is no graph, and the decorated functions say so; the others take it for a directed graph without nodes, and answer *)
Theorem C92_none_refuted :
  fst (p_number_of_isolates (fun _ => false) ANone) = Val 0 /\
  fst (p_is_triad (fun _ => false) ANone) = Val false /\
  fst (p_is_simple_path (fun _ => false) [] ANone) = Val false /\
  fst (p_is_connected (fun _ => false) ANone) = Raise EAttr /\
  fst (p_is_weakly_connected (fun _ => false) ANone) = Raise EAttr.
Proof. repeat split; vm_compute; reflexivity. Qed.
(** reciprocity and overall_reciprocity are decorated as not implemented for undirected graphs, but no undirected graph ever gets that
    answer: networkx reads the decoration as "undirected multigraphs"; the other functions on directed graphs do give it *)
Theorem C92_reciprocity_refuted (orc : mat Z -> bool) (G : graph) (s : Model_Graph.st) (u : nkey) (l : list nkey) : g_dir G = false ->
  fst (p_overall_reciprocity orc (AGraph G s)) = Raise EType /\
  fst (p_reciprocity_node orc u (AGraph G s)) = Raise EType /\
  fst (p_reciprocity_nodes orc l (AGraph G s)) = Raise EType /\
  fst (p_is_weakly_connected orc (AGraph G s)) = Raise ENotImpl.
Proof.
  intros D. unfold p_overall_reciprocity, p_reciprocity_node, p_reciprocity_nodes, p_is_weakly_connected, a_digraph_unchecked, a_digraph, call.
  cbn [decorated to_directed_graph no_undirected]. rewrite D. repeat split; reflexivity.
Qed.

(** non-vacuity: one networkx graph, one Matrix and one library graph *)
Example C92_ex_nx : given consistent None (ANx nx_w5) /\ given consistent (Some true) (ANx nx_w5) /\ refused (Some true) (ANx nx_w5) = None /\
  refused (Some false) (ANx nx_w5) = Some ENotImpl /\
  match fst (p_descendants (fun _ => true) (KI 0) (ANx nx_w5)) with Val r => ns_iter r = Val [KI 1] | Raise _ => False end /\
  fst (p_is_connected (fun _ => true) (ANx nx_w5)) = Raise ENotImpl /\ fst (p_is_weakly_connected (fun _ => true) (ANx nx_w5)) = Val true.
Proof. split; [apply nx_w5_wf|]. split; [apply nx_w5_wf|]. repeat split; vm_compute; reflexivity. Qed.
Example C92_ex_matrix : let A := mbuild 2 2 (fun i j => if i =? j then None else Some 7%Z) in
  given consistent None (AMatrix A DInt) /\ given consistent (Some false) (AMatrix A DInt) /\ refused (Some false) (AMatrix A DInt) = None /\
  fst (p_is_connected (fun _ => true) (AMatrix A DInt)) = Val true /\ fst (p_bf_path_length (fun _ => true) (KI 0) (KI 1) (Some (KS "weight")) (AMatrix A DInt)) = Val 7%Z.
Proof.
  cbv zeta. assert (O : mok (mbuild 2 2 (fun i j => if i =? j then None else Some 7%Z)) DInt) by (split; [apply mwf_mbuild|discriminate]).
  split; [split; [exact O|discriminate]|]. split; [split; [exact O|]|].
  { intros _ i j. rewrite !mget_mbuild. destruct (Nat.ltb_spec i 2), (Nat.ltb_spec j 2); cbn [andb]; try reflexivity. rewrite (Nat.eqb_sym j i). reflexivity. }
  repeat split; vm_compute; reflexivity.
Qed.
Example C92_ex_attribute : let N2 := {| nx_dir := true; nx_nattr := false; nx_adj := [(KI 0, [(KI 1, [(KS "weight", 6%Z); (KS "time", 9%Z)])]); (KI 1, [])] |} in
  nx_dir nx_w5 = nx_dir N2 /\ nx_nodes nx_w5 = nx_nodes N2 /\ (forall u v, nx_weight nx_w5 (Some (KS "time")) u v = nx_weight N2 (Some (KS "time")) u v) /\
  nx_weight nx_w5 (Some (KS "weight")) (KI 0) (KI 1) <> nx_weight N2 (Some (KS "weight")) (KI 0) (KI 1).
Proof.
  cbv zeta. split; [reflexivity|]. split; [reflexivity|]. split; [|vm_compute; discriminate]. intros u v. unfold nx_weight, nx_data. cbn [nx_w5 nx_adj dget].
  destruct (nkey_eqb u (KI 0)); cbn [dget]; [destruct (nkey_eqb v (KI 1)); reflexivity|destruct (nkey_eqb u (KI 1)); reflexivity].
Qed.

Print Assumptions C92_descendants.
Print Assumptions C92_ancestors.
Print Assumptions C92_node_connected_component.
Print Assumptions C92_single_source_shortest_path_length.
Print Assumptions C92_single_target_shortest_path_length.
Print Assumptions C92_all_pairs_shortest_path_length.
Print Assumptions C92_has_path.
Print Assumptions C92_efficiency.
Print Assumptions C92_is_connected.
Print Assumptions C92_is_weakly_connected.
Print Assumptions C92_bfs_layers.
Print Assumptions C92_descendants_at_distance.
Print Assumptions C92_lowest_common_ancestor.
Print Assumptions C92_single_source_bellman_ford.
Print Assumptions C92_all_pairs_bellman_ford.
Print Assumptions C92_bellman_ford_path_length_partial.
Print Assumptions C92_bellman_ford_path.
Print Assumptions C92_negative_edge_cycle.
Print Assumptions C92_floyd_warshall.
Print Assumptions C92_floyd_warshall_numpy.
Print Assumptions C92_floyd_warshall_numpy_partial.
Print Assumptions C92_floyd_warshall_distance.
Print Assumptions C92_floyd_warshall_predecessor_partial.
Print Assumptions C92_triangles.
Print Assumptions C92_clustering.
Print Assumptions C92_transitivity.
Print Assumptions C92_average_clustering_partial.
Print Assumptions C92_square_clustering_partial.
Print Assumptions C92_generalized_degree_partial.
Print Assumptions C92_k_truss.
Print Assumptions C92_ego_graph.
Print Assumptions C92_ego_graph_distance.
Print Assumptions C92_node_boundary.
Print Assumptions C92_normalized_cut_size.
Print Assumptions C92_conductance.
Print Assumptions C92_edge_expansion.
Print Assumptions C92_mixing_expansion.
Print Assumptions C92_node_expansion.
Print Assumptions C92_boundary_expansion.
Print Assumptions C92_is_dominating_set.
Print Assumptions C92_is_isolate.
Print Assumptions C92_isolates.
Print Assumptions C92_number_of_isolates.
Print Assumptions C92_is_regular.
Print Assumptions C92_is_k_regular.
Print Assumptions C92_is_tournament.
Print Assumptions C92_score_sequence.
Print Assumptions C92_tournament_matrix.
Print Assumptions C92_is_triad.
Print Assumptions C92_is_simple_path.
Print Assumptions C92_overall_reciprocity.
Print Assumptions C92_reciprocity_node.
Print Assumptions C92_reciprocity_nodes.
Print Assumptions C92_s_metric.
Print Assumptions C92_mutual_weight.
Print Assumptions C92_intra_community_edges.
Print Assumptions C92_inter_community_edges.
Print Assumptions C92_degree_centrality.
Print Assumptions C92_in_degree_centrality.
Print Assumptions C92_out_degree_centrality.
Print Assumptions C92_edge_boundary.
Print Assumptions C92_cut_size.
Print Assumptions C92_volume.
Print Assumptions C92_adjacency_matrix.
Print Assumptions C92_laplacian_matrix.
Print Assumptions C92_normalized_laplacian_matrix.
Print Assumptions C92_bethe_hessian_matrix.
Print Assumptions C92_modularity_matrix.
Print Assumptions C92_directed_modularity_matrix.
Print Assumptions C92_google_matrix.
Print Assumptions C92_pagerank.
Print Assumptions C92_eigenvector_centrality.
Print Assumptions C92_katz_centrality_partial.
Print Assumptions C92_hits.
Print Assumptions C92_only_the_attribute.
Print Assumptions C92_no_weight.
Print Assumptions C92_convert_first.
Print Assumptions C92_weight_none_refuted.
Print Assumptions C92_none_refuted.
Print Assumptions C92_reciprocity_refuted.
Print Assumptions C92_matrix_refuted.
Print Assumptions C92_edge_boundary_data_refuted.
