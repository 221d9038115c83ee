(** * Sessions and the iso_value defect *)
From Verif Require Import Base Model_Graph Model_Cache Spec_Cache Spec_Run Model_Keys Model_Utils Model_Bfs Model_Measures Model_Weighted
  Model_Dense Model_Cluster Model_Ego Model_Linalg Model_Rank Spec_Session.
From Coq Require Import QArith Qcanon.
Open Scope nat_scope.

(** "is_iso" was asked for and answered False, and "iso_value" was never computed *)
Definition stuck (s : st) : Prop := c_bool s KIsIso = Some false /\ c_iso s = None.
(** the calls that ask for is_iso: the Bellman-Ford functions and ego_graph with a distance attribute *)
Inductive asks (G : graph) : forall X : Type, M X -> Prop :=
| A_single_source_bf u : asks G _ (nx_single_source_bf G u)
| A_bf_path_length u v : asks G _ (nx_bf_path_length G u v)
| A_bf_path fuel u v : asks G _ (nx_bf_path fuel G u v)
| A_all_pairs_bf pf isz ch : asks G _ (nx_all_pairs_bf pf isz G ch)
| A_ego_graph orc pick u r c un : asks G _ (nx_ego_graph orc pick G u r c un true).
(** every other public function *)
Inductive silent (G : graph) : forall X : Type, M X -> Prop :=
| S_descendants u : silent G _ (nx_descendants G u)
| S_ancestors u : silent G _ (nx_ancestors G u)
| S_is_connected : silent G _ (nx_is_connected G)
| S_node_connected_component u : silent G _ (nx_node_connected_component G u)
| S_is_weakly_connected : silent G _ (nx_is_weakly_connected G)
| S_single_source_spl u c : silent G _ (nx_single_source_spl G u c)
| S_single_target_spl u c : silent G _ (nx_single_target_spl G u c)
| S_all_pairs_spl pf isz c ch : silent G _ (nx_all_pairs_spl pf isz G c ch)
| S_has_path u v : silent G _ (has_path G u v)
| S_efficiency u v : silent G _ (nx_efficiency G u v)
| S_bfs_layers s : silent G _ (nx_bfs_layers G s)
| S_descendants_at_distance u d : silent G _ (nx_descendants_at_distance G u d)
| S_lca u v d : silent G _ (nx_lowest_common_ancestor G u v d)
| S_triangles a : silent G _ (nx_triangles G a)
| S_clustering mhr cb a w : silent G _ (nx_clustering mhr cb G a w)
| S_transitivity x : silent G _ (nx_transitivity G x)
| S_average_clustering mhr cb a w cz x : silent G _ (nx_average_clustering mhr cb G a w cz x)
| S_square_clustering a si cs : silent G _ (nx_square_clustering G a si cs)
| S_generalized_degree a : silent G _ (nx_generalized_degree G a)
| S_k_truss orc fuel k : silent G _ (nx_k_truss orc fuel G k)
| S_floyd_warshall pk w : silent G _ (nx_floyd_warshall pk G w)
| S_fw_pred_dist pk w : silent G _ (nx_fw_pred_dist pk G w)
| S_fw_numpy pk l w : silent G _ (nx_fw_numpy pk G l w)
| S_ego_graph orc pick u r c un : silent G _ (nx_ego_graph orc pick G u r c un false)
| S_negative_edge_cycle : silent G _ (nx_negative_edge_cycle G)
| S_adjacency l w : silent G _ (nx_adjacency_matrix G l w)
| S_laplacian l w : silent G _ (nx_laplacian_matrix G l w)
| S_normalized_laplacian sq l w : silent G _ (nx_normalized_laplacian sq G l w)
| S_modularity l w : silent G _ (nx_modularity_matrix G l w)
| S_directed_modularity l w : silent G _ (nx_directed_modularity G l w)
| S_bethe_hessian r l : silent G _ (nx_bethe_hessian G r l)
| S_edge_boundary A B d : silent G _ (nx_edge_boundary G A B d)
| S_node_boundary A B : silent G _ (nx_node_boundary G A B)
| S_cut_size A B w : silent G _ (nx_cut_size G A B w)
| S_volume A w : silent G _ (nx_volume G A w)
| S_normalized_cut_size A B w : silent G _ (nx_normalized_cut_size G A B w)
| S_conductance A B w : silent G _ (nx_conductance G A B w)
| S_edge_expansion A B w : silent G _ (nx_edge_expansion G A B w)
| S_mixing_expansion A B w : silent G _ (nx_mixing_expansion G A B w)
| S_node_expansion A : silent G _ (nx_node_expansion G A)
| S_boundary_expansion A : silent G _ (nx_boundary_expansion G A)
| S_is_dominating_set A : silent G _ (nx_is_dominating_set G A)
| S_is_regular : silent G _ (nx_is_regular G)
| S_is_k_regular k : silent G _ (nx_is_k_regular G k)
| S_is_tournament : silent G _ (nx_is_tournament G)
| S_score_sequence : silent G _ (nx_score_sequence G)
| S_tournament_matrix : silent G _ (nx_tournament_matrix G)
| S_is_simple_path l : silent G _ (nx_is_simple_path G l)
| S_reciprocity_node u : silent G _ (nx_reciprocity_node G u)
| S_reciprocity_nodes l : silent G _ (nx_reciprocity_nodes G l)
| S_overall_reciprocity : silent G _ (nx_overall_reciprocity G)
| S_intra p : silent G _ (nx_intra_community_edges G p)
| S_inter p : silent G _ (nx_inter_community_edges G p)
| S_mutual_weight u v : silent G _ (nx_mutual_weight G u v)
| S_in_degree_centrality : silent G _ (nx_in_degree_centrality G)
| S_out_degree_centrality : silent G _ (nx_out_degree_centrality G)
| S_is_triad : silent G _ (nx_is_triad G)
| S_pagerank em al p mi tol ns d : silent G _ (nx_pagerank em G al p mi tol ns d)
| S_google_matrix al p l d : silent G _ (nx_google_matrix G al p l d)
| S_eigenvector sq mi tol ns : silent G _ (nx_eigenvector_centrality sq G mi tol ns)
| S_katz sq fl al b mi tol ns nm : silent G _ (nx_katz_centrality sq fl G al b mi tol ns nm)
| S_hits mi tol ns nm : silent G _ (nx_hits G mi tol ns nm).
(** [later s s']: s' is reached from s by calls of any kind, returning or raising *)
Inductive later (mhr : bool) (G : graph) (s : st) : st -> Prop :=
| L_refl : later mhr G s s
| L_prop s' c : later mhr G s s' -> later mhr G s (run_call mhr G s' c)
| L_call s' X (m : M X) : later mhr G s s' -> public G X m -> later mhr G s (snd (m s'))
| L_td s' X (m : M X) : later mhr G s s' -> public_td G X m -> later mhr G s (snd (m s')).

(** the sessions on a new graph in which nothing asks for is_iso (the calls that run into the defect of C02 where it does no harm) *)
Inductive quiet (mhr : bool) (G : graph) : st -> Prop :=
| Q_new : quiet mhr G st0
| Q_prop s nm mask : quiet mhr G s -> safe_call G s (nm, mask) -> nm <> Nis_iso -> quiet mhr G (run_call mhr G s (nm, mask))
| Q_call s X (m : M X) : quiet mhr G s -> silent G X m -> quiet mhr G (snd (m s))
| Q_td s X (m : M X) : quiet mhr G s -> public_td G X m -> td_safe G s -> quiet mhr G (snd (m s)).
