(** * Sessions: everything a user can call on one graph, in any order *)
From Verif Require Import Base Model_Graph Model_Cache Spec_Cache Spec_Run Model_Keys Model_Utils Model_Bfs Model_Measures Model_Weighted
  Model_Dense Model_Cluster Model_Ego Model_Linalg Model_Rank.
From Coq Require Import QArith Qcanon.
Open Scope nat_scope.

(** the public functions, with arbitrary arguments (and arbitrary answers of the oracles of the models) *)
Inductive public (G : graph) : forall X : Type, M X -> Prop :=
| P_descendants u : public G _ (nx_descendants G u)
| P_ancestors u : public G _ (nx_ancestors G u)
| P_is_connected : public G _ (nx_is_connected G)
| P_node_connected_component u : public G _ (nx_node_connected_component G u)
| P_is_weakly_connected : public G _ (nx_is_weakly_connected G)
| P_single_source_spl u c : public G _ (nx_single_source_spl G u c)
| P_single_target_spl u c : public G _ (nx_single_target_spl G u c)
| P_all_pairs_spl pf isz c ch : public G _ (nx_all_pairs_spl pf isz G c ch)
| P_has_path u v : public G _ (has_path G u v)
| P_efficiency u v : public G _ (nx_efficiency G u v)
| P_bfs_layers s : public G _ (nx_bfs_layers G s)
| P_descendants_at_distance u d : public G _ (nx_descendants_at_distance G u d)
| P_lca u v d : public G _ (nx_lowest_common_ancestor G u v d)
| P_triangles a : public G _ (nx_triangles G a)
| P_clustering mhr cb a w : public G _ (nx_clustering mhr cb G a w)
| P_transitivity x : public G _ (nx_transitivity G x)
| P_average_clustering mhr cb a w cz x : public G _ (nx_average_clustering mhr cb G a w cz x)
| P_square_clustering a si cs : public G _ (nx_square_clustering G a si cs)
| P_generalized_degree a : public G _ (nx_generalized_degree G a)
| P_k_truss orc fuel k : public G _ (nx_k_truss orc fuel G k)
| P_floyd_warshall pk w : public G _ (nx_floyd_warshall pk G w)
| P_fw_pred_dist pk w : public G _ (nx_fw_pred_dist pk G w)
| P_fw_numpy pk l w : public G _ (nx_fw_numpy pk G l w)
| P_ego_graph orc pick u r c un w : public G _ (nx_ego_graph orc pick G u r c un w)
| P_single_source_bf u : public G _ (nx_single_source_bf G u)
| P_bf_path_length u v : public G _ (nx_bf_path_length G u v)
| P_bf_path fuel u v : public G _ (nx_bf_path fuel G u v)
| P_all_pairs_bf pf isz ch : public G _ (nx_all_pairs_bf pf isz G ch)
| P_negative_edge_cycle : public G _ (nx_negative_edge_cycle G)
| P_adjacency l w : public G _ (nx_adjacency_matrix G l w)
| P_laplacian l w : public G _ (nx_laplacian_matrix G l w)
| P_normalized_laplacian sq l w : public G _ (nx_normalized_laplacian sq G l w)
| P_modularity l w : public G _ (nx_modularity_matrix G l w)
| P_directed_modularity l w : public G _ (nx_directed_modularity G l w)
| P_bethe_hessian r l : public G _ (nx_bethe_hessian G r l)
| P_edge_boundary A B d : public G _ (nx_edge_boundary G A B d)
| P_node_boundary A B : public G _ (nx_node_boundary G A B)
| P_cut_size A B w : public G _ (nx_cut_size G A B w)
| P_volume A w : public G _ (nx_volume G A w)
| P_normalized_cut_size A B w : public G _ (nx_normalized_cut_size G A B w)
| P_conductance A B w : public G _ (nx_conductance G A B w)
| P_edge_expansion A B w : public G _ (nx_edge_expansion G A B w)
| P_mixing_expansion A B w : public G _ (nx_mixing_expansion G A B w)
| P_node_expansion A : public G _ (nx_node_expansion G A)
| P_boundary_expansion A : public G _ (nx_boundary_expansion G A)
| P_is_dominating_set A : public G _ (nx_is_dominating_set G A)
| P_is_regular : public G _ (nx_is_regular G)
| P_is_k_regular k : public G _ (nx_is_k_regular G k)
| P_is_tournament : public G _ (nx_is_tournament G)
| P_score_sequence : public G _ (nx_score_sequence G)
| P_tournament_matrix : public G _ (nx_tournament_matrix G)
| P_is_simple_path l : public G _ (nx_is_simple_path G l)
| P_reciprocity_node u : public G _ (nx_reciprocity_node G u)
| P_reciprocity_nodes l : public G _ (nx_reciprocity_nodes G l)
| P_overall_reciprocity : public G _ (nx_overall_reciprocity G)
| P_intra p : public G _ (nx_intra_community_edges G p)
| P_inter p : public G _ (nx_inter_community_edges G p)
| P_mutual_weight u v : public G _ (nx_mutual_weight G u v)
| P_in_degree_centrality : public G _ (nx_in_degree_centrality G)
| P_out_degree_centrality : public G _ (nx_out_degree_centrality G)
| P_is_triad : public G _ (nx_is_triad G)
| P_pagerank em al p mi tol ns d : public G _ (nx_pagerank em G al p mi tol ns d)
| P_google_matrix al p l d : public G _ (nx_google_matrix G al p l d)
| P_eigenvector sq mi tol ns : public G _ (nx_eigenvector_centrality sq G mi tol ns)
| P_katz sq fl al b mi tol ns nm : public G _ (nx_katz_centrality sq fl G al b mi tol ns nm)
| P_hits mi tol ns nm : public G _ (nx_hits G mi tol ns nm).
(** the public functions that ask for "total_degrees+" of a DiGraph *)
Inductive public_td (G : graph) : forall X : Type, M X -> Prop :=
| T_is_isolate u : public_td G _ (nx_is_isolate G u)
| T_isolates : public_td G _ (nx_isolates G)
| T_number_of_isolates : public_td G _ (nx_number_of_isolates G)
| T_degree_centrality : public_td G _ (nx_degree_centrality G)
| T_s_metric : public_td G _ (nx_s_metric G).
(** the cache states that a session of calls can reach: every call, whether it returns or raises.  The calls that run into the
    defects of C02 are allowed where those do no harm. *)
Inductive reached (mhr : bool) (G : graph) : st -> Prop :=
| R_new : reached mhr G st0
| R_prop s c : reached mhr G s -> safe_call G s c -> reached mhr G (run_call mhr G s c)
| R_call s X (m : M X) : reached mhr G s -> public G X m -> reached mhr G (snd (m s))
| R_td s X (m : M X) : reached mhr G s -> public_td G X m -> td_safe G s -> reached mhr G (snd (m s)).
