(** * The public functions as they are called: decorator, conversion of the argument, then the work.
    Each definition gives the decorator, which conversion is used, and which edge attribute the conversion is told to read.
    The second component of the result is the cache of a library graph after the call. *)
From Verif Require Import Base Model_Graph Model_Cache Model_Keys Model_Utils Model_Bfs Model_Weighted Model_Dense Model_Measures Model_Cluster
  Model_Ego Model_Linalg Model_Rank Model_Operators Model_Nx Model_Convert.
From Coq Require Import QArith Qcanon.
Open Scope nat_scope.

(** what a public function does: its outcome and, for a library graph, the cache it leaves (see [call] in Model_Convert) *)
Definition pub (X : Type) : Type := outcome X * option st.
(** utils/decorators.py 6-20: @not_implemented_for("directed"), @not_implemented_for("undirected").  "multigraph" is modelled in Model_Multi. *)
Definition no_directed : option bool := Some true.
(** utils/decorators.py 6-20 *)
Definition no_undirected : option bool := Some false.

Section Public.
(** which new matrices the library flags as iso-valued *)
Variable orc : mat Z -> bool.
(** classes/digraph.py 393-411 *)
Definition any_graph {X} (w : option nkey) (dt : option dtype) (f : graph -> M X) (a : garg) : pub X :=
  call None (fun a => to_graph orc a w dt) f a.
(** @not_implemented_for("undirected") and classes/digraph.py 374-390 *)
Definition a_digraph {X} (w : option nkey) (dt : option dtype) (f : graph -> M X) (a : garg) : pub X :=
  call no_undirected (fun a => to_directed_graph orc a w dt) f a.
(** @not_implemented_for("directed") and classes/graph.py 252-269 *)
Definition an_undirected_graph {X} (w : option nkey) (dt : option dtype) (f : graph -> M X) (a : garg) : pub X :=
  call no_directed (fun a => to_undirected_graph orc a w dt) f a.
(** @not_implemented_for("undirected", "multigraph") of nxapi/reciprocity.py 10, 27: networkx joins the two with "and", and none of the
    graphs here is a multigraph, so every object that has [is_multigraph] passes (utils/decorators.py 6-20: so does a Matrix); then
    classes/digraph.py 374-390 *)
Definition a_digraph_unchecked {X} (w : option nkey) (dt : option dtype) (f : graph -> M X) (a : garg) : pub X :=
  match a with AOther | ANone => (Raise EAttr, None) | _ => call None (fun a => to_directed_graph orc a w dt) f a end.
(** @not_implemented_for("multigraph") alone (nxapi/centrality/eigenvector.py 10, nxapi/centrality/katz.py 10; utils/decorators.py 6-20):
    graphs and Matrices pass, and other objects have no [is_multigraph] *)
Definition not_for_multigraphs {X} (f : garg -> pub X) (a : garg) : pub X :=
  match a with AOther | ANone => (Raise EAttr, None) | _ => f a end.
(** nxapi/cuts.py 17, 25, nxapi/boundary.py 12: [G.is_multigraph()] comes first; a graphblas Matrix has no such method *)
Definition asks_multigraph {X} (f : garg -> pub X) (a : garg) : pub X :=
  match a with AMatrix _ _ | AOther | ANone => (Raise EAttr, None) | _ => f a end.

(** ** nxapi/boundary.py *)
(** nxapi/boundary.py 13-19: False (or None), True, or the name of an attribute *)
Inductive data_arg := DataNo | DataYes | DataAttr (name : nkey).
(** python's [not data] for a name *)
Definition falsy (k : nkey) : bool := match k with KI z => (z =? 0)%Z | KS s => String.eqb s "" end.
(** nxapi/boundary.py 14-19 *)
Definition data_weight (d : data_arg) : option nkey :=
  match d with DataYes => Some (KS "weight") | DataNo => None | DataAttr k => if falsy k then None else Some k end.
(** nxapi/boundary.py 9-45: edges come as pairs or, with data, as triples whose third component is the dict {name: value};
    [keys] and [default] are ignored *)
Definition p_edge_boundary (S : list nkey) (T : option (list nkey)) (data : data_arg) (a : garg) : pub (list (nkey * nkey * option (nkey * Z))) :=
  asks_multigraph (any_graph (data_weight data) None (fun G =>
    l <- nx_edge_boundary G S T (has (data_weight data)) ;;
    ret (map (fun e => match e with (u, v, x) =>
               (u, v, match data_weight data, x with Some k, Some z => Some (k, z) | _, _ => None end) end) l))) a.
(** nxapi/boundary.py 48-56 *)
Definition p_node_boundary S T : garg -> pub nodeset := any_graph None None (fun G => nx_node_boundary G S T).

(** ** nxapi/cuts.py *)
(** nxapi/cuts.py 16-21 *)
Definition p_cut_size S T (weight : option nkey) : garg -> pub Z :=
  asks_multigraph (any_graph weight None (fun G => nx_cut_size G S T (has weight))).
(** nxapi/cuts.py 24-28 *)
Definition p_volume S (weight : option nkey) : garg -> pub Z :=
  asks_multigraph (any_graph weight None (fun G => nx_volume G S (has weight))).
(** nxapi/cuts.py 31-38 *)
Definition p_normalized_cut_size S T (weight : option nkey) : garg -> pub Q :=
  any_graph weight None (fun G => nx_normalized_cut_size G S T (has weight)).
(** nxapi/cuts.py 41-48 *)
Definition p_conductance S T (weight : option nkey) : garg -> pub Q := any_graph weight None (fun G => nx_conductance G S T (has weight)).
(** nxapi/cuts.py 51-55 *)
Definition p_edge_expansion S T (weight : option nkey) : garg -> pub Q := any_graph weight None (fun G => nx_edge_expansion G S T (has weight)).
(** nxapi/cuts.py 58-62 *)
Definition p_mixing_expansion S T (weight : option nkey) : garg -> pub Q := any_graph weight None (fun G => nx_mixing_expansion G S T (has weight)).
(** nxapi/cuts.py 65-68 *)
Definition p_node_expansion S : garg -> pub Q := any_graph None None (fun G => nx_node_expansion G S).
(** nxapi/cuts.py 71-74 *)
Definition p_boundary_expansion S : garg -> pub Q := any_graph None None (fun G => nx_boundary_expansion G S).

(** ** nxapi/dominating.py, isolate.py, regular.py, tournament.py, triads.py, simple_paths.py *)
(** nxapi/dominating.py 7-10 *)
Definition p_is_dominating_set S : garg -> pub bool := any_graph None None (fun G => nx_is_dominating_set G S).
(** nxapi/isolate.py 7-9 *)
Definition p_is_isolate n : garg -> pub bool := any_graph None None (fun G => nx_is_isolate G n).
(** nxapi/isolate.py 12-15 *)
Definition p_isolates : garg -> pub nodeset := any_graph None None nx_isolates.
(** nxapi/isolate.py 18-20 *)
Definition p_number_of_isolates : garg -> pub nat := any_graph None None nx_number_of_isolates.
(** nxapi/regular.py 9-11 *)
Definition p_is_regular : garg -> pub bool := any_graph None None nx_is_regular.
(** nxapi/regular.py 14-17 *)
Definition p_is_k_regular (k : Z) : garg -> pub bool := an_undirected_graph None None (fun G => nx_is_k_regular G k).
(** nxapi/tournament.py 10-14 *)
Definition p_is_tournament : garg -> pub bool := a_digraph None None nx_is_tournament.
(** nxapi/tournament.py 17-22 *)
Definition p_score_sequence : garg -> pub (list Z) := a_digraph None None nx_score_sequence.
(** nxapi/tournament.py 25-30 *)
Definition p_tournament_matrix : garg -> pub (mat Z) := a_digraph None None nx_tournament_matrix.
(** nxapi/triads.py 7-9 *)
Definition p_is_triad : garg -> pub bool := any_graph None None nx_is_triad.
(** nxapi/simple_paths.py 7-9 *)
Definition p_is_simple_path nodes : garg -> pub bool := any_graph None None (fun G => nx_is_simple_path G nodes).

(** ** nxapi/reciprocity.py, smetric.py, structuralholes.py, community/quality.py, centrality/degree_alg.py *)
(** nxapi/reciprocity.py 10-13, 27-33 *)
Definition p_overall_reciprocity : garg -> pub Q := a_digraph_unchecked None (Some DBool) nx_overall_reciprocity.
(** nxapi/reciprocity.py 10-21, for a node *)
Definition p_reciprocity_node u : garg -> pub Q := a_digraph_unchecked None (Some DBool) (fun G => nx_reciprocity_node G u).
(** nxapi/reciprocity.py 10-24, for a list *)
Definition p_reciprocity_nodes l : garg -> pub (nodemap Q) := a_digraph_unchecked None (Some DBool) (fun G => nx_reciprocity_nodes G l).
(** nxapi/smetric.py 9-22, without keyword arguments *)
Definition p_s_metric : garg -> pub Q := any_graph None None nx_s_metric.
(** nxapi/structuralholes.py 7-9 *)
Definition p_mutual_weight u v (weight : option nkey) : garg -> pub Z := any_graph weight None (fun G => nx_mutual_weight G u v).
(** nxapi/community/quality.py 7-10 *)
Definition p_intra_community_edges p : garg -> pub Z := any_graph None None (fun G => nx_intra_community_edges G p).
(** nxapi/community/quality.py 13-16 *)
Definition p_inter_community_edges p : garg -> pub Z := any_graph None None (fun G => nx_inter_community_edges G p).
(** nxapi/centrality/degree_alg.py 8-11 *)
Definition p_degree_centrality : garg -> pub (nodemap Q) := any_graph None None nx_degree_centrality.
(** nxapi/centrality/degree_alg.py 14-18 *)
Definition p_in_degree_centrality : garg -> pub (nodemap Q) := a_digraph None None nx_in_degree_centrality.
(** nxapi/centrality/degree_alg.py 21-25 *)
Definition p_out_degree_centrality : garg -> pub (nodemap Q) := a_digraph None None nx_out_degree_centrality.

(** ** nxapi/dag.py, components, traversal, efficiency_measures.py, lowest_common_ancestors.py *)
(** nxapi/dag.py 9-16 *)
Definition p_descendants u : garg -> pub nodeset := any_graph None None (fun G => nx_descendants G u).
(** nxapi/dag.py 19-26 *)
Definition p_ancestors u : garg -> pub nodeset := any_graph None None (fun G => nx_ancestors G u).
(** nxapi/components/connected.py 14-20 *)
Definition p_is_connected : garg -> pub bool := an_undirected_graph None None nx_is_connected.
(** nxapi/components/connected.py 23-27 *)
Definition p_node_connected_component u : garg -> pub nodeset := an_undirected_graph None None (fun G => nx_node_connected_component G u).
(** nxapi/components/weakly_connected.py 13-19 *)
Definition p_is_weakly_connected : garg -> pub bool := a_digraph None None nx_is_weakly_connected.
(** nxapi/traversal/breadth_first_search.py 12-18 *)
Definition p_bfs_layers srcs : garg -> pub (list (list nkey)) := any_graph None None (fun G => nx_bfs_layers G srcs).
(** nxapi/traversal/breadth_first_search.py 21-27 *)
Definition p_descendants_at_distance u d : garg -> pub nodeset := any_graph None None (fun G => nx_descendants_at_distance G u d).
(** nxapi/efficiency_measures.py 6-9 *)
Definition p_efficiency u v : garg -> pub Q := an_undirected_graph None None (fun G => nx_efficiency G u v).
(** nxapi/lowest_common_ancestors.py 8-11 *)
Definition p_lowest_common_ancestor u v default : garg -> pub (option nkey) := a_digraph None None (fun G => nx_lowest_common_ancestor G u v default).

(** ** nxapi/shortest_paths *)
(** nxapi/shortest_paths/generic.py 9-14 *)
Definition p_has_path u v : garg -> pub bool := any_graph None None (fun G => has_path G u v).
(** nxapi/shortest_paths/unweighted.py 14-19 *)
Definition p_single_source_spl u cutoff : garg -> pub (nodemap Z) := any_graph None None (fun G => nx_single_source_spl G u cutoff).
(** nxapi/shortest_paths/unweighted.py 22-27 *)
Definition p_single_target_spl u cutoff : garg -> pub (nodemap Z) := any_graph None None (fun G => nx_single_target_spl G u cutoff).
(** nxapi/shortest_paths/unweighted.py 30-45 *)
Definition p_all_pairs_spl pyfloat isz cutoff chunk : garg -> pub (list (nkey * nodemap Z)) :=
  any_graph None None (fun G => nx_all_pairs_spl pyfloat isz G cutoff chunk).
(** nxapi/shortest_paths/weighted.py 16-45 *)
Definition p_all_pairs_bf pyfloat isz chunk (weight : option nkey) : garg -> pub (list (nkey * nodemap Z)) :=
  any_graph weight None (fun G => nx_all_pairs_bf pyfloat isz G chunk).
(** nxapi/shortest_paths/weighted.py 48-57 *)
Definition p_single_source_bf u (weight : option nkey) : garg -> pub (nodemap Z) := any_graph weight None (fun G => nx_single_source_bf G u).
(** nxapi/shortest_paths/weighted.py 60-66 *)
Definition p_bf_path fuel u v (weight : option nkey) : garg -> pub (option (list nkey)) := any_graph weight None (fun G => nx_bf_path fuel G u v).
(** nxapi/shortest_paths/weighted.py 69-76 *)
Definition p_bf_path_length u v (weight : option nkey) : garg -> pub Z := any_graph weight None (fun G => nx_bf_path_length G u v).
(** nxapi/shortest_paths/weighted.py 79-83 *)
Definition p_negative_edge_cycle (weight : option nkey) : garg -> pub bool := any_graph weight None nx_negative_edge_cycle.
(** nxapi/shortest_paths/dense.py 9-12 *)
Definition p_floyd_warshall pk (weight : option nkey) : garg -> pub (rowmap Z) := any_graph weight None (fun G => nx_floyd_warshall pk G (has weight)).
(** nxapi/shortest_paths/dense.py 15-21 *)
Definition p_fw_pred_dist pk (weight : option nkey) : garg -> pub (rowmap nat * rowmap zinf) :=
  any_graph weight None (fun G => nx_fw_pred_dist pk G (has weight)).
(** nxapi/shortest_paths/dense.py 24-37 *)
Definition p_fw_numpy pk nodelist (weight : option nkey) : garg -> pub (mat Z) := any_graph weight None (fun G => nx_fw_numpy pk G nodelist (has weight)).

(** ** nxapi/cluster.py, core.py, generators/ego.py *)
(** nxapi/cluster.py 20-29 *)
Definition p_triangles nodes : garg -> pub (cres Z (nodemap Z)) := an_undirected_graph None (Some DBool) (fun G => nx_triangles G nodes).
(** nxapi/cluster.py 32-40; [x] is what earlier calls stored for a library graph, [x0] otherwise *)
Definition p_transitivity (x : xcache) : garg -> pub (Qc * xcache) :=
  any_graph None (Some DBool) (fun G => nx_transitivity G x).
(** nxapi/cluster.py 43-57 *)
Definition p_clustering mhr cbrt nodes (weight : option nkey) : garg -> pub (cres Qc (nodemap Qc)) :=
  any_graph weight None (fun G => nx_clustering mhr cbrt G nodes (has weight)).
(** nxapi/cluster.py 60-79 *)
Definition p_average_clustering mhr cbrt nodes (weight : option nkey) count_zeros (x : xcache) : garg -> pub (Qc * xcache) :=
  any_graph weight None (fun G => nx_average_clustering mhr cbrt G nodes (has weight) count_zeros x).
(** nxapi/cluster.py 95-121; no decorator *)
Definition p_square_clustering nodes si cs (a : garg) : pub (cres Qc (option (nodemap Qc))) :=
  call None (fun a => to_undirected_graph orc a None None) (fun G => nx_square_clustering G nodes si cs) a.
(** nxapi/cluster.py 124-134 *)
Definition p_generalized_degree nodes : garg -> pub (cres (nodemap Z) (rowmap Z)) :=
  an_undirected_graph None None (fun G => nx_generalized_degree G nodes).
(** nxapi/core.py 8-13 *)
Definition p_k_truss fuel k : garg -> pub (option graph) := an_undirected_graph None (Some DBool) (fun G => nx_k_truss orc fuel G k).
(** nxapi/generators/ego.py 7-11 *)
Definition p_ego_graph pick u radius center undirected (distance : option nkey) : garg -> pub graph :=
  any_graph distance None (fun G => nx_ego_graph orc pick G u radius center undirected (has distance)).

(** ** nxapi/linalg *)
(** nxapi/linalg/graphmatrix.py 7-9, dtype=None *)
Definition p_adjacency_matrix nodelist (weight : option nkey) : garg -> pub (mat Z) :=
  any_graph weight None (fun G => nx_adjacency_matrix G nodelist (has weight)).
(** nxapi/linalg/laplacianmatrix.py 7-9 *)
Definition p_laplacian_matrix nodelist (weight : option nkey) : garg -> pub (mat Z) :=
  any_graph weight None (fun G => nx_laplacian_matrix G nodelist (has weight)).
(** nxapi/linalg/laplacianmatrix.py 12-14 *)
Definition p_normalized_laplacian_matrix sqr nodelist (weight : option nkey) : garg -> pub (mat Qc) :=
  any_graph weight None (fun G => nx_normalized_laplacian sqr G nodelist (has weight)).
(** nxapi/linalg/bethehessianmatrix.py 8-12 *)
Definition p_bethe_hessian_matrix r nodelist : garg -> pub (mat Qc) := an_undirected_graph None None (fun G => nx_bethe_hessian G r nodelist).
(** nxapi/linalg/modularitymatrix.py 9-13 *)
Definition p_modularity_matrix nodelist (weight : option nkey) : garg -> pub (mat Qc) :=
  an_undirected_graph weight None (fun G => nx_modularity_matrix G nodelist (has weight)).
(** nxapi/linalg/modularitymatrix.py 16-20 *)
Definition p_directed_modularity_matrix nodelist (weight : option nkey) : garg -> pub (mat Qc) :=
  a_digraph weight None (fun G => nx_directed_modularity G nodelist (has weight)).

(** ** nxapi/link_analysis, centrality *)
(** nxapi/link_analysis/hits_alg.py 9-22 *)
Definition p_hits max_iter tol nstart normalized : garg -> pub (option (nodemap Qc * nodemap Qc)) :=
  any_graph (Some (KS "weight")) (Some DFloat) (fun G => nx_hits G max_iter tol nstart normalized).
(** nxapi/link_analysis/pagerank_alg.py 9-45 *)
Definition p_pagerank em alpha pers max_iter tol nstart (weight : option nkey) dangling : garg -> pub (option (nodemap Qc)) :=
  any_graph weight (Some DFloat) (fun G => nx_pagerank em G alpha pers max_iter tol nstart dangling).
(** nxapi/link_analysis/pagerank_alg.py 48-63 *)
Definition p_google_matrix alpha pers nodelist (weight : option nkey) dangling : garg -> pub (mat Qc) :=
  any_graph weight (Some DFloat) (fun G => nx_google_matrix G alpha pers nodelist dangling).
(** nxapi/centrality/eigenvector.py 10-22 *)
Definition p_eigenvector_centrality sqr max_iter tol nstart (weight : option nkey) : garg -> pub (nodemap Qc) :=
  not_for_multigraphs (any_graph weight (Some DFloat) (fun G => nx_eigenvector_centrality sqr G max_iter tol nstart)).
(** nxapi/centrality/katz.py 10-40 *)
Definition p_katz_centrality sqr fl alpha beta max_iter tol nstart normalized (weight : option nkey) : garg -> pub (option (nodemap Qc)) :=
  not_for_multigraphs (any_graph weight (Some DFloat) (fun G => nx_katz_centrality sqr fl G alpha beta max_iter tol nstart normalized)).
End Public.
