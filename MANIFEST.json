{
 "claims": [
  {
   "property": "C01",
   "status": "partial",
   "theorems": [
    "C01_undirected_partial",
    "C01_undirected_values_partial",
    "C01_meaning_partial",
    "C01_C02_meaning_partial",
    "meaning_of_names",
    "C01_count_element_refuted",
    "C01_element_raises_refuted",
    "meaning_row_degrees",
    "meaning_min_element",
    "meaning_has_self_edges"
   ],
   "note": "Proved for every name listed, after every history whatsoever if the graph has a self-edge and every history without has_negative_diagonal otherwise. The full statement is false of the code for count_element+/- (counts non-empty rows once degrees are cached) and <op>_element- (AttributeError with self-edges once L-/U- are cached); both refuted with concrete histories."
  },
  {
   "property": "C02",
   "status": "partial",
   "theorems": [
    "C02_directed_partial",
    "C02_directed_values_partial",
    "C02_meaning_partial",
    "C01_C02_meaning_partial",
    "meaning_of_names",
    "C02_total_degrees_plus_partial",
    "C02_has_self_edges_refuted",
    "C02_asked_first"
   ],
   "note": "Proved for every history without total_degrees+ if the graph has a self-edge, and every history without has_negative_diagonal if it has none; the full statement is false: total_degrees+ cached first makes has_self_edges answer False (digraph.py 367-368). C02_asked_first: once has_self_edges was asked (before any of the traps was called), every listed name and total_degrees+ is right after whatever is called later, in any graph."
  },
  {
   "property": "C03",
   "status": "proved",
   "theorems": [
    "C03_mask_is_restriction"
   ],
   "note": "histories that trigger none of the defects of C02/C05"
  },
  {
   "property": "C04",
   "status": "partial",
   "theorems": [
    "C04_get_properties_partial",
    "C04_sequence",
    "C04_refuted"
   ],
   "note": "C04_sequence holds for every graph, every state and every list of names: get_properties is a run of get_property over the requested names in some order, returning in the order requested what those calls return, or raising their first exception. The answers are those of get_property on its own for all names except has_negative_diagonal, total_degrees+, count_element+/- and names that raise; for count_element+ and <op>_element- they are not (C04_refuted), because those answers depend on what is cached (C01)"
  },
  {
   "property": "C05",
   "status": "partial",
   "theorems": [
    "C05_negative_edges_partial",
    "C05_negative_diagonal_partial",
    "C05_negative_diagonal_never_missed",
    "C05_fresh_graph",
    "C05_asked_first",
    "C05_negative_diagonal_refuted"
   ],
   "note": "has_negative_diagonal is wrong after has_negative_edges+ was cached True (graph.py); proved correct from every state in which the shortcut is sound, including a fresh graph; the answer False is always right."
  },
  {
   "property": "C06",
   "status": "partial",
   "theorems": [
    "C06_iso_values_partial",
    "C06_iso_value_first",
    "C06_iso_value_raises_refuted"
   ],
   "note": "iso_value raises KeyError after is_iso was cached False."
  },
  {
   "property": "C66",
   "status": "partial",
   "theorems": [
    "C66_split_evenly_concat",
    "C66_split_evenly_even",
    "C66_split_evenly_count",
    "C66_pairwise",
    "C66_partition",
    "C66_partition_sizes",
    "C66_partition_unit_refuted"
   ],
   "note": "Proved for every list and every chunk size other than 1; with chunksize 1 partition yields the bare elements instead of one-element chunks (refuted)."
  },
  {
   "property": "C67",
   "status": "partial",
   "theorems": [
    "C67_usable",
    "C67_monotone",
    "C67_failures",
    "C67_number",
    "C67_string",
    "C67_no_digit",
    "C67_spelling",
    "C67_case",
    "C67_zero_itemsize_refuted"
   ],
   "note": "Floats are exact rationals and python's float() is an oracle. A byte size with itemsize 0 raises ZeroDivisionError (refuted): the default of all_pairs_shortest_path_length on an empty graph."
  },
  {
   "property": "C07",
   "status": "proved",
   "theorems": [
    "C07_descendants",
    "C07_ancestors",
    "C07_node_connected_component",
    "C07_node_connected_component_directed"
   ],
   "note": ""
  },
  {
   "property": "C08",
   "status": "proved",
   "theorems": [
    "C08_single_source",
    "C08_single_target"
   ],
   "note": ""
  },
  {
   "property": "C09",
   "status": "partial",
   "theorems": [
    "C09_all_pairs_partial",
    "C09_nodes",
    "C09_nodes_expand",
    "C09_order_refuted",
    "C09_expand_refuted"
   ],
   "note": "Every row is the single-source result whatever the chunking, and with ids in insertion order (every graph converted from networkx) the rows come in node order. Without that the order depends on the chunk size (refuted); expand_output is ignored when as many nodes are requested as there are (refuted); the default chunk size on an empty graph raises ZeroDivisionError (C67_zero_itemsize_refuted)."
  },
  {
   "property": "C10",
   "status": "proved",
   "theorems": [
    "C10_bidirectional_length",
    "C10_has_path",
    "C10_efficiency",
    "C10_efficiency_directed"
   ],
   "note": "efficiency(u,u) raises ZeroDivisionError, as the theorem says (networkx does the same)"
  },
  {
   "property": "C11",
   "status": "proved",
   "theorems": [
    "C11_is_connected",
    "C11_is_weakly_connected",
    "C11_refused"
   ],
   "note": ""
  },
  {
   "property": "C12",
   "status": "partial",
   "theorems": [
    "C12_bfs_layers",
    "C12_descendants_at_distance",
    "C12_negative",
    "C12_negative_refuted"
   ],
   "note": "bfs_layers, and descendants_at_distance for distances >= 0; a negative distance is taken as 0 and the source itself is returned (refuted; C12_negative gives the answer)"
  },
  {
   "property": "C13",
   "status": "proved",
   "theorems": [
    "C13_lowest_common_ancestor",
    "C13_exact",
    "C13_lowest_common_ancestor_undirected"
   ],
   "note": ""
  },
  {
   "property": "C26",
   "status": "proved",
   "theorems": [
    "C26_union",
    "C26_union_plain",
    "C26_union_mixed",
    "C26_rename_collision_refuted",
    "rn_ok_int",
    "rn_ok_str"
   ],
   "note": "nodes and edges for every pair of graphs (C26_union_mixed), a well-formed result unless G is undirected and H directed (that case is refuted in C86); a renaming that keeps the nodes of each graph distinct (always the case for all-int or all-string nodes). If renaming makes nodes collide (1 and \"1\") the result is malformed (C26_rename_collision_refuted)."
  },
  {
   "property": "C27",
   "status": "proved",
   "theorems": [
    "C27_disjoint_union",
    "C27_disjoint_union_mixed"
   ],
   "note": "nodes and edges for every pair of graphs (_mixed), a well-formed result unless G is undirected and H directed (that case is refuted in C86)"
  },
  {
   "property": "C28",
   "status": "proved",
   "theorems": [
    "C28_intersection",
    "C28_intersection_mixed"
   ],
   "note": "nodes and edges for every pair of graphs (_mixed), a well-formed result unless G is undirected and H directed (that case is refuted in C86)"
  },
  {
   "property": "C29",
   "status": "proved",
   "theorems": [
    "C29_difference",
    "C29_difference_mixed"
   ],
   "note": "nodes and edges for every pair of graphs (_mixed), a well-formed result unless G is undirected and H directed (that case is refuted in C86)"
  },
  {
   "property": "C30",
   "status": "proved",
   "theorems": [
    "C30_symmetric_difference",
    "C30_symmetric_difference_mixed"
   ],
   "note": "nodes and edges for every pair of graphs (_mixed), a well-formed result unless G is undirected and H directed (that case is refuted in C86)"
  },
  {
   "property": "C31",
   "status": "partial",
   "theorems": [
    "C31_compose_partial",
    "C31_compose_mixed_partial",
    "C31_compose_refuted",
    "C31_compose_exact",
    "C31_compose_broken"
   ],
   "note": "proved for equal and for disjoint node sets; for partially overlapping node sets the code loses edges and numbers nodes out of range (refuted); C31_compose_exact gives the result for any overlap in which the nodes G lacks come first in the numbering of H (so also when all nodes of H are in G): edges of G among common nodes and edges of H between a common and a new node are lost; in every other case the result is broken, with a node whose number is beyond its matrix (C31_compose_broken)"
  },
  {
   "property": "C32",
   "status": "proved",
   "theorems": [
    "C32_full_join",
    "C32_full_join_mixed"
   ],
   "note": "nodes and edges for every pair of graphs (_mixed), a well-formed result unless G is undirected and H directed (that case is refuted in C86)"
  },
  {
   "property": "C33",
   "status": "proved",
   "theorems": [
    "C33_complement",
    "C33_complement_edges"
   ],
   "note": ""
  },
  {
   "property": "C34",
   "status": "proved",
   "theorems": [
    "C34_reverse"
   ],
   "note": "copy=True"
  },
  {
   "property": "C35",
   "status": "proved",
   "theorems": [
    "C35_to_undirected",
    "C35_to_undirected_wf",
    "C35_weights_refuted"
   ],
   "note": "structure, as stated; the weights of reciprocated edges may differ in the two directions (C35_weights_refuted) because binary.any may take either operand"
  },
  {
   "property": "C36",
   "status": "partial",
   "theorems": [
    "C36_edge_boundary",
    "C36_default_refuted",
    "C36_exact"
   ],
   "note": "every explicit T, and T omitted when the graph is undirected or every node outside S has a successor; for a directed graph with T omitted the code misses boundary edges into nodes without successors (refuted); C36_exact gives the result for all graphs and arguments"
  },
  {
   "property": "C37",
   "status": "proved",
   "theorems": [
    "C37_node_boundary"
   ],
   "note": ""
  },
  {
   "property": "C38",
   "status": "partial",
   "theorems": [
    "C38_cut_size",
    "C38_cut_undirected",
    "C38_default_refuted",
    "C38_default_exact"
   ],
   "note": "explicit T (directed or not) and T omitted on undirected graphs; directed with T omitted raises TypeError (refuted); directed with T omitted always raises TypeError"
  },
  {
   "property": "C39",
   "status": "partial",
   "theorems": [
    "C39_volume",
    "C39_volume_weighted_partial",
    "C39_weighted_refuted"
   ],
   "note": "unweighted volume always; the weighted volume sums the weights of edges INTO S (columns), equal to the claim for undirected graphs; refuted for directed graphs in general"
  },
  {
   "property": "C40",
   "status": "partial",
   "theorems": [
    "C40_normalized_cut_size",
    "C40_conductance",
    "C40_weight_refuted"
   ],
   "note": "unweighted; the weight argument is ignored (refuted)"
  },
  {
   "property": "C41",
   "status": "partial",
   "theorems": [
    "C41_edge_expansion",
    "C41_mixing_expansion",
    "C41_mixing_expansion_partial",
    "C41_weight_refuted",
    "C41_mixing_refuted",
    "C41_default_exact"
   ],
   "note": "unweighted; mixing_expansion is cut/(stored entries), i.e. the claim for loop-free undirected graphs only (refuted for directed graphs and self-loops); the weight argument is ignored (refuted)"
  },
  {
   "property": "C42",
   "status": "proved",
   "theorems": [
    "C42_node_expansion",
    "C42_boundary_expansion"
   ],
   "note": ""
  },
  {
   "property": "C43",
   "status": "proved",
   "theorems": [
    "C43_is_dominating_set"
   ],
   "note": ""
  },
  {
   "property": "C44",
   "status": "proved",
   "theorems": [
    "C44_isolates",
    "C44_is_isolate",
    "C44_number_of_isolates"
   ],
   "note": "in every cache state in which unmasked values are right, including after total_degrees+"
  },
  {
   "property": "C45",
   "status": "partial",
   "theorems": [
    "C45_is_regular_partial",
    "C45_is_regular",
    "C45_is_k_regular",
    "C45_edgeless_refuted",
    "C45_loop_refuted",
    "C45_is_k_regular_exact"
   ],
   "note": "loop-free graphs with at least one edge (is_k_regular also for k > 0); without edges the answer is always False, and an undirected self-loop counts once (both refuted); C45_is_regular_partial and C45_is_k_regular_exact give the answers for all graphs"
  },
  {
   "property": "C46",
   "status": "proved",
   "theorems": [
    "C46_is_tournament"
   ],
   "note": ""
  },
  {
   "property": "C47",
   "status": "proved",
   "theorems": [
    "C47_score_sequence"
   ],
   "note": ""
  },
  {
   "property": "C48",
   "status": "proved",
   "theorems": [
    "C48_is_simple_path"
   ],
   "note": ""
  },
  {
   "property": "C49",
   "status": "proved",
   "theorems": [
    "C49_reciprocity_node",
    "C49_reciprocity_nodes",
    "C49_overall_reciprocity"
   ],
   "note": ""
  },
  {
   "property": "C50",
   "status": "partial",
   "theorems": [
    "C50_s_metric",
    "C50_refuted",
    "C50_s_metric_exact",
    "C50_s_metric_directed",
    "C50_keywords"
   ],
   "note": "undirected loop-free graphs; directed graphs get half the sum and self-loops are undercounted (refuted); exact value for all graphs"
  },
  {
   "property": "C51",
   "status": "partial",
   "theorems": [
    "C51_intra_community_edges",
    "C51_inter_community_edges",
    "C51_together",
    "C51_undirected_partial",
    "C51_undirected_refuted",
    "C51_exact"
   ],
   "note": "directed graphs; for undirected graphs every stored entry is counted, i.e. every non-loop edge twice (refuted, with the exact count proved); exact values for all graphs"
  },
  {
   "property": "C52",
   "status": "proved",
   "theorems": [
    "C52_mutual_weight",
    "C52_symmetric"
   ],
   "note": ""
  },
  {
   "property": "C53",
   "status": "partial",
   "theorems": [
    "C53_degree_centrality",
    "C53_in_degree_centrality",
    "C53_out_degree_centrality",
    "C53_loop_refuted",
    "C53_degree_centrality_exact",
    "C53_degree_centrality_undirected"
   ],
   "note": "directed graphs and loop-free undirected ones; an undirected self-loop counts once (refuted); exact value for all graphs"
  },
  {
   "property": "C54",
   "status": "partial",
   "theorems": [
    "C54_faster_could_be_isomorphic",
    "C54_faster_exact",
    "C54_fast_could_be_isomorphic",
    "C54_fast_isomorphic",
    "C54_fast_exact",
    "C54_fast_directed_exact",
    "C54_fast_directed_refuted"
   ],
   "note": "faster_could_be_isomorphic: all graphs, exactly the comparison of degree multisets; fast_could_be_isomorphic: undirected graphs, exactly the comparison of (degree, triangles) multisets; C54_fast_exact gives the answer for every two graphs, directed, undirected or mixed; for DiGraphs the triangle counts depend on the numbering and isomorphic graphs can be rejected (refuted)"
  },
  {
   "property": "C60",
   "status": "partial",
   "theorems": [
    "C60_nodemap",
    "C60_every_history",
    "C60_nodemap_fill",
    "C60_values_are_keys",
    "C60_values_are_keys_every_history",
    "C60_setdefault_keys",
    "C60_foreign_key",
    "C60_returned_maps",
    "C60_del_fill_refuted",
    "C60_in_foreign_refuted",
    "C60_del_absent_refuted",
    "C60_setdefault_keys_refuted"
   ],
   "note": "C60_every_history says what a NodeMap does in every history, whatever the keys and with or without fill value; it is a dict for every history of operations on nodes; with a fill value for histories that remove no key (del leaves the key, refuted); values_are_keys without setdefault (refuted); deleting an absent key is silent and asking for a non-node raises KeyError (refuted)"
  },
  {
   "property": "C61",
   "status": "partial",
   "theorems": [
    "C61_nodeset",
    "C61_every_history",
    "C61_eq",
    "C61_isdisjoin",
    "C61_returned_sets",
    "C61_in_foreign_refuted",
    "C61_eq_numbering_refuted"
   ],
   "note": "C61_every_history: every history, whatever is asked for; a set for every history of operations on nodes; asking for a non-node raises KeyError and equal sets under different numberings compare unequal (refuted)"
  },
  {
   "property": "C62",
   "status": "partial",
   "theorems": [
    "C62_vectormap",
    "C62_vectormap_every_history",
    "C62_vectornodemap_every_history",
    "C62_nodenodemap_every_history",
    "C62_vectornodemap",
    "C62_nodenodemap",
    "C62_nodenodemap_fill",
    "C62_fill_refuted",
    "C62_returned_maps",
    "C62_vectormap_getitem_refuted",
    "C62_nnm_get_refuted",
    "C62_nnm_setitem_dict_refuted",
    "C62_nnm_foreign_row_refuted",
    "C62_row_write_refuted"
   ],
   "note": "the _every_history theorems put no condition on the keys; exceptions refuted: VectorMap[k] is None for an absent k, NodeNodeMap.get returns None, a NodeNodeMap with a fill value keeps deleted keys and its popitem and clear are not those of a dict, rows assigned from dicts or foreign NodeMaps are taken by position, rows are snapshots"
  },
  {
   "property": "C63",
   "status": "partial",
   "theorems": [
    "C63_list_ids",
    "C63_ids_list",
    "C63_list_to_ids_domain",
    "C63_list_to_vector_domain",
    "C63_set_to_vector_domain",
    "C63_dict_to_vector_domain",
    "C63_set_vector",
    "C63_set_vector_ignore_extra",
    "C63_vector_set",
    "C63_list_vector",
    "C63_dict_vector",
    "C63_vector_dict",
    "C63_vector_dict_fill",
    "C63_vector_dict_mask",
    "C63_mask_refuted",
    "C63_renumber",
    "C63_empty_dict_refuted"
   ],
   "note": "all numberings; the empty dict is refused by dict_to_vector (refuted); vector_to_dict with mask and fill value needs a vector without entries outside the mask (otherwise refuted)"
  },
  {
   "property": "C64",
   "status": "proved",
   "theorems": [
    "C64_from_networkx",
    "C64_to_networkx",
    "C64_round_trip",
    "C64_identity"
   ],
   "note": "simple graphs with integer attributes; Graph and DiGraph"
  },
  {
   "property": "C65",
   "status": "partial",
   "theorems": [
    "C65_matrix_to_dicts",
    "C65_matrix_to_dicts_keys",
    "C65_transposed",
    "C65_transposed_flags_refuted"
   ],
   "note": "all matrices and labellings; for a TransposedMatrix the row and column labellings are exchanged when only one flag is set (refuted)"
  },
  {
   "property": "C68",
   "status": "proved",
   "theorems": [
    "C68_convert",
    "C68_refuses"
   ],
   "note": "Graph and DiGraph (multigraphs: C94); graph attributes not modelled"
  },
  {
   "property": "C14",
   "status": "partial",
   "theorems": [
    "C14_single_source",
    "C14_all_pairs",
    "C14_nodes",
    "C14_iso_empty_refuted"
   ],
   "note": "single source and all pairs (every chunk size); an iso-flagged graph without any edge makes the call fail (C14_iso_empty_refuted) and is excluded; in every consistent cache state, also where has_negative_diagonal was answered wrongly (C05)"
  },
  {
   "property": "C15",
   "status": "partial",
   "theorems": [
    "C15_path_length_partial",
    "C15_exact",
    "C15_loops",
    "C15_unbounded_refuted",
    "C15_self_loop_refuted"
   ],
   "note": "C15_exact gives the answer for every graph with a negative edge between two nodes, C15_loops for every other graph; the value is a walk's weight and the minimum when no negative cycle is reachable, NoPath iff unreachable, Unbounded only with a reachable negative cycle; the converse (Unbounded whenever a negative cycle is reachable) is refuted twice"
  },
  {
   "property": "C16",
   "status": "partial",
   "theorems": [
    "C16_path_partial",
    "C16_returned",
    "C16_every_history",
    "C16_iso_exact",
    "C16_iso_refuted",
    "C16_self_loop_refuted",
    "C16_diverges_refuted",
    "C16_unpack_refuted",
    "C16_history_refuted"
   ],
   "note": "C16_returned: in every consistent state, if no negative cycle is reachable from the source, whatever is returned is right, and it fails only on graphs that are iso-valued with a negative weight (always: C16_iso_exact) or have both a self-loop and a negative edge; C16_every_history: the claim for graphs without self-loops or without negative edges; C16_path_partial: the claim when moreover no self-loop in the graph is negative and the graph is not iso-valued with a negative weight (both refuted); the loop over parents diverges on a graph with a negative cycle (C16_diverges_refuted), and with a reachable negative self-loop a ValueError comes out instead of Unbounded (C16_unpack_refuted); after has_negative_edges+ a positive self-loop on the path makes it raise (C16_history_refuted)"
  },
  {
   "property": "C17",
   "status": "partial",
   "theorems": [
    "C17_negative_edge_cycle_partial",
    "C17_never_missed",
    "C17_every_history",
    "C17_refuted"
   ],
   "note": "C17_every_history: after every history for undirected or iso-valued graphs and for graphs without self-loops or without negative edges; for the remaining DiGraphs the answer False is right in every consistent state; the answer True in every state where has_negative_diagonal is answered correctly (see C05); refuted after a history that corrupts it"
  },
  {
   "property": "C18",
   "status": "proved",
   "theorems": [
    "C18_floyd_warshall",
    "C18_pred_distance",
    "C18_numpy_default",
    "C18_numpy_partial",
    "C18_numpy_nodelist_refuted"
   ],
   "note": "directed and undirected, weighted or not, whatever operand binary.any picks; also the distances of floyd_warshall_predecessor_and_distance and floyd_warshall_numpy; with a nodelist floyd_warshall_numpy is right on directed graphs but not on undirected ones (refuted; outside the property's statement)"
  },
  {
   "property": "C19",
   "status": "partial",
   "theorems": [
    "C19_predecessors_partial",
    "C19_undirected_refuted"
   ],
   "note": "directed graphs; on undirected graphs the mirrored triangle gives wrong predecessors (refuted)"
  },
  {
   "property": "C20",
   "status": "proved",
   "theorems": [
    "C20_triangles",
    "C20_triangles_int",
    "C20_triangles_str",
    "C20_triangles_directed",
    "C20_transitivity",
    "C20_transitivity_undirected"
   ],
   "note": "one node, a list or all nodes, self-loops allowed, in every consistent cache state; a key that is not a node is iterated (TypeError for ints, characters for strs); transitivity also after an earlier cached answer; on DiGraphs transitivity is closed successor pairs over successor pairs"
  },
  {
   "property": "C21",
   "status": "partial",
   "theorems": [
    "C21_clustering",
    "C21_unit",
    "C21_clustering_no_edges",
    "C21_average_clustering_partial",
    "C21_average_every_history",
    "C21_average_history_refuted",
    "C21_weighted_self_loop_refuted"
   ],
   "note": "clustering: unweighted and weighted, one node, list or all, self-loops allowed; the largest weight must not be 0 (division by zero is not modelled); average_clustering only when cached whole-graph answers come from calls with the same weight option: its cache key ignores the option (refuted); C21_average_every_history says what every session of transitivity and average_clustering calls answers: a whole-graph average is that of the first such call with the same count_zeros, one over a list honours its own weight; a weighted call raises AttributeError on undirected graphs with self-loops (refuted)"
  },
  {
   "property": "C22",
   "status": "partial",
   "theorems": [
    "C22_clustering_one",
    "C21_clustering",
    "C22_clustering_exact",
    "C22_self_loop_refuted"
   ],
   "note": "one node: every DiGraph; all nodes or a list: DiGraphs without self-loops (C21_clustering); with self-loops the all-nodes answer is wrong (refuted): C22_clustering_exact says exactly what it is for every DiGraph, and that a node is right unless it or one of its predecessors has a self-loop (nothing is said where the code divides by zero)"
  },
  {
   "property": "C23",
   "status": "partial",
   "theorems": [
    "C23_square_clustering_partial",
    "C23_square_clustering_exact",
    "C23_ratio",
    "C23_directed",
    "C23_nodes_refuted",
    "C23_weights_refuted",
    "C23_self_loop_refuted",
    "C23_chunks_refuted"
   ],
   "note": "a DiGraph is not refused but fails with KeyError (C23_directed); loop-free undirected graphs whose weights are all 1: one node, a list or all nodes, any chunk size (a chunk of one node needs the library to accept a scalar index); missing because the code is wrong there: with nodes=[...] a node of value 0 is dropped, the weights of a weighted Graph enter the denominator, self-loops are counted, and the chunked path on a graph without edges crashes (all refuted); C23_square_clustering_exact says what is computed on every undirected graph, with self-loops and any weights (nothing where a map would hold inf)"
  },
  {
   "property": "C24",
   "status": "partial",
   "theorems": [
    "C24_generalized_degree_partial",
    "C24_one_node_partial",
    "C24_directed",
    "C24_isolated_refuted",
    "C24_one_node_refuted"
   ],
   "note": "nodes=None or a list: exact counts for every wanted node that has a neighbour; an isolated node is missing (KeyError) and a count of 0 reads as None or IndexError (refuted against the statement); for one node the numbers are keyed by nodes instead of by triangle counts (refuted; C24_one_node_partial says what is returned)"
  },
  {
   "property": "C25",
   "status": "proved",
   "theorems": [
    "C25_k_truss",
    "C25_directed"
   ],
   "note": "every undirected graph and every k (also below 3): the loop stops within |V|^2+1 rounds, the answer is a k-truss, contains every other k-truss, and its nodes are those on its edges; its weights are given too"
  },
  {
   "property": "C59",
   "status": "partial",
   "theorems": [
    "C59_ego_graph",
    "C59_ego_weighted",
    "C59_zero_refuted",
    "C59_edgeless_refuted",
    "C59_iso_zero"
   ],
   "note": "every graph, node, integer radius and options (unweighted); with distance= also for nonnegative weights and radius, in terms of least total weight (antiparallel edges consistent when a DiGraph is searched as undirected); an iso-valued graph with weight 0 raises ZeroDivisionError, an edgeless one flagged iso-valued TypeError (refuted); C59_iso_zero is the general form of that defect"
  },
  {
   "property": "C55",
   "status": "partial",
   "theorems": [
    "C55_adjacency",
    "C55_laplacian",
    "C55_laplacian_rows",
    "C55_normalized_laplacian",
    "C55_modularity",
    "C55_directed_modularity",
    "C55_bethe_hessian",
    "C55_default_r",
    "C55_bethe_loops_refuted",
    "C55_directed_refuted"
   ],
   "note": "All six matrices have exactly the textbook entries for every graph and duplicate-free nodelist, in every consistent cache state (foreign nodes: KeyError). Refuted: laplacian_matrix and normalized_laplacian_matrix of a DiGraph with weight=None and no nodelist always raise KeyError (C55_directed_refuted; hence the hypothesis of C55_laplacian), and the default r of bethe_hessian_matrix differs from networkx's on graphs with self-loops (C55_bethe_loops_refuted). Row sums (normalized Laplacian) and the total (modularity) are assumed non-zero where the code divides by them."
  },
  {
   "property": "C56",
   "status": "partial",
   "theorems": [
    "C56_google",
    "C56_row_stochastic",
    "C56_permuted_refuted",
    "C56_dangling_refuted"
   ],
   "note": "every entry of the matrix is that of the textbook Google matrix, and the rows sum to 1, for nodelist=None, a strict sub-nodelist, or one listing all nodes in the graph's order (or in any order when no node is dangling); a nodelist with all the nodes in another order gives wrong rows that do not sum to 1, and a dangling dict is ignored for nodes that dangle only within the nodelist (both refuted)"
  },
  {
   "property": "C57",
   "status": "partial",
   "theorems": [
    "C57_pagerank",
    "C57_pagerank_empty",
    "C57_mass",
    "C57_fixed_point",
    "C57_edgeless_exact",
    "C57_edgeless_refuted",
    "C57_history_refuted"
   ],
   "note": "exact: the result is the first iterate within tolerance of its predecessor, sums to 1, and is a fixed point up to alpha*N*tol; PowerIterationFailedConvergence iff there is none within max_iter; for graphs with an edge and non-zero out-weights, in the states where iso_value is known if is_iso is; an edgeless graph gets all zeros instead of the personalisation, and a call after is_iso answered False raises KeyError (both refuted)"
  },
  {
   "property": "C58",
   "status": "partial",
   "theorems": [
    "C58_eigenvector",
    "C58_katz_partial",
    "C58_katz_exact",
    "C58_katz_sources_missing",
    "C58_katz_refuted",
    "C58_hits",
    "C58_hits_exact",
    "C58_hits_authority"
   ],
   "note": "each returns the first iterate of its textbook round within N*tol of the previous one, and fails only if there is none within max_iter; katz_centrality with a number beta when every node has a predecessor and a start value, or when the library's vector + scalar fills missing entries (if it does not, nodes without predecessors get no score: refuted; C58_katz_exact gives the exact answer in that case, for every graph and start); hits for every start (C58_hits_exact; C58_hits is the simpler form when the start covers all hubs or nothing is negative); katz_centrality only in the states where iso_value is known if is_iso is (C06)"
  },
  {
   "property": "C69",
   "status": "partial",
   "theorems": [
    "C69_sessions",
    "C69_get_property",
    "C69_algorithms",
    "C69_refuted",
    "public_kpx",
    "public_td_ktd"
   ],
   "note": "any session of the 72 modelled public functions and get_property calls, with any arguments, returning or raising, keeps the cache consistent; calls reading total_degrees+ (isolates, degree_centrality, s_metric) only where the defect of C02 does no harm; the Bellman-Ford family, which may store a wrong has_negative_diagonal (C05), anywhere; without that condition isolates(G) corrupts the cache of a DiGraph with self-loops (refuted)"
  },
  {
   "property": "C70",
   "status": "proved",
   "theorems": [
    "C70_descendants",
    "C70_ancestors",
    "C70_node_connected_component",
    "C70_has_path",
    "C70_is_connected",
    "C70_is_weakly_connected",
    "C70_single_source",
    "C70_single_target",
    "C70_bidirectional_length",
    "C70_descendants_at_distance",
    "C70_bfs_layers",
    "C70_bellman_ford",
    "C70_floyd_warshall",
    "C70_is_isolate",
    "C70_isolates",
    "C70_degree_centrality",
    "C70_in_degree_centrality",
    "C70_out_degree_centrality",
    "C70_triangles",
    "C70_transitivity",
    "C70_clustering",
    "C70_edge_boundary",
    "C70_node_boundary",
    "C70_cut_size",
    "C70_volume",
    "C70_normalized_cut_size",
    "C70_conductance",
    "C70_edge_expansion",
    "C70_mixing_expansion",
    "C70_node_expansion",
    "C70_boundary_expansion",
    "C70_is_dominating_set",
    "C70_number_of_isolates",
    "C70_is_regular",
    "C70_is_k_regular",
    "C70_is_tournament",
    "C70_score_sequence",
    "C70_mutual_weight",
    "C70_s_metric",
    "C70_communities",
    "C70_is_simple_path",
    "C70_reciprocity",
    "C70_reciprocity_nodes",
    "C70_efficiency",
    "C70_overall_reciprocity",
    "C70_k_truss",
    "C70_adjacency_matrix",
    "C70_laplacian_matrix",
    "C70_normalized_laplacian_matrix",
    "C70_modularity_matrix",
    "C70_pagerank",
    "C70_eigenvector",
    "C70_katz",
    "C70_hits",
    "C70_intersection",
    "C70_difference",
    "C70_symmetric_difference",
    "C70_compose",
    "C70_complement",
    "C70_reverse",
    "C70_union",
    "C70_full_join"
   ],
   "note": "two graphs with the same directedness, nodes and edge weights but any numbering, dtype and iso flag, each after any history of calls: the answers (or exceptions) are the same, containers by lookup, length and iteration up to order; bfs_layers/triangles/clustering for nodes of the graph; clustering of directed graphs without self-loops; matrices for an explicit nodelist, compared entry by entry; pagerank, eigenvector, katz and hits for usable start values (no foreign keys, not summing to zero) on graphs with nodes, where the library fills missing entries or none are missing; compose for equal or disjoint node sets (C31); union and full_join with any injective rename"
  },
  {
   "property": "C71",
   "status": "partial",
   "theorems": [
    "C71_to_graph",
    "C71_to_directed_graph",
    "C71_to_undirected_graph_partial",
    "C71_decorated",
    "C71_call",
    "C71_call_undirected",
    "C71_call_directed",
    "C71_descendants",
    "C71_ancestors",
    "C71_single_source_shortest_path_length",
    "C71_has_path",
    "C71_is_connected",
    "C71_node_connected_component",
    "C71_is_weakly_connected",
    "C71_single_source_bellman_ford",
    "C71_triangles",
    "C71_digraph_as_undirected_refuted",
    "C71_matrix_is_connected_refuted"
   ],
   "note": "all three conversions for every argument; C71_call* transfer any theorem about the graph class to the same call on a networkx graph, done for nine functions in terms of the networkx graph alone; to_undirected_graph neither checks the direction of a networkx graph nor the symmetry of a Matrix: a DiGraph (square_clustering) or an asymmetric Matrix becomes an 'undirected' graph with one-way edges (refuted)"
  },
  {
   "property": "C72",
   "status": "partial",
   "theorems": [
    "C72_graph",
    "C72_graph2",
    "C72_complement",
    "C72_reverse",
    "C72_union",
    "C72_difference",
    "C72_symmetric_difference",
    "C72_intersection",
    "C72_compose_partial",
    "C72_disjoint_union",
    "C72_full_join",
    "C72_ego_graph",
    "C72_ego_graph_weighted",
    "C72_k_truss",
    "C72_matrix",
    "C72_container",
    "C72_floyd_warshall_numpy_partial",
    "C72_floyd_warshall_numpy_refuted",
    "C72_attribute_name_refuted"
   ],
   "note": "C72_graph/C72_graph2 for any graph function, with twelve instances in networkx terms (ego_graph and k_truss among them); matrices keep all entries; floyd_warshall_numpy fills unreachable pairs with 0 instead of infinity (refuted; right when every node reaches every node), and a preserved attribute comes back under the name weight (refuted)"
  },
  {
   "property": "C73",
   "status": "proved",
   "theorems": [
    "C73_call",
    "C73_history",
    "C73_results_distinct",
    "C73_get_property_refuted",
    "C73_reverse_view_refuted"
   ],
   "note": "effect semantics with objects, sharing and in-place updates; all getters and all 90+ public functions transcribed as effect programs and checked by a sound checker; the two _refuted theorems mark the boundary the statement names: get_property and reverse(copy=False) do hand out the graph's own data"
  },
  {
   "property": "C74",
   "status": "proved",
   "theorems": [
    "C74_reachable",
    "C74_lengths",
    "C74_pair",
    "C74_no_path",
    "C74_all_pairs",
    "C74_layers",
    "C74_efficiency"
   ],
   "note": "each call may come after its own session of public calls on the graph (seen)"
  },
  {
   "property": "C75",
   "status": "proved",
   "theorems": [
    "C75_unweighted",
    "C75_weighted"
   ],
   "note": "weighted: no negative cycle; each call after any session"
  },
  {
   "property": "C76",
   "status": "partial",
   "theorems": [
    "C76_floyd_warshall",
    "C76_pair",
    "C76_pair_total",
    "C76_all_pairs",
    "C76_path",
    "C76_negative_cycle"
   ],
   "note": "graphs flagged iso-valued must have an edge (C14); every path that is returned, in every consistent state; negative_edge_cycle in every consistent state for undirected or iso-valued graphs and graphs without self-loops or without negative edges, otherwise where has_negative_diagonal is answered correctly (C05)"
  },
  {
   "property": "C77",
   "status": "proved",
   "theorems": [
    "C77_components"
   ],
   "note": ""
  },
  {
   "property": "C78",
   "status": "proved",
   "theorems": [
    "C78_reachable",
    "C78_lengths",
    "C78_floyd_warshall",
    "C78_weakly_connected",
    "C78_degree_centrality",
    "C78_tournament",
    "C78_reciprocity",
    "C78_reciprocity_nodes"
   ],
   "note": "floyd_warshall with any weights, negative cycles included"
  },
  {
   "property": "C79",
   "status": "proved",
   "theorems": [
    "C79_cutoff",
    "C79_cutoff_mono",
    "C79_ego",
    "C79_ego_options"
   ],
   "note": "ego_graph without distance (the weighted radius is C59)"
  },
  {
   "property": "C80",
   "status": "proved",
   "theorems": [
    "C80_complement",
    "C80_intersection_comm",
    "C80_intersection_assoc",
    "C80_intersection_self",
    "C80_difference_self",
    "C80_symmetric_difference",
    "C80_recompose",
    "C80_difference_complement",
    "C80_de_morgan",
    "C80_complete",
    "C80_reverse",
    "C80_join"
   ],
   "note": "laws that mention compose only for equal node sets (C31); difference laws for equal node sets, otherwise the code raises (C29)"
  },
  {
   "property": "C81",
   "status": "proved",
   "theorems": [
    "C81_triangles",
    "C81_transitivity",
    "C81_handshake",
    "C81_in_out",
    "C81_tournament",
    "C81_generalized_degree"
   ],
   "note": "handshake for loop-free undirected graphs and all directed ones (C53); generalized_degree for all nodes"
  },
  {
   "property": "C82",
   "status": "proved",
   "theorems": [
    "C82_nested",
    "C82_deterministic",
    "C82_small",
    "C82_degree",
    "C82_idempotent"
   ],
   "note": "fuel above the number of node pairs, which every run stays below (C25)"
  },
  {
   "property": "C83",
   "status": "partial",
   "theorems": [
    "C83_cut_symmetric",
    "C83_cut_complement",
    "C83_cut_boundary",
    "C83_cut_boundary_default",
    "C83_boundaries",
    "C83_dominating",
    "C83_volume",
    "C83_volume_additive",
    "C83_normalized_cut",
    "C83_conductance",
    "C83_conductance_ratio"
   ],
   "note": "edge_boundary with T omitted on directed graphs only where every node outside S has a successor (C36), weighted volume on undirected graphs (C39), volume of loop-free undirected graphs"
  },
  {
   "property": "C84",
   "status": "proved",
   "theorems": [
    "C84_clustering",
    "C84_average_clustering",
    "C84_transitivity",
    "C84_square_clustering",
    "C84_reciprocity_node",
    "C84_reciprocity_nodes",
    "C84_overall_reciprocity",
    "C84_efficiency",
    "C84_in_degree_centrality",
    "C84_out_degree_centrality",
    "C84_degree_centrality",
    "C84_conductance"
   ],
   "note": "weighted clustering: non-negative weights and a cube root that maps [0,1] into itself; directed clustering and square_clustering without self-loops, square_clustering with unit weights (C22, C23)"
  },
  {
   "property": "C85",
   "status": "proved",
   "theorems": [
    "C85_is_triad",
    "C85_tournament_matrix",
    "C85_antisymmetric",
    "C85_tournament"
   ],
   "note": "values are mathematical integers: subtraction in unsigned dtypes, which wraps, is not modelled"
  },
  {
   "property": "C86",
   "status": "partial",
   "theorems": [
    "C86_union",
    "C86_disjoint_union",
    "C86_intersection",
    "C86_difference",
    "C86_symmetric_difference",
    "C86_compose_partial",
    "C86_full_join",
    "C86_union_rename",
    "C86_full_join_rename",
    "C86_complement",
    "C86_reverse",
    "C86_mixed_refuted",
    "C86_mixed_full_join_refuted",
    "C86_mixed_symmetric_difference_refuted"
   ],
   "note": "false for an undirected first and a directed second argument, which networkx refuses: the result is marked undirected and has one-way edges (_refuted); proved for every other combination; compose for equal or disjoint node sets (C31); rename that keeps the nodes of each graph apart (the collision is refuted in C26)"
  },
  {
   "property": "C87",
   "status": "proved",
   "theorems": [
    "C87_hits",
    "C87_hits_max",
    "C87_hits_support",
    "C87_eigenvector",
    "C87_katz"
   ],
   "note": "floats as exact rationals, the square root any function with relative error e < 1 (C87_root_ex shows one); hits and katz under the conditions of C58 (hits_covered, adds_everywhere)"
  },
  {
   "property": "C88",
   "status": "partial",
   "theorems": [
    "C88_le",
    "C88_lt",
    "C88_ge",
    "C88_gt",
    "C88_compare_list",
    "C88_equal_set",
    "C88_isdisjoint",
    "C88_isdisjoin",
    "C88_and",
    "C88_or",
    "C88_sub",
    "C88_rsub",
    "C88_xor",
    "C88_ior",
    "C88_isub",
    "C88_iand",
    "C88_ixor",
    "C88_inplace_self",
    "C88_union",
    "C88_copy",
    "C88_foreign_refuted",
    "C88_isdisjoin_numbering_refuted"
   ],
   "note": "every operator exactly as stated; a python set would answer where a foreign element makes the NodeSet raise KeyError (C88_foreign_refuted), and isdisjoin of NodeSets of graphs numbered differently compares positions (C88_isdisjoin_numbering_refuted; C88_isdisjoin assumes the same numbering); equality of two NodeSets is C61_eq"
  },
  {
   "property": "C89",
   "status": "partial",
   "theorems": [
    "C89_items",
    "C89_items_keys",
    "C89_vectormap_items",
    "C89_vectornodemap_update",
    "C89_vectornodemap_items",
    "C89_nodenodemap_items",
    "C89_item_in",
    "C89_value_in",
    "C89_eq_dict",
    "C89_eq_dict_keys",
    "C89_eq_exact",
    "C89_eq_sound",
    "C89_eq",
    "C89_vectormap_eq",
    "C89_vectormap_eq_dict",
    "C89_eq_vectormap",
    "C89_vectormap_eq_nodemap",
    "C89_vectornodemap_eq",
    "C89_nodenodemap_eq",
    "C89_update",
    "C89_update_keys",
    "C89_vectormap_update",
    "C89_vectornodemap_setdefault",
    "C89_fill_refuted",
    "C89_same_dict_refuted",
    "C89_update_refuted"
   ],
   "note": "== of two NodeMaps is sound; it is complete for maps of one graph without fill value (C89_eq), but not with one or across numberings (C89_same_dict_refuted); VectorMap == NodeMap ignores the fill value, so it is neither sound nor symmetric (C89_fill_refuted); values whose == is not equality (nan) are left out; a failing update keeps what it wrote (C89_update_refuted)"
  },
  {
   "property": "C90",
   "status": "partial",
   "theorems": [
    "C90_issubclass",
    "C90_families",
    "C90_members",
    "C90_untranslated",
    "C90_has_path",
    "C90_single_source",
    "C90_single_target",
    "C90_single_source_bellman_ford",
    "C90_all_pairs_bellman_ford",
    "C90_bellman_ford_path_length_partial",
    "C90_bellman_ford_path",
    "C90_bellman_ford_path_partial",
    "C90_floyd_warshall_numpy",
    "C90_bfs_layers",
    "C90_descendants_at_distance",
    "C90_descendants",
    "C90_ancestors",
    "C90_is_connected",
    "C90_is_weakly_connected",
    "C90_node_connected_component",
    "C90_efficiency",
    "C90_lowest_common_ancestor",
    "C90_reciprocity",
    "C90_eigenvector",
    "C90_katz",
    "C90_hits",
    "C90_pagerank",
    "C90_operators_networkx",
    "C90_union",
    "C90_full_join",
    "C90_difference",
    "C90_reverse",
    "C90_unbounded_refuted",
    "C90_key_error_refuted",
    "C92_reciprocity_refuted"
   ],
   "note": "reciprocity and overall_reciprocity answer every undirected graph with TypeError (C92_reciprocity_refuted). Unbounded gets out of bellman_ford_path_length and bellman_ford_path as the package's own class (C90_unbounded_refuted); efficiency, lowest_common_ancestor, floyd_warshall_numpy and the dict arguments of the centralities answer a missing node with KeyError (C90_key_error_refuted); the hypotheses are those of the theorems on the values (C14-C18, C57, C58)"
  },
  {
   "property": "C91",
   "status": "partial",
   "theorems": [
    "C91_forever",
    "C91_cause",
    "C91_after_is_iso",
    "C91_key_error",
    "C91_quiet",
    "C91_iso_valued",
    "C91_protected",
    "C91_protects"
   ],
   "note": "the claim holds for graphs flagged iso-valued, for sessions in which nothing asks for is_iso and for sessions in which iso_value was computed first (C91_iso_valued, C91_quiet, C91_protected); otherwise it is false: on any graph that is not iso-valued, after is_iso or a Bellman-Ford function every later pagerank and katz_centrality raises (C91_after_is_iso), for the rest of the session (C91_forever)"
  },
  {
   "property": "C92",
   "status": "partial",
   "theorems": [
    "C92_descendants",
    "C92_ancestors",
    "C92_node_connected_component",
    "C92_single_source_shortest_path_length",
    "C92_single_target_shortest_path_length",
    "C92_all_pairs_shortest_path_length",
    "C92_has_path",
    "C92_efficiency",
    "C92_is_connected",
    "C92_is_weakly_connected",
    "C92_bfs_layers",
    "C92_descendants_at_distance",
    "C92_lowest_common_ancestor",
    "C92_single_source_bellman_ford",
    "C92_all_pairs_bellman_ford",
    "C92_bellman_ford_path_length_partial",
    "C92_bellman_ford_path",
    "C92_negative_edge_cycle",
    "C92_floyd_warshall",
    "C92_floyd_warshall_numpy",
    "C92_floyd_warshall_numpy_partial",
    "C92_floyd_warshall_distance",
    "C92_floyd_warshall_predecessor_partial",
    "C92_triangles",
    "C92_clustering",
    "C92_transitivity",
    "C92_average_clustering_partial",
    "C92_square_clustering_partial",
    "C92_generalized_degree_partial",
    "C92_k_truss",
    "C92_ego_graph",
    "C92_ego_graph_distance",
    "C92_node_boundary",
    "C92_normalized_cut_size",
    "C92_conductance",
    "C92_edge_expansion",
    "C92_mixing_expansion",
    "C92_node_expansion",
    "C92_boundary_expansion",
    "C92_is_dominating_set",
    "C92_is_isolate",
    "C92_isolates",
    "C92_number_of_isolates",
    "C92_is_regular",
    "C92_is_k_regular",
    "C92_is_tournament",
    "C92_score_sequence",
    "C92_tournament_matrix",
    "C92_is_triad",
    "C92_is_simple_path",
    "C92_overall_reciprocity",
    "C92_reciprocity_node",
    "C92_reciprocity_nodes",
    "C92_s_metric",
    "C92_mutual_weight",
    "C92_intra_community_edges",
    "C92_inter_community_edges",
    "C92_degree_centrality",
    "C92_in_degree_centrality",
    "C92_out_degree_centrality",
    "C92_edge_boundary",
    "C92_cut_size",
    "C92_volume",
    "C92_adjacency_matrix",
    "C92_laplacian_matrix",
    "C92_normalized_laplacian_matrix",
    "C92_bethe_hessian_matrix",
    "C92_modularity_matrix",
    "C92_directed_modularity_matrix",
    "C92_google_matrix",
    "C92_pagerank",
    "C92_eigenvector_centrality",
    "C92_katz_centrality_partial",
    "C92_hits",
    "C92_only_the_attribute",
    "C92_no_weight",
    "C92_convert_first",
    "C92_weight_none_refuted",
    "C92_matrix_refuted",
    "C92_edge_boundary_data_refuted",
    "C92_none_refuted",
    "C92_reciprocity_refuted"
   ],
   "note": "one theorem per public function: the outcome for library graphs, networkx graphs and matrices in terms of the graph the argument stands for, and exactly what is refused and how; C92_only_the_attribute, C92_no_weight and C92_convert_first are general. The claim fails in five places: weight=None (or any other name) is ignored for library graphs by the functions that have no unweighted variant (C92_weight_none_refuted), edge_boundary, cut_size and volume raise AttributeError for every Matrix (C92_matrix_refuted), and edge_boundary with data=name yields dicts instead of values (C92_edge_boundary_data_refuted), None is taken for an empty directed graph by the undecorated functions (C92_none_refuted), and reciprocity and overall_reciprocity refuse undirected graphs with TypeError (C92_reciprocity_refuted). Undirected functions take a Matrix without checking its symmetry (C71_matrix_is_connected_refuted), so these theorems assume it. C92_*_partial inherit the restrictions of the theorems they use. Multigraphs: C94."
  },
  {
   "property": "C93",
   "status": "proved",
   "theorems": [
    "C93_all_pairs_shortest_path_length",
    "C93_all_pairs_bellman_ford_path_length",
    "C93_bfs_layers",
    "C93_list_all_pairs",
    "C93_list_all_pairs_bellman_ford",
    "C93_list_bfs_layers"
   ],
   "note": "For every way of pulling the items: any prefix, with other public calls, get_property calls and other generators on the same graph in between, and with any change to a networkx argument in between (the generator keeps the graph it converted at its first next()). The C93_list theorems connect the generators with the whole-list functions of C09, C12, C14 and C92. Bellman-Ford assumes, as C14 does, that a graph flagged iso-valued has an edge. A library graph itself is not changed in between: the model's graphs are immutable."
  },
  {
   "property": "C94",
   "status": "partial",
   "theorems": [
    "C94_from_networkx",
    "C94_counts",
    "C94_any_function",
    "C94_directed_function",
    "C94_undirected_function",
    "C94_refused",
    "C94_simple_unchanged",
    "C94_reciprocity",
    "C94_cut_size",
    "C94_volume",
    "C94_adjacency_matrix",
    "C94_laplacian_matrix",
    "C94_edge_boundary",
    "C94_library_multigraph",
    "C94_conversions",
    "C94_has_path",
    "C94_node_connected_component",
    "C94_is_weakly_connected",
    "C94_pagerank",
    "C94_single_source_bellman_ford_partial",
    "C94_no_parallel",
    "C94_operators_refuse",
    "C94_operators_simple",
    "C94_operators_networkx_refuted",
    "C94_unary",
    "C94_convert_from_nx",
    "C94_round_trip_refuted",
    "C94_parallel_edges_refuted",
    "C94_edge_boundary_data_refuted",
    "C94_adjacency_refuted",
    "C94_volume_refuted",
    "C94_reciprocity_refuted"
   ],
   "note": "C94_any_function, C94_directed_function and C94_undirected_function carry every C92 theorem over to multigraphs (five instances are spelled out); C94_refused and C94_operators_refuse are the refusals; C94_cut_size, C94_volume, C94_edge_boundary (data=False) and the matrices with a weight count parallel edges. The claim fails in these places: functions without a multigraph case see one edge with the summed weight, so Bellman-Ford adds parallel lengths, and degree centrality and edge expansion count one edge (C94_parallel_edges_refuted; C94_no_parallel says when it is right); edge_boundary with data repeats an edge as often as its summed weight (C94_edge_boundary_data_refuted); adjacency_matrix(weight=None) gives 1 for parallel edges of a networkx multigraph and the count for a library one (C94_adjacency_refuted); volume of a directed multigraph counts in-edges (C94_volume_refuted); the binary operators never refuse networkx multigraphs (C94_operators_networkx_refuted); reciprocity does not refuse directed multigraphs, its decorator means undirected multigraphs (C94_reciprocity_refuted); converting to this library and back gives a simple graph (C94_round_trip_refuted). Trusted: networkx.to_scipy_sparse_array sums parallel edges; itertools.repeat refuses numpy floats."
  },
  {
   "property": "C95",
   "status": "partial",
   "theorems": [
    "C95_read",
    "C95_untouched",
    "C95_set_name",
    "C95_set",
    "C95_set_shares",
    "C95_constructor",
    "C95_reverse",
    "C95_reverse_apart",
    "C95_reverse_sharing",
    "C95_convert",
    "C95_convert_shares",
    "C95_lost",
    "C95_round_trip_refuted"
   ],
   "note": "every history; attributes are immutable values or lists of numbers. The last sentence is false: to_networkx, to_undirected and all operators give graphs without attributes (C95_lost, C95_round_trip_refuted)"
  }
 ]
}