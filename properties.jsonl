{"id": "C01", "title": "Cached properties of an undirected graph are history independent", "statement": "For an undirected Graph, G.get_property(name) returns exactly the value the name denotes for the adjacency matrix (A, A.T, off-diagonal part, triangles U+/U-/L+/L-, diagonal, row/column reductions with or without self-edges, whole-matrix reductions, has_self_edges), no matter which get_property/get_properties calls, with or without masks, were made before and in which order.", "quantifier": "every symmetric matrix, every property name, every finite history of earlier property calls (has_negative_diagonal excluded, see C05)", "why_tests_cant": "the answer depends on which of dozens of cached values earlier calls left behind; the number of histories is unbounded", "anchors": ["graphblas_algorithms/classes/graph.py: get_AT..get_iso_value, Graph", "graphblas_algorithms/classes/_caching.py: get_reduce_to_vector, get_reduce_to_scalar", "graphblas_algorithms/classes/_utils.py: get_property"]}
{"id": "C02", "title": "Cached properties of a directed graph are history independent", "statement": "For a DiGraph, G.get_property(name) returns exactly the value the name denotes (as C01, plus AT as a real transpose, recip_degrees+/-, total_degrees+/-, total_recip+/-), no matter which property calls came before.", "quantifier": "every square matrix, every property name, every finite history of earlier property calls (has_negative_diagonal excluded, see C05)", "why_tests_cant": "the answer depends on which of dozens of cached values earlier calls left behind; the number of histories is unbounded", "anchors": ["graphblas_algorithms/classes/digraph.py: get_AT..has_self_edges, DiGraph", "graphblas_algorithms/classes/_caching.py", "graphblas_algorithms/classes/_utils.py: get_property"]}
{"id": "C03", "title": "A masked vector property is the restriction of the unmasked one", "statement": "G.get_property(name, mask=m) for a vector-valued property contains an entry exactly at the indices allowed by the mask where the unmasked property has one, with the same value, after any history.", "quantifier": "every graph, every vector property, every mask, every history that triggers none of the defects recorded under C02 and C05", "why_tests_cant": "the answer depends on which of dozens of cached values earlier calls left behind; the number of histories is unbounded", "anchors": ["graphblas_algorithms/classes/_caching.py: get_reduction", "graphblas_algorithms/classes/digraph.py: get_recip_degreesp/m, get_total_degreesp/m", "graphblas_algorithms/classes/graph.py: get_diag"]}
{"id": "C04", "title": "get_properties is get_property on each name, in the order asked", "statement": "G.get_properties(names) returns a list with one result per requested name, in the order requested, each equal to what G.get_property would return for that name (aliases such as degrees+ / row_degrees+ included), although the values are computed in priority order.", "quantifier": "every graph, list of names (duplicates and aliases allowed) and history", "why_tests_cant": "the evaluation order differs from the result order; all permutations, aliases and cache states matter", "anchors": ["graphblas_algorithms/classes/_utils.py: get_properties", "graphblas_algorithms/classes/graph.py: Graph._property_priority, _cache_aliases", "graphblas_algorithms/classes/digraph.py: DiGraph._property_priority"]}
{"id": "C05", "title": "Negative-weight questions are answered correctly after any history", "statement": "has_negative_edges+, has_negative_edges- and has_negative_diagonal are True exactly when some edge, some non-self edge, some self edge has a negative weight, after any history of property calls.", "quantifier": "every graph and history", "why_tests_cant": "the answer depends on which of dozens of cached values earlier calls left behind; the number of histories is unbounded", "anchors": ["graphblas_algorithms/classes/graph.py: has_negative_diagonal, has_negative_edgesp, has_negative_edgesm"]}
{"id": "C06", "title": "is_iso and iso_value agree after any history", "statement": "is_iso and iso_value can be asked in any order and any number of times; iso_value is not None exactly if is_iso, and no order of calls raises.", "quantifier": "every graph and every order of the two calls", "why_tests_cant": "the failing order needs one specific cache state", "anchors": ["graphblas_algorithms/classes/graph.py: is_iso, get_iso_value"]}
{"id": "C07", "title": "descendants / ancestors / node_connected_component are the reachable sets", "statement": "descendants(G,s) is exactly the set of nodes other than s reachable from s by a path, ancestors(G,s) exactly the set of nodes other than s from which s is reachable, node_connected_component(G,s) the component containing s.", "quantifier": "every graph (directed or not, with self-loops) and node", "why_tests_cant": "quantifies over every graph of every size, so a finite test suite only samples it", "anchors": ["graphblas_algorithms/algorithms/dag.py", "graphblas_algorithms/algorithms/_bfs.py: _bfs_plain", "graphblas_algorithms/algorithms/components/connected.py", "graphblas_algorithms/nxapi/dag.py"]}
{"id": "C08", "title": "single_source / single_target shortest path lengths are the BFS distances", "statement": "single_source_shortest_path_length(G,s,cutoff) has an entry for v iff a path of at most cutoff edges (any number when cutoff is None) leads from s to v, and the entry is the minimum number of edges of such a path; a negative cutoff counts as 0; single_target is the same with edges reversed.", "quantifier": "every graph, source, target and cutoff", "why_tests_cant": "quantifies over every graph of every size, so a finite test suite only samples it", "anchors": ["graphblas_algorithms/algorithms/_bfs.py: _bfs_level, _get_cutoff", "graphblas_algorithms/algorithms/shortest_paths/unweighted.py", "graphblas_algorithms/nxapi/shortest_paths/unweighted.py"]}
{"id": "C09", "title": "All-pairs shortest path lengths do not depend on the chunking", "statement": "all_pairs_shortest_path_length(G, cutoff, chunksize) yields for every node exactly the single-source result, in node order, whatever the chunk size, and nodes=... restricts to the requested rows.", "quantifier": "every graph, cutoff and chunk size", "why_tests_cant": "every split of every node list", "anchors": ["graphblas_algorithms/algorithms/shortest_paths/unweighted.py: all_pairs_shortest_path_length", "graphblas_algorithms/nxapi/shortest_paths/unweighted.py", "graphblas_algorithms/nxapi/_utils.py: partition, normalize_chunksize"]}
{"id": "C10", "title": "has_path, bidirectional length and efficiency agree with distance", "statement": "bidirectional_shortest_path_length(G,u,v) is the distance from u to v and raises NoPath iff v is unreachable from u; has_path tells whether v is reachable; efficiency is 1/distance, or 0 when there is no path.", "quantifier": "every graph and pair of nodes", "why_tests_cant": "quantifies over every graph of every size, so a finite test suite only samples it", "anchors": ["graphblas_algorithms/algorithms/shortest_paths/unweighted.py: bidirectional_shortest_path_length", "graphblas_algorithms/algorithms/shortest_paths/generic.py", "graphblas_algorithms/algorithms/efficiency_measures.py"]}
{"id": "C11", "title": "is_connected / is_weakly_connected decide connectivity", "statement": "is_connected(G) is True iff every two nodes are joined by a path; is_weakly_connected(G) iff they are joined by a path ignoring directions; both raise PointlessConcept exactly on the graph with no nodes.", "quantifier": "every graph", "why_tests_cant": "quantifies over every graph of every size, so a finite test suite only samples it", "anchors": ["graphblas_algorithms/algorithms/components/connected.py", "graphblas_algorithms/algorithms/components/weakly_connected.py", "graphblas_algorithms/algorithms/_bfs.py: _bfs_plain_bidirectional"]}
{"id": "C12", "title": "bfs_layers and descendants_at_distance are the distance classes", "statement": "bfs_layers(G,sources) yields, in order and without empty layers, the sets of nodes at distance 0,1,2,... from the nearest source; descendants_at_distance(G,s,d) is the set of nodes at distance exactly d.", "quantifier": "every graph, set of sources, distance", "why_tests_cant": "quantifies over every graph of every size, so a finite test suite only samples it", "anchors": ["graphblas_algorithms/algorithms/traversal/breadth_first_search.py", "graphblas_algorithms/nxapi/traversal/breadth_first_search.py"]}
{"id": "C13", "title": "lowest_common_ancestor returns a lowest common ancestor", "statement": "On a DAG, lowest_common_ancestor(G,u,v) returns default iff u and v have no common ancestor, and otherwise a common ancestor (reflexively) none of whose proper descendants is a common ancestor.", "quantifier": "every DAG and pair of nodes", "why_tests_cant": "quantifies over every graph of every size, so a finite test suite only samples it", "anchors": ["graphblas_algorithms/algorithms/lowest_common_ancestors.py", "graphblas_algorithms/nxapi/lowest_common_ancestors.py"]}
{"id": "C14", "title": "Bellman-Ford single source lengths are the shortest path weights", "statement": "single_source_bellman_ford_path_length(G,s) has an entry for v iff v is reachable from s and the entry is the minimum total weight of a path from s to v; it raises Unbounded iff a negative-weight cycle is reachable from s.", "quantifier": "every weighted graph and source", "why_tests_cant": "quantifies over every graph of every size, so a finite test suite only samples it", "anchors": ["graphblas_algorithms/algorithms/shortest_paths/weighted.py: single_source_bellman_ford_path_length", "graphblas_algorithms/nxapi/shortest_paths/weighted.py"]}
{"id": "C15", "title": "bellman_ford_path_length(s,t) is consistent with the single-source lengths", "statement": "bellman_ford_path_length(G,s,t) returns the minimum weight of a path from s to t, raises NoPath iff t is unreachable, and raises Unbounded iff a negative cycle is reachable from s.", "quantifier": "every weighted graph and pair of nodes", "why_tests_cant": "quantifies over every graph of every size, so a finite test suite only samples it", "anchors": ["graphblas_algorithms/algorithms/shortest_paths/weighted.py: bellman_ford_path_length"]}
{"id": "C16", "title": "bellman_ford_path returns a path of minimum weight", "statement": "If no negative cycle is reachable from s, bellman_ford_path(G,s,t) is a path that starts at s, ends at t, follows edges of G and has total weight equal to the shortest path weight (and is empty/NoPath iff t is unreachable); otherwise the call still ends, with a path or with Unbounded.", "quantifier": "every weighted graph and pair of nodes", "why_tests_cant": "quantifies over every graph of every size, so a finite test suite only samples it", "anchors": ["graphblas_algorithms/algorithms/shortest_paths/weighted.py: bellman_ford_path", "graphblas_algorithms/algorithms/_bfs.py: _bfs_parent"]}
{"id": "C17", "title": "negative_edge_cycle decides the existence of a negative cycle", "statement": "negative_edge_cycle(G) is True iff G contains a cycle of negative total weight (for undirected graphs: iff some edge is negative), after any history.", "quantifier": "every weighted graph and history", "why_tests_cant": "the answer depends on which of dozens of cached values earlier calls left behind; the number of histories is unbounded", "anchors": ["graphblas_algorithms/algorithms/shortest_paths/weighted.py: negative_edge_cycle"]}
{"id": "C18", "title": "Floyd-Warshall distances are the shortest path weights", "statement": "On a graph with no negative cycle, floyd_warshall(G)[u][v] is present iff v is reachable from u and equals the minimum weight of a path from u to v (0 for u = v).", "quantifier": "every weighted graph without negative cycles", "why_tests_cant": "quantifies over every graph of every size, so a finite test suite only samples it", "anchors": ["graphblas_algorithms/algorithms/shortest_paths/dense.py: floyd_warshall, floyd_warshall_predecessor_and_distance"]}
{"id": "C19", "title": "Floyd-Warshall predecessors spell shortest paths", "statement": "On a graph with no negative cycle, the predecessor reported for u, v is the last node before v on some shortest path from u to v.", "quantifier": "every weighted graph without negative cycles", "why_tests_cant": "quantifies over every graph of every size, so a finite test suite only samples it", "anchors": ["graphblas_algorithms/algorithms/shortest_paths/dense.py: floyd_warshall_predecessor_and_distance"]}
{"id": "C20", "title": "triangles / total triangles / transitivity count triangles", "statement": "On an undirected graph triangles(G)[v] is the number of unordered pairs of neighbours of v (other than v) that are adjacent, with or without self-loops and for a single node, a set of nodes or all; transitivity is 3*triangles / connected triples (0 when there are no triangles); transitivity_directed counts directed triads.", "quantifier": "every undirected graph and node set", "why_tests_cant": "quantifies over every graph of every size, so a finite test suite only samples it", "anchors": ["graphblas_algorithms/algorithms/cluster.py: triangles, total_triangles, transitivity", "graphblas_algorithms/nxapi/cluster.py"]}
{"id": "C21", "title": "clustering and average_clustering follow the definition, whatever was asked before", "statement": "clustering(G)[v] = 2*T(v)/(d(v)(d(v)-1)) (0 when undefined) and average_clustering is the mean of these values (of the non-zero ones with count_zeros=False), independent of earlier calls with other options.", "quantifier": "every undirected graph, option and history", "why_tests_cant": "the answer depends on which of dozens of cached values earlier calls left behind; the number of histories is unbounded", "anchors": ["graphblas_algorithms/algorithms/cluster.py: clustering, average_clustering, single_clustering", "graphblas_algorithms/classes/_utils.py: _cacheit"]}
{"id": "C22", "title": "directed clustering counts directed triangles", "statement": "On a DiGraph clustering(G)[v] is the number of directed triangles through v over 2*(total_degree*(total_degree-1) - 2*reciprocal_degree), self-loops ignored, for one node or all nodes alike.", "quantifier": "every directed graph and node", "why_tests_cant": "quantifies over every graph of every size, so a finite test suite only samples it", "anchors": ["graphblas_algorithms/algorithms/cluster.py: clustering_directed, single_clustering_directed"]}
{"id": "C23", "title": "square_clustering follows its definition", "statement": "square_clustering(G)[v] equals the ratio of existing to possible squares at v, and nodes=... returns a value for every requested node, whatever the chunk size.", "quantifier": "every undirected graph, node list and chunk size", "why_tests_cant": "quantifies over every graph of every size, so a finite test suite only samples it", "anchors": ["graphblas_algorithms/algorithms/cluster.py: square_clustering, single_square_clustering", "graphblas_algorithms/nxapi/cluster.py: square_clustering"]}
{"id": "C24", "title": "generalized_degree counts neighbours by triangle multiplicity", "statement": "generalized_degree(G)[v][k] is the number of neighbours u of v such that the edge u-v lies in exactly k triangles.", "quantifier": "every undirected graph and node", "why_tests_cant": "quantifies over every graph of every size, so a finite test suite only samples it", "anchors": ["graphblas_algorithms/algorithms/cluster.py: generalized_degree, single_generalized_degree", "graphblas_algorithms/nxapi/cluster.py: generalized_degree"]}
{"id": "C25", "title": "k_truss is the maximal k-truss", "statement": "k_truss(G,k) terminates and contains exactly the edges of the largest subgraph in which every edge lies in at least k-2 triangles, self-loops dropped, and exactly the nodes incident to such an edge.", "quantifier": "every undirected graph and k", "why_tests_cant": "needs maximality over all subgraphs", "anchors": ["graphblas_algorithms/algorithms/core.py", "graphblas_algorithms/nxapi/core.py"]}
{"id": "C26", "title": "union of disjoint graphs", "statement": "union(G,H) raises iff the node sets (after renaming) overlap; otherwise the result has exactly the nodes of both and an edge u-v of weight w iff u,v are both in G with that edge in G or both in H with that edge in H.", "quantifier": "every pair of graphs (of the same kind or not), without rename or with one under which the nodes of each graph stay distinct (always so for all-int and all-str nodes)", "why_tests_cant": "quantifies over every graph of every size, so a finite test suite only samples it", "anchors": ["graphblas_algorithms/algorithms/operators/binary.py: union", "graphblas_algorithms/nxapi/operators/binary.py"]}
{"id": "C27", "title": "disjoint_union relabels and keeps all edges", "statement": "disjoint_union(G,H) has nodes 0..|G|+|H|-1, first those of G in id order, and exactly the edges of G and (shifted) of H.", "quantifier": "every pair of graphs, of the same kind or not", "why_tests_cant": "quantifies over every graph of every size, so a finite test suite only samples it", "anchors": ["graphblas_algorithms/algorithms/operators/binary.py: disjoint_union"]}
{"id": "C28", "title": "intersection keeps common nodes and common edges", "statement": "intersection(G,H) has exactly the common nodes and an edge u-v (weight 1) iff both graphs have it.", "quantifier": "every pair of graphs (of the same kind or not), in any internal node order", "why_tests_cant": "quantifies over every graph of every size, so a finite test suite only samples it", "anchors": ["graphblas_algorithms/algorithms/operators/binary.py: intersection"]}
{"id": "C29", "title": "difference keeps the edges of G that are not in H", "statement": "difference(G,H) raises iff node sets differ; otherwise same nodes, edge u-v (weight 1) iff in G and not in H, even if the two graphs number their nodes differently.", "quantifier": "every pair of graphs (of the same kind or not), in any internal node order", "why_tests_cant": "quantifies over every graph of every size, so a finite test suite only samples it", "anchors": ["graphblas_algorithms/algorithms/operators/binary.py: difference"]}
{"id": "C30", "title": "symmetric_difference keeps the edges in exactly one graph", "statement": "symmetric_difference(G,H) raises iff node sets differ; otherwise edge u-v iff in exactly one of G and H, even if the two graphs number their nodes differently.", "quantifier": "every pair of graphs (of the same kind or not), in any internal node order", "why_tests_cant": "quantifies over every graph of every size, so a finite test suite only samples it", "anchors": ["graphblas_algorithms/algorithms/operators/binary.py: symmetric_difference"]}
{"id": "C31", "title": "compose is the union of nodes and edges, H taking precedence", "statement": "compose(G,H) has the nodes of both graphs and an edge u-v iff G or H has it, with H's weight when H has it.", "quantifier": "every pair of graphs", "why_tests_cant": "quantifies over every graph of every size, so a finite test suite only samples it", "anchors": ["graphblas_algorithms/algorithms/operators/binary.py: compose"]}
{"id": "C32", "title": "full_join adds all cross edges", "statement": "full_join(G,H) is the union plus an edge between every node of G and every node of H (in both directions when directed).", "quantifier": "every pair of graphs (of the same kind or not) with disjoint node sets, without rename or with one under which the nodes of each graph stay distinct", "why_tests_cant": "quantifies over every graph of every size, so a finite test suite only samples it", "anchors": ["graphblas_algorithms/algorithms/operators/binary.py: full_join"]}
{"id": "C33", "title": "complement", "statement": "complement(G) has the same nodes and an edge u-v iff u != v and G has no edge u-v; complementing twice gives back the loop-free structure of G.", "quantifier": "every graph", "why_tests_cant": "quantifies over every graph of every size, so a finite test suite only samples it", "anchors": ["graphblas_algorithms/algorithms/operators/unary.py: complement"]}
{"id": "C34", "title": "reverse is an involution that flips edges", "statement": "reverse(G) has the same nodes and edge u->v iff G has v->u with the same weight; it raises on undirected graphs; reversing twice gives G back.", "quantifier": "every graph, with copy=True", "why_tests_cant": "quantifies over every graph of every size, so a finite test suite only samples it", "anchors": ["graphblas_algorithms/algorithms/operators/unary.py: reverse", "graphblas_algorithms/classes/digraph.py: DiGraph.reverse"]}
{"id": "C35", "title": "to_undirected yields a symmetric graph", "statement": "DiGraph.to_undirected(reciprocal) has an edge u-v iff G has u->v or v->u (and, with reciprocal=True, iff it has both), the same structure both ways.", "quantifier": "every directed graph", "why_tests_cant": "quantifies over every graph of every size, so a finite test suite only samples it", "anchors": ["graphblas_algorithms/classes/digraph.py: DiGraph.to_undirected"]}
{"id": "C36", "title": "edge_boundary is the set of edges from one set to the other", "statement": "edge_boundary(G,S,T) is exactly the set of edges from S to T (T = complement of S when omitted), with their weights when weighted.", "quantifier": "every graph and node sets", "why_tests_cant": "quantifies over every graph of every size, so a finite test suite only samples it", "anchors": ["graphblas_algorithms/algorithms/boundary.py: edge_boundary", "graphblas_algorithms/nxapi/boundary.py"]}
{"id": "C37", "title": "node_boundary is the outside neighbourhood", "statement": "node_boundary(G,S,T) is exactly the set of nodes outside S (inside T when given) that are a (out-)neighbour of a node in S.", "quantifier": "every graph and node sets", "why_tests_cant": "quantifies over every graph of every size, so a finite test suite only samples it", "anchors": ["graphblas_algorithms/algorithms/boundary.py: node_boundary", "graphblas_algorithms/nxapi/boundary.py"]}
{"id": "C38", "title": "cut_size counts (or sums) the cut", "statement": "cut_size(G,S,T,weight) is the number (total weight) of edges from S to T, plus those from T to S when directed.", "quantifier": "every graph and node sets", "why_tests_cant": "quantifies over every graph of every size, so a finite test suite only samples it", "anchors": ["graphblas_algorithms/algorithms/cuts.py: cut_size", "graphblas_algorithms/nxapi/cuts.py"]}
{"id": "C39", "title": "volume is the sum of (out-)degrees", "statement": "volume(G,S,weight) is the sum over S of the (weighted) out-degrees.", "quantifier": "every graph and node set", "why_tests_cant": "quantifies over every graph of every size, so a finite test suite only samples it", "anchors": ["graphblas_algorithms/algorithms/cuts.py: volume"]}
{"id": "C40", "title": "normalized_cut_size and conductance", "statement": "normalized_cut_size = cut*(1/vol(S)+1/vol(T)) and conductance = cut/min(vol(S),vol(T)) with T the complement when omitted.", "quantifier": "every graph and node sets", "why_tests_cant": "quantifies over every graph of every size, so a finite test suite only samples it", "anchors": ["graphblas_algorithms/algorithms/cuts.py: normalized_cut_size, conductance", "graphblas_algorithms/nxapi/cuts.py"]}
{"id": "C41", "title": "edge_expansion and mixing_expansion", "statement": "edge_expansion = cut/min(|S|,|T|) and mixing_expansion = cut/(2*edges), for directed and undirected graphs, T defaulting to the complement.", "quantifier": "every graph and node sets", "why_tests_cant": "quantifies over every graph of every size, so a finite test suite only samples it", "anchors": ["graphblas_algorithms/algorithms/cuts.py: edge_expansion, mixing_expansion", "graphblas_algorithms/nxapi/cuts.py"]}
{"id": "C42", "title": "node_expansion and boundary_expansion", "statement": "node_expansion = |N(S)|/|S| and boundary_expansion = |N(S) minus S|/|S|.", "quantifier": "every graph and node set", "why_tests_cant": "quantifies over every graph of every size, so a finite test suite only samples it", "anchors": ["graphblas_algorithms/algorithms/cuts.py: node_expansion, boundary_expansion"]}
{"id": "C43", "title": "is_dominating_set", "statement": "is_dominating_set(G,S) is True iff every node outside S has a neighbour in S (an in-neighbour for directed graphs).", "quantifier": "every graph and node set", "why_tests_cant": "quantifies over every graph of every size, so a finite test suite only samples it", "anchors": ["graphblas_algorithms/algorithms/dominating.py"]}
{"id": "C44", "title": "isolates", "statement": "isolates(G) is exactly the set of nodes with no incident edge, is_isolate tests membership and number_of_isolates is its size.", "quantifier": "every graph and history", "why_tests_cant": "quantifies over every graph of every size, so a finite test suite only samples it", "anchors": ["graphblas_algorithms/algorithms/isolate.py"]}
{"id": "C45", "title": "is_regular / is_k_regular", "statement": "is_regular(G) is True iff all nodes have the same degree (in- and out-degree separately when directed); is_k_regular(G,k) iff all degrees equal k.", "quantifier": "every graph and k", "why_tests_cant": "quantifies over every graph of every size, so a finite test suite only samples it", "anchors": ["graphblas_algorithms/algorithms/regular.py", "graphblas_algorithms/nxapi/regular.py"]}
{"id": "C46", "title": "is_tournament", "statement": "is_tournament(G) is True iff there are no self-loops and exactly one of u->v, v->u is an edge for every two distinct nodes.", "quantifier": "every directed graph", "why_tests_cant": "quantifies over every graph of every size, so a finite test suite only samples it", "anchors": ["graphblas_algorithms/algorithms/tournament.py: is_tournament"]}
{"id": "C47", "title": "score_sequence is the sorted list of all out-degrees", "statement": "score_sequence(G) is sorted, has one element per node and is a permutation of the out-degrees (zeros included).", "quantifier": "every directed graph", "why_tests_cant": "quantifies over every graph of every size, so a finite test suite only samples it", "anchors": ["graphblas_algorithms/algorithms/tournament.py: score_sequence"]}
{"id": "C48", "title": "is_simple_path", "statement": "is_simple_path(G,nodes) is True iff nodes is non-empty, all are nodes of G, none repeats and consecutive ones are joined by an edge.", "quantifier": "every graph and list of objects", "why_tests_cant": "quantifies over every graph of every size, so a finite test suite only samples it", "anchors": ["graphblas_algorithms/algorithms/simple_paths.py"]}
{"id": "C49", "title": "reciprocity", "statement": "reciprocity(G)[v] is 2*#(u<->v)/total_degree(v), for any subset of nodes; overall_reciprocity = (number of ordered reciprocated pairs of distinct nodes)/edges.", "quantifier": "every directed graph, node subset and history", "why_tests_cant": "the answer depends on which of dozens of cached values earlier calls left behind; the number of histories is unbounded", "anchors": ["graphblas_algorithms/algorithms/reciprocity.py", "graphblas_algorithms/nxapi/reciprocity.py"]}
{"id": "C50", "title": "s_metric", "statement": "s_metric(G) is the sum over edges (u,v) of deg(u)*deg(v).", "quantifier": "every graph", "why_tests_cant": "quantifies over every graph of every size, so a finite test suite only samples it", "anchors": ["graphblas_algorithms/algorithms/smetric.py"]}
{"id": "C51", "title": "intra_/inter_community_edges", "statement": "intra_community_edges counts the edges inside a block of the partition, inter_community_edges those between blocks; together they count every edge once.", "quantifier": "every graph and partition", "why_tests_cant": "quantifies over every graph of every size, so a finite test suite only samples it", "anchors": ["graphblas_algorithms/algorithms/community/quality.py"]}
{"id": "C52", "title": "mutual_weight is the symmetric pair weight", "statement": "mutual_weight(G,u,v) = w(u,v)+w(v,u) with missing edges and unknown nodes counting 0, and is symmetric in u and v.", "quantifier": "every graph and pair of objects", "why_tests_cant": "quantifies over every graph of every size, so a finite test suite only samples it", "anchors": ["graphblas_algorithms/algorithms/structuralholes.py"]}
{"id": "C53", "title": "degree centralities", "statement": "degree_centrality(v) = degree/(n-1) (in/out variants likewise) and is 1 for every node when n <= 1.", "quantifier": "every graph", "why_tests_cant": "quantifies over every graph of every size, so a finite test suite only samples it", "anchors": ["graphblas_algorithms/algorithms/centrality/degree_alg.py", "graphblas_algorithms/nxapi/centrality/degree_alg.py"]}
{"id": "C54", "title": "could_be_isomorphic tests are isomorphism invariant", "statement": "if two graphs are isomorphic, fast_could_be_isomorphic and faster_could_be_isomorphic return True.", "quantifier": "every pair of isomorphic graphs", "why_tests_cant": "all isomorphic pairs", "anchors": ["graphblas_algorithms/algorithms/isomorphism/isomorph.py"]}
{"id": "C55", "title": "Graph matrices follow their definitions", "statement": "adjacency_matrix, laplacian_matrix (rows sum to zero), normalized_laplacian, modularity and bethe_hessian matrices have exactly the entries of their textbook definition, with nodelist selecting and ordering rows and columns.", "quantifier": "every graph and nodelist", "why_tests_cant": "quantifies over every graph of every size, so a finite test suite only samples it", "anchors": ["graphblas_algorithms/linalg/graphmatrix.py", "graphblas_algorithms/linalg/laplacianmatrix.py", "graphblas_algorithms/linalg/modularitymatrix.py", "graphblas_algorithms/linalg/bethehessianmatrix.py"]}
{"id": "C56", "title": "google_matrix is row stochastic", "statement": "every row of google_matrix(G) sums to 1, with default, personalised or dangling distributions, and for every nodelist.", "quantifier": "every graph, alpha, personalisation, dangling vector and nodelist", "why_tests_cant": "quantifies over every graph of every size, so a finite test suite only samples it", "anchors": ["graphblas_algorithms/algorithms/link_analysis/pagerank_alg.py: google_matrix"]}
{"id": "C57", "title": "pagerank preserves probability mass and meets its tolerance", "statement": "every iterate of pagerank sums to the same total as the start vector and a returned vector is a fixed point up to an L1 residual below N*tol; otherwise ConvergenceFailure is raised.", "quantifier": "every graph and parameters, in exact arithmetic", "why_tests_cant": "all inputs and iteration counts", "anchors": ["graphblas_algorithms/algorithms/link_analysis/pagerank_alg.py: pagerank", "graphblas_algorithms/algorithms/_helpers.py: is_converged"]}
{"id": "C58", "title": "power iterations return only converged vectors", "statement": "eigenvector_centrality, katz_centrality and hits return a vector only if the last step changed it by less than N*tol (L1), and raise ConvergenceFailure otherwise.", "quantifier": "every graph and parameters, in exact arithmetic", "why_tests_cant": "all inputs and iteration counts", "anchors": ["graphblas_algorithms/algorithms/centrality/eigenvector.py", "graphblas_algorithms/algorithms/centrality/katz.py", "graphblas_algorithms/algorithms/link_analysis/hits_alg.py", "graphblas_algorithms/algorithms/_helpers.py"]}
{"id": "C59", "title": "ego_graph is the induced subgraph on the ball", "statement": "ego_graph(G,n,radius,center,undirected) is the subgraph of G induced on the nodes within radius of n (centre removed if center=False), with the original weights.", "quantifier": "every graph, node, radius and options", "why_tests_cant": "quantifies over every graph of every size, so a finite test suite only samples it", "anchors": ["graphblas_algorithms/generators/ego.py"]}
{"id": "C60", "title": "NodeMap behaves like a dict keyed by nodes", "statement": "a NodeMap obeys the mapping laws: m[k] after m[k]=v is v and other keys are unchanged, del removes only k, len counts entries, iteration yields each key once, fill values and values_are_keys included.", "quantifier": "every NodeMap state and operation sequence", "why_tests_cant": "all operation sequences", "anchors": ["graphblas_algorithms/classes/nodemap.py: NodeMap"]}
{"id": "C61", "title": "NodeSet behaves like a set of nodes", "statement": "add, discard, remove, clear, len, iteration and membership agree with a set of nodes after any sequence of operations.", "quantifier": "every NodeSet and operation sequence", "why_tests_cant": "all operation sequences", "anchors": ["graphblas_algorithms/classes/nodeset.py"]}
{"id": "C62", "title": "VectorMap / VectorNodeMap / NodeNodeMap behave like nested dicts", "statement": "getting, setting, deleting, counting and iterating rows and entries agree with a dict of dicts.", "quantifier": "every map and operation sequence", "why_tests_cant": "all operation sequences", "anchors": ["graphblas_algorithms/classes/nodemap.py: VectorMap, VectorNodeMap, NodeNodeMap"]}
{"id": "C63", "title": "Key/id conversions are inverse", "statement": "list_to_ids/list_to_keys, dict_to_vector/vector_to_dict, set_to_vector/vector_to_set, list_to_vector/vector_to_list, renumber_key_to_id are mutually inverse on the nodes of the graph, and unknown nodes raise KeyError (or are skipped with ignore_extra).", "quantifier": "every node numbering and collection", "why_tests_cant": "quantifies over every graph of every size, so a finite test suite only samples it", "anchors": ["graphblas_algorithms/classes/_utils.py"]}
{"id": "C64", "title": "networkx round trip", "statement": "to_networkx(from_networkx(G)) has the same nodes in the same order and the same weighted edges; from_networkx numbers nodes in iteration order.", "quantifier": "every networkx graph without multi-edges", "why_tests_cant": "quantifies over every graph of every size, so a finite test suite only samples it", "anchors": ["graphblas_algorithms/classes/_utils.py: from_networkx, to_networkx"]}
{"id": "C65", "title": "matrix_to_dicts lists exactly the entries", "statement": "matrix_to_dicts(A) maps row r to column c to value x iff A has the entry (r,c)=x, for index or key labels.", "quantifier": "every matrix", "why_tests_cant": "quantifies over every graph of every size, so a finite test suite only samples it", "anchors": ["graphblas_algorithms/classes/_utils.py: matrix_to_dicts"]}
{"id": "C66", "title": "partition and split_evenly cut a list into even consecutive chunks", "statement": "partition(chunksize,L) concatenates to L, every chunk has between 1 and chunksize elements; split_evenly(k,L) yields k chunks whose sizes differ by at most one and that concatenate to L.", "quantifier": "every list and chunk size", "why_tests_cant": "every length/size combination", "anchors": ["graphblas_algorithms/nxapi/_utils.py: partition, split_evenly"]}
{"id": "C67", "title": "normalize_chunksize yields a usable size", "statement": "normalize_chunksize(c, itemsize, N) is None (no chunking) or an integer strictly between 0 and N, monotone in the requested size. A number is truncated; text '<number><unit>' (case, spaces and underscores ignored) means that many items, that many bytes worth of items (decimal and binary units, at least one item) or the size that gives that many chunks, rounded to the nearest integer (ties to even); text without a number means one of the unit; unreadable text raises ValueError.", "quantifier": "every requested size, item size and N", "why_tests_cant": "every number", "anchors": ["graphblas_algorithms/nxapi/_utils.py: normalize_chunksize"]}
{"id": "C68", "title": "Graph conversion at the interface picks the weight networkx would use", "statement": "convert_from_nx returns a graph of the requested directedness whose weights follow edge_attrs/preserve_edge_attrs: unit weights iff no weight was requested, the attribute with its default otherwise.", "quantifier": "every combination of conversion options", "why_tests_cant": "all option combinations", "anchors": ["graphblas_algorithms/interface.py: Dispatcher.convert_from_nx"]}
{"id": "C69", "title": "Every algorithm leaves the graph's cache consistent", "statement": "after any algorithm call, successful or raising, every later get_property call is still answered correctly (no algorithm corrupts the cache).", "quantifier": "every graph, algorithm and history", "why_tests_cant": "the answer depends on which of dozens of cached values earlier calls left behind; the number of histories is unbounded", "anchors": ["graphblas_algorithms/classes/_utils.py: _cacheit", "graphblas_algorithms/algorithms/*"]}
{"id": "C70", "title": "Algorithms treat isomorphic numberings alike", "statement": "renumbering the nodes (a different key_to_id for the same graph) does not change any node-keyed answer of reachability, distances, degrees and triangle counts, cut sizes, volumes and expansions, reciprocity, regularity, tournament and domination tests, the k-truss, graph matrices for a given nodelist, PageRank, eigenvector, Katz and HITS scores, nor the graphs the operators build.", "quantifier": "every two graphs with the same directedness, nodes and edge weights, whatever their numbering, dtype and iso flag, each call after its own history; arguments that are nodes of the graph (bfs_layers, triangles, clustering, reciprocity), explicit nodelists (matrices), usable start values (rank and centrality scores), equal or disjoint node sets (compose), renames that keep nodes distinct", "why_tests_cant": "all permutations", "anchors": ["graphblas_algorithms/classes/_utils.py", "graphblas_algorithms/algorithms/*"]}
{"id": "C71", "title": "What may be passed as a graph means the same graph everywhere", "statement": "every function accepts one of the library's graphs (used with its cache), a networkx graph (its nodes in order, its edges with the requested attribute, 1 where missing, as weight) or a square Matrix (nodes 0..n-1, weights = entries); functions for undirected/directed graphs refuse the other kind with NetworkXNotImplemented; anything else is a TypeError; so the answer on a networkx graph is the textbook answer for that networkx graph.", "quantifier": "every argument of every kind", "why_tests_cant": "quantifies over every graph of every size, so a finite test suite only samples it", "anchors": ["graphblas_algorithms/classes/graph.py: to_undirected_graph", "graphblas_algorithms/classes/digraph.py: to_directed_graph, to_graph", "graphblas_algorithms/utils/decorators.py: not_implemented_for"]}
{"id": "C72", "title": "Results handed back to networkx keep nodes, edges and values", "statement": "a graph result becomes a networkx graph with the same direction, nodes and edges, the weights as 'weight'; every matrix-returning function has a container assigned and every entry keeps its place and value, absent entries meaning what they mean in networkx' own result.", "quantifier": "every graph/matrix result of the dispatcher", "why_tests_cant": "quantifies over every graph of every size, so a finite test suite only samples it", "anchors": ["graphblas_algorithms/interface.py: Dispatcher.convert_to_nx, convert_from_nx", "graphblas_algorithms/classes/_utils.py: to_networkx"]}
{"id": "C73", "title": "No call changes existing data, and results are independent", "statement": "calling any function of the algorithm, linear-algebra or NetworkX-like API, however it ends, leaves every object that existed before (the matrices and cached properties of all graphs, the vectors passed as arguments, the results of earlier calls) as it was; what it returns or yields is a new object no graph holds, so the caller may update it in place without changing any later answer. Over any history of calls, of in-place updates of objects the caller was given, and of graphs built from them, the data of a graph never changes. (Accessors that hand out the graph's own objects are outside: get_property, G.matrix, Graph(A) and reverse(copy=False).)", "quantifier": "every public function, every argument object, every execution path (also exceptional), every history of calls and updates by the caller", "why_tests_cant": "aliasing bugs show only for particular combinations of cache state, argument and later update; tests compare values of single calls", "anchors": ["graphblas_algorithms/algorithms/*.py, linalg/*.py, generators/ego.py: all functions", "graphblas_algorithms/nxapi/*.py: all functions", "graphblas_algorithms/classes/graph.py, graphblas_algorithms/classes/digraph.py, graphblas_algorithms/classes/_caching.py: getters", "graphblas_algorithms/classes/_utils.py: vector_to_nodemap, _cacheit"]}
{"id": "C74", "title": "All reachability and distance functions agree", "statement": "has_path(u,v), v in descendants(u), u in ancestors(v), v in single_source_shortest_path_length(u), u in single_target_shortest_path_length(v) and (u,v) in floyd_warshall without weights all say the same (u itself apart); the lengths of single source, single target, bidirectional_shortest_path_length, all pairs, floyd_warshall and floyd_warshall_predecessor_and_distance are the same; descendants_at_distance(u,d) and the d-th of bfs_layers(u) are the nodes at length d; efficiency is 1/length or 0.", "quantifier": "every graph and pair of nodes, each call after its own arbitrary history", "why_tests_cant": "agreement of different entry points over all graphs and all histories; a test compares two functions on a handful of graphs", "anchors": ["graphblas_algorithms/algorithms/shortest_paths/*", "graphblas_algorithms/algorithms/dag.py", "graphblas_algorithms/algorithms/traversal/breadth_first_search.py", "graphblas_algorithms/algorithms/efficiency_measures.py"]}
{"id": "C75", "title": "Returned distances are a metric", "statement": "the lengths returned by single_source_shortest_path_length and floyd_warshall satisfy d(u,u)=0, d(u,v)=0 only for u=v (unweighted), d(u,v)=1 iff there is an edge, the triangle inequality (including: if both legs are present the sum is), d(u,v)<=weight of the edge, symmetry on undirected graphs, and d(u,v)+d(v,u)>=0 without negative cycles.", "quantifier": "every graph and triple of nodes, every history", "why_tests_cant": "agreement of different entry points over all graphs and all histories; a test compares two functions on a handful of graphs", "anchors": ["graphblas_algorithms/algorithms/shortest_paths/*"]}
{"id": "C76", "title": "All weighted shortest-path functions agree", "statement": "single_source_bellman_ford_path_length, bellman_ford_path_length, all_pairs_bellman_ford_path_length and weighted floyd_warshall return the same lengths; bellman_ford_path is a path of that length, empty exactly when there is no length; negative_edge_cycle is True iff single_source_bellman_ford_path_length raises Unbounded for some source.", "quantifier": "every weighted graph and pair of nodes, every history", "why_tests_cant": "agreement of different entry points over all graphs and all histories; a test compares two functions on a handful of graphs", "anchors": ["graphblas_algorithms/algorithms/shortest_paths/weighted.py", "graphblas_algorithms/algorithms/shortest_paths/dense.py"]}
{"id": "C77", "title": "Connected components partition the graph", "statement": "node_connected_component(u) contains u; two components are equal if has_path(u,v) and disjoint otherwise; is_connected iff a component has as many elements as the graph has nodes.", "quantifier": "every undirected graph and pair of nodes, every history", "why_tests_cant": "agreement of different entry points over all graphs and all histories; a test compares two functions on a handful of graphs", "anchors": ["graphblas_algorithms/algorithms/components/connected.py", "graphblas_algorithms/algorithms/shortest_paths/generic.py"]}
{"id": "C78", "title": "Reversing a graph exchanges the directed notions", "statement": "on reverse(G): descendants = ancestors on G and conversely, has_path(u,v) = has_path(v,u), single source lengths (with cutoff) = single target lengths, floyd_warshall is transposed, out_degree_centrality = in_degree_centrality; is_weakly_connected, is_tournament, reciprocity and overall_reciprocity are unchanged.", "quantifier": "every directed graph, node pair, cutoff and history", "why_tests_cant": "agreement of different entry points over all graphs and all histories; a test compares two functions on a handful of graphs", "anchors": ["graphblas_algorithms/algorithms/operators/unary.py: reverse", "graphblas_algorithms/algorithms/dag.py", "graphblas_algorithms/algorithms/centrality/degree_alg.py", "graphblas_algorithms/algorithms/reciprocity.py", "graphblas_algorithms/algorithms/tournament.py"]}
{"id": "C79", "title": "cutoff and radius only cut", "statement": "single_source_shortest_path_length(u,cutoff=c) is the uncut answer restricted to lengths <= max(c,0); growing c only adds; c >= n-1 is no cutoff. ego_graph(G,u,r) has exactly the nodes of single_source_shortest_path_length(u,cutoff=r), grows with r keeping edges, and for r >= n-1 is the part reachable from u; center=False leaves out u only, undirected=True only adds.", "quantifier": "every graph, node, cutoff/radius and history", "why_tests_cant": "agreement of different entry points over all graphs and all histories; a test compares two functions on a handful of graphs", "anchors": ["graphblas_algorithms/algorithms/shortest_paths/unweighted.py", "graphblas_algorithms/generators/ego.py"]}
{"id": "C80", "title": "The graph operators obey the laws of set algebra", "statement": "complement is an involution on loop-free graphs up to weights, intersection is commutative, associative, idempotent up to weights, G-G is edgeless, symmetric_difference is symmetric and the disjoint union of the two differences, compose(G-H, G^H) = G, G-H = G ^ complement(H), De Morgan for complement/intersection/compose, compose(G,complement(G)) is complete, reverse commutes with complement, intersection and difference, complement(full_join(G,H)) = union(complement G, complement H).", "quantifier": "every pair/triple of graphs over the same nodes (arbitrary numberings)", "why_tests_cant": "agreement of different entry points over all graphs and all histories; a test compares two functions on a handful of graphs", "anchors": ["graphblas_algorithms/algorithms/operators/unary.py", "graphblas_algorithms/algorithms/operators/binary.py"]}
{"id": "C81", "title": "Counts add up", "statement": "the sum of triangles(G) is three times the number of triangles; transitivity = 6*triangles / ordered connected triples; degree_centrality sums to 2|E|/(n-1); in- and out-degree centralities both sum to |E|/(n-1) and score_sequence to |E|, which for a tournament is n(n-1)/2; a row of generalized_degree sums to the degree and, weighted by the triangle numbers, to twice triangles(v).", "quantifier": "every graph and history", "why_tests_cant": "agreement of different entry points over all graphs and all histories; a test compares two functions on a handful of graphs", "anchors": ["graphblas_algorithms/algorithms/cluster.py", "graphblas_algorithms/algorithms/centrality/degree_alg.py", "graphblas_algorithms/algorithms/tournament.py"]}
{"id": "C82", "title": "k-trusses are nested and stable", "statement": "the k'-truss is a subgraph of the k-truss for k<=k'; the answer does not depend on internal evaluation choices; for k<=2 exactly the self-loops and the nodes without other neighbours go, weights kept; every node of the k-truss has k-1 or more neighbours in it and a non-empty k-truss k or more nodes; k_truss(k_truss(G,k),k) = k_truss(G,k).", "quantifier": "every undirected graph, k and history", "why_tests_cant": "agreement of different entry points over all graphs and all histories; a test compares two functions on a handful of graphs", "anchors": ["graphblas_algorithms/algorithms/core.py: k_truss"]}
{"id": "C83", "title": "Cuts, boundaries, volumes and domination agree", "statement": "cut_size is symmetric; on undirected graphs cut_size(S) = cut_size(V-S) = cut_size(S,V-S); cut_size is the number (weight) of the edges edge_boundary lists, in both directions for directed graphs; node_boundary(S) are the heads of edge_boundary(S); is_dominating_set(S) iff node_boundary(S) = V-S; volume(S)+volume(V-S) = 2|E| (|E| if directed), volume is additive on disjoint sets; normalized_cut_size and conductance are symmetric and conductance = cut_size/min(volume).", "quantifier": "every graph, node sets and histories", "why_tests_cant": "agreement of different entry points over all graphs and all histories; a test compares two functions on a handful of graphs", "anchors": ["graphblas_algorithms/algorithms/cuts.py", "graphblas_algorithms/algorithms/boundary.py", "graphblas_algorithms/algorithms/dominating.py"]}
{"id": "C84", "title": "Coefficients lie between 0 and 1", "statement": "clustering and average_clustering (weights, if used, non-negative; directed graphs without self-loops), transitivity, square_clustering (loop-free unweighted graphs), reciprocity, overall_reciprocity, efficiency, the degree centralities of loop-free graphs and conductance of undirected graphs return values in [0,1].", "quantifier": "every graph, argument and history", "why_tests_cant": "quantifies over every graph of every size, so a finite test suite only samples it", "anchors": ["graphblas_algorithms/algorithms/cluster.py", "graphblas_algorithms/algorithms/reciprocity.py", "graphblas_algorithms/algorithms/efficiency_measures.py", "graphblas_algorithms/algorithms/centrality/degree_alg.py", "graphblas_algorithms/algorithms/cuts.py"]}
{"id": "C85", "title": "is_triad and tournament_matrix", "statement": "is_triad(G) is True iff G is directed, has exactly three nodes and no self-loop; tournament_matrix(G) has at (u,v) the weight of u->v minus the weight of v->u, stored exactly where one of the two edges exists, so it is antisymmetric, and for an unweighted tournament it is 0 on the diagonal and 1 or -1 elsewhere; undirected graphs are refused.", "quantifier": "every graph and history", "why_tests_cant": "quantifies over every graph of every size, so a finite test suite only samples it", "anchors": ["graphblas_algorithms/algorithms/triads.py: is_triad", "graphblas_algorithms/algorithms/tournament.py: tournament_matrix"]}
{"id": "C86", "title": "The operators accept any kind of graph argument", "statement": "union, disjoint_union, intersection, difference, symmetric_difference, compose, full_join, complement and reverse accept graphblas_algorithms graphs, networkx graphs and square Matrices in any combination; the result is the operator applied to the graphs the arguments stand for (a networkx graph with unit weights, a Matrix as a directed graph); other arguments raise TypeError, non-square matrices ValueError; a result always is a proper graph of the first argument's kind.", "quantifier": "every pair of arguments of every kind", "why_tests_cant": "quantifies over every graph of every size, so a finite test suite only samples it", "anchors": ["graphblas_algorithms/nxapi/operators/binary.py", "graphblas_algorithms/nxapi/operators/unary.py", "graphblas_algorithms/classes/digraph.py: to_graph"]}
{"id": "C87", "title": "Scores of hits, eigenvector_centrality and katz_centrality are normalised", "statement": "With non-negative weights and start vector all scores of hits, eigenvector_centrality and katz_centrality are >= 0; normalised hits scores (hubs and authorities) each sum to 1 unless all are 0; unnormalised ones lie in [0,1] with maximum 1 unless all are 0; a node without successors has hub score 0, one without predecessors authority score 0; eigenvector scores and normalised katz scores have Euclidean length 1 up to the error of the square root; unnormalised katz scores are at least beta.", "quantifier": "every graph, start vector, tolerance and iteration limit for which the call returns; for normalised hits and for katz the start vector (and beta) covering the nodes that the iteration needs, as in C58", "why_tests_cant": "quantifies over every graph of every size, so a finite test suite only samples it", "anchors": ["graphblas_algorithms/nxapi/link_analysis/hits_alg.py", "graphblas_algorithms/nxapi/centrality/eigenvector.py", "graphblas_algorithms/nxapi/centrality/katz.py", "graphblas_algorithms/algorithms/link_analysis/hits_alg.py", "graphblas_algorithms/algorithms/centrality/eigenvector.py", "graphblas_algorithms/algorithms/centrality/katz.py"]}
{"id": "C88", "title": "NodeSet operators agree with set algebra", "statement": "For a returned NodeSet s and any other operand (a python set, a list, another NodeSet, s itself): s <= o, s < o, s >= o, s > o and s == o, isdisjoint and isdisjoin answer as the corresponding relation of sets, s & o, s | o, s - o, o - s and s ^ o give exactly the NodeSet of that combination, s |= o, s &= o, s -= o, s ^= o leave exactly that set, union gives exactly the python set, unless an element that is not a node of the graph is involved: then KeyError, and an in-place operator has treated exactly the elements before it.", "quantifier": "every NodeSet over every graph, every operand of each of the four kinds, every iteration order of the operand", "why_tests_cant": "tests combine a few literal sets; the operators are inherited from collections.abc and run membership tests that raise for foreign keys, so the answer depends on sizes, iteration order and early exits.", "anchors": ["graphblas_algorithms/classes/nodeset.py: NodeSet.__contains__, __iter__, __len__, add, discard, __eq__, isdisjoin, clear, _from_iterable, union, copy (and the methods inherited from collections.abc.MutableSet)"]}
{"id": "C89", "title": "Views, equality and update of the returned maps", "statement": "For a returned NodeMap (with or without fill value, or with nodes as values), VectorMap, VectorNodeMap or NodeNodeMap: items() lists every key once with the value shown for it and agrees with keys(), values() and len(); (k, x) in items() and x in values() answer accordingly; == with a python dict is true exactly for the dict shown, == of two maps of one graph exactly when they show the same dict; update assigns the pairs from left to right up to the first key that is not a node, which raises KeyError; setdefault of a VectorNodeMap returns the row or stores the default.", "quantifier": "every map over every graph, every fill value, every dict compared with, every list of updates", "why_tests_cant": "tests compare a few literal maps; equality takes different paths by type (vectors, matrices, dict of items), some of which ignore the fill value or compare positions.", "anchors": ["graphblas_algorithms/classes/nodemap.py: NodeMap, VectorMap, VectorNodeMap, NodeNodeMap: __eq__, __iter__, __getitem__, __setitem__ (and the methods inherited from collections.abc.MutableMapping: items, values, update, setdefault)"]}
{"id": "C90", "title": "Errors reach the caller as networkx's exception classes", "statement": "A failing call of the networkx-style functions raises the class networkx documents: NodeNotFound for a missing node of has_path, the unweighted and the Bellman-Ford functions; NetworkXNoPath and NetworkXUnbounded for missing paths and negative cycles; NetworkXError for a missing source of descendants, ancestors, bfs_layers and descendants_at_distance, for the arguments the operators refuse, for an isolated node or an empty graph of reciprocity and for a start vector that sums to zero; NetworkXPointlessConcept for a null graph; PowerIterationFailedConvergence (ArpackNoConvergence for hits) when the iteration does not converge; NetworkXNotImplemented for the wrong kind of graph - and no exception class of the package itself gets out.", "quantifier": "every graph, every argument, every consistent state of the cache; the exception hierarchy of python, networkx and the package", "why_tests_cant": "tests provoke one or two failures per function; which class gets out depends on every exception that any code path below can raise and on the order of the except clauses.", "anchors": ["graphblas_algorithms/algorithms/exceptions.py", "graphblas_algorithms/nxapi/exception.py", "graphblas_algorithms/nxapi/shortest_paths/weighted.py", "graphblas_algorithms/nxapi/shortest_paths/generic.py: has_path", "graphblas_algorithms/nxapi/shortest_paths/unweighted.py", "graphblas_algorithms/nxapi/shortest_paths/dense.py: floyd_warshall_numpy", "graphblas_algorithms/nxapi/traversal/breadth_first_search.py", "graphblas_algorithms/nxapi/dag.py", "graphblas_algorithms/nxapi/components/connected.py", "graphblas_algorithms/nxapi/components/weakly_connected.py", "graphblas_algorithms/nxapi/reciprocity.py", "graphblas_algorithms/nxapi/operators/binary.py", "graphblas_algorithms/nxapi/operators/unary.py", "graphblas_algorithms/nxapi/centrality/eigenvector.py", "graphblas_algorithms/nxapi/centrality/katz.py", "graphblas_algorithms/nxapi/link_analysis/hits_alg.py", "graphblas_algorithms/nxapi/link_analysis/pagerank_alg.py"]}
{"id": "C91", "title": "pagerank and katz_centrality answer whatever was called on the graph before", "statement": "In a session on one graph pagerank and katz_centrality give the answers of C57 and C58 whatever functions were called before, in particular after the Bellman-Ford functions, ego_graph with a distance, or get_property('is_iso'); and if they fail, a later call does not make matters worse or better.", "quantifier": "every graph, every session of public calls and get_property calls with arbitrary arguments, returning or raising", "why_tests_cant": "tests call one function on a fresh graph; the failure needs two particular functions on the same graph, in one order only, and a graph whose weights are not all equal.", "anchors": ["graphblas_algorithms/classes/graph.py: is_iso, get_iso_value", "graphblas_algorithms/algorithms/link_analysis/pagerank_alg.py: pagerank", "graphblas_algorithms/algorithms/centrality/katz.py: katz_centrality", "graphblas_algorithms/algorithms/shortest_paths/weighted.py: single_source_bellman_ford_path_length, bellman_ford_path_length, bellman_ford_path"]}
{"id": "C92", "title": "The public functions work on library graphs, networkx graphs and Matrices alike", "statement": "Every public function accepts a graph of this library, a networkx graph or a square graphblas Matrix and gives the documented answer for the graph the argument stands for: for a networkx graph its nodes, its edges and the attribute named by weight/distance/data (1 where an edge has none, 1 everywhere for None) and no other attribute; for a Matrix its row numbers and entries. The wrong kind of graph is refused with NetworkXNotImplemented, a non-square Matrix with ValueError, anything else with TypeError (AttributeError behind a decorator). Converting a networkx graph beforehand gives the same answer.", "quantifier": "every public function, every argument of each kind, every attribute name, every consistent cache state of a library graph", "why_tests_cant": "tests pass a few networkx graphs through the dispatcher; which attribute is read, which class is built and what is refused is decided separately in each function.", "anchors": ["graphblas_algorithms/nxapi (all modules)", "graphblas_algorithms/classes/digraph.py: to_graph, to_directed_graph", "graphblas_algorithms/classes/graph.py: to_undirected_graph", "graphblas_algorithms/utils/decorators.py: not_implemented_for"]}
{"id": "C93", "title": "Generators give the right items however they are consumed", "statement": "bfs_layers, all_pairs_shortest_path_length and all_pairs_bellman_ford_path_length may be consumed item by item, given up at any point, and interleaved with other calls and other generators on the same graph: every item pulled is right and in the promised order, none is repeated, exhaustion means that nothing is missing, and a failure happens only for the documented reasons, the wrong arguments at the first next(). The graph is left consistent. A networkx graph may be changed after the first next() without effect on the items.", "quantifier": "every graph and argument, every number of pulls, every sequence of public calls, get_property calls and next() of other generators between two pulls, every change of a networkx argument after the first pull", "why_tests_cant": "tests turn the generator into a list at once; the computation of later items then never sees a cache that another call has changed meanwhile.", "anchors": ["graphblas_algorithms/nxapi/traversal/breadth_first_search.py: bfs_layers", "graphblas_algorithms/nxapi/shortest_paths/unweighted.py: all_pairs_shortest_path_length", "graphblas_algorithms/nxapi/shortest_paths/weighted.py: all_pairs_bellman_ford_path_length", "graphblas_algorithms/algorithms/traversal/breadth_first_search.py: bfs_layers"]}
{"id": "C94", "title": "Multigraphs are refused or counted with all their parallel edges", "statement": "Every public function given a MultiGraph or MultiDiGraph, of networkx or of this library, either refuses it (NetworkXNotImplemented, for the operators NotImplementedError or NetworkXError) or gives the answer that takes each parallel edge into account: sums of weights and counts of parallel edges in cut_size, volume, edge_boundary and the graph matrices, and reachability as in the simple graph with the same adjacent pairs. The decision does not depend on whether the multigraph comes from networkx or from this library. Conversion gives a multigraph of this library with the same nodes, whose value for a pair of nodes is the sum over the parallel edges. Simple graphs are treated as if multigraphs did not exist.", "quantifier": "every public function, every networkx multigraph with any number of parallel edges and any edge attributes, every library multigraph in every consistent cache state", "why_tests_cant": "tests pass one or two small multigraphs to a few functions, mostly to see that they are refused; which function counts, sums or drops parallel edges is decided separately in each of them.", "anchors": ["graphblas_algorithms/classes/graph.py: MultiGraph", "graphblas_algorithms/classes/digraph.py: MultiDiGraph", "graphblas_algorithms/utils/decorators.py: not_implemented_for", "graphblas_algorithms/classes/_utils.py: from_networkx", "graphblas_algorithms/nxapi/boundary.py: edge_boundary", "graphblas_algorithms/nxapi/cuts.py: cut_size, volume", "graphblas_algorithms/algorithms/operators/binary.py", "graphblas_algorithms/interface.py: Dispatcher.convert_from_nx"]}
{"id": "C95", "title": "Graph attributes belong to one graph and survive reversal and conversion", "statement": "G.graph and G.name show what was last assigned through that graph, and a graph without a name has the name ''. Operations on other graphs never change an attribute of G (a mutable object reachable from two graphs can be changed through either). G.reverse() has the attributes of G, and from then on nothing done to one of them shows in the other, mutable values included; two attributes with the same object as value still share one in the copy. convert_from_nx(..., preserve_graph_attrs=True) gives the attributes of the networkx graph, without the flag none. Converting a graph to the library and back keeps its attributes.", "quantifier": "every history of constructors, reads and writes of attributes (also in place), reversals, conversions and operators, over any number of graph objects", "why_tests_cant": "sharing of mutable values shows only after particular sequences of writes through two graphs.", "anchors": ["graphblas_algorithms/classes/graph.py: Graph.__init__, name", "graphblas_algorithms/classes/digraph.py: DiGraph.__init__, name, reverse, to_undirected", "graphblas_algorithms/interface.py: Dispatcher.convert_from_nx, convert_to_nx", "graphblas_algorithms/classes/_utils.py: to_networkx"]}
