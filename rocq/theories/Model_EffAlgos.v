(** * The algorithms and the NetworkX-like functions as effect programs

    Every function of algorithms/, linalg/ and generators/, and every function
    of nxapi/, reduced to the objects it makes, shares, updates in place and
    hands out (Model_Effects.v).  How to read a program:
    - [New x]: [x] is a number, a Python list, dict or array, or the result of
      [.new()], [.dup()], [.diag()], [Vector(...)], [from_coo]: a new object;
    - [Mut x] for [x << ..], [x(..) << ..], [x[..] = ..], [del x[..]], [x *= ..];
    - expressions that only read ([A @ x], [.get], [.nvals], [.reduce()], ...)
      leave no trace, so arguments that are only read are not bound;
    - a dict or list of nodes given by the user is only read; the conversions
      of classes/_utils.py:58-109 make a new Vector ([New]);
    - [to_graph] and its variants (classes/graph.py:252-269,
      classes/digraph.py:374-411) give the caller's graph or a new one: its
      objects are in [held] either way;
    - NodeMap, NodeSet, NodeNodeMap and VectorNodeMap wrap the object given
      (classes/nodemap.py:9-12, 198-202, 312-318, classes/nodeset.py:9-12), so
      the result is a [View] of it.
    The dicts [_key_to_id] and [_id_to_key] that derived graphs and containers
    share are never updated in place by the code and are left out; so is the
    [name] attribute of the objects. *)
From Coq Require Import List String.
From Verif Require Import Model_Effects.
Import ListNotations.
Open Scope string_scope.

(** ** algorithms/_helpers.py *)

(** _helpers.py:4-18: [x *= 1.0 / denom] changes the caller's vector. *)
Definition e_normalize : stmt := block [New "denom"; cond [Mut "x"]; View "ret" "x"].
(** algorithms/_helpers.py 4-18 *)
Definition c_normalize (x : var) : stmt := Call "_" [("x", x)] e_normalize "ret".
(** _helpers.py:21-29: "This modifies `xprev`". *)
Definition e_is_converged : stmt := block [Mut "xprev"; Mut "xprev"; New "err"; New "ret"].
(** algorithms/_helpers.py 21-29 *)
Definition c_is_converged (xprev : var) : stmt := Call "_" [("xprev", xprev)] e_is_converged "ret".
(** for example algorithms/link_analysis/pagerank_alg.py 84: [a, b = b, a]. *)
Definition swap (a b : var) : stmt := block [View "swp" a; View a b; View b "swp"].

(** ** algorithms/_bfs.py *)

(** [A = G.get_property("offdiag")], [A = A.T] if [transpose] (_bfs.py:28-30, 58-60, 118-120). *)
Definition bfs_matrix : stmt := block [GetP "A" "offdiag"; cond [View "A" "A"]].
(** _bfs.py:15-45. *)
Definition e_bfs_plain : stmt :=
  block [ bfs_matrix; New "v"; New "q"; Mut "v"; Mut "q";
          Loop (block [Mut "q"; cond [Mut "v"]]);
          View "ret" "v" ].
(** _bfs.py:48-75. *)
Definition e_bfs_level : stmt :=
  block [ bfs_matrix; New "v"; New "q"; Mut "v"; Mut "q";
          Loop (block [Mut "q"; cond [Mut "v"]]);
          View "ret" "v" ].
(** _bfs.py:78-107. *)
Definition e_bfs_levels : stmt :=
  block [ GetP "A" "offdiag";
          If (block [New "D"; Mut "D"; New "D"]) (New "D");
          New "Q";
          Loop (block [Mut "Q"; cond [Mut "D"]]);
          View "ret" "D" ].
(** _bfs.py:110-137. *)
Definition e_bfs_parent : stmt :=
  block [ bfs_matrix; New "v"; New "q"; Mut "v"; Mut "q";
          Loop (block [Mut "q"; cond [Mut "v"; cond [Mut "q"]]]);
          View "ret" "v" ].
(** _bfs.py:141-178. *)
Definition e_bfs_plain_bidirectional : stmt :=
  block [ GetP "A" "offdiag"; New "v"; New "q_out"; New "q_in"; Mut "v"; Mut "q_in";
          Loop (block [ If (Mut "q_out") (block [Mut "q_out"; Mut "q_out"]);
                        cond [Mut "v"];
                        cond [ If (Mut "q_in") (block [Mut "q_in"; Mut "q_in"]);
                               cond [Mut "v"] ] ]);
          View "ret" "v" ].
(** a call of a function of algorithms/_bfs.py 9-178 *)
Definition call0 (x : var) (f : stmt) : stmt := Call x [] f "ret".

(** ** algorithms/boundary.py, cuts.py, dominating.py, community/quality.py *)

(** boundary.py:7-20; [nbunch2] is the caller's vector or the cached degrees. *)
Definition e_edge_boundary : stmt :=
  block [ Adj "A"; New "B"; cond [GetP "nbunch2" "row_degrees+"]; Mut "B"; View "ret" "B" ].
(** boundary.py:23-29. *)
Definition e_node_boundary : stmt := block [Adj "A"; New "ret"].
(** cuts.py:18-30. *)
Definition e_cut_size : stmt :=
  block [ call0 "edges" e_edge_boundary; New "rv";
          cond [call0 "edges" e_edge_boundary; New "rv"]; View "ret" "rv" ].
(** cuts.py:33-38. *)
Definition e_volume : stmt :=
  block [If (block [Adj "A"; New "degrees"]) (GetP "degrees" "row_degrees+"); New "ret"].
(** cuts.py:41-45, 48-52. *)
Definition e_cut_ratio : stmt :=
  block [call0 "n" e_cut_size; call0 "vs" e_volume; call0 "vt" e_volume; New "ret"].
(** cuts.py:55-61, 64-66. *)
Definition e_expansion : stmt := block [call0 "n" e_cut_size; Adj "A"; New "ret"].
(** cuts.py:69-71. *)
Definition e_node_expansion : stmt := block [Adj "A"; New "ret"].
(** cuts.py:74-76. *)
Definition e_boundary_expansion : stmt := block [call0 "r" e_node_boundary; New "ret"].
(** dominating.py:6-8. *)
Definition e_is_dominating_set : stmt := block [Adj "A"; New "nbrs"; New "ret"].
(** quality.py:6-12, 15-21: [block] are vectors made by the wrapper. *)
Definition e_community : stmt := block [Adj "A"; New "count"; Loop (block [New "t"; New "count"]); View "ret" "count"].

(** ** algorithms/centrality/ *)

(** degree_alg.py:6-14. *)
Definition e_degree_centrality_ : stmt := block [New "rv"; If (Mut "rv") (Mut "rv"); View "ret" "rv"].
(** degree_alg.py:17-22, 25-27, 30-32. *)
Definition e_degree_centrality : stmt :=
  block [If (GetP "degrees" "total_degrees+") (GetP "degrees" "degrees+"); call0 "ret" e_degree_centrality_].
(** algorithms/centrality/degree_alg.py 25-27 *)
Definition e_in_degree_centrality : stmt := block [GetP "degrees" "column_degrees+"; call0 "ret" e_degree_centrality_].
(** algorithms/centrality/degree_alg.py 30-32 *)
Definition e_out_degree_centrality : stmt := block [GetP "degrees" "row_degrees+"; call0 "ret" e_degree_centrality_].
(** eigenvector.py:9-33; [nstart] is copied into [x]. *)
Definition e_eigenvector : stmt :=
  block [ New "x"; If (Mut "x") (block [Mut "x"; New "denom"; Mut "x"]);
          Adj "A"; New "xprev";
          Loop (block [Mut "xprev"; Mut "x"; c_normalize "x"; c_is_converged "xprev"]);
          View "ret" "x" ].
(** katz.py:11-55; [beta] is the caller's vector or a new Scalar; both are only read. *)
Definition e_katz : stmt :=
  block [ New "x"; If (Mut "x") (Mut "x"); If (New "b") (View "b" "beta");
          Adj "A"; GetP "iso_value" "iso_value"; New "alpha"; New "xprev";
          Loop (block [ swap "xprev" "x"; Mut "x"; Mut "x"; Mut "x"; c_is_converged "xprev";
                        cond [c_normalize "x"] ]);
          View "ret" "x" ].

(** ** algorithms/cluster.py *)

(** cluster.py:24-41: [r] is a new row of [A], so [del r[index]] is harmless. *)
Definition e_single_triangle : stmt :=
  block [ Adj "A"; New "r"; GetP "L" "L-"; GetP "h" "has_self_edges"; cond [Mut "r"];
          cond [GetP "maxval" "max_element-"; New "L"; New "r"];
          New "val"; cond [Mut "val"]; New "ret" ].
(** cluster.py:44-64. *)
Definition e_triangles : stmt :=
  block [ GetP "L" "L-"; GetP "U" "U-";
          cond [GetP "maxval" "max_element-"; New "L"; New "U"];
          New "C"; New "D"; cond [Mut "C"; Mut "D"]; New "ret" ].
(** cluster.py:67-71. *)
Definition e_total_triangles : stmt := block [GetP "L" "L-"; GetP "U" "U-"; New "ret"].
(** cluster.py:74-80. *)
Definition e_transitivity : stmt :=
  block [call0 "n" e_total_triangles; If (New "ret") (block [GetP "degrees" "degrees-"; New "denom"; New "ret"])].
(** cluster.py:83-91. *)
Definition e_transitivity_directed : stmt :=
  block [ GetP "A" "offdiag"; GetP "AT" "AT"; New "n";
          If (New "ret") (block [GetP "degrees" "row_degrees-"; New "denom"; New "ret"]) ].
(** cluster.py:94-98. *)
Definition e_clustering : stmt :=
  block [call0 "tri" e_triangles; GetP "degrees" "degrees-"; New "denom"; New "ret"].
(** cluster.py:101-126. *)
Definition e_clustering_directed : stmt :=
  block [ GetP "A" "offdiag"; GetP "AT" "AT";
          cond [GetP "maxval" "max_element-"; New "A"; New "AT"];
          New "C"; New "D"; New "E"; cond [Mut "C"; Mut "D"; Mut "E"]; New "tri";
          GetP "recip_degrees" "recip_degrees-"; GetP "total_degrees" "total_degrees-";
          New "denom"; New "ret" ].
(** cluster.py:129-147; [degrees] is a number. *)
Definition e_single_clustering : stmt :=
  block [ call0 "tri" e_single_triangle;
          If (New "ret")
             (block [ choose [ [GetP "d" "degrees-"; New "degrees"];
                               [GetP "d" "degrees+"; New "degrees"; GetP "h" "has_self_edges"; Adj "A";
                                cond [Mut "degrees"]];
                               [Adj "A"; View "row" "A"; New "degrees"; GetP "h" "has_self_edges";
                                cond [Mut "degrees"]] ];
                      New "denom"; New "ret" ]) ].
(** cluster.py:150-173: [r] and [c] are views of [A], [v] is new. *)
Definition e_single_clustering_directed : stmt :=
  block [ GetP "A" "offdiag"; cond [GetP "maxval" "max_element-"; New "A"];
          View "r" "A"; View "c" "A"; New "tris";
          Loop (block [New "v"; cond [Mut "v"]; Mut "tris"]);
          New "ret" ].
(** cluster.py:176-183, 186-193. *)
Definition e_average_clustering : stmt := block [call0 "c" e_clustering; New "val"; New "ret"].
(** algorithms/cluster.py 186-193 *)
Definition e_average_clustering_directed : stmt := block [call0 "c" e_clustering_directed; New "val"; New "ret"].
(** cluster.py:196-224. *)
Definition e_single_square_clustering : stmt :=
  block [ GetP "A" "A"; GetP "degrees" "degrees+"; New "deg";
          If (New "ret")
             (block [New "v"; New "p2"; Mut "p2"; New "denom"; Mut "p2"; New "squares"; New "ret"]) ].
(** cluster.py:227-282: [Asubset] may be the graph's matrix; [D], [neg_denom],
    [P2], [squares] and [denom], which are updated, are new. *)
Definition e_square_clustering : stmt :=
  block [ GetP "A" "A"; GetP "degrees" "degrees+";
          If (block [New "v"; New "Asubset"]) (block [View "Asubset" "A"; View "A" "A"]);
          New "D"; New "P2"; Mut "D"; New "neg_denom"; Mut "P2"; New "squares"; Mut "squares";
          New "denom"; Mut "neg_denom"; Mut "denom"; Mut "denom"; New "ret" ].
(** cluster.py:285-310: [v_mask] may be the vector of the caller's mask. *)
Definition e_generalized_degree : stmt :=
  block [ GetP "A" "offdiag"; New "Tri";
          If (block [If (View "v_mask" "mask") (New "v_mask"); Mut "Tri"; Mut "Tri"]) (Mut "Tri");
          Mut "Tri"; New "ret" ].
(** cluster.py:313-318. *)
Definition e_single_generalized_degree : stmt :=
  block [ New "v"; Mut "v"; Call "g" [("mask", "v")] e_generalized_degree "ret"; New "ret" ].

(** ** algorithms/core.py, dag.py, components/, isolate.py, efficiency_measures.py,
       lowest_common_ancestors.py, regular.py, reciprocity.py, simple_paths.py,
       smetric.py, structuralholes.py, tournament.py, triads.py, isomorphism/ *)

(** core.py:8-37: [C] is [S] itself when [k < 3], and is not updated then;
    [S = C] (line 29) makes two names for the new matrix. *)
Definition e_k_truss : stmt :=
  block [ GetP "S" "offdiag";
          If (View "C" "S")
             (block [ New "C"; Loop (block [Mut "C"; Mut "C"; cond [View "S" "C"]]) ]);
          New "Ktruss"; View "ret" "Ktruss" ].
(** dag.py:6-10, 13-17. *)
Definition e_descendants : stmt := block [call0 "rv" e_bfs_plain; Mut "rv"; View "ret" "rv"].
(** connected.py:5-8. *)
Definition e_is_connected : stmt := block [call0 "v" e_bfs_plain; New "ret"].
(** connected.py:11-12. *)
Definition e_node_connected_component : stmt := call0 "ret" e_bfs_plain.
(** weakly_connected.py:5-8. *)
Definition e_is_weakly_connected : stmt := block [call0 "v" e_bfs_plain_bidirectional; New "ret"].
(** isolate.py:4-10, 21-26: a number or a truth value; 13-18: a new vector. *)
Definition e_isolates : stmt :=
  block [If (GetP "degrees" "total_degrees+") (GetP "degrees" "degrees+"); New "ret"].
(** unweighted.py:32-64. *)
Definition e_bidirectional : stmt :=
  block [ If (New "ret")
             (block [ GetP "A" "offdiag"; New "q_src"; Mut "q_src"; New "seen_src"; New "q_dst"; Mut "q_dst";
                      New "seen_dst";
                      Loop (block [Mut "q_src"; Mut "seen_dst"; Mut "q_dst"; Mut "seen_src"]);
                      cond [Mut "q_src"; cond [Mut "seen_dst"; Mut "q_dst"]];
                      New "ret" ]) ].
(** efficiency_measures.py:7-12 and shortest_paths/generic.py:7-12: the
    exception of the call is caught, which is the [If]. *)
Definition e_efficiency : stmt := block [If (call0 "l" e_bidirectional) Skip; New "ret"].
(** lowest_common_ancestors.py:9-21. *)
Definition e_lowest_common_ancestor : stmt :=
  block [ call0 "common" e_bfs_plain; call0 "other" e_bfs_plain; Mut "common";
          If (New "ret") (block [Adj "A"; Mut "other"; Mut "common"; New "ret"]) ].
(** regular.py:6-23, 26-30. *)
Definition e_is_regular : stmt :=
  block [ If (GetP "degrees" "degrees+") (block [GetP "r" "row_degrees+"; cond [GetP "c" "column_degrees+"]]);
          New "ret" ].
(** algorithms/regular.py 26-30 *)
Definition e_is_k_regular : stmt := block [GetP "degrees" "degrees+"; New "ret"].
(** reciprocity.py:8-12. *)
Definition e_reciprocity : stmt := block [GetP "overlap" "recip_degrees+"; GetP "total" "total_degrees+"; New "ret"].
(** reciprocity.py:15-22: [n_overlap_edges -= ...] on a number rebinds the name
    (the cached value comes from [.get(0)], classes/digraph.py:305-309). *)
Definition e_overall_reciprocity : stmt :=
  block [ Adj "A"; New "n_all"; GetP "n_overlap" "total_recip+"; GetP "h" "has_self_edges";
          cond [GetP "diag" "diag"; New "n_overlap"]; New "ret" ].
(** simple_paths.py:6-21. *)
Definition e_is_simple_path : stmt :=
  block [If (New "ret") (block [Adj "A"; If (New "ret") (block [New "P"; Mut "P"; New "ret"])])].
(** smetric.py:6-11. *)
Definition e_s_metric : stmt :=
  block [If (GetP "degrees" "total_degrees+") (GetP "degrees" "degrees+"); Adj "A"; New "ret"].
(** structuralholes.py:4-11. *)
Definition e_mutual_weight : stmt := block [Adj "A"; New "ret"].
(** tournament.py:7-13. *)
Definition e_is_tournament : stmt := block [Adj "A"; cond [GetP "h" "has_self_edges"; New "val"]; New "ret"].
(** tournament.py:16-22: [values.sort()] sorts the array [to_coo] made. *)
Definition e_score_sequence : stmt :=
  block [GetP "degrees" "row_degrees+"; New "values"; Mut "values"; cond [New "values"]; View "ret" "values"].
(** tournament.py:25-27. *)
Definition e_tournament_matrix : stmt := block [Adj "A"; New "ret"].
(** triads.py:6-12. *)
Definition e_is_triad : stmt := block [cond [GetP "h" "has_self_edges"]; New "ret"].
(** isomorph.py:12-40: [t1] and [t2] are completed in place; they come from
    [triangles]; [d1] and [d2] are the cached degrees until line 30. *)
Definition e_fast_could_be_isomorphic : stmt :=
  block [ If (New "ret")
             (block [ If (GetP "d1" "total_degrees+") (GetP "d1" "degrees+");
                      If (GetP "d2" "total_degrees+") (GetP "d2" "degrees+");
                      call0 "t1" e_triangles; call0 "t2" e_triangles;
                      cond [Mut "t1"]; cond [Mut "t2"];
                      New "d1"; New "d2"; New "t1"; New "t2"; New "ret" ]) ].
(** isomorph.py:43-56: [d1.sort()] sorts the array [to_coo] made, not the
    cached vector. *)
Definition e_faster_could_be_isomorphic : stmt :=
  block [ If (New "ret")
             (block [ If (GetP "d1" "total_degrees+") (GetP "d1" "degrees+");
                      If (GetP "d2" "total_degrees+") (GetP "d2" "degrees+");
                      New "d1"; New "d2"; Mut "d1"; Mut "d2"; New "ret" ]) ].

(** ** algorithms/link_analysis/ *)

(** hits_alg.py:9-62; the results are [h] and [a]. *)
Definition e_hits : stmt :=
  block [ New "h"; New "a"; If (Mut "h") (block [Mut "h"; New "denom"; Mut "h"]);
          Adj "A";
          If (block [ swap "a" "h"; New "ATA"; New "aprev";
                      Loop (block [swap "aprev" "a"; Mut "a"; c_normalize "a"; c_is_converged "aprev"]);
                      Mut "h" ])
             (block [ New "hprev";
                      Loop (block [ swap "hprev" "h"; Mut "a"; Mut "h"; c_normalize "h"; c_is_converged "hprev" ]) ]);
          choose [[c_normalize "h"; c_normalize "a"]; [c_normalize "h"]; [c_normalize "a"]] ].
(** pagerank_alg.py:12-101; [nstart], [personalization], [dangling] and
    [row_degrees] (the cached sums) are only read; [p *= 1 - alpha] (line 78) is
    on the new vector of line 45 or on a number. *)
Definition e_pagerank : stmt :=
  block [ Adj "A";
          If (New "ret")
             (block
                [ New "x"; If (Mut "x") (Mut "x"); New "p";
                  cond [GetP "row_degrees" "plus_rowwise+"]; New "S";
                  GetP "iso_value" "iso_value"; cond [Mut "S"];
                  cond [New "dangling_mask"; Mut "dangling_mask";
                        choose [[New "dangling_weights"]; [Mut "dangling_mask"]; [New "dangling_weights"]]];
                  Mut "p"; New "xprev"; New "w";
                  Loop (block [ swap "xprev" "x"; Mut "x"; cond [If (Mut "x") (Mut "x")]; Mut "w"; Mut "x";
                                c_is_converged "xprev" ]);
                  View "ret" "x" ]) ].
(** pagerank_alg.py:104-162: [A] is a copy (lines 114-117). *)
Definition e_google_matrix : stmt :=
  block [ Adj "A"; If (New "A") (New "A");
          cond [ New "p"; If (GetP "nonempty" "any_rowwise+") (New "nonempty");
                 cond [New "empty_rows"; choose [[New "dangling_weights"; Mut "A"]; [Mut "A"]; [Mut "A"]]];
                 New "scale"; Mut "scale"; Mut "A"; Mut "p"; If (Mut "A") (Mut "A") ];
          View "ret" "A" ].

(** ** algorithms/operators/ *)

(** binary.py:16-43: with [rename], a second graph object around the same
    matrix (lines 24-32); nothing is written to it. *)
Definition e_union : stmt := block [Adj "A"; Adj "B"; New "C"; Mut "C"; Mut "C"; View "ret" "C"].
(** binary.py:46-56. *)
Definition e_disjoint_union : stmt := block [Adj "A"; Adj "B"; New "C"; Mut "C"; Mut "C"; View "ret" "C"].
(** binary.py:59-70. *)
Definition e_intersection : stmt :=
  block [Adj "GA"; New "A"; Adj "HA"; New "B"; Mut "B"; View "ret" "B"].
(** binary.py:73-89, 92-109. *)
Definition e_difference : stmt := block [Adj "A"; If (Adj "B") (block [Adj "HA"; New "B"]); New "C"; View "ret" "C"].
(** algorithms/operators/binary.py 92-109 *)
Definition e_symmetric_difference : stmt :=
  block [Adj "A"; If (Adj "B") (block [Adj "HA"; New "B"]); New "Mask"; New "C"; View "ret" "C"].
(** binary.py:112-147. *)
Definition e_compose : stmt :=
  block [ Adj "A"; Adj "B";
          If (block [cond [New "B"]; New "C"])
             (block [Adj "B"; New "C"; Mut "C"; Mut "C"; New "ids"; Mut "C"; Mut "ids"]);
          View "ret" "C" ].
(** binary.py:150-155: writes in the matrix of the graph [union] returned. *)
Definition e_full_join : stmt := block [call0 "rv" e_union; Adj "A"; Mut "rv"; Mut "rv"; View "ret" "rv"].
(** unary.py:8-12. *)
Definition e_complement : stmt := block [Adj "A"; New "R"; Mut "R"; View "ret" "R"].
(** unary.py:15-18 and classes/digraph.py:614-621; with [copy=False] the new
    graph's matrix is a view of the old one's. *)
Definition e_reverse (copy : bool) : stmt :=
  block [Adj "A0"; View "A" "A0"; (if copy then New "A" else Skip); View "ret" "A"].
(** classes/digraph.py:604-612. *)
Definition e_to_undirected : stmt := block [Adj "A"; If (New "B") (New "B"); View "ret" "B"].
(** generators/ego.py:7-24. *)
Definition e_bellman_ford_length : stmt :=
  block [ GetP "is_iso" "is_iso";
          cond [GetP "neg" "has_negative_edges+"; GetP "iso" "iso_value"; Adj "A"];
          If (block [ call0 "d" e_bfs_level; cond [New "d"]; cond [Mut "d"]; View "ret" "d" ])
             (block [ GetP "A" "offdiag"; cond [GetP "is_negative" "has_negative_edges-"];
                      GetP "hnd" "has_negative_diagonal";
                      New "d"; Mut "d"; New "cur"; New "mask";
                      Loop (block [Mut "cur"; cond [Mut "cur"]; Mut "mask"; Mut "mask"; Mut "cur"; cond [Mut "d"]]);
                      cond [Mut "cur"; cond [Mut "cur"]; Mut "mask"];
                      cond [GetP "diag" "diag"; Mut "cur"];
                      cond [New "d"]; View "ret" "d" ]) ].
(** nxapi/generators/ego.py 7-11 *)
Definition e_ego_graph : stmt :=
  block [ cond [call0 "G2A" e_to_undirected];
          If (call0 "v" e_bellman_ford_length) (call0 "v" e_bfs_plain);
          cond [Mut "v"]; New "indices"; Adj "GA"; New "A"; View "ret" "A" ].

(** ** algorithms/shortest_paths/ *)

(** weighted.py:17-105 is [e_bellman_ford_length] above; weighted.py:118-197. *)
Definition e_bellman_ford_lengths : stmt :=
  block [ GetP "is_iso" "is_iso";
          cond [GetP "neg" "has_negative_edges+"; GetP "iso" "iso_value"; Adj "A"];
          If (block [ call0 "D" e_bfs_levels; cond [Mut "D"];
                      If (block [New "rv"; Mut "rv"; View "ret" "rv"]) (View "ret" "D") ])
             (block [ GetP "A" "offdiag"; GetP "hnd" "has_negative_diagonal";
                      If (block [New "D"; Mut "D"; New "D"]) (New "D");
                      New "Cur"; New "Mask";
                      Loop (block [Mut "Cur"; Mut "Mask"; Mut "Mask"; Mut "Cur"; cond [Mut "D"]]);
                      cond [Mut "Cur"; Mut "Mask"];
                      cond [GetP "diag" "diag"; New "cur"];
                      If (block [New "rv"; Mut "rv"; View "ret" "rv"]) (View "ret" "D") ]) ].
(** weighted.py:200-210. *)
Definition e_reconstruct_path : stmt := New "ret".
(** weighted.py:213-308: [prev, cur = cur, prev] (line 284). *)
Definition e_bellman_ford_path : stmt :=
  block [ GetP "is_iso" "is_iso";
          If (block [GetP "neg" "has_negative_edges+"; call0 "p" e_bfs_parent; call0 "ret" e_reconstruct_path])
             (block [ GetP "A" "offdiag"; GetP "neg" "has_negative_edges-"; GetP "hnd" "has_negative_diagonal";
                      New "d"; Mut "d"; New "p"; Mut "p"; New "prev"; New "cur"; New "indices"; New "mask";
                      New "B"; New "Indices"; New "cols";
                      Loop (block [ Mut "cur"; cond [Mut "cur"]; Mut "mask"; Mut "mask"; Mut "cur";
                                    cond [ Mut "d"; View "rows" "cols"; New "cols"; Mut "B"; Mut "B"; Mut "B"; Mut "B";
                                           Mut "B"; Mut "Indices"; Mut "indices"; Mut "p"; swap "prev" "cur" ] ]);
                      cond [Mut "cur"; cond [Mut "cur"]; Mut "mask"];
                      call0 "path" e_reconstruct_path;
                      cond [Mut "mask"; Mut "mask"; GetP "diag" "diag"; Mut "mask";
                            cond [New "indices"; call0 "q" e_bfs_plain]];
                      View "ret" "path" ]) ].
(** weighted.py:311-348. *)
Definition e_negative_edge_cycle : stmt :=
  block [ GetP "A" "offdiag"; GetP "degrees" "total_degrees-"; GetP "hnd" "has_negative_diagonal";
          GetP "hne" "has_negative_edges-";
          cond [ New "d"; Mut "d"; New "cur"; New "mask";
                 Loop (block [Mut "cur"; Mut "mask"; Mut "mask"; Mut "cur"; cond [Mut "d"]]);
                 Mut "cur"; Mut "mask" ];
          New "ret" ].
(** unweighted.py:14-19. *)
Definition e_single_source_length : stmt := call0 "ret" e_bfs_level.
(** unweighted.py:22-29. *)
Definition e_all_pairs_length : stmt :=
  block [ call0 "D" e_bfs_levels; If (block [New "rv"; Mut "rv"; View "ret" "rv"]) (View "ret" "D") ].
(** dense.py:13-111; the results are [P] and [D]; [Col] is [Row.T] (line 67)
    or [P_row.T] (line 93), [P_row] may be [Row] (line 55). *)
Definition e_floyd_warshall : stmt :=
  block [ If (block [GetP "A" "offdiag"; GetP "r" "row_degrees-"; GetP "c" "column_degrees-"; New "nonempty"])
             (block [GetP "A" "U-"; GetP "nonempty" "degrees-"]);
          cond [New "A"; New "nonempty"];
          New "D"; If (Mut "D") (Mut "D"); New "Row"; New "Col"; New "Outer"; New "Mask"; New "P";
          If (View "P_row" "Row") (New "P_row");
          Loop (block [ Mut "Row"; If (Mut "Col") (block [Mut "Row"; View "Col" "Row"]); Mut "Outer";
                        If (Mut "D")
                           (block [ Mut "Mask"; Mut "Mask"; Mut "Outer"; Mut "D"; Mut "P_row";
                                    cond [Mut "P_row"; View "Col" "P_row"]; Mut "P" ]) ]);
          cond [Mut "D"; cond [Mut "P"]];
          New "diag_mask"; Mut "diag_mask"; New "Diag_mask"; Mut "D" ].

(** ** algorithms/traversal/breadth_first_search.py *)

(** breadth_first_search.py:10-27: [yield q.dup()], so that [q] can be updated
    afterwards. *)
Definition e_bfs_layers : stmt :=
  cond [ GetP "A" "offdiag"; New "v"; New "q"; GiveNew;
         Loop (block [Mut "v"; Mut "q"; cond [GiveNew]]) ].
(** breadth_first_search.py:30-45. *)
Definition e_descendants_at_distance : stmt :=
  block [ GetP "A" "offdiag"; New "q"; Mut "q";
          cond [New "v"; Loop (block [Mut "v"; Mut "q"])]; View "ret" "q" ].

(** ** linalg/ *)

(** bethehessianmatrix.py:6-25. *)
Definition e_bethe_hessian : stmt :=
  block [ Adj "A"; If (block [New "A"; New "d"]) (GetP "d" "plus_rowwise+"); cond [GetP "degrees" "degrees+"];
          New "ri"; Mut "ri"; New "rI"; Mut "rI"; View "ret" "rI" ].
(** graphmatrix.py:6-19. *)
Definition e_adjacency_matrix : stmt :=
  block [Adj "GA"; choose [[New "A"]; [New "A"]; [New "A"; cond [Mut "A"]]]; View "ret" "A"].
(** laplacianmatrix.py:9-24; the results are [d] and [A], which may be the
    cached sums and the graph's matrix. *)
Definition e_laplacian_helper : stmt :=
  block [ Adj "A";
          choose [ [New "A"; cond [Mut "A"]; New "d"]; [GetP "d" "plus_rowwise+"];
                   [GetP "d" "degrees+"; New "A"] ] ].
(** laplacianmatrix.py:27-30. *)
Definition e_laplacian : stmt := block [e_laplacian_helper; New "D"; New "ret"].
(** laplacianmatrix.py:33-54. *)
Definition e_normalized_laplacian : stmt :=
  block [ e_laplacian_helper; New "d_invsqrt"; Mut "d_invsqrt"; New "A_weighted"; Mut "A_weighted";
          Mut "d_invsqrt"; New "D"; Mut "A_weighted"; View "ret" "A_weighted" ].
(** modularitymatrix.py:8-14: [k] is the helper's [d]. *)
Definition e_modularity : stmt :=
  block [e_laplacian_helper; View "k" "d"; New "m"; New "X"; Mut "X"; Mut "X"; View "ret" "X"].
(** modularitymatrix.py:17-37. *)
Definition e_directed_modularity : stmt :=
  block [ Adj "A";
          choose [ [New "A"; cond [Mut "A"]; New "k_out"; New "k_in"];
                   [GetP "k_out" "plus_rowwise+"; GetP "k_in" "plus_columnwise+"];
                   [New "A"; GetP "k_out" "row_degrees+"; GetP "k_in" "column_degrees+"] ];
          New "m"; New "X"; Mut "X"; Mut "X"; View "ret" "X" ].

(** ** classes/_utils.py and nxapi/ *)

(** _utils.py:132-144: completes [v] in place when a mask is given, then wraps it. *)
Definition e_vector_to_nodemap : stmt := block [cond [Mut "v"]; View "ret" "v"].
(** _utils.py:112-119. *)
Definition e_vector_to_dict : stmt := block [cond [If (Mut "v") (Mut "v")]; New "ret"].
(** classes/_utils.py 132-144 *)
Definition nodemap (x : var) : stmt := Call x [("v", x)] e_vector_to_nodemap "ret".
(** [_cacheit] (_utils.py:252-255): the cached object, or the new one, is
    returned; the functions it is used with return a number (nxapi/cluster.py:40, 71-77). *)
Definition e_cacheit (key : string) (f : stmt) : stmt :=
  block [cond [call0 "t" f; Store key "t"]; Cached "ret" key].

(** for example nxapi/dag.py 9-16: A function that hands over the result of [f] as it is, wrapped
    ([nm]: by
    [vector_to_nodemap]), or as a Python value. *)
Definition wrap (nm : bool) (f : stmt) : stmt :=
  block [call0 "result" f; if nm then nodemap "result" else Skip].
(** for example nxapi/dag.py 9-16 *)
Definition obj (name : string) (nm : bool) (f : stmt) : func := mkF name [] (wrap nm f) ["result"].
(** for example nxapi/dag.py 9-16 *)
Definition val (name : string) (f : stmt) : func := mkF name [] (call0 "result" f) [].

(** nxapi/cluster.py:82-92 and 95-121: [result << monoid.any(result | res)]. *)
Definition e_square_clustering_split : stmt :=
  block [ Adj "A"; New "node_ids"; New "result";
          Loop (block [call0 "res" e_square_clustering; If (View "result" "res") (Mut "result")]);
          View "ret" "result" ].
(** nxapi/cluster.py 95-121 *)
Definition e_nx_square_clustering : stmt :=
  block [ If (call0 "result" e_square_clustering) (call0 "result" e_square_clustering_split); nodemap "result" ].
(** nxapi/shortest_paths/unweighted.py:30-45 and weighted.py:16-45; iterating a
    NodeNodeMap gives a new row each time (classes/nodemap.py:354-362). *)
Definition e_nx_all_pairs (mat vec : stmt) : stmt :=
  choose [ [call0 "D" mat; Loop GiveNew];
           [Loop (block [call0 "d" vec; nodemap "d"; Give "d"])];
           [Loop (block [call0 "D" mat; Loop (block [New "d"; nodemap "d"; Give "d"])])] ].
(** nxapi/traversal/breadth_first_search.py:12-18: yields Python lists. *)
Definition e_nx_bfs_layers : stmt :=
  cond [ GetP "A" "offdiag"; New "v"; New "q"; New "layer"; GiveNew;
         Loop (block [Mut "v"; Mut "q"; cond [New "layer"; GiveNew]]) ].

(** nxapi/cluster.py 20-78 and the other files of nxapi/: The functions of nxapi/ (the listed line
    numbers are those of the wrappers).
    A number, a truth value, a string, a Python list or dict is new and is not
    tracked further: [val].  A function returning a graph is listed with the
    graph's matrix as its result. *)
Definition nx_funcs : list func :=
  [ (* nxapi/boundary.py:9-45 (an iterator over arrays), 48-56 *)
    val "edge_boundary" e_edge_boundary; obj "node_boundary" false e_node_boundary;
    (* nxapi/centrality/ *)
    obj "degree_centrality" true e_degree_centrality; obj "in_degree_centrality" true e_in_degree_centrality;
    obj "out_degree_centrality" true e_out_degree_centrality;
    obj "eigenvector_centrality" true e_eigenvector; obj "katz_centrality" true (block [New "beta"; e_katz]);
    (* nxapi/cluster.py:20-29, 32-40, 43-57, 60-78, 95-121, 124-134 *)
    obj "triangles" true e_triangles; val "triangles(node)" e_single_triangle;
    val "transitivity" (If (e_cacheit "transitivity" e_transitivity) (e_cacheit "transitivity" e_transitivity_directed));
    obj "clustering" true (If e_clustering e_clustering_directed);
    val "clustering(node)" (If e_single_clustering e_single_clustering_directed);
    val "average_clustering" (If (e_cacheit "average_clustering" (If e_average_clustering e_average_clustering_directed))
                                 (If e_average_clustering e_average_clustering_directed));
    mkF "square_clustering" [] e_nx_square_clustering ["result"];
    val "square_clustering(node)" e_single_square_clustering;
    obj "generalized_degree" false (block [New "mask"; e_generalized_degree]);
    obj "generalized_degree(node)" true e_single_generalized_degree;
    (* nxapi/community/quality.py *)
    val "intra_community_edges" e_community; val "inter_community_edges" e_community;
    (* nxapi/components/ *)
    val "is_connected" e_is_connected; obj "node_connected_component" false e_node_connected_component;
    val "is_weakly_connected" e_is_weakly_connected;
    (* nxapi/core.py *)
    obj "k_truss" false e_k_truss;
    (* nxapi/cuts.py *)
    val "cut_size" e_cut_size; val "volume" e_volume; val "normalized_cut_size" e_cut_ratio;
    val "conductance" e_cut_ratio; val "edge_expansion" e_expansion; val "mixing_expansion" e_expansion;
    val "node_expansion" e_node_expansion; val "boundary_expansion" e_boundary_expansion;
    (* nxapi/dag.py, dominating.py, efficiency_measures.py, generators/ego.py, isolate.py *)
    obj "descendants" false e_descendants; obj "ancestors" false e_descendants;
    val "is_dominating_set" e_is_dominating_set; val "efficiency" e_efficiency;
    obj "ego_graph" false e_ego_graph;
    val "is_isolate" e_isolates; obj "isolates" false e_isolates; val "number_of_isolates" e_isolates;
    (* nxapi/isomorphism/isomorph.py *)
    val "fast_could_be_isomorphic" e_fast_could_be_isomorphic;
    val "faster_could_be_isomorphic" e_faster_could_be_isomorphic;
    (* nxapi/linalg/ *)
    obj "bethe_hessian_matrix" false e_bethe_hessian; obj "adjacency_matrix" false e_adjacency_matrix;
    obj "laplacian_matrix" false e_laplacian; obj "normalized_laplacian_matrix" false e_normalized_laplacian;
    obj "modularity_matrix" false e_modularity; obj "directed_modularity_matrix" false e_directed_modularity;
    (* nxapi/link_analysis/hits_alg.py:9-22: two NodeMaps *)
    mkF "hits" [] (block [e_hits; nodemap "h"; nodemap "a"]) ["h"; "a"];
    obj "pagerank" true e_pagerank; obj "google_matrix" false e_google_matrix;
    (* nxapi/lowest_common_ancestors.py *)
    val "lowest_common_ancestor" e_lowest_common_ancestor;
    (* nxapi/operators/ *)
    obj "union" false e_union; obj "disjoint_union" false e_disjoint_union;
    obj "intersection" false e_intersection; obj "difference" false e_difference;
    obj "symmetric_difference" false e_symmetric_difference; obj "compose" false e_compose;
    obj "full_join" false e_full_join; obj "complement" false e_complement;
    obj "reverse" false (e_reverse true); obj "to_undirected" false e_to_undirected;
    (* nxapi/reciprocity.py, regular.py *)
    obj "reciprocity" true e_reciprocity; val "overall_reciprocity" e_overall_reciprocity;
    val "is_regular" e_is_regular; val "is_k_regular" e_is_k_regular;
    (* nxapi/shortest_paths/ *)
    mkF "floyd_warshall" [] e_floyd_warshall ["D"];
    mkF "floyd_warshall_predecessor_and_distance" [] e_floyd_warshall ["P"; "D"];
    mkF "floyd_warshall_numpy" [] e_floyd_warshall ["D"];
    val "has_path" e_efficiency;
    obj "single_source_shortest_path_length" true e_single_source_length;
    obj "single_target_shortest_path_length" true e_single_source_length;
    mkF "all_pairs_shortest_path_length" [] (e_nx_all_pairs e_all_pairs_length e_single_source_length) [];
    mkF "all_pairs_bellman_ford_path_length" [] (e_nx_all_pairs e_bellman_ford_lengths e_bellman_ford_length) [];
    obj "single_source_bellman_ford_path_length" true e_bellman_ford_length;
    val "bellman_ford_path" e_bellman_ford_path; val "bellman_ford_path_length" e_bellman_ford_length;
    val "negative_edge_cycle" e_negative_edge_cycle;
    (* nxapi/simple_paths.py, smetric.py, structuralholes.py, tournament.py, triads.py *)
    val "is_simple_path" e_is_simple_path; val "s_metric" e_s_metric; val "mutual_weight" e_mutual_weight;
    val "is_tournament" e_is_tournament; val "score_sequence" e_score_sequence;
    obj "tournament_matrix" false e_tournament_matrix; val "is_triad" e_is_triad;
    (* nxapi/traversal/breadth_first_search.py *)
    mkF "bfs_layers" [] e_nx_bfs_layers [];
    obj "descendants_at_distance" false e_descendants_at_distance ].

(** The functions of algorithms/ and linalg/ called directly, with the objects
    the caller may pass as parameters (pagerank_alg.py:12-22, katz.py:11-20,
    eigenvector.py:9, hits_alg.py:9, boundary.py:7, 23, cluster.py:44, 285,
    reciprocity.py:8). *)
Definition core_funcs : list func :=
  [ mkF "edge_boundary" ["nbunch1"; "nbunch2"] e_edge_boundary ["ret"];
    mkF "node_boundary" ["nbunch1"; "mask"] e_node_boundary ["ret"];
    mkF "eigenvector_centrality" ["nstart"] e_eigenvector ["ret"];
    mkF "katz_centrality" ["nstart"; "beta"] e_katz ["ret"];
    mkF "triangles" ["mask"] e_triangles ["ret"];
    mkF "clustering" ["mask"] e_clustering ["ret"];
    mkF "clustering_directed" ["mask"] e_clustering_directed ["ret"];
    mkF "generalized_degree" ["mask"] e_generalized_degree ["ret"];
    mkF "hits" ["nstart"] e_hits ["h"; "a"];
    mkF "pagerank" ["personalization"; "nstart"; "dangling"; "row_degrees"] e_pagerank ["ret"];
    mkF "google_matrix" ["personalization"; "dangling"] e_google_matrix ["ret"];
    mkF "reciprocity" ["mask"] e_reciprocity ["ret"];
    mkF "volume" ["S"] e_volume []; mkF "is_dominating_set" ["nbunch"] e_is_dominating_set [];
    mkF "bfs_layers" [] e_bfs_layers [];
    mkF "floyd_warshall" ["permutation"] e_floyd_warshall ["P"; "D"];
    mkF "bellman_ford_path_lengths" [] e_bellman_ford_lengths ["ret"] ].
