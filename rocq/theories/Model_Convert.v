(** * What callers may pass as a graph, and what networkx' dispatching gets back:
    classes/graph.py 252-269, 364-382; classes/digraph.py 374-411, 517-535; utils/decorators.py 6-20; interface.py 240-266 *)
From Verif Require Import Base Model_Graph Model_Cache Model_Keys Model_Operators Model_Nx.
Open Scope nat_scope.

(** classes/graph.py 252-269, classes/digraph.py 393-411: the argument G of a function of [nxapi]:
    one of this library's graphs (with its cache), a networkx graph,
    a graphblas Matrix, anything else (that has no [is_directed]), or None, which is not an error: it is the constructors' default *)
Inductive garg :=
| AGraph (G : graph) (s : st)
| ANx (N : nxgraph)
| AMatrix (A : mat Z) (d : dtype)
| AOther
| ANone.

(** ** utils/decorators.py 6-20 over networkx' [not_implemented_for]: [Some true] is
    not_implemented_for("directed"), [Some false] not_implemented_for("undirected"), [None] no decorator.
    A Matrix passes.  "multigraph" is modelled in Model_Multi. *)
Definition decorated (no : option bool) (a : garg) : outcome unit :=
  match no with
  | None => Val tt
  | Some d =>
      match a with
      | AGraph G _ => if Bool.eqb (g_dir G) d then Raise ENotImpl else Val tt
      | ANx N => if Bool.eqb (nx_dir N) d then Raise ENotImpl else Val tt
      | AMatrix _ _ => Val tt
      | AOther | ANone => Raise EAttr
      end
  end.

Section Conv.
Variable orc : mat Z -> bool.
(** [Graph(A)], [DiGraph(A)]: classes/graph.py 364-382, classes/digraph.py 517-535 without key_to_id *)
Definition graph_of_matrix (dir : bool) (A : mat Z) (d : dtype) : outcome graph :=
  if nrows A =? ncols A then Val (new_graph orc dir A d (range_kid (nrows A))) else Raise EValue.
(** [Graph(None)], [DiGraph(None)]: classes/graph.py 370-371, classes/digraph.py 523-524: [Matrix()] is 0 x 0, of floats *)
Definition graph_of_none (dir : bool) : graph := new_graph orc dir (mbuild 0 0 (fun _ _ => None)) DFloat (range_kid 0).
(** [cls.from_networkx(N, weight, dtype)], classes/_utils.py 11-19, where the class need not fit the
    networkx
    graph.  [dtype=bool] is only ever used with weight=None, when all values are 1. *)
Definition from_networkx_as (dir : bool) (N : nxgraph) (weight : option nkey) (dt : option dtype) : graph :=
  let G := from_networkx orc N weight in
  {| g_dir := dir; g_A := g_A G; g_dt := oget (g_dt G) dt; g_iso := g_iso G; g_kid := g_kid G |}.
(** classes/graph.py 252-269: any instance of Graph (DiGraph is a subclass) is returned as is;
    nx.DiGraph is a
    subclass of nx.Graph, too *)
Definition to_undirected_graph (a : garg) (weight : option nkey) (dt : option dtype) : outcome (graph * st) :=
  match a with
  | AGraph G s => Val (G, s)
  | AMatrix A d => obind (graph_of_matrix false A d) (fun G => Val (G, st0))
  | ANx N => Val (from_networkx_as false N weight dt, st0)
  | AOther => Raise EType
  | ANone => Val (graph_of_none false, st0)
  end.
(** classes/digraph.py 374-390 *)
Definition to_directed_graph (a : garg) (weight : option nkey) (dt : option dtype) : outcome (graph * st) :=
  match a with
  | AGraph G s => if g_dir G then Val (G, s) else Raise EType
  | AMatrix A d => obind (graph_of_matrix true A d) (fun G => Val (G, st0))
  | ANx N => if nx_dir N then Val (from_networkx_as true N weight dt, st0) else Raise EType
  | AOther => Raise EType
  | ANone => Val (graph_of_none true, st0)
  end.
(** classes/digraph.py 393-411 *)
Definition to_graph (a : garg) (weight : option nkey) (dt : option dtype) : outcome (graph * st) :=
  match a with
  | AGraph G s => Val (G, s)
  | AMatrix A d => obind (graph_of_matrix true A d) (fun G => Val (G, st0))
  | ANx N => Val (from_networkx_as (nx_dir N) N weight dt, st0)
  | AOther => Raise EType
  | ANone => Val (graph_of_none true, st0)
  end.

(** classes/digraph.py 393-411, for example nxapi/dag.py 9-16: a public function of nxapi:
    decorator, conversion, and then the work; with the cache left behind *)
Definition call {X} (no : option bool) (conv : garg -> outcome (graph * st)) (f : graph -> M X) (a : garg) : outcome X * option st :=
  match decorated no a with
  | Raise e => (Raise e, match a with AGraph _ s => Some s | _ => None end)
  | Val _ =>
      match conv a with
      | Raise e => (Raise e, match a with AGraph _ s => Some s | _ => None end)
      | Val (G, s) => let r := f G s in (fst r, match a with AGraph _ _ => Some (snd r) | _ => None end)
      end
  end.
End Conv.

(** ** interface.py 240-266 [convert_to_nx].  The third case of a Matrix is a RuntimeError.
    [to_scipy_sparse] keeps the entries; [to_dense(fill_value=False)] fills with 0. *)
Inductive nxmatrix (V : Type) := Sparse (A : mat V) | Dense (rows : list (list V)) | RuntimeError.
Arguments Sparse {V} _.
Arguments Dense {V} _.
Arguments RuntimeError {V}.
(** interface.py 240-266 *)
Definition sparse_names : list string := ["adjacency_matrix"; "bethe_hessian_matrix"; "laplacian_matrix"; "normalized_laplacian_matrix"; "tournament_matrix"]%string.
(** interface.py 240-266 *)
Definition dense_names : list string := ["directed_modularity_matrix"; "floyd_warshall_numpy"; "google_matrix"; "modularity_matrix"]%string.
(** interface.py 240-266 *)
Definition to_dense {V} (zero : V) (A : mat V) : list (list V) := map (fun r => map (oget zero) r) (rows A).
(** interface.py 240-266 *)
Definition convert_matrix_to_nx {V} (zero : V) (name : string) (A : mat V) : nxmatrix V :=
  if existsb (String.eqb name) sparse_names then Sparse A
  else if existsb (String.eqb name) dense_names then Dense (to_dense zero A)
  else RuntimeError.
(** a graph (246-247); the edge attribute defaults to "weight" (classes/_utils.py 229) *)
Definition convert_graph_to_nx (G : graph) : M nxgraph := to_networkx G (Some (KS "weight")).
(** interface.py 173-238, interface.py 240-266: [nx.f(N, ..., backend="graphblas")] for a function
    that returns a new graph: networkx' dispatcher calls
    convert_from_nx with the options the function was declared with, then f, then convert_to_nx *)
Definition dispatched_graph (orc : mat Z -> bool) (f : graph -> outcome graph) (N : nxgraph) (edge_attrs : option (list (nkey * option Z)))
    (preserve_edge_attrs preserve_node_attrs : bool) : outcome nxgraph :=
  obind (convert_from_nx orc N edge_attrs false preserve_edge_attrs preserve_node_attrs None) (fun G =>
  obind (f G) (fun R => fst (convert_graph_to_nx R st0))).
(** interface.py 173-238, interface.py 240-266: two graph arguments *)
Definition dispatched_graph2 (orc : mat Z -> bool) (f : graph -> graph -> outcome graph) (N1 N2 : nxgraph) (edge_attrs : option (list (nkey * option Z)))
    (preserve_edge_attrs preserve_node_attrs : bool) : outcome nxgraph :=
  obind (convert_from_nx orc N1 edge_attrs false preserve_edge_attrs preserve_node_attrs None) (fun G =>
  obind (convert_from_nx orc N2 edge_attrs false preserve_edge_attrs preserve_node_attrs None) (fun H =>
  obind (f G H) (fun R => fst (convert_graph_to_nx R st0)))).
(** interface.py 173-238, interface.py 240-266: a function that returns a matrix *)
Definition dispatched_matrix {V} (orc : mat Z -> bool) (zero : V) (name : string) (f : graph -> M (mat V)) (N : nxgraph) (edge_attrs : option (list (nkey * option Z)))
    (preserve_edge_attrs preserve_node_attrs : bool) : outcome (nxmatrix V) :=
  obind (convert_from_nx orc N edge_attrs false preserve_edge_attrs preserve_node_attrs None) (fun G =>
  obind (fst (f G st0)) (fun A => Val (convert_matrix_to_nx zero name A))).

(** ** The operators as called by the user.  [GraphBlasAlgorithmException] becomes NetworkXError (both [EAlg]);
    the caches of the arguments are not touched, the result's is new. *)
Section Ops.
Variable orc : mat Z -> bool.
(** nxapi/operators/binary.py 17-77: convert both arguments with [to_graph(G)], i.e. weight=None, then do the work *)
Definition nx_op2 (op : graph -> graph -> outcome graph) (a b : garg) : outcome graph :=
  obind (to_graph orc a None None) (fun G => obind (to_graph orc b None None) (fun H => op (fst G) (fst H))).
(** nxapi/operators/unary.py 12-22 *)
Definition nx_op1 (op : graph -> outcome graph) (a : garg) : outcome graph :=
  obind (to_graph orc a None None) (fun G => op (fst G)).
(** nxapi/operators/binary.py 17-23 *)
Definition nx_union (a b : garg) (rename : list (option string)) : outcome graph := nx_op2 (fun G H => union orc G H rename) a b.
(** nxapi/operators/binary.py 26-32 *)
Definition nx_disjoint_union : garg -> garg -> outcome graph := nx_op2 (disjoint_union orc).
(** nxapi/operators/binary.py 35-41 *)
Definition nx_intersection : garg -> garg -> outcome graph := nx_op2 (intersection orc).
(** nxapi/operators/binary.py 44-50 *)
Definition nx_difference : garg -> garg -> outcome graph := nx_op2 (difference orc).
(** nxapi/operators/binary.py 53-59 *)
Definition nx_symmetric_difference : garg -> garg -> outcome graph := nx_op2 (symmetric_difference orc).
(** nxapi/operators/binary.py 62-68 *)
Definition nx_compose : garg -> garg -> outcome graph := nx_op2 (compose orc).
(** nxapi/operators/binary.py 71-77 *)
Definition nx_full_join (a b : garg) (rename : list (option string)) : outcome graph := nx_op2 (fun G H => full_join orc G H rename) a b.
(** nxapi/operators/unary.py 12-14 *)
Definition nx_complement : garg -> outcome graph := nx_op1 (fun G => Val (complement orc G)).
(** nxapi/operators/unary.py 17-22, algorithms/operators/unary.py 15-18 (copy=True) *)
Definition nx_reverse : garg -> outcome graph := nx_op1 (reverse orc).
End Ops.
