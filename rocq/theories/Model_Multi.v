(** * Multigraphs: classes/graph.py 452-454, classes/digraph.py 624-626, utils/decorators.py 6-20, interface.py 186-238,
    nxapi/boundary.py 9-45, nxapi/cuts.py 16-28, linalg, nxapi/operators.
    The library's MultiGraph and MultiDiGraph differ from Graph and DiGraph only in the answer of [is_multigraph]; their matrix holds
    one value per pair of nodes. *)
From Verif Require Import Base Model_Graph Model_Cache Model_Keys Model_Utils Model_Bfs Model_Weighted Model_Dense Model_Measures Model_Cluster
  Model_Ego Model_Linalg Model_Rank Model_Operators Model_Nx Model_Convert Model_Public.
From Coq Require Import QArith Qcanon.
Open Scope nat_scope.

(** the argument of classes/_utils.py 11-18: library: a networkx multigraph; [G._adj] is a dict of dicts of dicts, from edge keys to
    data dicts *)
Record nxmulti := { xm_dir : bool; xm_adj : list (nkey * list (nkey * list (nkey * attrs))); xm_nattr : bool }.
(** [iter(G)], classes/_utils.py 13 *)
Definition xm_nodes (N : nxmulti) : list nkey := map fst (xm_adj N).
(** [G.get_edge_data(u, v)], as used in classes/_utils.py 15 *)
Definition xm_data (N : nxmulti) (u v : nkey) : option (list (nkey * attrs)) :=
  match dget (xm_adj N) u with Some nb => dget nb v | None => None end.
(** the parallel edges from u to v; classes/_utils.py 15 *)
Definition xm_edges (N : nxmulti) (u v : nkey) : list (nkey * attrs) := oget [] (xm_data N u v).
(** what networkx guarantees about its own multigraphs (the arguments of classes/_utils.py 11-18): no empty dict of parallel edges *)
Record xmwf (N : nxmulti) : Prop := {
  xw_nodes : NoDup (xm_nodes N);
  xw_some : forall u v l, xm_data N u v = Some l -> l <> [];
  xw_ends : forall u v l, xm_data N u v = Some l -> In v (xm_nodes N);
  xw_sym : xm_dir N = false -> forall u v, xm_data N u v = xm_data N v u }.

(** classes/_utils.py 15: library: [nx.to_scipy_sparse_array] sums the values of parallel edges; with dtype=bool the sum is True *)
Definition summed (w : option nkey) (dt : option dtype) (l : list (nkey * attrs)) : option Z :=
  match l with
  | [] => None
  | _ => Some (match dt with Some DBool => 1%Z | _ => fold_right (fun e z => (edge_value w (snd e) + z)%Z) 0%Z l end)
  end.
(** classes/_utils.py 11-18 for a multigraph *)
Definition from_multi (orc : mat Z -> bool) (dir : bool) (N : nxmulti) (w : option nkey) (dt : option dtype) : graph :=
  let keys := xm_nodes N in
  let n := List.length keys in
  new_graph orc dir
    (mbuild n n (fun i j => match nth_error keys i, nth_error keys j with
                            | Some u, Some v => summed w dt (xm_edges N u v)
                            | _, _ => None
                            end))
    (oget (if n =? 0 then DFloat else DInt) dt)
    (combine keys (seq 0 n)).

(** the argument G of a function of nxapi (classes/graph.py 252-269, classes/digraph.py 374-411): what Model_Convert has; a library
    MultiGraph or MultiDiGraph with its cache; a networkx multigraph *)
Inductive marg :=
| MArg (a : garg)
| MLib (G : graph) (s : st)
| MNx (N : nxmulti).
(** [G.is_directed()], [G.is_multigraph()] (utils/decorators.py 6-20, nxapi/cuts.py 17, 25, nxapi/boundary.py 12); graphblas Matrices and
    other objects have neither *)
Definition asks_directed (a : marg) : outcome bool :=
  match a with
  | MArg (AGraph G _) | MLib G _ => Val (g_dir G)
  | MArg (ANx N) => Val (nx_dir N)
  | MNx N => Val (xm_dir N)
  | MArg _ => Raise EAttr
  end.
(** nxapi/cuts.py 17, 25, nxapi/boundary.py 12 *)
Definition asks_multi (a : marg) : outcome bool :=
  match a with
  | MArg (AGraph _ _) | MArg (ANx _) => Val false
  | MLib _ _ | MNx _ => Val true
  | MArg _ => Raise EAttr
  end.
(** utils/decorators.py 6-20 over networkx' not_implemented_for: [dval] is "directed" (true) or "undirected" (false) or neither,
    [mval] is "multigraph" (true) or not named; a graph is refused if it is of all the named kinds.  A Matrix passes. *)
Definition not_implemented_for (dm : option bool * option bool) (a : marg) : outcome unit :=
  match a with
  | MArg (AMatrix _ _) => Val tt
  | _ =>
      obind (match snd dm with None => Val true | Some m => obind (asks_multi a) (fun b => Val (Bool.eqb m b)) end) (fun x =>
      obind (if x then match fst dm with None => Val true | Some d => obind (asks_directed a) (fun b => Val (Bool.eqb d b)) end else Val false) (fun y =>
      if y then Raise ENotImpl else Val tt))
  end.
(** utils/decorators.py 6-20: the decorators in use, for example nxapi/core.py 8-9 *)
Definition nif_directed : option bool * option bool := (Some true, None).
(** for example nxapi/tournament.py 10 *)
Definition nif_undirected : option bool * option bool := (Some false, None).
(** for example nxapi/tournament.py 11 *)
Definition nif_multigraph : option bool * option bool := (None, Some true).
(** nxapi/reciprocity.py 10, 27 *)
Definition nif_undirected_multigraph : option bool * option bool := (Some false, Some true).
(** several decorators, outermost first: for example nxapi/core.py 8-9 *)
Fixpoint all_pass (ds : list (option bool * option bool)) (a : marg) : outcome unit :=
  match ds with [] => Val tt | d :: ds => obind (not_implemented_for d a) (fun _ => all_pass ds a) end.

Section Multi.
Variable orc : mat Z -> bool.
(** the converted graph, whether it is of a multigraph class, and its cache *)
Definition simple_result (o : outcome (graph * st)) : outcome (bool * graph * st) := obind o (fun r => Val (false, fst r, snd r)).
(** classes/digraph.py 393-411: nx.MultiDiGraph is a subclass of nx.DiGraph, nx.MultiGraph of nx.Graph *)
Definition m_to_graph (w : option nkey) (dt : option dtype) (a : marg) : outcome (bool * graph * st) :=
  match a with
  | MArg a => simple_result (to_graph orc a w dt)
  | MLib G s => Val (true, G, s)
  | MNx N => Val (false, from_multi orc (xm_dir N) N w dt, st0)
  end.
(** classes/digraph.py 374-390 *)
Definition m_to_directed_graph (w : option nkey) (dt : option dtype) (a : marg) : outcome (bool * graph * st) :=
  match a with
  | MArg a => simple_result (to_directed_graph orc a w dt)
  | MLib G s => if g_dir G then Val (true, G, s) else Raise EType
  | MNx N => if xm_dir N then Val (false, from_multi orc true N w dt, st0) else Raise EType
  end.
(** classes/graph.py 252-269 *)
Definition m_to_undirected_graph (w : option nkey) (dt : option dtype) (a : marg) : outcome (bool * graph * st) :=
  match a with
  | MArg a => simple_result (to_undirected_graph orc a w dt)
  | MLib G s => Val (true, G, s)
  | MNx N => Val (false, from_multi orc false N w dt, st0)
  end.
(** utils/decorators.py 6-20 and, for example, nxapi/core.py 8-14: decorators, conversion, and the work; the second component is the
    cache of a library graph afterwards *)
Definition m_call {X} (ds : list (option bool * option bool)) (conv : marg -> outcome (bool * graph * st)) (f : bool -> graph -> M X) (a : marg) : pub X :=
  let own := match a with MArg (AGraph _ s) | MLib _ s => Some s | _ => None end in
  match all_pass ds a with
  | Raise e => (Raise e, own)
  | Val _ =>
      match conv a with
      | Raise e => (Raise e, own)
      | Val (m, G, s) => let r := f m G s in (fst r, match own with Some _ => Some (snd r) | None => None end)
      end
  end.
(** nxapi/cuts.py 17, 25, nxapi/boundary.py 12: [is_multigraph = G.is_multigraph()] before the conversion *)
Definition m_asking {X} (f : bool -> marg -> pub X) (a : marg) : pub X :=
  match asks_multi a with
  | Raise e => (Raise e, match a with MArg (AGraph _ s) | MLib _ s => Some s | _ => None end)
  | Val b => f b a
  end.

(** ** the functions that know about multigraphs *)
(** nxapi/boundary.py 40-44: numpy's floats are no repetition counts *)
Definition isfloat (d : dtype) : bool := match d with DFloat => true | _ => false end.
(** nxapi/boundary.py 9-45: the weight of an edge is the number of times it is repeated; [itertools.repeat] raises TypeError for a float.
    (A library multigraph with a boolean matrix: whether numpy's True counts as 1 depends on the numpy version; here it does.) *)
Definition m_edge_boundary (S : list nkey) (T : option (list nkey)) (data : data_arg) : marg -> pub (list (nkey * nkey * option (nkey * Z))) :=
  m_asking (fun multi => m_call [] (m_to_graph (data_weight data) None) (fun _ G =>
    l <- nx_edge_boundary G S T (multi || has (data_weight data)) ;;
    if multi && isfloat (g_dt G) && negb (List.length l =? 0) then raise EType else
    ret (flat_map (fun e => match e with (u, v, x) =>
           let row := (u, v, match data_weight data, x with Some k, Some z => Some (k, z) | _, _ => None end) in
           if multi then repeat row (match x with Some z => Z.to_nat z | None => 0 end) else [row] end) l))).
(** nxapi/cuts.py 16-21 *)
Definition m_cut_size (S : list nkey) (T : option (list nkey)) (weight : option nkey) : marg -> pub Z :=
  m_asking (fun multi => m_call [] (m_to_graph weight None) (fun _ G => nx_cut_size G S T (multi || has weight))).
(** nxapi/cuts.py 24-28 *)
Definition m_volume (S : list nkey) (weight : option nkey) : marg -> pub Z :=
  m_asking (fun multi => m_call [] (m_to_graph weight None) (fun _ G => nx_volume G S (multi || has weight))).
(** nxapi/linalg/graphmatrix.py 7-9, linalg/graphmatrix.py 6-20: asks the converted graph *)
Definition m_adjacency_matrix nodelist (weight : option nkey) : marg -> pub (mat Z) :=
  m_call [] (m_to_graph weight None) (fun multi G => nx_adjacency_matrix G nodelist (multi || has weight)).
(** nxapi/linalg/laplacianmatrix.py 7-9, linalg/laplacianmatrix.py 9-30 *)
Definition m_laplacian_matrix nodelist (weight : option nkey) : marg -> pub (mat Z) :=
  m_call [] (m_to_graph weight None) (fun multi G => nx_laplacian_matrix G nodelist (multi || has weight)).

(** ** the functions that refuse multigraphs *)
(** nxapi/core.py 8-14 *)
Definition m_k_truss fuel k : marg -> pub (option graph) :=
  m_call [nif_directed; nif_multigraph] (m_to_undirected_graph None (Some DBool)) (fun _ G => nx_k_truss orc fuel G k).
(** nxapi/tournament.py 10-14 *)
Definition m_is_tournament : marg -> pub bool := m_call [nif_undirected; nif_multigraph] (m_to_directed_graph None None) (fun _ => nx_is_tournament).
(** nxapi/tournament.py 17-22 *)
Definition m_score_sequence : marg -> pub (list Z) := m_call [nif_undirected; nif_multigraph] (m_to_directed_graph None None) (fun _ => nx_score_sequence).
(** nxapi/tournament.py 25-30 *)
Definition m_tournament_matrix : marg -> pub (mat Z) := m_call [nif_undirected; nif_multigraph] (m_to_directed_graph None None) (fun _ => nx_tournament_matrix).
(** nxapi/linalg/bethehessianmatrix.py 8-12 *)
Definition m_bethe_hessian_matrix r nodelist : marg -> pub (mat Qc) :=
  m_call [nif_directed; nif_multigraph] (m_to_undirected_graph None None) (fun _ G => nx_bethe_hessian G r nodelist).
(** nxapi/linalg/modularitymatrix.py 9-13 *)
Definition m_modularity_matrix nodelist (weight : option nkey) : marg -> pub (mat Qc) :=
  m_call [nif_directed; nif_multigraph] (m_to_undirected_graph weight None) (fun _ G => nx_modularity_matrix G nodelist (has weight)).
(** nxapi/linalg/modularitymatrix.py 16-20 *)
Definition m_directed_modularity_matrix nodelist (weight : option nkey) : marg -> pub (mat Qc) :=
  m_call [nif_undirected; nif_multigraph] (m_to_directed_graph weight None) (fun _ G => nx_directed_modularity G nodelist (has weight)).
(** nxapi/centrality/eigenvector.py 10-22 *)
Definition m_eigenvector_centrality sqr max_iter tol nstart (weight : option nkey) : marg -> pub (nodemap Qc) :=
  m_call [nif_multigraph] (m_to_graph weight (Some DFloat)) (fun _ G => nx_eigenvector_centrality sqr G max_iter tol nstart).
(** nxapi/centrality/katz.py 10-40 *)
Definition m_katz_centrality sqr fl alpha beta max_iter tol nstart normalized (weight : option nkey) : marg -> pub (option (nodemap Qc)) :=
  m_call [nif_multigraph] (m_to_graph weight (Some DFloat)) (fun _ G => nx_katz_centrality sqr fl G alpha beta max_iter tol nstart normalized).
(** nxapi/reciprocity.py 27-33 *)
Definition m_overall_reciprocity : marg -> pub Q := m_call [nif_undirected_multigraph] (m_to_directed_graph None (Some DBool)) (fun _ => nx_overall_reciprocity).
(** nxapi/reciprocity.py 10-24, a node *)
Definition m_reciprocity_node u : marg -> pub Q := m_call [nif_undirected_multigraph] (m_to_directed_graph None (Some DBool)) (fun _ G => nx_reciprocity_node G u).
(** nxapi/reciprocity.py 10-24, a collection *)
Definition m_reciprocity_nodes l : marg -> pub (nodemap Q) := m_call [nif_undirected_multigraph] (m_to_directed_graph None (Some DBool)) (fun _ G => nx_reciprocity_nodes G l).

(** ** all other functions: no decorator, or @not_implemented_for("directed" or "undirected") *)
(** for example nxapi/shortest_paths/weighted.py 48-57 *)
Definition m_any {X} (w : option nkey) (dt : option dtype) (f : graph -> M X) : marg -> pub X := m_call [] (m_to_graph w dt) (fun _ => f).
(** for example nxapi/components/weakly_connected.py 10-16 *)
Definition m_directed {X} (w : option nkey) (dt : option dtype) (f : graph -> M X) : marg -> pub X :=
  m_call [nif_undirected] (m_to_directed_graph w dt) (fun _ => f).
(** for example nxapi/components/connected.py 12-18 *)
Definition m_undirected {X} (w : option nkey) (dt : option dtype) (f : graph -> M X) : marg -> pub X :=
  m_call [nif_directed] (m_to_undirected_graph w dt) (fun _ => f).

(** ** the operators *)
(** nxapi/operators/binary.py 17-77 with algorithms/operators/binary.py 17-20, 47-50, 60-63, 74-77, 93-96, 113-116 (full_join calls
    union): the converted graphs are asked.  [EAlg] becomes NetworkXError, [ENotImpl] is python's NotImplementedError here *)
Definition m_op2 (op : graph -> graph -> outcome graph) (a b : marg) : outcome graph :=
  obind (m_to_graph None None a) (fun r1 => obind (m_to_graph None None b) (fun r2 =>
  match r1, r2 with (mg, G, _), (mh, H, _) =>
    if negb (Bool.eqb mg mh) then Raise EAlg else if mg then Raise ENotImpl else op G H end)).
(** nxapi/operators/unary.py 12-22, algorithms/operators/unary.py 8-18, classes/digraph.py 614-621: the result is of the class of the
    converted graph *)
Definition m_op1 (op : graph -> outcome graph) (a : marg) : outcome (bool * graph) :=
  obind (m_to_graph None None a) (fun r => obind (op (snd (fst r))) (fun R => Val (fst (fst r), R))).

(** ** the dispatcher *)
(** interface.py 189-203 *)
Definition xm_attr_names (N : nxmulti) : list nkey :=
  flat_map (fun nb => flat_map (fun vl => flat_map (fun kx => map fst (snd kx)) (snd vl)) (snd nb)) (xm_adj N).
(** interface.py 173-238 for a multigraph: the result is a MultiDiGraph or a MultiGraph *)
Definition m_convert_from_nx (N : nxmulti) (edge_attrs : option (list (nkey * option Z)))
    (node_attrs preserve_edge_attrs preserve_node_attrs : bool) (weight : option nkey) : outcome marg :=
  obind (if preserve_edge_attrs then
           match dedup (xm_attr_names N) with
           | [a] => Val (Some [(a, None)])
           | [] => Val edge_attrs
           | _ => Raise ENotImpl
           end
         else Val edge_attrs) (fun edge_attrs =>
  if node_attrs then Raise ENotImpl else
  if preserve_node_attrs && xm_nattr N then Raise ENotImpl else
  obind (match edge_attrs with
         | None | Some [] => Val weight
         | Some [(a, default)] =>
             if has weight then Raise EType else
             match default with
             | None => Val (Some a)
             | Some z => if (z =? 1)%Z then Val (Some a) else Raise ENotImpl
             end
         | Some _ => Raise ENotImpl
         end) (fun weight => Val (MLib (from_multi orc (xm_dir N) N weight None) st0))).
End Multi.
