(** * The classes of the exceptions a caller of the networkx-style functions sees *)
From Verif Require Import Base Model_Graph Model_Cache Model_Keys Model_Utils Model_Bfs Model_Weighted Model_Dense Model_Measures Model_Rank
  Model_Operators Model_Nx Model_Convert.
From Coq Require Import QArith Qcanon.
Open Scope nat_scope.

(** ** Classes
    algorithms/exceptions.py 1-22, nxapi/exception.py 1-43 (when networkx and scipy are installed) and python's own *)
Inductive pyclass :=
  | CException | CLookupError | CKeyError | CIndexError | CAttributeError | CTypeError | CValueError | CArithmeticError
  | CZeroDivisionError | CAssertionError | CRuntimeError | CNotImplementedError
  | CGraphBlasAlgorithmException | CConvergenceFailure | CEmptyGraphError | CPointlessConcept | CNoPath | CUnbounded
  | CNetworkXException | CNetworkXError | CNetworkXPointlessConcept | CNetworkXAlgorithmError | CNetworkXUnfeasible
  | CNetworkXNoPath | CNetworkXUnbounded | CNodeNotFound | CNetworkXNotImplemented | CExceededMaxIterations
  | CPowerIterationFailedConvergence
  | CArpackError | CArpackNoConvergence.
(** the base class: algorithms/exceptions.py 1-22; networkx/exception.py and scipy.sparse.linalg for the classes
    that nxapi/exception.py 25-32 and 43 import *)
Definition base (c : pyclass) : option pyclass :=
  match c with
  | CException => None
  | CLookupError | CAttributeError | CTypeError | CValueError | CArithmeticError | CAssertionError | CRuntimeError
  | CGraphBlasAlgorithmException | CNetworkXException => Some CException
  | CKeyError | CIndexError => Some CLookupError
  | CZeroDivisionError => Some CArithmeticError
  | CNotImplementedError | CArpackError => Some CRuntimeError
  | CArpackNoConvergence => Some CArpackError
  | CConvergenceFailure | CEmptyGraphError | CPointlessConcept | CNoPath | CUnbounded => Some CGraphBlasAlgorithmException
  | CNetworkXError | CNetworkXPointlessConcept | CNetworkXAlgorithmError | CNodeNotFound | CNetworkXNotImplemented
  | CExceededMaxIterations => Some CNetworkXException
  | CNetworkXUnfeasible | CNetworkXUnbounded => Some CNetworkXAlgorithmError
  | CNetworkXNoPath => Some CNetworkXUnfeasible
  | CPowerIterationFailedConvergence => Some CExceededMaxIterations
  end.
(** python's [issubclass]: no class here is more than four steps below [Exception] *)
Definition pyclass_eq (c d : pyclass) : {c = d} + {c <> d}.
Proof. decide equality. Defined.
(** python's [issubclass] *)
Fixpoint issub (k : nat) (c d : pyclass) : bool :=
  if pyclass_eq c d then true else
  match k, base c with S k', Some b => issub k' b d | _, _ => false end.
(** python's [issubclass] *)
Definition issubclass : pyclass -> pyclass -> bool := issub 4.
(** the class of what the functions of algorithms/ and classes/ raise: algorithms/exceptions.py 1-22 *)
Definition class_of (e : exn) : pyclass :=
  match e with
  | EKey => CKeyError | EAttr => CAttributeError | EType => CTypeError | EValue => CValueError | EIndex => CIndexError
  | EZeroDiv => CZeroDivisionError | EAssert => CAssertionError | ENotImpl => CNotImplementedError
  | ENoPath => CNoPath | EUnbounded => CUnbounded | EPointless => CPointlessConcept | EEmptyGraph => CEmptyGraphError
  | EConv => CConvergenceFailure | EAlg => CGraphBlasAlgorithmException
  end.

(** ** What a caller sees *)
Inductive seen_as (X : Type) := Returned (x : X) | Raised (c : pyclass).
Arguments Returned {X} _.
Arguments Raised {X} _.
(** a call as the user makes it; the state is the graph's cache *)
Definition call (X : Type) := st -> seen_as X * st.
(** [try: ... except c1 as e: raise d1(... ) from e except c2 ...]: the first clause whose class is a base of the
    exception's (all of nxapi/ has this form) *)
Fixpoint handler (hs : list (pyclass * pyclass)) (c : pyclass) : pyclass :=
  match hs with [] => c | (h, d) :: hs' => if issubclass c h then d else handler hs' c end.
(** the same *)
Definition translate {X} (hs : list (pyclass * pyclass)) (o : outcome X) : seen_as X :=
  match o with Val x => Returned x | Raise e => Raised (handler hs (class_of e)) end.
(** the same; nothing that the functions below do outside of their [try] raises a class that its clauses name *)
Definition trying {X} (hs : list (pyclass * pyclass)) (m : M X) : call X := fun s => (translate hs (fst (m s)), snd (m s)).
(** [raise c(...)] *)
Definition refuse {X} (c : pyclass) : call X := fun s => (Raised c, s).
(** utils/decorators.py 6-20, networkx' decorator raises NetworkXNotImplemented *)
Definition undirected_only {X} (G : graph) (m : call X) : call X := if g_dir G then refuse CNetworkXNotImplemented else m.
(** utils/decorators.py 6-20 *)
Definition directed_only {X} (G : graph) (m : call X) : call X := if g_dir G then m else refuse CNetworkXNotImplemented.

(** ** nxapi/shortest_paths *)
(** nxapi/shortest_paths/generic.py 9-14 *)
Definition c_has_path G u v : call bool := trying [(CKeyError, CNodeNotFound)] (has_path G u v).
(** nxapi/shortest_paths/unweighted.py 14-19 *)
Definition c_single_source_spl G u cutoff : call (nodemap Z) :=
  if in_graph G u then trying [] (nx_single_source_spl G u cutoff) else refuse CNodeNotFound.
(** nxapi/shortest_paths/unweighted.py 22-27 *)
Definition c_single_target_spl G u cutoff : call (nodemap Z) :=
  if in_graph G u then trying [] (nx_single_target_spl G u cutoff) else refuse CNodeNotFound.
(** nxapi/shortest_paths/weighted.py 16-45; all that the generator yields *)
Definition c_all_pairs_bf pyfloat isz G chunk : call (list (nkey * nodemap Z)) :=
  trying [(CUnbounded, CNetworkXUnbounded)] (nx_all_pairs_bf pyfloat isz G chunk).
(** nxapi/shortest_paths/weighted.py 48-57 *)
Definition c_single_source_bf G u : call (nodemap Z) :=
  trying [(CUnbounded, CNetworkXUnbounded); (CKeyError, CNodeNotFound)] (nx_single_source_bf G u).
(** nxapi/shortest_paths/weighted.py 60-66 *)
Definition c_bf_path fuel G u v : call (option (list nkey)) := trying [(CKeyError, CNodeNotFound)] (nx_bf_path fuel G u v).
(** nxapi/shortest_paths/weighted.py 69-76 *)
Definition c_bf_path_length G u v : call Z :=
  trying [(CKeyError, CNodeNotFound); (CNoPath, CNetworkXNoPath)] (nx_bf_path_length G u v).
(** nxapi/shortest_paths/dense.py 24-37: the nodelist is looked up outside of the [try] *)
Definition c_fw_numpy (pk : nat -> nat -> nat -> bool) (G : graph) (nodelist : option (list nkey)) (weighted : bool) : call (mat Z) :=
  match nodelist with
  | Some l => if negb ((List.length l =? glen G) && (glen G =? distinct l)) then refuse CNetworkXError
              else trying [(CGraphBlasAlgorithmException, CNetworkXError)] (nx_fw_numpy pk G nodelist weighted)
  | None => trying [(CGraphBlasAlgorithmException, CNetworkXError)] (nx_fw_numpy pk G None weighted)
  end.

(** ** nxapi/traversal, dag, components, efficiency_measures, lowest_common_ancestors *)
(** nxapi/traversal/breadth_first_search.py 12-18 *)
Definition c_bfs_layers G srcs : call (list (list nkey)) := trying [(CKeyError, CNetworkXError)] (nx_bfs_layers G srcs).
(** nxapi/traversal/breadth_first_search.py 21-27 *)
Definition c_descendants_at_distance G u d : call nodeset := trying [(CKeyError, CNetworkXError)] (nx_descendants_at_distance G u d).
(** nxapi/dag.py 9-16 *)
Definition c_descendants G u : call nodeset := trying [(CKeyError, CNetworkXError)] (nx_descendants G u).
(** nxapi/dag.py 19-26 *)
Definition c_ancestors G u : call nodeset := trying [(CKeyError, CNetworkXError)] (nx_ancestors G u).
(** nxapi/components/connected.py 14-20 *)
Definition c_is_connected G : call bool :=
  undirected_only G (trying [(CPointlessConcept, CNetworkXPointlessConcept)] (is_connected G)).
(** nxapi/components/connected.py 23-27 *)
Definition c_node_connected_component G u : call nodeset := undirected_only G (trying [] (nx_node_connected_component G u)).
(** nxapi/components/weakly_connected.py 13-19 *)
Definition c_is_weakly_connected G : call bool :=
  directed_only G (trying [(CPointlessConcept, CNetworkXPointlessConcept)] (is_weakly_connected G)).
(** nxapi/efficiency_measures.py 6-9 *)
Definition c_efficiency G u v : call Q := undirected_only G (trying [] (efficiency G u v)).
(** nxapi/lowest_common_ancestors.py 8-11 *)
Definition c_lowest_common_ancestor G u v default : call (option nkey) :=
  directed_only G (trying [] (lowest_common_ancestor G u v default)).

(** ** nxapi/reciprocity.py *)
(** nxapi/reciprocity.py 10-24: [nodes] is None, one object, or a collection of keys *)
Inductive recip_arg := AllOf | OneOf (u : nkey) | SomeOf (l : list nkey).
(** nxapi/reciprocity.py 22-24 *)
Definition c_reciprocity_nodes (G : graph) (l : list nkey) : call (Q + nodemap Q) :=
  trying [] (r <- nx_reciprocity_nodes G l ;; ret (inr r)).
(** nxapi/reciprocity.py 10-33; an object that is not a node is taken for a collection.  An undirected graph passes the decorator (see
    [as_digraph] in Model_Measures) and fails in to_directed_graph. *)
Definition c_reciprocity (G : graph) (a : recip_arg) : call (Q + nodemap Q) :=
  if negb (g_dir G) then refuse CTypeError else
    match a with
    | AllOf => trying [(CEmptyGraphError, CNetworkXError)] (r <- overall_reciprocity G ;; ret (inl r))
    | OneOf u =>
        if in_graph G u then   (* the NetworkXError of line 20 is the [EAlg] of nx_reciprocity_node *)
          trying [(CGraphBlasAlgorithmException, CNetworkXError)] (r <- nx_reciprocity_node G u ;; ret (inl r))
        else match iter_key u with Val l => c_reciprocity_nodes G l | Raise e => refuse (class_of e) end
    | SomeOf l => c_reciprocity_nodes G l
    end.

(** ** nxapi/centrality, nxapi/link_analysis *)
(** nxapi/centrality/eigenvector.py 10-22 *)
Definition c_eigenvector sqr G max_iter tol nstart : call (nodemap Qc) :=
  if glen G =? 0 then refuse CNetworkXPointlessConcept else
  trying [(CConvergenceFailure, CPowerIterationFailedConvergence); (CGraphBlasAlgorithmException, CNetworkXError)]
    (nx_eigenvector_centrality sqr G max_iter tol nstart).
(** nxapi/centrality/katz.py 10-40; [beta] that [dict_to_vector] refuses is NetworkXError as well (27-31) *)
Definition c_katz sqr fl G alpha beta max_iter tol nstart normalized : call (option (nodemap Qc)) :=
  trying [(CConvergenceFailure, CPowerIterationFailedConvergence); (CGraphBlasAlgorithmException, CNetworkXError)]
    (nx_katz_centrality sqr fl G alpha beta max_iter tol nstart normalized).
(** nxapi/link_analysis/hits_alg.py 9-22 *)
Definition c_hits (G : graph) max_iter tol nstart normalized : call (option (nodemap Qc * nodemap Qc)) :=
  trying [(CConvergenceFailure, if max_iter <? 1 then CValueError else CArpackNoConvergence)]
    (nx_hits G max_iter tol nstart normalized).
(** nxapi/link_analysis/pagerank_alg.py 9-45 *)
Definition c_pagerank em G alpha pers max_iter tol nstart dangling : call (option (nodemap Qc)) :=
  trying [(CConvergenceFailure, CPowerIterationFailedConvergence)] (nx_pagerank em G alpha pers max_iter tol nstart dangling).

(** ** nxapi/operators *)
(** nxapi/operators/binary.py 17-77, nxapi/operators/unary.py 17-22: every operator but complement has this handler;
    the conversion of the arguments is outside of it and raises TypeError or ValueError only *)
Definition c_op (o : outcome graph) : seen_as graph := translate [(CGraphBlasAlgorithmException, CNetworkXError)] o.
