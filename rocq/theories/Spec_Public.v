(** * What it means that a public function works on whatever it is given *)
From Verif Require Import Base Model_Graph Model_Cache Model_Keys Spec Spec_Cache Spec_Run Spec_Iso Model_Nx Model_Convert Props_Convert.

(** a valid argument: a library graph in a state of its cache that satisfies [K], a networkx graph, or a Matrix.  For functions on
    undirected graphs ([d = Some false]) the Matrix must be symmetric: nothing checks it (C71_matrix_is_connected_refuted). *)
Definition given (K : graph -> st -> Prop) (d : option bool) (a : garg) : Prop :=
  match a with
  | AGraph G s => gwf G /\ K G s
  | ANx N => nxwf N
  | AMatrix A t => mok A t /\ (d = Some false -> msymmetric A)
  | AOther | ANone => True
  end.
(** what is refused, and how: [d = Some true] for functions on directed graphs only, [Some false] for undirected only,
    [None] for both *)
Definition refused (d : option bool) (a : garg) : option exn :=
  match a with
  | AGraph G _ => match d with Some b => if Bool.eqb (g_dir G) b then None else Some ENotImpl | None => None end
  | ANx N => match d with Some b => if Bool.eqb (nx_dir N) b then None else Some ENotImpl | None => None end
  | AMatrix A _ => if nrows A =? ncols A then None else Some EValue
  | AOther => Some (match d with Some _ => EAttr | None => EType end)
  | ANone => match d with Some _ => Some EAttr | None => None end
  end.
(** the graph that the argument stands for: itself; the networkx graph's nodes, edges and the attribute [w] of its edges (1 where it is
    missing or [w] is None); the Matrix' row numbers and entries; None, where it is not refused, is an empty graph *)
Definition stands_for (d : option bool) (w : option nkey) (a : garg) (G : graph) : Prop :=
  match a with
  | AGraph G' _ => G = G'
  | ANx N => represents G (nx_dir N) (nx_nodes N) (nx_weight N w)
  | AMatrix A _ => represents G (match d with Some b => b | None => true end) (mnodes A) (mweight A)
  | AOther => False
  | ANone => represents G (match d with Some b => b | None => true end) [] (fun _ _ => None)
  end.
(** the function [f] (reading the attribute [w]) refuses exactly those, and otherwise its outcome is as [R] says about the graph that the
    argument stands for *)
Definition serves {X} (K : graph -> st -> Prop) (d : option bool) (w : option nkey) (f : garg -> outcome X * option st)
    (R : graph -> outcome X -> Prop) : Prop :=
  forall a, given K d a ->
    match refused d a with
    | Some e => fst (f a) = Raise e
    | None => exists G, gwf G /\ stands_for d w a G /\ R G (fst (f a))
    end.
(** the states of a library graph's cache: consistent; and the conditions of C02, C05 and C06 *)
Definition consistent (G : graph) (s : st) : Prop := Inv G s.
Definition td_consistent (G : graph) (s : st) : Prop := InvF G false s.
Definition nd_consistent (G : graph) (s : st) : Prop := Inv G s /\ nd_ok G s.
Definition iso_consistent (G : graph) (s : st) : Prop := Inv G s /\ iso_known s.
(** edge_boundary, cut_size and volume ask [G.is_multigraph()] first: they take library and networkx graphs only *)
Definition serves_graphs {X} (K : graph -> st -> Prop) (w : option nkey) (f : garg -> outcome X * option st)
    (R : graph -> outcome X -> Prop) : Prop :=
  forall a, given K None a ->
    match a with
    | AMatrix _ _ | AOther | ANone => fst (f a) = Raise EAttr
    | _ => exists G, gwf G /\ stands_for None w a G /\ R G (fst (f a))
    end.
(** reciprocity and overall_reciprocity answer the wrong kind of graph with TypeError *)
Definition serves_digraphs {X} (K : graph -> st -> Prop) (w : option nkey) (f : garg -> outcome X * option st)
    (R : graph -> outcome X -> Prop) : Prop :=
  forall a, given K (Some true) a ->
    match refused (Some true) a with
    | Some e => fst (f a) = Raise (match e with ENotImpl => EType | _ => e end)
    | None => exists G, gwf G /\ stands_for (Some true) w a G /\ R G (fst (f a))
    end.
(** eigenvector_centrality and katz_centrality are decorated, but take both kinds of graphs: an argument that is neither a graph nor a
    Matrix, and None, are answered with AttributeError *)
Definition serves_objects {X} (K : graph -> st -> Prop) (w : option nkey) (f : garg -> outcome X * option st)
    (R : graph -> outcome X -> Prop) : Prop :=
  forall a, given K None a ->
    match a with
    | AOther | ANone => fst (f a) = Raise EAttr
    | _ => match refused None a with
           | Some e => fst (f a) = Raise e
           | None => exists G, gwf G /\ stands_for None w a G /\ R G (fst (f a))
           end
    end.
