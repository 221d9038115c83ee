(** * networkx graphs and the conversions: classes/_utils.py 11-18, 229-251, interface.py 170-240.
    Only simple graphs (nx.Graph, nx.DiGraph); attribute names are strings or numbers, attribute values
    are integers. *)
From Verif Require Import Base Model_Graph Model_Cache Model_Keys Model_Operators.

(** the argument of classes/_utils.py 11-18: an edge's data dict *)
Definition attrs := list (nkey * Z).
(** the argument of classes/_utils.py 11-18: library: [G._adj] of a networkx graph, a dict of dicts
    of data dicts ([_succ] for a DiGraph);
    [nx_nattr]: some node carries an attribute *)
Record nxgraph := { nx_dir : bool; nx_adj : list (nkey * list (nkey * attrs)); nx_nattr : bool }.
(** the argument of classes/_utils.py 11-18: [iter(G)] *)
Definition nx_nodes (N : nxgraph) : list nkey := map fst (nx_adj N).
(** the argument of classes/_utils.py 11-18: [G.get_edge_data(u, v)] *)
Definition nx_data (N : nxgraph) (u v : nkey) : option attrs :=
  match dget (nx_adj N) u with Some nb => dget nb v | None => None end.
(** the argument of classes/_utils.py 11-18: what networkx guarantees about its own graphs *)
Record nxwf (N : nxgraph) : Prop := {
  nw_nodes : NoDup (nx_nodes N);
  nw_ends : forall u v x, nx_data N u v = Some x -> In v (nx_nodes N);
  nw_sym : nx_dir N = false -> forall u v, nx_data N u v = nx_data N v u }.
(** used in classes/_utils.py 11-18: library: the value [nx.to_scipy_sparse_array] takes for an
    edge: [data.get(weight, 1)], and 1 for weight=None *)
Definition edge_value (weight : option nkey) (x : attrs) : Z :=
  match weight with None => 1%Z | Some a => oget 1%Z (dget x a) end.

(** classes/_utils.py 11-18; the dtype is what numpy infers: [dt] for integers, float for no nodes *)
Definition from_networkx (orc : mat Z -> bool) (N : nxgraph) (weight : option nkey) : graph :=
  let keys := nx_nodes N in
  let n := List.length keys in
  new_graph orc (nx_dir N)
    (mbuild n n (fun i j => match nth_error keys i, nth_error keys j with
                            | Some u, Some v => match nx_data N u v with Some x => Some (edge_value weight x) | None => None end
                            | _, _ => None
                            end))
    (if n =? 0 then DFloat else DInt)
    (combine keys (seq 0 n)).

(** used in classes/_utils.py 229-249: library: [G.add_edge(u, v, **data)] for existing nodes *)
Definition adj_set (l : list (nkey * list (nkey * attrs))) (u v : nkey) (x : attrs) :=
  match dget l u with Some nb => dset l u (dset nb v x) | None => l end.
(** used in classes/_utils.py 229-249 *)
Definition add_edge (N : nxgraph) (u v : nkey) (data : attrs) : nxgraph :=
  let x := dupdate (oget [] (nx_data N u v)) data in
  let a := adj_set (nx_adj N) u v x in
  {| nx_dir := nx_dir N; nx_adj := if nx_dir N then a else adj_set a v u x; nx_nattr := nx_nattr N |}.
(** classes/_utils.py 229-249 *)
Definition to_networkx (G : graph) (edge_attribute : option nkey) : M nxgraph :=
  A <- (if g_dir G then ret (g_A G) else get_Lp G) ;;
  let N := {| nx_dir := g_dir G; nx_adj := map (fun k => (k, [])) (gnodes G); nx_nattr := false |} in
  es <- idx (mapO (fun e => match e with (i, j, w) =>
                     match ikey (g_kid G) i, ikey (g_kid G) j with Some u, Some v => Some (u, v, w) | _, _ => None end
                   end) (mcoo A)) ;;
  ret (fold_left (fun N e => match e with (u, v, w) =>
                    add_edge N u v (match edge_attribute with Some a => [(a, w)] | None => [] end) end) es N).

(** interface.py 186-203: the names of all edge attributes *)
Definition edge_attr_names (N : nxgraph) : list nkey :=
  flat_map (fun nb => flat_map (fun vx => map fst (snd vx)) (snd nb)) (nx_adj N).
(** interface.py 190-203: [set(l)] *)
Fixpoint dedup (l : list nkey) : list nkey :=
  match l with [] => [] | x :: l' => if existsb (nkey_eqb x) l' then dedup l' else x :: dedup l' end.
(** interface.py 173-238; [edge_attrs] is [None] or a dict of defaults, [node_attrs]: given and not
    empty.
    Multigraphs are modelled in Model_Multi; graph attributes are not modelled. *)
Definition convert_from_nx (orc : mat Z -> bool) (N : nxgraph) (edge_attrs : option (list (nkey * option Z)))
    (node_attrs preserve_edge_attrs preserve_node_attrs : bool) (weight : option nkey) : outcome graph :=
  obind (if preserve_edge_attrs then
           match dedup (edge_attr_names N) with
           | [a] => Val (Some [(a, None)])
           | [] => Val edge_attrs
           | _ => Raise ENotImpl
           end
         else Val edge_attrs) (fun edge_attrs =>
  if node_attrs then Raise ENotImpl else
  if preserve_node_attrs && nx_nattr N then Raise ENotImpl else
  obind (match edge_attrs with
         | None | Some [] => Val weight
         | Some [(a, default)] =>
             if has weight then Raise EType else
             match default with
             | None => Val (Some a)
             | Some z => if (z =? 1)%Z then Val (Some a) else Raise ENotImpl
             end
         | Some _ => Raise ENotImpl
         end) (fun weight => Val (from_networkx orc N weight))).
