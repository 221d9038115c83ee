(** * Graph attributes: the dict [G.graph] and the property [G.name], with objects and references *)
From Verif Require Import Base Model_Graph.
Open Scope nat_scope.
Open Scope list_scope.

(** classes/graph.py 373-374, classes/digraph.py 526-527: the values in [G.graph].  Simplification: an attribute is an
    immutable value (number or string) or a reference to a list of numbers, which stands for the mutable objects *)
Inductive aval := AImm (v : nkey) | AList (l : nat).
(** classes/graph.py 303, classes/digraph.py 444: a Graph or DiGraph of the library, or a networkx graph; [dir]: directed *)
Inductive akind := KLib (dir : bool) | KNx (dir : bool).
(** classes/graph.py 364-382: a graph object: its class and its attribute dict; the matrix is in [Model_Graph] *)
Record aobj := { a_kind : akind; a_dict : list (nkey * aval) }.
(** classes/graph.py 364-382: all graph objects and all list objects, in the order of their creation *)
Record aheap := { a_objs : list aobj; a_lists : list (list Z) }.

(** classes/graph.py 364: what a caller passes as a value: an immutable value, a new list, or the object that is
    attribute [k] of graph [g] *)
Inductive aarg := VImm (v : nkey) | VNew (l : list Z) | VOf (g : nat) (k : nkey).
(** classes/graph.py 414-421: what is seen of a value *)
Inductive aview := WImm (v : nkey) | WList (l : list Z).
(** classes/graph.py 364-421: results of the operations: a new graph object, a value, nothing *)
Inductive ares := RObj (g : nat) | RVal (v : aview) | RNone.

(** classes/graph.py 364: the computations on objects *)
Definition AM (X : Type) := aheap -> outcome X * aheap.
(** classes/graph.py 364 *)
Definition aret {X} (x : X) : AM X := fun h => (Val x, h).
(** classes/graph.py 364 *)
Definition araise {X} (e : exn) : AM X := fun h => (Raise e, h).
(** classes/graph.py 364 *)
Definition abind {X Y} (m : AM X) (f : X -> AM Y) : AM Y :=
  fun h => match m h with (Val x, h') => f x h' | (Raise e, h') => (Raise e, h') end.

(** classes/graph.py 421: assignment to an item of a list of objects *)
Fixpoint lset {X} (l : list X) (i : nat) (x : X) : list X :=
  match l, i with
  | [], _ => []
  | _ :: l', O => x :: l'
  | y :: l', S i' => y :: lset l' i' x
  end.
(** classes/graph.py 376: the object itself; an index without object stands for no value a program could have *)
Definition aobject (g : nat) : AM aobj :=
  fun h => match nth_error (a_objs h) g with Some o => (Val o, h) | None => (Raise EIndex, h) end.
(** classes/graph.py 373: a new graph object *)
Definition anew (k : akind) (d : list (nkey * aval)) : AM ares :=
  fun h => (Val (RObj (List.length (a_objs h))), {| a_objs := a_objs h ++ [{| a_kind := k; a_dict := d |}]; a_lists := a_lists h |}).
(** classes/graph.py 421: replace the dict of a graph *)
Definition awrite (g : nat) (d : list (nkey * aval)) : AM ares :=
  abind (aobject g) (fun o h =>
    (Val RNone, {| a_objs := lset (a_objs h) g {| a_kind := a_kind o; a_dict := d |}; a_lists := a_lists h |})).
(** classes/graph.py 374: [dict.update] *)
Definition dupdate {V} (d e : list (nkey * V)) : list (nkey * V) := fold_left (fun d kv => dset d (fst kv) (snd kv)) e d.

(** classes/graph.py 364: evaluation of an argument *)
Definition aeval (x : aarg) : AM aval :=
  match x with
  | VImm v => aret (AImm v)
  | VNew l => fun h => (Val (AList (List.length (a_lists h))), {| a_objs := a_objs h; a_lists := a_lists h ++ [l] |})
  | VOf g k => abind (aobject g) (fun o => match dget (a_dict o) k with Some v => aret v | None => araise EKey end)
  end.
(** classes/graph.py 364: evaluation of the keyword arguments [**attr] *)
Fixpoint aevals (xs : list (nkey * aarg)) : AM (list (nkey * aval)) :=
  match xs with
  | [] => aret []
  | (k, x) :: xs' => abind (aeval x) (fun v => abind (aevals xs') (fun vs => aret ((k, v) :: vs)))
  end.
(** classes/graph.py 364-374, classes/digraph.py 517-527: [Graph(A, **attr)]; also a networkx graph *)
Definition a_init (k : akind) (attrs : list (nkey * aarg)) : AM ares :=
  abind (aevals attrs) (fun vs => anew k (dupdate [] vs)).
(** classes/graph.py 414-416, classes/digraph.py 567-569: [G.name] *)
Definition a_name (g : nat) : AM aval :=
  abind (aobject g) (fun o => aret (match dget (a_dict o) (KS "name") with Some v => v | None => AImm (KS "") end)).
(** classes/graph.py 418-421, classes/digraph.py 571-574: [G.name = s]; the name of the matrix is not modelled *)
Definition a_setname (g : nat) (s : nkey) : AM ares :=
  abind (aobject g) (fun o => awrite g (dset (a_dict o) (KS "name") (AImm s))).
(** classes/graph.py 373: [G.graph[k] = x] by the user *)
Definition a_set (g : nat) (k : nkey) (x : aarg) : AM ares :=
  abind (aobject g) (fun _ => abind (aeval x) (fun v => abind (aobject g) (fun o => awrite g (dset (a_dict o) k v)))).
(** classes/graph.py 373: what is seen of a value *)
Definition alook (h : aheap) (v : aval) : aview :=
  match v with AImm x => WImm x | AList l => WList (nth l (a_lists h) []) end.
(** classes/graph.py 373: [G.graph[k]] *)
Definition a_get (g : nat) (k : nkey) : AM ares :=
  abind (aobject g) (fun o => match dget (a_dict o) k with Some v => fun h => (Val (RVal (alook h v)), h) | None => araise EKey end).
(** classes/graph.py 373: [G.graph[k].append(x)] by the user *)
Definition a_append (g : nat) (k : nkey) (x : Z) : AM ares :=
  abind (aobject g) (fun o => match dget (a_dict o) k with
    | Some (AList l) => fun h => (Val RNone, {| a_objs := a_objs h; a_lists := lset (a_lists h) l (nth l (a_lists h) [] ++ [x]) |})
    | Some (AImm _) => araise EAttr
    | None => araise EKey end).

(** classes/digraph.py 620: the list objects in a dict, each once *)
Definition alocs (d : list (nkey * aval)) : list nat :=
  nodup Nat.eq_dec (flat_map (fun kv => match snd kv with AList l => [l] | AImm _ => [] end) d).
(** classes/digraph.py 620: position in the list of objects already copied ([deepcopy]'s memo) *)
Fixpoint apos (l : nat) (ls : list nat) : nat :=
  match ls with [] => 0 | m :: ls' => if l =? m then 0 else S (apos l ls') end.
(** classes/digraph.py 620: [deepcopy(self.graph)]: a new list for every list object of the dict, also if it occurs twice *)
Definition adeepcopy (d : list (nkey * aval)) : AM (list (nkey * aval)) :=
  fun h => let ls := alocs d in let n := List.length (a_lists h) in
    (Val (map (fun kv => (fst kv, match snd kv with AImm v => AImm v | AList l => AList (n + apos l ls) end)) d),
     {| a_objs := a_objs h; a_lists := a_lists h ++ map (fun l => nth l (a_lists h) []) ls |}).
(** classes/digraph.py 614-621 [DiGraph.reverse]: the attributes; Graph has no such method *)
Definition a_reverse (g : nat) : AM ares :=
  abind (aobject g) (fun o => match a_kind o with
    | KLib true => abind (adeepcopy (a_dict o)) (fun d => anew (KLib true) (dupdate [] d))
    | _ => araise EAttr end).
(** classes/digraph.py 604-612 [DiGraph.to_undirected]: the new graph has no attributes *)
Definition a_to_undirected (g : nat) : AM ares :=
  abind (aobject g) (fun o => match a_kind o with KLib true => anew (KLib false) [] | _ => araise EAttr end).
(** algorithms/operators/binary.py 43, 56, 70, 89, 109, 147, unary.py 12, generators/ego.py 24: a graph computed from
    library graphs, [type(G)(C, key_to_id=...)] where G is the first: no attributes *)
Definition a_operator (g : nat) (more : list nat) : AM ares :=
  abind (aobject g) (fun o => match a_kind o with KLib d => anew (KLib d) [] | KNx _ => araise EAttr end).
(** interface.py 224-238 [convert_from_nx]: the attributes *)
Definition a_convert (n : nat) (preserve_graph_attrs : bool) : AM ares :=
  abind (aobject n) (fun o => match a_kind o with
    | KNx d => anew (KLib d) (if preserve_graph_attrs then dupdate [] (a_dict o) else [])
    | KLib _ => araise EType end).
(** classes/_utils.py 229-249 [to_networkx]: the attributes are not copied *)
Definition a_to_nx (g : nat) : AM ares :=
  abind (aobject g) (fun o => match a_kind o with KLib d => anew (KNx d) [] | KNx _ => araise EAttr end).

(** classes/graph.py 364-421, classes/digraph.py 517-621, interface.py 224-238: what a program does with attributes *)
Inductive aop :=
| OInit (k : akind) (attrs : list (nkey * aarg)) | OName (g : nat) | OSetName (g : nat) (s : nkey) | OSet (g : nat) (k : nkey) (x : aarg)
| OGet (g : nat) (k : nkey) | OAppend (g : nat) (k : nkey) (x : Z) | OReverse (g : nat) | OToUndirected (g : nat)
| OOperator (g : nat) (more : list nat) | OConvert (n : nat) (preserve : bool) | OToNx (g : nat).
(** classes/graph.py 364-421, classes/digraph.py 517-621, interface.py 224-238 *)
Definition astep (o : aop) : AM ares :=
  match o with
  | OInit k attrs => a_init k attrs
  | OName g => abind (a_name g) (fun v h => (Val (RVal (alook h v)), h))
  | OSetName g s => a_setname g s
  | OSet g k x => a_set g k x
  | OGet g k => a_get g k
  | OAppend g k x => a_append g k x
  | OReverse g => a_reverse g
  | OToUndirected g => a_to_undirected g
  | OOperator g more => a_operator g more
  | OConvert n p => a_convert n p
  | OToNx g => a_to_nx g
  end.
(** classes/graph.py 364-421: a program run; an exception is caught by the program, which goes on *)
Definition arun (os : list aop) (h : aheap) : aheap := fold_left (fun h o => snd (astep o h)) os h.
