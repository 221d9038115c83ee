(** * Node keys and ids, conversions and the result containers (classes/_utils.py, nodemap.py,
    nodeset.py) *)
From Verif Require Import Base Model_Graph.

(** [_key_to_id], classes/graph.py 376-382: a python dict from keys to ids *)
Definition kidmap := list (nkey * nat).
(** [G._key_to_id[k]], classes/graph.py 376-380 *)
Definition kid (G : graph) (k : nkey) : option nat := dget (g_kid G) k.
(** [n in G], classes/graph.py 430-434 (unhashable objects are not modelled) *)
Definition in_graph (G : graph) (k : nkey) : bool := has (kid G k).
(** [iter(G)], classes/graph.py 427-428 *)
Definition gnodes (G : graph) : list nkey := map fst (g_kid G).
(** classes/_utils.py 26-29 [id_to_key]: [{val: key for key, val in ...}], the last pair wins *)
Fixpoint ikey (d : kidmap) (i : nat) : option nkey :=
  match d with
  | [] => None
  | (k, v) :: d' => match ikey d' i with
                    | Some k' => Some k'
                    | None => if v =? i then Some k else None
                    end
  end.

(** classes/_utils.py 84-88, classes/_utils.py 91-95: [[f(x) for x in l]] where a lookup may raise
    KeyError *)
Fixpoint mapO {X Y} (f : X -> option Y) (l : list X) : option (list Y) :=
  match l with
  | [] => Some []
  | x :: l' => match f x, mapO f l' with Some y, Some ys => Some (y :: ys) | _, _ => None end
  end.
(** classes/_utils.py 84-88, classes/_utils.py 91-95 *)
Definition okey {X} (o : option X) : outcome X := match o with Some x => Val x | None => Raise EKey end.

(** used in classes/_utils.py 58-65 and classes/_utils.py 98-109: library: [Vector.from_coo(index,
    scalar)] (duplicates allowed) and [Vector.from_coo(indices, values)] *)
Definition vscatter {V} (n : nat) (l : list nat) (x : V) : vec V :=
  vbuild n (fun i => if existsb (Nat.eqb i) l then Some x else None).
(** used in classes/_utils.py 58-65 and classes/_utils.py 98-109 *)
Fixpoint nassoc {V} (l : list (nat * V)) (i : nat) : option V :=
  match l with [] => None | (j, x) :: l' => if j =? i then Some x else nassoc l' i end.
(** used in classes/_utils.py 58-65 and classes/_utils.py 98-109 *)
Definition vfrom {V} (n : nat) (l : list (nat * V)) : vec V := vbuild n (nassoc l).

(** ** classes/_utils.py conversions; [d] is the owner's _key_to_id *)
(** classes/_utils.py 58-65: [zip] of an empty dict cannot be unpacked into two names: ValueError *)
Definition dict_to_vector {V} (d : kidmap) (n : nat) (x : list (nkey * V)) : outcome (vec V) :=
  match mapO (fun kv => dget d (fst kv)) x with
  | None => Raise EKey
  | Some ids => match x with
                | [] => Raise EValue
                | _ => Val (vfrom n (combine ids (map snd x)))
                end
  end.
(** classes/_utils.py 68-75 *)
Definition list_to_vector (d : kidmap) (n : nat) (nodes : list nkey) : outcome (vec bool) :=
  match mapO (dget d) nodes with Some ids => Val (vscatter n ids true) | None => Raise EKey end.
(** classes/_utils.py 84-88 *)
Definition list_to_ids (d : kidmap) (nodes : list nkey) : outcome (list nat) := okey (mapO (dget d) nodes).
(** classes/_utils.py 91-95 *)
Definition list_to_keys (d : kidmap) (ids : list nat) : outcome (list nkey) := okey (mapO (ikey d) ids).
(** classes/_utils.py 98-109: python sets are given as lists (any order, duplicates harmless) *)
Definition set_to_vector (d : kidmap) (n : nat) (ignore_extra : bool) (nodes : list nkey) : outcome (vec bool) :=
  let nodes := if ignore_extra then filter (fun k => has (dget d k)) nodes else nodes in
  match mapO (dget d) nodes with Some ids => Val (vscatter n ids true) | None => Raise EKey end.
(** classes/_utils.py 112-119: without mask; a dict as an association list in [to_coo] order *)
Definition vector_to_dict {V} (d : kidmap) (fill : option V) (v : vec V) : outcome (list (nkey * V)) :=
  let v := match fill with
           | Some x => if nvals v <? vsize v then vassign (mNS v) x v else v
           | None => v
           end in
  okey (mapO (fun ix => match ikey d (fst ix) with Some k => Some (k, snd ix) | None => None end) (vcoo v)).
(** classes/_utils.py 113-115: with a structural mask [mask.S]; [v(mask, binary.first) << fill] keeps the
    entries there are and fills the others under the mask *)
Definition vector_to_dict_mask {V W} (d : kidmap) (mask : vec W) (fill : option V) (v : vec V) : outcome (list (nkey * V)) :=
  let v := match fill with
           | Some x => if nvals v <? nvals mask then vassign (fun i => mS mask i && negb (has (vget v i))) x v else v
           | None => v
           end in
  okey (mapO (fun ix => match ikey d (fst ix) with Some k => Some (k, snd ix) | None => None end) (vcoo v)).
(** classes/_utils.py 122-129: (values_are_keys=False) *)
Definition vector_to_list {V} (d : kidmap) (v : vec V) : outcome (list nkey) := okey (mapO (ikey d) (vindices v)).
(** classes/_utils.py 155-158 *)
Definition vector_to_set {V} (d : kidmap) (v : vec V) : outcome (list nkey) := okey (mapO (ikey d) (vindices v)).
(** classes/_utils.py 258-261: the dict comprehension: later duplicates overwrite the value in place *)
Definition renumber_key_to_id (d : kidmap) (indices : list nat) : outcome kidmap :=
  match mapO (ikey d) indices with
  | Some ks => Val (fold_left (fun acc ki => dset acc (fst ki) (snd ki)) (combine ks (seq 0 (List.length ks))) [])
  | None => Raise EKey
  end.
(** classes/_utils.py 179-226: rows with at least one entry, in row order; the three labellings *)
Definition mrow_entries {V} (m : mat V) (i : nat) : list (nat * V) := vcoo (mrow m i).
(** classes/_utils.py 179-226 *)
Definition matrix_to_idicts {V} (m : mat V) : list (nat * list (nat * V)) :=
  filter (fun r => match snd r with [] => false | _ => true end)
         (map (fun i => (i, mrow_entries m i)) (seq 0 (nrows m))).
(** classes/_utils.py 205-226: how a row or column number is shown: as it is, or as the node's key *)
Definition mlabel (d : kidmap) (use_index : bool) (i : nat) : option (nat + nkey) :=
  if use_index then Some (inl i) else match ikey d i with Some k => Some (inr k) | None => None end.
(** classes/_utils.py 179-226 *)
Definition relabel {V W} (lab : nat -> option (nat + nkey)) (val : V -> option W) (l : list (nat * V)) : option (list ((nat + nkey) * W)) :=
  mapO (fun ix => match lab (fst ix), val (snd ix) with Some k, Some w => Some (k, w) | _, _ => None end) l.
(** classes/_utils.py 179-226 *)
Definition mtd {V W} (rl cl : nat -> option (nat + nkey)) (val : V -> option W) (m : mat V)
  : outcome (list ((nat + nkey) * list ((nat + nkey) * W))) :=
  okey (mapO (fun r => match rl (fst r), relabel cl val (snd r) with
                       | Some k, Some l => Some (k, l) | _, _ => None end) (matrix_to_idicts m)).
(** classes/_utils.py 179-226 *)
Definition matrix_to_dicts {V} (d : kidmap) (use_row_index use_column_index : bool) (m : mat V) :=
  mtd (mlabel d use_row_index) (mlabel d use_column_index) Some m.
(** classes/_utils.py 179-226: values_are_keys=True, 203-204 *)
Definition matrix_to_dicts_keys (d : kidmap) (use_row_index use_column_index : bool) (m : mat nat) :=
  mtd (mlabel d use_row_index) (mlabel d use_column_index) (ikey d) m.
(** classes/_utils.py 186-191: given a TransposedMatrix [m.T], the two flags are exchanged although
    rows and columns
    already are those of [m.T] *)
Definition matrix_to_dicts_T {V} (d : kidmap) (use_row_index use_column_index : bool) (m : mat V) :=
  matrix_to_dicts d use_column_index use_row_index (mtrans m).

(** ** nodemap.py 8-129: NodeMap.  values_are_keys maps are [keymap] below. *)
Record nodemap (V : Type) := NM { nm_v : vec V; nm_kid : kidmap; nm_fill : option V }.
Arguments NM {V} _ _ _. Arguments nm_v {V} _. Arguments nm_kid {V} _. Arguments nm_fill {V} _.
(** classes/nodemap.py 38-40: removing an absent entry of a Vector is not an error *)
Definition nm_delitem {V} (m : nodemap V) (k : nkey) : outcome (nodemap V) :=
  match dget (nm_kid m) k with Some i => Val (NM (vdel (nm_v m) i) (nm_kid m) (nm_fill m)) | None => Raise EKey end.
(** classes/nodemap.py 42-50; the vector has an entry for every node: see [nm_getitem_any] *)
Definition nm_getitem {V} (m : nodemap V) (k : nkey) : outcome V :=
  match dget (nm_kid m) k with
  | None => Raise EKey
  | Some i => match vget (nm_v m) i with
              | Some x => Val x
              | None => match nm_fill m with Some x => Val x | None => Raise EKey end
              end
  end.
(** classes/nodemap.py 42-50: the same for a vector that may be shorter than the numbering, where [vector.get] raises
    IndexError (only algorithms/cluster.py 313-318 makes one) *)
Definition nm_getitem_any {V} (m : nodemap V) (k : nkey) : outcome V :=
  match dget (nm_kid m) k with
  | None => Raise EKey
  | Some i => if i <? vsize (nm_v m) then nm_getitem m k else Raise EIndex
  end.
(** classes/nodemap.py 52-58 *)
Definition nm_iter {V} (m : nodemap V) : outcome (list nkey) :=
  match nm_fill m with Some _ => Val (map fst (nm_kid m)) | None => okey (mapO (ikey (nm_kid m)) (vindices (nm_v m))) end.
(** classes/nodemap.py 60-63 *)
Definition nm_len {V} (m : nodemap V) : nat :=
  match nm_fill m with Some _ => List.length (nm_kid m) | None => nvals (nm_v m) end.
(** classes/nodemap.py 65-69 *)
Definition nm_setitem {V} (m : nodemap V) (k : nkey) (x : V) : outcome (nodemap V) :=
  match dget (nm_kid m) k with Some i => Val (NM (vset (nm_v m) i x) (nm_kid m) (nm_fill m)) | None => Raise EKey end.
(** classes/nodemap.py 72-74 *)
Definition nm_contains {V} (m : nodemap V) (k : nkey) : outcome bool :=
  match dget (nm_kid m) k with Some i => Val (has (nm_fill m) || has (vget (nm_v m) i)) | None => Raise EKey end.
(** classes/nodemap.py 86-88 *)
Definition nm_clear {V} (m : nodemap V) : nodemap V := NM (vempty (vsize (nm_v m))) (nm_kid m) None.
(** classes/nodemap.py 90-99 *)
Definition nm_get {V} (m : nodemap V) (k : nkey) (default : option V) : outcome (option V) :=
  match dget (nm_kid m) k with
  | None => Raise EKey
  | Some i => Val (match vget (nm_v m) i with
                   | Some x => Some x
                   | None => match nm_fill m with Some x => Some x | None => default end
                   end)
  end.
(** classes/nodemap.py 105-114: the first stored entry *)
Definition nm_popitem {V} (m : nodemap V) : outcome (nkey * V * nodemap V) :=
  match vcoo (nm_v m) with
  | [] => Raise EKey
  | (i, x) :: _ => match ikey (nm_kid m) i with
                   | Some k => Val (k, x, NM (vdel (nm_v m) i) (nm_kid m) (nm_fill m))
                   | None => Raise EKey
                   end
  end.
(** classes/nodemap.py 116-126 *)
Definition nm_setdefault {V} (m : nodemap V) (k : nkey) (default : option V) : outcome (option V * nodemap V) :=
  match dget (nm_kid m) k with
  | None => Raise EKey
  | Some i => match vget (nm_v m) i with
              | Some x => Val (Some x, m)
              | None => match nm_fill m with
                        | Some x => Val (Some x, m)
                        | None => match default with
                                  | Some x => Val (Some x, NM (vset (nm_v m) i x) (nm_kid m) (nm_fill m))
                                  | None => Val (None, m)
                                  end
                        end
              end
  end.

(** values_are_keys=True: the vector stores ids, the interface speaks keys (no fill value) *)
(** classes/nodemap.py 42-50 *)
Definition km_getitem (m : nodemap nat) (k : nkey) : outcome nkey :=
  match dget (nm_kid m) k with
  | None => Raise EKey
  | Some i => match vget (nm_v m) i with Some j => okey (ikey (nm_kid m) j) | None => Raise EKey end
  end.
(** classes/nodemap.py 65-69 *)
Definition km_setitem (m : nodemap nat) (k k' : nkey) : outcome (nodemap nat) :=
  match dget (nm_kid m) k, dget (nm_kid m) k' with
  | Some i, Some j => Val (NM (vset (nm_v m) i j) (nm_kid m) (nm_fill m))
  | _, _ => Raise EKey
  end.
(** classes/nodemap.py 90-99 *)
Definition km_get (m : nodemap nat) (k : nkey) (default : option nkey) : outcome (option nkey) :=
  match dget (nm_kid m) k with
  | None => Raise EKey
  | Some i => match vget (nm_v m) i with
              | Some j => match ikey (nm_kid m) j with Some k' => Val (Some k') | None => Raise EKey end
              | None => Val default
              end
  end.
(** classes/nodemap.py 105-114 *)
Definition km_popitem (m : nodemap nat) : outcome (nkey * nkey * nodemap nat) :=
  match vcoo (nm_v m) with
  | [] => Raise EKey
  | (i, j) :: _ => match ikey (nm_kid m) j, ikey (nm_kid m) i with
                   | Some k', Some k => Val (k, k', NM (vdel (nm_v m) i) (nm_kid m) (nm_fill m))
                   | _, _ => Raise EKey
                   end
  end.

(** ** nodeset.py 8-112: NodeSet *)
Record nodeset := NS { ns_v : vec bool; ns_kid : kidmap }.
(** classes/nodeset.py 36-38 *)
Definition ns_contains (m : nodeset) (k : nkey) : outcome bool :=
  match dget (ns_kid m) k with Some i => Val (has (vget (ns_v m) i)) | None => Raise EKey end.
(** classes/nodeset.py 40-44 *)
Definition ns_iter (m : nodeset) : outcome (list nkey) := okey (mapO (ikey (ns_kid m)) (vindices (ns_v m))).
(** classes/nodeset.py 46-47 *)
Definition ns_len (m : nodeset) : nat := nvals (ns_v m).
(** classes/nodeset.py 49-51 *)
Definition ns_add (m : nodeset) (k : nkey) : outcome nodeset :=
  match dget (ns_kid m) k with Some i => Val (NS (vset (ns_v m) i true) (ns_kid m)) | None => Raise EKey end.
(** classes/nodeset.py 53-55 *)
Definition ns_discard (m : nodeset) (k : nkey) : outcome nodeset :=
  match dget (ns_kid m) k with Some i => Val (NS (vdel (ns_v m) i) (ns_kid m)) | None => Raise EKey end.
(** classes/nodeset.py 58-68: both NodeSets; [plus_pair(a @ b).get(0)]; dict equality as equal
    lookups on both key sets *)
Definition kid_eqb (a b : kidmap) : bool :=
  (List.length a =? List.length b) &&
  forallb (fun kv => match dget b (fst kv) with Some j => snd kv =? j | None => false end) a.
(** classes/nodeset.py 58-68 *)
Definition ns_eq (a b : nodeset) : bool :=
  (vsize (ns_v a) =? vsize (ns_v b)) && (nvals (ns_v a) =? nvals (ns_v b)) &&
  (oz (vdot Z.add op_pairz (ns_v a) (ns_v b)) =? Z.of_nat (nvals (ns_v a)))%Z && kid_eqb (ns_kid a) (ns_kid b).
(** classes/nodeset.py 75-76 *)
Definition ns_clear (m : nodeset) : nodeset := NS (vempty (vsize (ns_v m))) (ns_kid m).
(** classes/nodeset.py 78-81: (the method is misspelt [isdisjoin]), both NodeSets *)
Definition ns_isdisjoin (a b : nodeset) : bool := negb (has (vdot op_any op_pairb (ns_v a) (ns_v b))).
(** classes/nodeset.py 83-89 *)
Definition ns_pop (m : nodeset) : outcome (nkey * nodeset) :=
  match vindices (ns_v m) with
  | [] => Raise EKey
  | i :: _ => match ikey (ns_kid m) i with Some k => Val (k, NS (vdel (ns_v m) i) (ns_kid m)) | None => Raise EKey end
  end.
(** classes/nodeset.py 91-95 *)
Definition ns_remove (m : nodeset) (k : nkey) : outcome nodeset :=
  match dget (ns_kid m) k with
  | Some i => if has (vget (ns_v m) i) then Val (NS (vdel (ns_v m) i) (ns_kid m)) else Raise EKey
  | None => Raise EKey
  end.
(** classes/nodeset.py 97-103 *)
Definition ns_from_iterable (m : nodeset) (it : list nkey) : outcome nodeset :=
  match set_to_vector (ns_kid m) (vsize (ns_v m)) false it with Val v => Val (NS v (ns_kid m)) | Raise e => Raise e end.
(** classes/nodeset.py 8-112: collections.abc.Set [__and__], [__or__], [__sub__], inherited (used
    through [_from_iterable]);
    python evaluates [value in self] for each element of other: KeyError for foreign elements *)
Fixpoint filterO {X} (f : X -> outcome bool) (l : list X) : outcome (list X) :=
  match l with
  | [] => Val []
  | x :: l' => match f x with
               | Raise e => Raise e
               | Val b => match filterO f l' with Raise e => Raise e | Val r => Val (if b then x :: r else r) end
               end
  end.
(** classes/nodeset.py 8-112 (methods inherited from MutableSet) *)
Definition obind {X Y} (o : outcome X) (f : X -> outcome Y) : outcome Y :=
  match o with Val x => f x | Raise e => Raise e end.
(** classes/nodeset.py 8-112 (methods inherited from MutableSet) *)
Definition ns_and (m : nodeset) (other : list nkey) : outcome nodeset :=
  obind (filterO (ns_contains m) other) (ns_from_iterable m).
(** classes/nodeset.py 8-112 (methods inherited from MutableSet) *)
Definition ns_or (m : nodeset) (other : list nkey) : outcome nodeset :=
  obind (ns_iter m) (fun l => ns_from_iterable m (l ++ other)).

(** ** nodemap.py 132-194: VectorMap (keys are integers) *)
(** classes/nodemap.py 132-191: [v.get(i)] on an index out of range raises IndexError *)
Definition vec_get {V} (v : vec V) (i : nat) : outcome (option V) := if i <? vsize v then Val (vget v i) else Raise EIndex.
(** classes/nodemap.py 140-141: [__getitem__] is [vector.get]: None instead of KeyError *)
Definition vm_getitem {V} (v : vec V) (i : nat) : outcome (option V) := vec_get v i.
(** classes/nodemap.py 143-145 *)
Definition vm_iter {V} (v : vec V) : list nat := vindices v.
(** classes/nodemap.py 147-148 *)
Definition vm_len {V} (v : vec V) : nat := nvals v.
(** classes/nodemap.py 137-138 *)
Definition vm_delitem {V} (v : vec V) (i : nat) : outcome (vec V) := if i <? vsize v then Val (vdel v i) else Raise EIndex.
(** classes/nodemap.py 150-151 *)
Definition vm_setitem {V} (v : vec V) (i : nat) (x : V) : outcome (vec V) := if i <? vsize v then Val (vset v i x) else Raise EIndex.
(** classes/nodemap.py 154-155: [key in vector]: False when out of range is not guaranteed by the
    library: IndexError *)
Definition vm_contains {V} (v : vec V) (i : nat) : outcome bool := if i <? vsize v then Val (has (vget v i)) else Raise EIndex.
(** classes/nodemap.py 171-172 *)
Definition vm_get {V} (v : vec V) (i : nat) (default : option V) : outcome (option V) :=
  if i <? vsize v then Val (match vget v i with Some x => Some x | None => default end) else Raise EIndex.
(** classes/nodemap.py 178-185 *)
Definition vm_popitem {V} (v : vec V) : outcome (nat * V * vec V) :=
  match vcoo v with [] => Raise EKey | (i, x) :: _ => Val (i, x, vdel v i) end.
(** classes/nodemap.py 187-191: with a default value *)
Definition vm_setdefault {V} (v : vec V) (i : nat) (default : V) : outcome (V * vec V) :=
  if i <? vsize v then match vget v i with Some x => Val (x, v) | None => Val (default, vset v i default) end else Raise EIndex.

(** ** nodemap.py 197-447: maps of rows.  [rm_rows] is the lazily computed [_rows]. *)
Record rowmap (V : Type) := RM { rm_m : mat V; rm_kid : kidmap; rm_rows : option (vec bool); rm_fill : option V }.
Arguments RM {V} _ _ _ _. Arguments rm_m {V} _. Arguments rm_kid {V} _. Arguments rm_rows {V} _. Arguments rm_fill {V} _.
(** classes/nodemap.py 198-205, classes/nodemap.py 312-321 *)
Definition mkrm {V} (m : mat V) (d : kidmap) (fill : option V) : rowmap V := RM m d None fill.
(** classes/nodemap.py 207-211, classes/nodemap.py 323-327: the rows with at least one entry *)
Definition rows_of {V} (m : mat V) : vec bool :=
  vmap (fun _ => true) (vbuild (nrows m) (fun i => ored op_any (ncols m) (fun j => mget m i j))).
(** classes/nodemap.py 207-211, classes/nodemap.py 323-327 *)
Definition rm_get_rows {V} (r : rowmap V) : vec bool * rowmap V :=
  match rm_rows r with
  | Some v => (v, r)
  | None => let v := rows_of (rm_m r) in (v, RM (rm_m r) (rm_kid r) (Some v) (rm_fill r))
  end.
(** used in classes/nodemap.py 232-236: library: [del m[i, :]] and [m[i, :] = v] *)
Definition mdelrow {V} (m : mat V) (i : nat) : mat V := mselect (fun a _ => negb (a =? i)) m.
(** used in classes/nodemap.py 254-269 *)
Definition msetrow {V} (m : mat V) (i : nat) (v : vec V) : mat V :=
  mbuild (nrows m) (ncols m) (fun a b => if a =? i then vget v b else mget m a b).
(** classes/nodemap.py 232-236, classes/nodemap.py 348-352 *)
Definition rm_delitem {V} (r : rowmap V) (k : nkey) : outcome (rowmap V) :=
  match dget (rm_kid r) k with
  | Some i => Val (RM (mdelrow (rm_m r) i) (rm_kid r) (omap (fun v => vdel v i) (rm_rows r)) (rm_fill r))
  | None => Raise EKey
  end.
(** classes/nodemap.py 238-242: VectorNodeMap.__getitem__ gives a VectorMap *)
Definition vnm_getitem {V} (r : rowmap V) (k : nkey) : outcome (vec V * rowmap V) :=
  match dget (rm_kid r) k with
  | Some i => let (rows, r') := rm_get_rows r in
              if has (vget rows i) then Val (mrow (rm_m r) i, r') else Raise EKey
  | None => Raise EKey
  end.
(** classes/nodemap.py 354-362: NodeNodeMap.__getitem__ gives a NodeMap *)
Definition nnm_getitem {V} (r : rowmap V) (k : nkey) : outcome (nodemap V * rowmap V) :=
  match dget (rm_kid r) k with
  | Some i => match rm_fill r with
              | Some f => Val (NM (mrow (rm_m r) i) (rm_kid r) (Some f), r)
              | None => let (rows, r') := rm_get_rows r in
                        if has (vget rows i) then Val (NM (mrow (rm_m r) i) (rm_kid r) None, r') else Raise EKey
              end
  | None => Raise EKey
  end.
(** classes/nodemap.py 244-249, classes/nodemap.py 364-371 *)
Definition rm_iter {V} (r : rowmap V) : outcome (list nkey) :=
  match rm_fill r with
  | Some _ => Val (map fst (rm_kid r))
  | None => okey (mapO (ikey (rm_kid r)) (vindices (fst (rm_get_rows r))))
  end.
(** classes/nodemap.py 251-252, classes/nodemap.py 373-376 *)
Definition rm_len {V} (r : rowmap V) : nat :=
  match rm_fill r with Some _ => List.length (rm_kid r) | None => nvals (fst (rm_get_rows r)) end.
(** classes/nodemap.py 254-269, classes/nodemap.py 378-394: with a vector (VectorMap, NodeMap) as
    value *)
Definition rm_setitem {V} (r : rowmap V) (k : nkey) (x : vec V) : outcome (rowmap V) :=
  match dget (rm_kid r) k with
  | Some i => if nvals x =? 0
              then Val (RM (mdelrow (rm_m r) i) (rm_kid r) (omap (fun v => vdel v i) (rm_rows r)) (rm_fill r))
              else Val (RM (msetrow (rm_m r) i x) (rm_kid r) (omap (fun v => vset v i true) (rm_rows r)) (rm_fill r))
  | None => Raise EKey
  end.
(** classes/nodemap.py 378-394: with a dict as value: [Vector.from_dict(val)] takes the dict's keys
    as *ids* *)
Definition nnm_setitem_dict {V} (r : rowmap V) (k : nkey) (x : list (nat * V)) : outcome (rowmap V) :=
  rm_setitem r k (vfrom (ncols (rm_m r)) x).
(** classes/nodemap.py 272-274, classes/nodemap.py 397-399 *)
Definition rm_contains {V} (r : rowmap V) (k : nkey) : outcome bool :=
  match dget (rm_kid r) k with
  | Some i => Val (has (rm_fill r) || has (vget (fst (rm_get_rows r)) i))
  | None => Raise EKey
  end.
(** classes/nodemap.py 281-283, classes/nodemap.py 411-414 *)
Definition rm_clear {V} (r : rowmap V) : rowmap V := RM (mempty (nrows (rm_m r)) (ncols (rm_m r))) (rm_kid r) None None.
(** classes/nodemap.py 285-289 *)
Definition vnm_get {V} (r : rowmap V) (k : nkey) : outcome (option (vec V)) :=
  match dget (rm_kid r) k with
  | Some i => Val (if has (vget (fst (rm_get_rows r)) i) then Some (mrow (rm_m r) i) else None)
  | None => Raise EKey
  end.
(** classes/nodemap.py 416-424: computes the NodeMap but does not return it: python's None *)
Definition nnm_get {V} (r : rowmap V) (k : nkey) (default : option (nodemap V)) : outcome (option (nodemap V)) :=
  match dget (rm_kid r) k with
  | Some i => match rm_fill r with
              | None => if has (vget (fst (rm_get_rows r)) i) then Val None else Val default
              | Some _ => Val None
              end
  | None => Raise EKey
  end.
(** classes/nodemap.py 295-304 *)
Definition vnm_popitem {V} (r : rowmap V) : outcome (nkey * vec V * rowmap V) :=
  let rows := fst (rm_get_rows r) in
  match vindices rows with
  | [] => Raise EKey
  | i :: _ => match ikey (rm_kid r) i with
              | Some k => Val (k, mrow (rm_m r) i,
                               RM (mdelrow (rm_m r) i) (rm_kid r) (Some (vdel rows i)) (rm_fill r))
              | None => Raise EKey
              end
  end.

(** ** what the graph methods build from their results: classes/_utils.py 132-176 *)
Definition to_nodemap {V} (G : graph) (v : vec V) : nodemap V := NM v (g_kid G) None.
(** classes/_utils.py 132-144 *)
Definition to_nodemap_fill {V} (G : graph) (fill : V) (v : vec V) : nodemap V := NM v (g_kid G) (Some fill).
(** classes/_utils.py 147-152 *)
Definition to_nodeset (G : graph) (v : vec bool) : nodeset := NS v (g_kid G).
(** classes/_utils.py 161-168 *)
Definition to_nodenodemap {V} (G : graph) (m : mat V) : rowmap V := RM m (g_kid G) None None.
(** a conversion that may raise, for example classes/_utils.py 84-88: lifting pure computations that
    may raise into the state monad *)
Definition lifto {X} (o : outcome X) : M X := fun s => (o, s).
(** for example nxapi/dag.py 9-16: [try: m except e: h] *)
Definition exn_eqb (a b : exn) : bool :=
  match a, b with
  | EKey, EKey | EAttr, EAttr | EType, EType | EValue, EValue | EIndex, EIndex | EZeroDiv, EZeroDiv
  | EAssert, EAssert | ENotImpl, ENotImpl | ENoPath, ENoPath | EUnbounded, EUnbounded | EPointless, EPointless
  | EEmptyGraph, EEmptyGraph | EConv, EConv | EAlg, EAlg => true
  | _, _ => false
  end.
(** for example nxapi/dag.py 9-16 *)
Definition try_except {X} (m : M X) (e : exn) (h : M X) : M X :=
  fun s => match m s with
           | (Val x, s') => (Val x, s')
           | (Raise e', s') => if exn_eqb e' e then h s' else (Raise e', s')
           end.
(** for example nxapi/dag.py 9-16: [try: m except KeyError as e: raise NetworkXError] and the like:
    same failure under another name;
    we keep the original exception *)
Definition reraise {X} (m : M X) : M X := m.

(** algorithms/traversal/breadth_first_search.py 10-13, nxapi/cluster.py 20-29 and 43-57: iterating over a key: an int
    is not iterable, a str yields its characters *)
Definition iter_key (k : nkey) : outcome (list nkey) :=
  match k with
  | KI _ => Raise EType
  | KS s => Val (map (fun c => KS (String c EmptyString)) (list_ascii_of_string s))
  end.
