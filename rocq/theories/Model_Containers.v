(** * Histories of operations on the containers: classes/nodemap.py, classes/nodeset.py.
    Every step calls the method modelled in Model_Keys.v; an operation that raises leaves the object
    as it was (every method looks the key up before it writes). *)
From Verif Require Import Base Model_Graph Model_Keys Spec_Containers.

(** classes/nodemap.py 8-126 (inherited from MutableMapping): collections.abc.MutableMapping.pop on
    top of [__getitem__] and [__delitem__] (inherited, see
    nodemap.py "# pop") *)
Definition nm_pop {V} (m : nodemap V) (k : nkey) (default : option V) : outcome (option V * nodemap V) :=
  match nm_getitem m k with
  | Val x => match nm_delitem m k with Val m' => Val (Some x, m') | Raise e => Raise e end
  | Raise EKey => match default with Some _ => Val (default, m) | None => Raise EKey end
  | Raise e => Raise e
  end.
(** classes/nodemap.py 8-126 (inherited from MutableMapping) *)
Definition km_pop (m : nodemap nat) (k : nkey) (default : option nkey) : outcome (option nkey * nodemap nat) :=
  match km_getitem m k with
  | Val x => match nm_delitem m k with Val m' => Val (Some x, m') | Raise e => Raise e end
  | Raise EKey => match default with Some _ => Val (default, m) | None => Raise EKey end
  | Raise e => Raise e
  end.
(** classes/nodemap.py 132-191 (inherited from MutableMapping): inherited pop for VectorMap:
    [__getitem__] never raises KeyError *)
Definition vm_pop {V} (v : vec V) (k : nat) : outcome (option V * vec V) :=
  match vm_getitem v k with
  | Val x => match vm_delitem v k with Val v' => Val (x, v') | Raise e => Raise e end
  | Raise e => Raise e
  end.

Section Run.
Context {K V S : Type}.
(** one call of a method of classes/nodemap.py 8-447: turn an outcome into a response and the next
    state *)
Definition obs {X} (s : S) (o : outcome X) (f : X -> dresp K V * S) : dresp K V * S :=
  match o with Val x => f x | Raise e => (RExn e, s) end.
(** one call of a method of classes/nodemap.py 8-447 *)
Fixpoint drun (step : S -> dop K V -> dresp K V * S) (s : S) (os : list (dop K V)) : list (dresp K V) * S :=
  match os with
  | [] => ([], s)
  | o :: os' => let (r, s') := step s o in let (rs, s'') := drun step s' os' in (r :: rs, s'')
  end.
End Run.

(** NodeMap, nodemap.py 37-126 *)
Definition nm_step {V} (m : nodemap V) (o : dop nkey V) : dresp nkey V * nodemap V :=
  match o with
  | OGet k => obs m (nm_getitem m k) (fun x => (RVal (Some x), m))
  | OGetD k x => obs m (nm_get m k x) (fun y => (RVal y, m))
  | OSet k x => obs m (nm_setitem m k x) (fun m' => (RDone, m'))
  | ODel k => obs m (nm_delitem m k) (fun m' => (RDone, m'))
  | OIn k => obs m (nm_contains m k) (fun b => (RBool b, m))
  | OLen => (RNat (nm_len m), m)
  | OIter => obs m (nm_iter m) (fun l => (RKeys l, m))
  | OClear => (RDone, nm_clear m)
  | OPopitem => obs m (nm_popitem m) (fun kxm => match kxm with (k, x, m') => (RItem k x, m') end)
  | OSetdefault k x => obs m (nm_setdefault m k (Some x)) (fun p => (RVal (fst p), snd p))
  | OPop k x => obs m (nm_pop m k x) (fun p => (RVal (fst p), snd p))
  end.
(** classes/nodemap.py 8-126: NodeMap with values_are_keys=True; [setdefault] stores the default
    without translating it to an
    id (116-126), so for it a default is a raw number *)
Definition km_step (m : nodemap nat) (o : dop nkey nkey) : dresp nkey nkey * nodemap nat :=
  match o with
  | OGet k => obs m (km_getitem m k) (fun x => (RVal (Some x), m))
  | OGetD k x => obs m (km_get m k x) (fun y => (RVal y, m))
  | OSet k x => obs m (km_setitem m k x) (fun m' => (RDone, m'))
  | ODel k => obs m (nm_delitem m k) (fun m' => (RDone, m'))
  | OIn k => obs m (nm_contains m k) (fun b => (RBool b, m))
  | OLen => (RNat (nm_len m), m)
  | OIter => obs m (nm_iter m) (fun l => (RKeys l, m))
  | OClear => (RDone, nm_clear m)
  | OPopitem => obs m (km_popitem m) (fun kxm => match kxm with (k, x, m') => (RItem k x, m') end)
  | OSetdefault k x =>
      match dget (nm_kid m) k with
      | None => (RExn EKey, m)
      | Some i => match vget (nm_v m) i with
                  | Some j => match ikey (nm_kid m) j with Some k' => (RVal (Some k'), m) | None => (RExn EKey, m) end
                  | None => match x with
                            | KI z => (RVal (Some x), NM (vset (nm_v m) i (Z.to_nat z)) (nm_kid m) (nm_fill m))
                            | KS _ => (RExn EType, m)
                            end
                  end
      end
  | OPop k x => obs m (km_pop m k x) (fun p => (RVal (fst p), snd p))
  end.
(** VectorMap, nodemap.py 132-194 *)
Definition vm_step {V} (v : vec V) (o : dop nat V) : dresp nat V * vec V :=
  match o with
  | OGet k => obs v (vm_getitem v k) (fun x => (RVal x, v))
  | OGetD k x => obs v (vm_get v k x) (fun y => (RVal y, v))
  | OSet k x => obs v (vm_setitem v k x) (fun v' => (RDone, v'))
  | ODel k => obs v (vm_delitem v k) (fun v' => (RDone, v'))
  | OIn k => obs v (vm_contains v k) (fun b => (RBool b, v))
  | OLen => (RNat (vm_len v), v)
  | OIter => (RKeys (vm_iter v), v)
  | OClear => (RDone, vempty (vsize v))
  | OPopitem => obs v (vm_popitem v) (fun kxm => match kxm with (k, x, v') => (RItem k x, v') end)
  | OSetdefault k x => obs v (vm_setdefault v k x) (fun p => (RVal (Some (fst p)), snd p))
  | OPop k x => obs v (vm_pop v k) (fun p => (RVal (fst p), snd p))
  end.

(** NodeSet, nodeset.py 35-112 with the inherited [__and__], [__or__], [__sub__] of collections.abc.Set:
    [self & other] = from_iterable(value for value in other if value in self);
    [self - other] = from_iterable(value for value in self if value not in other), other being made a
    NodeSet through from_iterable first *)
Definition ns_sub (m : nodeset) (other : list nkey) : outcome nodeset :=
  obind (ns_from_iterable m other) (fun o =>
  obind (ns_iter m) (fun l =>
  obind (filterO (fun k => match ns_contains o k with Val b => Val (negb b) | Raise e => Raise e end) l) (ns_from_iterable m))).
(** one call of a method of classes/nodeset.py 8-112 *)
Definition sobs {X} (s : nodeset) (o : outcome X) (f : X -> sresp * nodeset) : sresp * nodeset :=
  match o with Val x => f x | Raise e => (SExn e, s) end.
(** one call of a method of classes/nodeset.py 8-112 *)
Definition newset (s : nodeset) (o : outcome nodeset) : sresp * nodeset :=
  sobs s (obind o ns_iter) (fun l => (SSet l, s)).
(** one call of a method of classes/nodeset.py 8-112 *)
Definition ns_step (m : nodeset) (o : sop) : sresp * nodeset :=
  match o with
  | SAdd k => sobs m (ns_add m k) (fun m' => (SDone, m'))
  | SDiscard k => sobs m (ns_discard m k) (fun m' => (SDone, m'))
  | SRemove k => sobs m (ns_remove m k) (fun m' => (SDone, m'))
  | SIn k => sobs m (ns_contains m k) (fun b => (SBool b, m))
  | SLen => (SNat (ns_len m), m)
  | SIter => sobs m (ns_iter m) (fun l => (SKeys l, m))
  | SClear => (SDone, ns_clear m)
  | SPop => sobs m (ns_pop m) (fun p => (SKey (fst p), snd p))
  | SAnd l => newset m (ns_and m l)
  | SOr l => newset m (ns_or m l)
  | SSub l => newset m (ns_sub m l)
  end.
(** one call of a method of classes/nodeset.py 8-112 *)
Fixpoint nsrun (s : nodeset) (os : list sop) : list sresp * nodeset :=
  match os with
  | [] => ([], s)
  | o :: os' => let (r, s') := ns_step s o in let (rs, s'') := nsrun s' os' in (r :: rs, s'')
  end.

(** VectorNodeMap (nodemap.py 197-308) and NodeNodeMap (311-447, no fill value); rows are given and
    returned as vectors.  The lazily computed [_rows] is part of the state. *)
Definition robs {V X} (s : rowmap V) (o : outcome X) (f : X -> rresp (vec V) * rowmap V) : rresp (vec V) * rowmap V :=
  match o with Val x => f x | Raise e => (WExn e, s) end.
(** classes/nodemap.py 197-304 *)
Definition rm_forced {V} (r : rowmap V) : rowmap V := snd (rm_get_rows r).
(** classes/nodemap.py 197-304 *)
Definition vnm_step {V} (r : rowmap V) (o : rop2 (vec V)) : rresp (vec V) * rowmap V :=
  match o with
  | WGet k => robs (rm_forced r) (vnm_getitem r k) (fun p => (WRow (fst p), snd p))
  | WGetD k => robs (rm_forced r) (vnm_get r k) (fun p => (match p with Some v => WRow v | None => WNone end, rm_forced r))
  | WSet k v => robs r (rm_setitem r k v) (fun r' => (WDone, r'))
  | WDel k => robs r (rm_delitem r k) (fun r' => (WDone, r'))
  | WIn k => robs (rm_forced r) (rm_contains r k) (fun b => (WBool b, rm_forced r))
  | WLen => (WNat (rm_len r), rm_forced r)
  | WIter => robs (rm_forced r) (rm_iter r) (fun l => (WKeys l, rm_forced r))
  | WClear => (WDone, rm_clear r)
  | WPopitem => robs (rm_forced r) (vnm_popitem r) (fun p => match p with (k, v, r') => (WItem k v, r') end)
  end.
(** classes/nodemap.py 311-443: NodeNodeMap: [__getitem__] wraps the row in a NodeMap of the same
    nodes, [get] returns None for a
    present row (416-424), everything else is as above.  Rows are NodeMaps. *)
Definition nnobs {V X} (s : rowmap V) (o : outcome X) (f : X -> rresp (nodemap V) * rowmap V) : rresp (nodemap V) * rowmap V :=
  match o with Val x => f x | Raise e => (WExn e, s) end.
(** classes/nodemap.py 311-443 *)
Definition nnm_step {V} (r : rowmap V) (o : rop2 (nodemap V)) : rresp (nodemap V) * rowmap V :=
  match o with
  | WGet k => nnobs (rm_forced r) (nnm_getitem r k) (fun p => (WRow (fst p), snd p))
  | WGetD k => nnobs (rm_forced r) (nnm_get r k None) (fun p => (match p with Some v => WRow v | None => WNone end, rm_forced r))
  | WSet k v => nnobs r (rm_setitem r k (nm_v v)) (fun r' => (WDone, r'))
  | WDel k => nnobs r (rm_delitem r k) (fun r' => (WDone, r'))
  | WIn k => nnobs (rm_forced r) (rm_contains r k) (fun b => (WBool b, rm_forced r))
  | WLen => (WNat (rm_len r), rm_forced r)
  | WIter => nnobs (rm_forced r) (rm_iter r) (fun l => (WKeys l, rm_forced r))
  | WClear => (WDone, rm_clear r)
  | WPopitem => nnobs (rm_forced r) (vnm_popitem r) (fun p => match p with (k, v, r') => (WItem k (NM v (rm_kid r) None), r') end)
  end.
Section RRun.
Context {V R : Type}.
(** classes/nodemap.py 311-443 *)
Fixpoint rrun (step : rowmap V -> rop2 R -> rresp R * rowmap V) (s : rowmap V) (os : list (rop2 R)) : list (rresp R) * rowmap V :=
  match os with
  | [] => ([], s)
  | o :: os' => let (r, s') := step s o in let (rs, s'') := rrun step s' os' in (r :: rs, s'')
  end.
End RRun.
