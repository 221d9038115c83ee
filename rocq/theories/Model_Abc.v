(** * What the containers inherit from collections.abc (MutableSet, MutableMapping), and their [__eq__]:
    classes/nodeset.py 8-112, classes/nodemap.py 8-447.
    The inherited methods are those of python's collections.abc, built on the modelled ones. *)
From Verif Require Import Base Model_Graph Model_Keys Spec_Containers Model_Containers.

(** classes/nodeset.py 8-112: what a NodeSet is combined with: a python list (any iterable that is no Set), a python
    set (listed in its iteration order, without repetitions), a NodeSet, or the very same object *)
Inductive other := PList (l : list nkey) | PSet (l : list nkey) | PNode (m : nodeset) | PSelf.
(** classes/nodeset.py 40-44: [iter(other)] *)
Definition o_iter (m : nodeset) (o : other) : outcome (list nkey) :=
  match o with PList l | PSet l => Val l | PNode x => ns_iter x | PSelf => ns_iter m end.
(** classes/nodeset.py 46-47: [len(other)] *)
Definition o_len (m : nodeset) (o : other) : nat :=
  match o with PList l | PSet l => List.length l | PNode x => ns_len x | PSelf => ns_len m end.
(** classes/nodeset.py 36-38: [k in other] *)
Definition o_in (m : nodeset) (o : other) (k : nkey) : outcome bool :=
  match o with PList l | PSet l => Val (existsb (nkey_eqb k) l) | PNode x => ns_contains x k | PSelf => ns_contains m k end.
(** classes/nodeset.py 97-103: [if not isinstance(other, Set): other = self._from_iterable(other)] *)
Definition o_set (m : nodeset) (o : other) : outcome other :=
  match o with PList l => obind (ns_from_iterable m l) (fun x => Val (PNode x)) | _ => Val o end.
(** classes/nodeset.py 8-112 (methods inherited from Set): [for x in l: if f(x) is not b: return False]; [return True] *)
Fixpoint allO {X} (f : X -> outcome bool) (b : bool) (l : list X) : outcome bool :=
  match l with
  | [] => Val true
  | x :: l' => obind (f x) (fun c => if Bool.eqb c b then allO f b l' else Val false)
  end.

(** ** Set.__le__, __lt__, __ge__, __gt__; classes/nodeset.py 8-112 (inherited).  With something that is no Set both
    operands answer NotImplemented: TypeError *)
Definition ns_le (m : nodeset) (o : other) : outcome bool :=
  match o with
  | PList _ => Raise EType
  | _ => if o_len m o <? ns_len m then Val false else obind (ns_iter m) (allO (o_in m o) true)
  end.
(** classes/nodeset.py 8-112 (inherited) *)
Definition ns_lt (m : nodeset) (o : other) : outcome bool :=
  match o with PList _ => Raise EType | _ => if ns_len m <? o_len m o then ns_le m o else Val false end.
(** classes/nodeset.py 8-112 (inherited) *)
Definition ns_ge (m : nodeset) (o : other) : outcome bool :=
  match o with
  | PList _ => Raise EType
  | _ => if ns_len m <? o_len m o then Val false else obind (o_iter m o) (allO (ns_contains m) true)
  end.
(** classes/nodeset.py 8-112 (inherited) *)
Definition ns_gt (m : nodeset) (o : other) : outcome bool :=
  match o with PList _ => Raise EType | _ => if o_len m o <? ns_len m then ns_ge m o else Val false end.
(** classes/nodeset.py 58-68: [super().__eq__] is Set.__eq__; with a list NotImplemented twice, so identity: False *)
Definition ns_equal (m : nodeset) (o : other) : outcome bool :=
  match o with
  | PNode x => Val (ns_eq m x)
  | PSelf => Val (ns_eq m m)
  | PSet _ => if ns_len m =? o_len m o then ns_le m o else Val false
  | PList _ => Val false
  end.
(** ** Set.isdisjoint, classes/nodeset.py 8-112 (inherited under this name) *)
Definition ns_isdisjoint (m : nodeset) (o : other) : outcome bool := obind (o_iter m o) (allO (ns_contains m) false).
(** classes/nodeset.py 78-81 *)
Definition ns_isdisjoin_o (m : nodeset) (o : other) : outcome bool :=
  match o with PNode x => Val (ns_isdisjoin m x) | PSelf => Val (ns_isdisjoin m m) | _ => ns_isdisjoint m o end.
(** ** Set.__and__ (also __rand__), __or__ (also __ror__), __sub__, __rsub__, __xor__ (also __rxor__);
    classes/nodeset.py 70-73 (inherited) *)
Definition ns_and_o (m : nodeset) (o : other) : outcome nodeset := obind (o_iter m o) (ns_and m).
(** classes/nodeset.py 70-73 (inherited) *)
Definition ns_or_o (m : nodeset) (o : other) : outcome nodeset := obind (o_iter m o) (ns_or m).
(** classes/nodeset.py 70-73 (inherited): [value not in other] *)
Definition notO {X} (f : X -> outcome bool) (x : X) : outcome bool := obind (f x) (fun b => Val (negb b)).
(** classes/nodeset.py 70-73 (inherited) *)
Definition ns_sub_o (m : nodeset) (o : other) : outcome nodeset :=
  obind (o_set m o) (fun o => obind (ns_iter m) (fun l => obind (filterO (notO (o_in m o)) l) (ns_from_iterable m))).
(** classes/nodeset.py 70-73 (inherited) *)
Definition ns_rsub (m : nodeset) (o : other) : outcome nodeset :=
  obind (o_set m o) (fun o => obind (o_iter m o) (fun l => obind (filterO (notO (ns_contains m)) l) (ns_from_iterable m))).
(** classes/nodeset.py 70-73 (inherited): [(self - other) | (other - self)]; when [other] is a NodeSet, [other - self] is its
    own [__sub__], otherwise python falls back on [self.__rsub__] *)
Definition ns_xor (m : nodeset) (o : other) : outcome nodeset :=
  obind (o_set m o) (fun o =>
  obind (ns_sub_o m o) (fun a =>
  obind (match o with PNode x => ns_sub_o x (PNode m) | PSelf => ns_sub_o m PSelf | _ => ns_rsub m o end) (fun b => ns_or_o a (PNode b)))).
(** used in classes/nodeset.py 106-107: python's [set.add] and [set.update] *)
Definition pyset_add (l : list nkey) (k : nkey) : list nkey := if existsb (nkey_eqb k) l then l else l ++ [k].
(** ** classes/nodeset.py 106-107: [set(self).union(others)], a python set (a list without repetitions) *)
Definition ns_union (m : nodeset) (os : list other) : outcome (list nkey) :=
  obind (ns_iter m) (fun l =>
  fold_left (fun acc o => obind acc (fun l => obind (o_iter m o) (fun k => Val (fold_left pyset_add k l)))) os (Val l)).
(** classes/nodeset.py 109-112 *)
Definition ns_copy (m : nodeset) : nodeset := NS (ns_v m) (ns_kid m).

(** ** in-place operators: classes/nodeset.py 8-112 (inherited from MutableSet).  The object keeps what was done before
    an exception. *)
(** classes/nodeset.py 8-112 (inherited): [for value in it: f(value)] *)
Fixpoint each (f : nodeset -> nkey -> outcome nodeset) (m : nodeset) (l : list nkey) : outcome unit * nodeset :=
  match l with
  | [] => (Val tt, m)
  | k :: l' => match f m k with Val m' => each f m' l' | Raise e => (Raise e, m) end
  end.
(** classes/nodeset.py 8-112 (inherited) *)
Definition from_it (m : nodeset) (o : outcome (list nkey)) (f : list nkey -> outcome unit * nodeset) : outcome unit * nodeset :=
  match o with Val l => f l | Raise e => (Raise e, m) end.
(** classes/nodeset.py 8-112 (inherited): [__ior__] *)
Definition ns_ior (m : nodeset) (o : other) : outcome unit * nodeset := from_it m (o_iter m o) (each ns_add m).
(** classes/nodeset.py 8-112 (inherited): [__iand__] *)
Definition ns_iand (m : nodeset) (o : other) : outcome unit * nodeset :=
  from_it m (obind (ns_sub_o m o) ns_iter) (each ns_discard m).
(** classes/nodeset.py 8-112 (inherited): [__isub__]; [if it is self: self.clear()] *)
Definition ns_isub (m : nodeset) (o : other) : outcome unit * nodeset :=
  match o with PSelf => (Val tt, ns_clear m) | _ => from_it m (o_iter m o) (each ns_discard m) end.
(** classes/nodeset.py 8-112 (inherited): [if value in self: self.discard(value) else: self.add(value)] *)
Definition ns_toggle (m : nodeset) (k : nkey) : outcome nodeset :=
  obind (ns_contains m k) (fun b => if b then ns_discard m k else ns_add m k).
(** classes/nodeset.py 8-112 (inherited): [__ixor__] *)
Definition ns_ixor (m : nodeset) (o : other) : outcome unit * nodeset :=
  match o with
  | PSelf => (Val tt, ns_clear m)
  | _ => from_it m (obind (o_set m o) (o_iter m)) (each ns_toggle m)
  end.
