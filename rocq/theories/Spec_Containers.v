(** * What a python dict, set and dict of dicts do, as relations between an operation, its result and
    the mathematical object before and after *)
From Verif Require Import Base Model_Graph Model_Keys Spec.

(** ** dict.  [d k = Some x] iff the key is present with that value *)
Definition dict (K V : Type) := K -> option V.
Inductive dop (K V : Type) :=
| OGet (k : K)                       (* d[k] *)
| OGetD (k : K) (x : option V)       (* d.get(k, x); None is python's None *)
| OSet (k : K) (x : V)               (* d[k] = x *)
| ODel (k : K)                       (* del d[k] *)
| OIn (k : K)                        (* k in d *)
| OLen | OIter | OClear | OPopitem
| OSetdefault (k : K) (x : V)        (* d.setdefault(k, x) *)
| OPop (k : K) (x : option V).       (* d.pop(k) / d.pop(k, x) *)
Arguments OGet {K V}. Arguments OGetD {K V}. Arguments OSet {K V}. Arguments ODel {K V}. Arguments OIn {K V}.
Arguments OLen {K V}. Arguments OIter {K V}. Arguments OClear {K V}. Arguments OPopitem {K V}.
Arguments OSetdefault {K V}. Arguments OPop {K V}.
Inductive dresp (K V : Type) :=
| RDone | RVal (x : option V) | RBool (b : bool) | RNat (n : nat) | RKeys (l : list K) | RItem (k : K) (x : V) | RExn (e : exn).
Arguments RDone {K V}. Arguments RVal {K V}. Arguments RBool {K V}. Arguments RNat {K V}. Arguments RKeys {K V}.
Arguments RItem {K V}. Arguments RExn {K V}.

Definition keys_are {K V} (d : dict K V) (l : list K) : Prop := NoDup l /\ forall k, In k l <-> d k <> None.
Definition same {K V} (d d' : dict K V) : Prop := forall k, d' k = d k.
Definition put {K V} (d : dict K V) (k : K) (o : option V) (d' : dict K V) : Prop :=
  d' k = o /\ forall k', k' <> k -> d' k' = d k'.
(** [lax_get], [lax_del]: reading an absent key gives None / deleting one does nothing, instead of KeyError *)
Definition dict_step {K V} (lax_get lax_del : bool) (d : dict K V) (o : dop K V) (r : dresp K V) (d' : dict K V) : Prop :=
  match o with
  | OGet k => same d d' /\ match d k with Some x => r = RVal (Some x) | None => r = if lax_get then RVal None else RExn EKey end
  | OGetD k x => same d d' /\ r = RVal (match d k with Some y => Some y | None => x end)
  | OSet k x => r = RDone /\ put d k (Some x) d'
  | ODel k => match d k with
              | Some _ => r = RDone /\ put d k None d'
              | None => r = (if lax_del then RDone else RExn EKey) /\ same d d'
              end
  | OIn k => same d d' /\ r = RBool (has (d k))
  | OLen => same d d' /\ exists l, keys_are d l /\ r = RNat (List.length l)
  | OIter => same d d' /\ exists l, keys_are d l /\ r = RKeys l
  | OClear => r = RDone /\ forall k, d' k = None
  | OPopitem => (exists k x, d k = Some x /\ r = RItem k x /\ put d k None d')
                \/ ((forall k, d k = None) /\ r = RExn EKey /\ same d d')
  | OSetdefault k x => match d k with
                       | Some y => r = RVal (Some y) /\ same d d'
                       | None => r = RVal (Some x) /\ put d k (Some x) d'
                       end
  | OPop k x => match d k with
                | Some y => r = RVal (Some y) /\ put d k None d'
                | None => same d d' /\ r = match x with Some _ => RVal x | None => RExn EKey end
                end
  end.
(** the results [rs] are what a dict starting as [d] gives for the operations [os] *)
Inductive dict_run {K V} (lax_get lax_del : bool) : dict K V -> list (dop K V) -> list (dresp K V) -> Prop :=
| dr_nil d : dict_run lax_get lax_del d [] []
| dr_cons d o r d' os rs : dict_step lax_get lax_del d o r d' -> dict_run lax_get lax_del d' os rs ->
    dict_run lax_get lax_del d (o :: os) (r :: rs).

(** ** set *)
Inductive sop :=
| SAdd (k : nkey) | SDiscard (k : nkey) | SRemove (k : nkey) | SIn (k : nkey) | SLen | SIter | SClear | SPop
| SAnd (l : list nkey) | SOr (l : list nkey) | SSub (l : list nkey).   (* s & l, s | l, s - l; s itself is unchanged *)
Inductive sresp := SDone | SBool (b : bool) | SNat (n : nat) | SKeys (l : list nkey) | SKey (k : nkey)
| SSet (l : list nkey) | SExn (e : exn).
Definition elems (P : nkey -> Prop) (l : list nkey) : Prop := NoDup l /\ forall k, In k l <-> P k.
Definition set_step (P : nkey -> Prop) (o : sop) (r : sresp) (P' : nkey -> Prop) : Prop :=
  let unchanged := forall k, P' k <-> P k in
  let removed k := forall k', P' k' <-> (P k' /\ k' <> k) in
  match o with
  | SAdd k => r = SDone /\ forall k', P' k' <-> (P k' \/ k' = k)
  | SDiscard k => r = SDone /\ removed k
  | SRemove k => (P k /\ r = SDone /\ removed k) \/ (~ P k /\ r = SExn EKey /\ unchanged)
  | SIn k => unchanged /\ exists b, r = SBool b /\ (b = true <-> P k)
  | SLen => unchanged /\ exists l, elems P l /\ r = SNat (List.length l)
  | SIter => unchanged /\ exists l, elems P l /\ r = SKeys l
  | SClear => r = SDone /\ forall k, ~ P' k
  | SPop => (exists k, P k /\ r = SKey k /\ removed k) \/ ((forall k, ~ P k) /\ r = SExn EKey /\ unchanged)
  | SAnd l => unchanged /\ exists s, elems (fun k => P k /\ In k l) s /\ r = SSet s
  | SOr l => unchanged /\ exists s, elems (fun k => P k \/ In k l) s /\ r = SSet s
  | SSub l => unchanged /\ exists s, elems (fun k => P k /\ ~ In k l) s /\ r = SSet s
  end.
Inductive set_run : (nkey -> Prop) -> list sop -> list sresp -> Prop :=
| sr_nil P : set_run P [] []
| sr_cons P o r P' os rs : set_step P o r P' -> set_run P' os rs -> set_run P (o :: os) (r :: rs).

(** ** dict of dicts without empty inner dicts: [d k c = Some x] iff d[k][c] is x.
    A row is read as a snapshot. *)
Definition ddict (C V : Type) := nkey -> C -> option V.
Inductive rop2 (R : Type) :=
| WGet (k : nkey) | WGetD (k : nkey)       (* d[k], d.get(k) *)
| WSet (k : nkey) (row : R)                (* d[k] = row *)
| WDel (k : nkey) | WIn (k : nkey) | WLen | WIter | WClear | WPopitem.
Arguments WGet {R}. Arguments WGetD {R}. Arguments WSet {R}. Arguments WDel {R}. Arguments WIn {R}. Arguments WLen {R}.
Arguments WIter {R}. Arguments WClear {R}. Arguments WPopitem {R}.
Inductive rresp (R : Type) := WDone | WRow (r : R) | WNone | WBool (b : bool) | WNat (n : nat) | WKeys (l : list nkey)
| WItem (k : nkey) (r : R) | WExn (e : exn).
Arguments WDone {R}. Arguments WRow {R}. Arguments WNone {R}. Arguments WBool {R}. Arguments WNat {R}. Arguments WKeys {R}.
Arguments WItem {R}. Arguments WExn {R}.
Section DD.
Context {C V R : Type}.
(** how a row object is read: [rd row c = Some x] iff row[c] is x *)
Variable rd : R -> C -> option V.
Definition present (d : ddict C V) (k : nkey) : Prop := exists c x, d k c = Some x.
Definition same2 (d d' : ddict C V) : Prop := forall k c, d' k c = d k c.
Definition row_is (d : ddict C V) (k : nkey) (r : R) : Prop := forall c, rd r c = d k c.
Definition gone (d : ddict C V) (k : nkey) (d' : ddict C V) : Prop :=
  (forall c, d' k c = None) /\ forall k', k' <> k -> forall c, d' k' c = d k' c.
Definition ddict_step (d : ddict C V) (o : rop2 R) (r : rresp R) (d' : ddict C V) : Prop :=
  match o with
  | WGet k => same2 d d' /\ ((present d k /\ exists w, r = WRow w /\ row_is d k w) \/ (~ present d k /\ r = WExn EKey))
  | WGetD k => same2 d d' /\ ((present d k /\ exists w, r = WRow w /\ row_is d k w) \/ (~ present d k /\ r = WNone))
  | WSet k w => r = WDone /\ (forall c, d' k c = rd w c) /\ forall k', k' <> k -> forall c, d' k' c = d k' c
  | WDel k => r = WDone /\ gone d k d'
  | WIn k => same2 d d' /\ exists b, r = WBool b /\ (b = true <-> present d k)
  | WLen => same2 d d' /\ exists l, elems (present d) l /\ r = WNat (List.length l)
  | WIter => same2 d d' /\ exists l, elems (present d) l /\ r = WKeys l
  | WClear => r = WDone /\ forall k c, d' k c = None
  | WPopitem => (exists k w, present d k /\ r = WItem k w /\ row_is d k w /\ gone d k d')
                \/ ((forall k, ~ present d k) /\ r = WExn EKey /\ same2 d d')
  end.
Inductive ddict_run : ddict C V -> list (rop2 R) -> list (rresp R) -> Prop :=
| ddr_nil d : ddict_run d [] []
| ddr_cons d o r d' os rs : ddict_step d o r d' -> ddict_run d' os rs -> ddict_run d (o :: os) (r :: rs).
End DD.

(** ** What the objects show *)
(** the NodeMap was made for a numbering of all the positions of its vector *)
Definition nm_ok {V} (m : nodemap V) : Prop := kok (nm_kid m) (vsize (nm_v m)).
(** the dict a NodeMap shows; with a fill value every node is a key *)
Definition nm_dict {V} (m : nodemap V) : dict nkey V := fun k =>
  match dget (nm_kid m) k with
  | None => None
  | Some i => match vget (nm_v m) i with Some x => Some x | None => nm_fill m end
  end.
(** the operation names a node of the map *)
Definition op_node (d : kidmap) {W} (o : dop nkey W) : Prop :=
  match o with
  | OGet k | OGetD k _ | OSet k _ | ODel k | OIn k | OSetdefault k _ | OPop k _ => In k (map fst d)
  | _ => True
  end.
(** the operation removes no key *)
Definition no_removal {W} (o : dop nkey W) : Prop :=
  match o with ODel _ | OPopitem | OPop _ _ => False | _ => True end.
(** values_are_keys: every stored value is an id *)
Definition km_ok (m : nodemap nat) : Prop :=
  kok (nm_kid m) (vsize (nm_v m)) /\ nm_fill m = None /\ forall i j, vget (nm_v m) i = Some j -> j < vsize (nm_v m).
(** the dict shown by a NodeMap with values_are_keys *)
Definition km_dict (m : nodemap nat) : dict nkey nkey := fun k =>
  match dget (nm_kid m) k with
  | None => None
  | Some i => match vget (nm_v m) i with Some j => ikey (nm_kid m) j | None => None end
  end.
(** stored values are nodes; setdefault is left out *)
Definition km_op (d : kidmap) (o : dop nkey nkey) : Prop :=
  op_node d o /\ match o with OSet _ x => In x (map fst d) | OSetdefault _ _ => False | _ => True end.
(** VectorMap: positions are in range; the inherited pop is left out *)
Definition vop_ok {V} (n : nat) (o : dop nat V) : Prop :=
  match o with
  | OGet k | OGetD k _ | OSet k _ | ODel k | OIn k | OSetdefault k _ => k < n
  | OPop k _ => False
  | _ => True
  end.
(** NodeSet *)
Definition ns_ok (m : nodeset) : Prop := kok (ns_kid m) (vsize (ns_v m)).
(** the set of nodes it shows *)
Definition ns_mem (m : nodeset) (k : nkey) : Prop := exists i, dget (ns_kid m) k = Some i /\ has (vget (ns_v m) i) = true.
(** the operation names nodes *)
Definition sop_ok (d : kidmap) (o : sop) : Prop :=
  match o with
  | SAdd k | SDiscard k | SRemove k | SIn k => In k (map fst d)
  | SAnd l | SOr l | SSub l => forall k, In k l -> In k (map fst d)
  | _ => True
  end.
(** rows of a VectorNodeMap / NodeNodeMap *)
Definition row_nonempty {V} (m : mat V) (i : nat) : Prop := exists j x, mget m i j = Some x.
(** well formed, and the lazily computed row set, when there, is right (so at any point of any history) *)
Definition rm_ok {V} (r : rowmap V) : Prop :=
  kok (rm_kid r) (nrows (rm_m r)) /\ mwf (rm_m r) /\ rm_fill r = None /\
  forall v, rm_rows r = Some v -> vsize v = nrows (rm_m r) /\ forall i, has (vget v i) = true <-> row_nonempty (rm_m r) i.
(** row key to column number to value *)
Definition rm_dd {V} (r : rowmap V) : ddict nat V := fun k c => match dget (rm_kid r) k with Some i => mget (rm_m r) i c | None => None end.
Definition wop_node {R} (d : kidmap) (o : rop2 R) : Prop :=
  match o with WGet k | WGetD k | WSet k _ | WDel k | WIn k => In k (map fst d) | _ => True end.
Definition vnm_op {V} (r : rowmap V) (o : rop2 (vec V)) : Prop :=
  wop_node (rm_kid r) o /\ match o with WSet _ v => vsize v = ncols (rm_m r) | _ => True end.
(** NodeNodeMap: row key to column key to value *)
Definition rm_dd2 {V} (r : rowmap V) : ddict nkey V := fun k c =>
  match dget (rm_kid r) c with Some j => rm_dd r k j | None => None end.
Definition nnm_op {V} (r : rowmap V) (o : rop2 (nodemap V)) : Prop :=
  wop_node (rm_kid r) o /\
  match o with
  | WSet _ v => vsize (nm_v v) = ncols (rm_m r) /\ nm_kid v = rm_kid r /\ nm_fill v = None
  | WGetD _ => False
  | _ => True
  end.
Definition sq {V} (r : rowmap V) : Prop := ncols (rm_m r) = nrows (rm_m r).
