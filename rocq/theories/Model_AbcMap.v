(** * What the maps inherit from collections.abc (Mapping, MutableMapping), and their [__eq__]:
    classes/nodemap.py 8-447.  [veq] is python's [==] of two values. *)
From Verif Require Import Base Model_Graph Model_Keys Spec_Containers Model_Containers.

(** classes/nodemap.py 8-447 (items and values are inherited from Mapping): [(key, self[key]) for key in self] *)
Fixpoint itemsO {K V} (get : K -> outcome V) (l : list K) : outcome (list (K * V)) :=
  match l with
  | [] => Val []
  | k :: l' => obind (get k) (fun x => obind (itemsO get l') (fun r => Val ((k, x) :: r)))
  end.
(** classes/nodemap.py 42-58: [list(self.items())] *)
Definition nm_items {V} (m : nodemap V) : outcome (list (nkey * V)) := obind (nm_iter m) (itemsO (nm_getitem m)).
(** classes/nodemap.py 42-58 with values_are_keys=True *)
Definition km_items (m : nodemap nat) : outcome (list (nkey * nkey)) := obind (nm_iter m) (itemsO (km_getitem m)).
(** classes/nodemap.py 140-145: a value may be None *)
Definition vm_items {V} (v : vec V) : outcome (list (nat * option V)) := itemsO (vm_getitem v) (vm_iter v).
(** classes/nodemap.py 238-249; the row set computed on the way is left out *)
Definition vnm_items {V} (r : rowmap V) : outcome (list (nkey * vec V)) :=
  obind (rm_iter r) (itemsO (fun k => obind (vnm_getitem r k) (fun p => Val (fst p)))).
(** classes/nodemap.py 354-371 *)
Definition nnm_items {V} (r : rowmap V) : outcome (list (nkey * nodemap V)) :=
  obind (rm_iter r) (itemsO (fun k => obind (nnm_getitem r k) (fun p => Val (fst p)))).
(** classes/nodemap.py 42-58: [list(self.values())] *)
Definition nm_values {V} (m : nodemap V) : outcome (list V) := obind (nm_items m) (fun l => Val (map snd l)).
(** classes/nodemap.py 42-58: [(k, x) in self.items()]: a KeyError of [self[k]] is caught *)
Definition nm_item_in {V} (veq : V -> V -> bool) (m : nodemap V) (k : nkey) (x : V) : outcome bool :=
  match nm_getitem m k with Val y => Val (veq y x) | Raise EKey => Val false | Raise e => Raise e end.
(** classes/nodemap.py 42-58: [x in self.values()] *)
Definition nm_value_in {V} (veq : V -> V -> bool) (m : nodemap V) (x : V) : outcome bool :=
  obind (nm_values m) (fun l => Val (existsb (fun y => veq y x) l)).

(** python's dict [==], used by Mapping.__eq__ in classes/nodemap.py 84, 167, 279, 409 *)
Definition dict_eqb {K V W} (keq : K -> K -> bool) (veq : V -> W -> bool) (a : list (K * V)) (b : list (K * W)) : bool :=
  (List.length a =? List.length b) &&
  forallb (fun e => match find (fun e' => keq (fst e) (fst e')) b with Some e' => veq (snd e) (snd e') | None => false end) a.
(** used in classes/nodemap.py 80, 159, 161, 163: Vector.isequal without check_dtype *)
Definition vec_isequal {V} (veq : V -> V -> bool) (a b : vec V) : bool :=
  (vsize a =? vsize b) && (nvals a =? nvals b) &&
  forallb (fun e => match vget b (fst e) with Some y => veq (snd e) y | None => false end) (vcoo a).
(** used in classes/nodemap.py 278, 407: Matrix.isequal without check_dtype *)
Definition mat_isequal {V} (veq : V -> V -> bool) (a b : mat V) : bool :=
  (nrows a =? nrows b) && (ncols a =? ncols b) &&
  forallb (fun i => forallb (fun j => match mget a i j, mget b i j with
                                      | Some x, Some y => veq x y | None, None => true | _, _ => false end) (seq 0 (ncols a))) (seq 0 (nrows a)).
(** used in classes/nodemap.py 79, 405: fill values, None or a value *)
Definition opt_eqb {V} (veq : V -> V -> bool) (a b : option V) : bool :=
  match a, b with Some x, Some y => veq x y | None, None => true | _, _ => false end.
(** classes/nodemap.py 76-83: two NodeMaps that agree on values_are_keys *)
Definition nm_eq {V} (veq : V -> V -> bool) (a b : nodemap V) : bool :=
  opt_eqb veq (nm_fill a) (nm_fill b) && vec_isequal veq (nm_v a) (nm_v b) && kid_eqb (nm_kid a) (nm_kid b).
(** classes/nodemap.py 84: a NodeMap and a dict *)
Definition nm_eq_dict {V} (veq : V -> V -> bool) (m : nodemap V) (d : list (nkey * V)) : outcome bool :=
  obind (nm_items m) (fun l => Val (dict_eqb nkey_eqb veq l d)).
(** classes/nodemap.py 84 with values_are_keys=True *)
Definition km_eq_dict (m : nodemap nat) (d : list (nkey * nkey)) : outcome bool :=
  obind (km_items m) (fun l => Val (dict_eqb nkey_eqb nkey_eqb l d)).
(** a position as a python int: keys of VectorMaps, classes/nodemap.py 140-145 *)
Definition vkey {W} (e : nat * W) : nkey * W := (KI (Z.of_nat (fst e)), snd e).
(** classes/nodemap.py 140-145: python's [==] of None or a value and a value *)
Definition oeq {V} (veq : V -> V -> bool) (a : option V) (b : V) : bool := match a with Some x => veq x b | None => false end.
(** classes/nodemap.py 84: a NodeMap and a VectorMap are compared as dicts *)
Definition nm_eq_vm {V} (veq : V -> V -> bool) (m : nodemap V) (v : vec V) : outcome bool :=
  obind (nm_items m) (fun l => obind (vm_items v) (fun q => Val (dict_eqb nkey_eqb (fun x o => oeq (fun a b => veq b a) o x) l (map vkey q)))).
(** classes/nodemap.py 158-161: VectorMap and VectorMap or Vector *)
Definition vm_eq {V} (veq : V -> V -> bool) (a b : vec V) : bool := vec_isequal veq a b.
(** classes/nodemap.py 162-166: VectorMap and NodeMap: the fill value is not looked at *)
Definition vm_eq_nm {V} (veq : V -> V -> bool) (v : vec V) (m : nodemap V) : bool :=
  vec_isequal veq v (nm_v m) && kid_eqb (nm_kid m) (map (fun i => (KI (Z.of_nat i), i)) (seq 0 (vsize v))).
(** classes/nodemap.py 167: VectorMap and a dict *)
Definition vm_eq_dict {V} (veq : V -> V -> bool) (v : vec V) (d : list (nkey * V)) : outcome bool :=
  obind (vm_items v) (fun l => Val (dict_eqb nkey_eqb (oeq veq) (map vkey l) d)).
(** classes/nodemap.py 276-278 *)
Definition vnm_eq {V} (veq : V -> V -> bool) (a b : rowmap V) : bool :=
  mat_isequal veq (rm_m a) (rm_m b) && kid_eqb (rm_kid a) (rm_kid b).
(** classes/nodemap.py 401-408: two NodeNodeMaps that agree on values_are_keys *)
Definition nnm_eq {V} (veq : V -> V -> bool) (a b : rowmap V) : bool :=
  opt_eqb veq (rm_fill a) (rm_fill b) && mat_isequal veq (rm_m a) (rm_m b) && kid_eqb (rm_kid a) (rm_kid b).

(** classes/nodemap.py 8-447 (update is inherited from MutableMapping): [for key, value in other: self[key] = value];
    an exception leaves what was done before it *)
Fixpoint each_of {S X} (f : S -> X -> outcome S) (s : S) (l : list X) : outcome unit * S :=
  match l with
  | [] => (Val tt, s)
  | x :: l' => match f s x with Val s' => each_of f s' l' | Raise e => (Raise e, s) end
  end.
(** classes/nodemap.py 65-69 *)
Definition nm_update {V} (m : nodemap V) (l : list (nkey * V)) : outcome unit * nodemap V :=
  each_of (fun m e => nm_setitem m (fst e) (snd e)) m l.
(** classes/nodemap.py 65-69 with values_are_keys=True *)
Definition km_update (m : nodemap nat) (l : list (nkey * nkey)) : outcome unit * nodemap nat :=
  each_of (fun m e => km_setitem m (fst e) (snd e)) m l.
(** classes/nodemap.py 150-151 *)
Definition vm_update {V} (v : vec V) (l : list (nat * V)) : outcome unit * vec V :=
  each_of (fun v e => vm_setitem v (fst e) (snd e)) v l.
(** classes/nodemap.py 254-269: update with VectorMaps *)
Definition vnm_update {V} (r : rowmap V) (l : list (nkey * vec V)) : outcome unit * rowmap V :=
  each_of (fun r e => rm_setitem r (fst e) (snd e)) r l.
(** classes/nodemap.py 306 (setdefault is inherited from MutableMapping): [try: return self[key]; except KeyError: self[key] = default];
    None as default is refused with TypeError by [__setitem__] *)
Definition vnm_setdefault {V} (r : rowmap V) (k : nkey) (default : option (vec V)) : outcome (vec V * rowmap V) :=
  match vnm_getitem r k with
  | Val p => Val p
  | Raise EKey =>
      match dget (rm_kid r) k, default with
      | None, _ => Raise EKey
      | Some _, None => Raise EType
      | Some _, Some x => obind (rm_setitem (rm_forced r) k x) (fun r' => Val (x, r'))
      end
  | Raise e => Raise e
  end.
