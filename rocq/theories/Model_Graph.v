(** * Graphs, node keys, exceptions and the state monad shared by all model files *)
From Verif Require Import Base.
From Coq Require Export String Ascii.
From Coq Require Import DecimalString Permutation.
Open Scope nat_scope.
Open Scope list_scope.

(** Node keys.  Simplification: python allows any hashable; we model ints and strings, the two
    kinds the code itself creates (default numbering, classes/graph.py 378-379; rename prefixes,
    algorithms/operators/binary.py 26-33). *)
Inductive nkey := KI (z : Z) | KS (s : string).
(** python's [==] of two node keys, as used by the dict [_key_to_id], classes/graph.py 376-382 *)
Definition nkey_eqb (a b : nkey) : bool :=
  match a, b with
  | KI x, KI y => Z.eqb x y
  | KS x, KS y => String.eqb x y
  | _, _ => false
  end.

(** [d[k]] and [d.get(k)] of a dict, for example [_key_to_id[node]], classes/graph.py 376-382:
    python dicts keyed by nodes, in insertion order *)
Fixpoint dget {V} (d : list (nkey * V)) (k : nkey) : option V :=
  match d with
  | [] => None
  | (k', v) :: d' => if nkey_eqb k k' then Some v else dget d' k
  end.
(** as in classes/_utils.py 258-261: d[k] = v : overwrite in place, or append at the end *)
Fixpoint dset {V} (d : list (nkey * V)) (k : nkey) (v : V) : list (nkey * V) :=
  match d with
  | [] => [(k, v)]
  | (k', v') :: d' => if nkey_eqb k k' then (k', v) :: d' else (k', v') :: dset d' k v
  end.

(** dtype classes; UDTs are not modelled.  classes/_caching.py 4: NONNEGATIVE_DTYPES *)
Inductive dtype := DBool | DUInt | DInt | DFloat.
(** classes/_caching.py 4 [NONNEGATIVE_DTYPES] *)
Definition nonneg_dtype (d : dtype) : bool :=
  match d with DBool | DUInt => true | DInt | DFloat => false end.

(** classes/graph.py 303-454 [Graph] and classes/digraph.py 444-626 [DiGraph]: the constructor data.
    [g_iso] is SuiteSparse's [A.ss.is_iso] flag, an oracle. The cache is kept separately ([st]). *)
Record graph := {
  g_dir : bool;                   (* is_directed() *)
  g_A : mat Z;                    (* _A *)
  g_dt : dtype;                   (* _A.dtype *)
  g_iso : bool;                   (* _A.ss.is_iso *)
  g_kid : list (nkey * nat) }.    (* _key_to_id, insertion order *)

(** [len(G)], classes/graph.py 436-437 *)
Definition glen (G : graph) : nat := nrows (g_A G).

(** Well-formed graphs: what the constructors and from_networkx establish.
    classes/graph.py 364-382, classes/digraph.py 517-535 (square matrix, key_to_id numbering nodes).
    An undirected graph is stored with a symmetric matrix. *)
Record gwf (G : graph) : Prop := {
  gw_mwf : mwf (g_A G);
  gw_sq : ncols (g_A G) = nrows (g_A G);
  gw_sym : g_dir G = false -> forall i j, mget (g_A G) i j = mget (g_A G) j i;
  gw_nn : nonneg_dtype (g_dt G) = true -> forall i j x, mget (g_A G) i j = Some x -> (0 <= x)%Z;
  gw_iso : g_iso G = true -> forall i j k l x y,
      mget (g_A G) i j = Some x -> mget (g_A G) k l = Some y -> x = y;
  gw_keys : NoDup (map fst (g_kid G));
  gw_ids : Permutation (map snd (g_kid G)) (seq 0 (glen G)) }.

(** algorithms/exceptions.py 1-22 and the python exceptions the modelled code raises or lets through *)
Inductive exn :=
  | EKey | EAttr | EType | EValue | EIndex | EZeroDiv | EAssert | ENotImpl
  | ENoPath | EUnbounded | EPointless | EEmptyGraph | EConv | EAlg.
(** the result of a python call: a value, or an exception (algorithms/exceptions.py 1-22) *)
Inductive outcome (X : Type) := Val (x : X) | Raise (e : exn).
Arguments Val {X} _.
Arguments Raise {X} _.

(** ** Names
    of cached values *)
(** classes/graph.py 303-361 and classes/digraph.py 444-514, the names of the properties *)
Inductive sgn := SP | SM.            (* "+": self-edges included, "-": ignored *)
(** classes/graph.py 272-300 and classes/_caching.py 7-181, the parts of the name of a reduction *)
Inductive ax := Row | Col.
(** classes/graph.py 272-300 and classes/_caching.py 7-181, the parts of the name of a reduction:
    reductions: [count] is an Aggregator, the others are monoids.  [any] may return any of the
    values; modelled by the maximum (only its structure is used by the project). *)
Inductive rop := RCount | RPlus | RTimes | RMin | RMax | RAny.
(** classes/graph.py 303-361 and classes/digraph.py 444-514, the names of the properties *)
Inductive mkey := KAT | KOff | KU (s : sgn) | KL (s : sgn).
(** classes/graph.py 303-361 and classes/digraph.py 444-514, the names of the properties *)
Inductive vkey := KDiag | KRed (a : ax) (o : rop) (s : sgn) | KRecip (s : sgn) | KTotal (s : sgn)
  | KAliasRow (s : sgn) | KAliasCol (s : sgn) | KAliasDeg (s : sgn).
     (* alias names such as "row_degrees-" are tested with [in cache] but never stored *)
(** classes/graph.py 303-361 and classes/digraph.py 444-514, the names of the properties *)
Inductive skey := KElem (o : rop) (s : sgn) | KDiagRed (o : rop).
(** classes/graph.py 303-361 and classes/digraph.py 444-514, the names of the properties *)
Inductive bkey := KSelf | KNegDiag | KNeg (s : sgn) | KIsIso.

(** equality of the names that key [_cache] (classes/graph.py 373) *)
Definition sgn_eqb (a b : sgn) := match a, b with SP, SP | SM, SM => true | _, _ => false end.
(** equality of the names that key [_cache] (classes/graph.py 373) *)
Definition ax_eqb (a b : ax) := match a, b with Row, Row | Col, Col => true | _, _ => false end.
(** equality of the names that key [_cache] (classes/graph.py 373) *)
Definition rop_eqb (a b : rop) :=
  match a, b with
  | RCount, RCount | RPlus, RPlus | RTimes, RTimes | RMin, RMin | RMax, RMax | RAny, RAny => true
  | _, _ => false
  end.
(** equality of the names that key [_cache] (classes/graph.py 373) *)
Definition mkey_eqb (a b : mkey) :=
  match a, b with
  | KAT, KAT | KOff, KOff => true
  | KU s, KU t | KL s, KL t => sgn_eqb s t
  | _, _ => false
  end.
(** equality of the names that key [_cache] (classes/graph.py 373) *)
Definition vkey_eqb (a b : vkey) :=
  match a, b with
  | KDiag, KDiag => true
  | KRed a o s, KRed a' o' s' => ax_eqb a a' && rop_eqb o o' && sgn_eqb s s'
  | KRecip s, KRecip t | KTotal s, KTotal t => sgn_eqb s t
  | KAliasRow s, KAliasRow t | KAliasCol s, KAliasCol t | KAliasDeg s, KAliasDeg t => sgn_eqb s t
  | _, _ => false
  end.
(** equality of the names that key [_cache] (classes/graph.py 373) *)
Definition skey_eqb (a b : skey) :=
  match a, b with
  | KElem o s, KElem o' s' => rop_eqb o o' && sgn_eqb s s'
  | KDiagRed o, KDiagRed o' => rop_eqb o o'
  | _, _ => false
  end.
(** equality of the names that key [_cache] (classes/graph.py 373) *)
Definition bkey_eqb (a b : bkey) :=
  match a, b with
  | KSelf, KSelf | KNegDiag, KNegDiag | KIsIso, KIsIso => true
  | KNeg s, KNeg t => sgn_eqb s t
  | _, _ => false
  end.

(** ** State: [G._cache] plus the class-level AutoDict registry (classes/graph.py 272-300).
    [c_iso]: absent / python None / a Scalar (possibly empty).
    [r_row o s]: "o_rowwise s" has been registered; [r_col o s]: which reduction function
    "o_columnwise s" maps to. *)
Record st := {
  c_mat : mkey -> option (mat Z);
  c_vec : vkey -> option (vec Z);
  c_scal : skey -> option (option Z);
  c_int : sgn -> option Z;                      (* total_recip+/- *)
  c_bool : bkey -> option bool;
  c_iso : option (option (option Z));
  r_row : rop -> sgn -> bool;
  r_col : rop -> sgn -> option ax }.

(** [cache[k] = v], for example classes/graph.py 17-21 *)
Definition upd {K V} (eqb : K -> K -> bool) (f : K -> option V) (k : K) (v : V) : K -> option V :=
  fun k' => if eqb k' k then Some v else f k'.
(** [cache[k] = v] for one kind of value, for example classes/graph.py 12-249 *)
Definition set_mat k m s := {| c_mat := upd mkey_eqb (c_mat s) k m; c_vec := c_vec s;
  c_scal := c_scal s; c_int := c_int s; c_bool := c_bool s; c_iso := c_iso s;
  r_row := r_row s; r_col := r_col s |}.
(** [cache[k] = v] for one kind of value, for example classes/graph.py 12-249 *)
Definition set_vec k v s := {| c_mat := c_mat s; c_vec := upd vkey_eqb (c_vec s) k v;
  c_scal := c_scal s; c_int := c_int s; c_bool := c_bool s; c_iso := c_iso s;
  r_row := r_row s; r_col := r_col s |}.
(** [cache[k] = v] for one kind of value, for example classes/graph.py 12-249 *)
Definition set_scal k v s := {| c_mat := c_mat s; c_vec := c_vec s;
  c_scal := upd skey_eqb (c_scal s) k v; c_int := c_int s; c_bool := c_bool s; c_iso := c_iso s;
  r_row := r_row s; r_col := r_col s |}.
(** [cache[k] = v] for one kind of value, for example classes/graph.py 12-249 *)
Definition set_int k v s := {| c_mat := c_mat s; c_vec := c_vec s;
  c_scal := c_scal s; c_int := upd sgn_eqb (c_int s) k v; c_bool := c_bool s; c_iso := c_iso s;
  r_row := r_row s; r_col := r_col s |}.
(** [cache[k] = v] for one kind of value, for example classes/graph.py 12-249 *)
Definition set_bool k v s := {| c_mat := c_mat s; c_vec := c_vec s;
  c_scal := c_scal s; c_int := c_int s; c_bool := upd bkey_eqb (c_bool s) k v; c_iso := c_iso s;
  r_row := r_row s; r_col := r_col s |}.
(** [cache["iso_value"] = v], classes/graph.py 230-249 *)
Definition set_iso v s := {| c_mat := c_mat s; c_vec := c_vec s;
  c_scal := c_scal s; c_int := c_int s; c_bool := c_bool s; c_iso := Some v;
  r_row := r_row s; r_col := r_col s |}.
(** the entry that classes/graph.py 273-300 adds *)
Definition set_reg rr rc s := {| c_mat := c_mat s; c_vec := c_vec s;
  c_scal := c_scal s; c_int := c_int s; c_bool := c_bool s; c_iso := c_iso s;
  r_row := rr; r_col := rc |}.
(** a new graph, classes/graph.py 382: [self._cache = {}], and a registry nobody has used *)
Definition st0 : st := {| c_mat := fun _ => None; c_vec := fun _ => None; c_scal := fun _ => None;
  c_int := fun _ => None; c_bool := fun _ => None; c_iso := None;
  r_row := fun _ _ => false; r_col := fun _ _ => None |}.

(** ** The monad: state and exceptions; the state survives an exception *)
(** statements of a python function that reads and writes [G._cache], for example classes/graph.py
    24-37 *)
Definition M (X : Type) : Type := st -> outcome X * st.
(** statements of a python function that reads and writes [G._cache], for example classes/graph.py
    24-37 *)
Definition ret {X} (x : X) : M X := fun s => (Val x, s).
(** statements of a python function that reads and writes [G._cache], for example classes/graph.py
    24-37 *)
Definition raise {X} (e : exn) : M X := fun s => (Raise e, s).
(** statements of a python function that reads and writes [G._cache], for example classes/graph.py
    24-37 *)
Definition bind {X Y} (m : M X) (f : X -> M Y) : M Y :=
  fun s => match m s with (Val x, s') => f x s' | (Raise e, s') => (Raise e, s') end.
(** statements of a python function that reads and writes [G._cache], for example classes/graph.py
    24-37 *)
Definition get_st : M st := fun s => (Val s, s).
(** statements of a python function that reads and writes [G._cache], for example classes/graph.py
    24-37 *)
Definition modify (f : st -> st) : M unit := fun s => (Val tt, f s).
Notation "x <- m ;; k" := (bind m (fun x => k)) (at level 61, m at next level, right associativity).
Notation "m ;;; k" := (bind m (fun _ => k)) (at level 61, right associativity).

(** for example classes/graph.py 24-37: [cache[key]]: KeyError when absent *)
Definition idx {X} (o : option X) : M X := match o with Some x => ret x | None => raise EKey end.
(** [key in cache], for example classes/graph.py 24-37 *)
Definition in_mat k : M bool := fun s => (Val (has (c_mat s k)), s).
(** [key in cache], for example classes/graph.py 24-37 *)
Definition in_vec k : M bool := fun s => (Val (has (c_vec s k)), s).
(** [key in cache], for example classes/graph.py 24-37 *)
Definition in_scal k : M bool := fun s => (Val (has (c_scal s k)), s).
(** [key in cache], for example classes/graph.py 24-37 *)
Definition in_int k : M bool := fun s => (Val (has (c_int s k)), s).
(** [key in cache], for example classes/graph.py 24-37 *)
Definition in_bool k : M bool := fun s => (Val (has (c_bool s k)), s).
(** for example classes/graph.py 24-37: [cache.get(key) is False] / [is True] (also truthiness of
    [cache.get(key)]) *)
Definition is_False k : M bool :=
  fun s => (Val (match c_bool s k with Some false => true | _ => false end), s).
(** for example classes/graph.py 24-37 *)
Definition is_True k : M bool :=
  fun s => (Val (match c_bool s k with Some true => true | _ => false end), s).
(** [cache[key]], for example classes/graph.py 24-37 *)
Definition lk_mat k : M (mat Z) := fun s => idx (c_mat s k) s.
(** [cache[key]], for example classes/graph.py 24-37 *)
Definition lk_vec k : M (vec Z) := fun s => idx (c_vec s k) s.
(** [cache[key]], for example classes/graph.py 24-37 *)
Definition lk_scal k : M (option Z) := fun s => idx (c_scal s k) s.
(** [cache[key]], for example classes/graph.py 24-37 *)
Definition lk_int k : M Z := fun s => idx (c_int s k) s.
(** [cache[key]], for example classes/graph.py 24-37 *)
Definition lk_bool k : M bool := fun s => idx (c_bool s k) s.
(** [if c: ...] without else, for example classes/graph.py 24-37 *)
Definition when (b : bool) (m : M unit) : M unit := if b then m else ret tt.
