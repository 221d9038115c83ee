(** * Graph operators (algorithms/operators/binary.py, unary.py; classes/digraph.py 604-621) *)
From Verif Require Import Base Model_Graph Model_Keys.
From Coq Require Import DecimalString.

(** ** python / library helpers *)
(** [str(key)] as used by the f-string of binary.py 25, 31 *)
Definition nstr (k : nkey) : string :=
  match k with KI z => NilZero.string_of_int (Z.to_int z) | KS s => s end.
(** for example algorithms/operators/binary.py 112-147: building a dict from pairs, and [d.update(l)] *)
Definition dupdate {V} (d l : list (nkey * V)) : list (nkey * V) :=
  fold_left (fun acc kv => dset acc (fst kv) (snd kv)) l d.
(** for example algorithms/operators/binary.py 73-89: [a.keys() == b.keys()],
    [a.keys().isdisjoint(b.keys())] *)
Definition inb {V} (k : nkey) (d : list (nkey * V)) : bool := has (dget d k).
(** for example algorithms/operators/binary.py 73-89 *)
Definition keys_eqb (a b : kidmap) : bool :=
  forallb (fun kv => inb (fst kv) b) a && forallb (fun kv => inb (fst kv) a) b.
(** for example algorithms/operators/binary.py 73-89 *)
Definition keys_disjoint (a b : kidmap) : bool := forallb (fun kv => negb (inb (fst kv) b)) a.
(** algorithms/operators/binary.py 59-70: [sorted(keys, key=d.__getitem__)] *)
Fixpoint insert_by (f : nkey -> nat) (k : nkey) (l : list nkey) : list nkey :=
  match l with [] => [k] | x :: l' => if f k <=? f x then k :: x :: l' else x :: insert_by f k l' end.
(** algorithms/operators/binary.py 59-70 *)
Fixpoint sort_by (f : nkey -> nat) (l : list nkey) : list nkey :=
  match l with [] => [] | x :: l' => insert_by f x (sort_by f l') end.
(** algorithms/operators/binary.py 59-70 *)
Definition sorted_keys (d : kidmap) (l : list nkey) : list nkey := sort_by (fun k => oget 0 (dget d k)) l.
(** algorithms/operators/binary.py 16-43: [dtypes.unify]: the class of the result (a mix of signed
    and unsigned may be negative) *)
Definition unify (a b : dtype) : dtype :=
  match a, b with
  | DBool, x | x, DBool => x
  | DUInt, DUInt => DUInt
  | DFloat, _ | _, DFloat => DFloat
  | DInt, _ | _, DInt => DInt
  end.
(** algorithms/operators/binary.py 16-43, algorithms/operators/binary.py 150-155: [C[I, J] = D]
    without mask or accumulator: replaces the whole block, deleting entries absent in D *)
Fixpoint pos (l : list nat) (i : nat) : option nat :=
  match l with [] => None | x :: l' => if x =? i then Some 0 else omap S (pos l' i) end.
(** algorithms/operators/binary.py 16-43, algorithms/operators/binary.py 150-155 *)
Definition mput {V} (C : mat V) (I J : list nat) (D : mat V) : mat V :=
  mbuild (nrows C) (ncols C)
    (fun i j => match pos I i, pos J j with Some a, Some b => mget D a b | _, _ => mget C i j end).
(** algorithms/operators/binary.py 16-43, algorithms/operators/binary.py 150-155: [C[I, J] = scalar] *)
Definition mputs {V} (C : mat V) (I J : list nat) (x : V) : mat V :=
  mbuild (nrows C) (ncols C)
    (fun i j => match pos I i, pos J j with Some _, Some _ => Some x | _, _ => mget C i j end).
(** [type(G)(A, key_to_id=d)], classes/graph.py 364-382 and classes/digraph.py 517-535 (A is square
    in every use below).  Whether SuiteSparse flags the new matrix as iso-valued is decided by an
    oracle [orc], which may say yes only if the matrix really is. *)
Definition constb (m : mat Z) : bool :=
  match mcoo m with [] => true | (_, _, x) :: l => forallb (fun e => (snd e =? x)%Z) l end.
(** classes/graph.py 364-382, classes/digraph.py 517-535 *)
Definition new_graph (orc : mat Z -> bool) (dir : bool) (A : mat Z) (dt : dtype) (d : kidmap) : graph :=
  {| g_dir := dir; g_A := A; g_dt := dt; g_iso := orc A && constb A; g_kid := d |}.
(** the default numbering [{i: i for i in range(A.nrows)}], classes/graph.py 379 *)
Definition range_kid (n : nat) : kidmap := map (fun i => (KI (Z.of_nat i), i)) (seq 0 n).

Section Ops.
Variable orc : mat Z -> bool.

(** ** binary.py *)
(** algorithms/operators/binary.py 24-26, 30-32 *)
Definition rename_graph (p : option string) (G : graph) : graph :=
  match p with
  | None => G
  | Some prefix =>
      new_graph orc (g_dir G) (g_A G) (g_dt G)
        (dupdate [] (map (fun kv => (KS (prefix ++ nstr (fst kv))%string, snd kv)) (g_kid G)))
  end.
(** algorithms/operators/binary.py 37-39 and 53-55: the two adjacency matrices on the diagonal of an
    empty matrix *)
Definition block_diag (A B : mat Z) : mat Z :=
  let C := mempty (nrows A + nrows B) (ncols A + ncols B) in
  let C := mput C (seq 0 (nrows A)) (seq 0 (ncols A)) A in
  mput C (seq (nrows A) (nrows B)) (seq (ncols A) (ncols B)) B.
(** algorithms/operators/binary.py 16-43: [rename] is the tuple of prefixes.  Multigraphs (17-20)
    are modelled in Model_Multi. *)
Definition union (G H : graph) (rename : list (option string)) : outcome graph :=
  let G := match rename with p :: _ => rename_graph p G | [] => G end in
  let H := match rename with _ :: p :: _ => rename_graph p H | _ => H end in
  let A := g_A G in
  let B := g_A H in
  if negb (keys_disjoint (g_kid G) (g_kid H)) then Raise EAlg
  else
    let C := block_diag A B in
    let offset := nrows A in
    let key_to_id := map (fun kv => (fst kv, snd kv + offset)) (g_kid H) in
    let key_to_id := dupdate key_to_id (g_kid G) in
    Val (new_graph orc (g_dir G) C (unify (g_dt G) (g_dt H)) key_to_id).
(** algorithms/operators/binary.py 46-56 *)
Definition disjoint_union (G H : graph) : outcome graph :=
  let A := g_A G in
  let B := g_A H in
  let C := block_diag A B in
  Val (new_graph orc (g_dir G) C (unify (g_dt G) (g_dt H)) (range_kid (nrows C))).
(** algorithms/operators/binary.py 59-70: [G._key_to_id.keys() & H._key_to_id.keys()] (as a list,
    before sorting) *)
Definition common_keys (G H : graph) : list nkey := filter (fun k => inb k (g_kid H)) (gnodes G).
(** algorithms/operators/binary.py 59-70 *)
Definition intersection (G H : graph) : outcome graph :=
  let keys := sorted_keys (g_kid G) (common_keys G H) in
  obind (list_to_ids (g_kid G) keys) (fun ids =>
  let A := mextract (g_A G) ids ids in
  obind (list_to_ids (g_kid H) keys) (fun ids =>
  let B := mrestrict (msS A) (mextract (g_A H) ids ids) in
  let B := mmap (fun _ => 1%Z) B in
  Val (new_graph orc (g_dir G) B (unify (g_dt G) (g_dt H)) (combine keys (seq 0 (List.length keys)))))).
(** algorithms/operators/binary.py 81-87, 100-106, 120-124: H's matrix in G's numbering *)
Definition aligned (G H : graph) : outcome (mat Z) :=
  if kid_eqb (g_kid G) (g_kid H) then Val (g_A H)
  else
    let keys := sorted_keys (g_kid G) (gnodes G) in
    obind (list_to_ids (g_kid H) keys) (fun ids => Val (mextract (g_A H) ids ids)).
(** algorithms/operators/binary.py 73-89 *)
Definition difference (G H : graph) : outcome graph :=
  if negb (keys_eqb (g_kid G) (g_kid H)) then Raise EAlg
  else
    let A := g_A G in
    obind (aligned G H) (fun B =>
    let C := mrestrict (msNS B) (mmap (fun _ => 1%Z) A) in
    Val (new_graph orc (g_dir G) C (g_dt G) (g_kid G))).
(** algorithms/operators/binary.py 92-109: [binary.pair(A | B, left_default, right_default)] is an
    eWiseUnion *)
Definition symmetric_difference (G H : graph) : outcome graph :=
  if negb (keys_eqb (g_kid G) (g_kid H)) then Raise EAlg
  else
    let A := g_A G in
    obind (aligned G H) (fun B =>
    let Mask := minter op_pairb A B in
    let U := mbuild (nrows A) (ncols A) (fun i j => ounion op_pairz 1%Z 1%Z (mget A i j) (mget B i j)) in
    let C := mrestrict (msNS Mask) U in
    Val (new_graph orc (g_dir G) C (unify (g_dt G) (g_dt H)) (g_kid G))).
(** algorithms/operators/binary.py 112-147 *)
Definition compose (G H : graph) : outcome graph :=
  let A := g_A G in
  if keys_eqb (g_kid G) (g_kid H) then
    obind (aligned G H) (fun B =>
    let C := munion op_second A B in
    Val (new_graph orc (g_dir G) C (unify (g_dt G) (g_dt H)) (g_kid G)))
  else
    let keys := sorted_keys (g_kid G) (common_keys G H) in
    let B := g_A H in
    let C := mempty (nrows A + nrows B - List.length keys) (ncols A + ncols B - List.length keys) in
    let C := mput C (seq 0 (nrows A)) (seq 0 (ncols A)) A in
    obind (list_to_ids (g_kid G) keys) (fun ids1 =>
    obind (list_to_ids (g_kid H) keys) (fun ids2 =>
    let C := mput C ids1 ids1 (mextract B ids2 ids2) in
    let newkeys := sorted_keys (g_kid H) (filter (fun k => negb (inb k (g_kid G))) (gnodes H)) in
    obind (list_to_ids (g_kid H) newkeys) (fun ids =>
    let k := nrows B - List.length keys in
    let C := mput C (seq (nrows A) k) (seq (ncols A) k) (mextract B ids ids) in
    let key_to_id := combine newkeys (map (fun i => i + nrows A) ids) in
    let key_to_id := dupdate key_to_id (g_kid G) in
    Val (new_graph orc (g_dir G) C (unify (g_dt G) (g_dt H)) key_to_id)))).
(** algorithms/operators/binary.py 150-155: the result is modified in place before anything was
    cached *)
Definition full_join (G H : graph) (rename : list (option string)) : outcome graph :=
  obind (union G H rename) (fun rv =>
  let nr := nrows (g_A G) in
  let nc := ncols (g_A G) in
  let C := mputs (g_A rv) (seq 0 nr) (seq nc (ncols (g_A rv) - nc)) 1%Z in
  let C := mputs C (seq nr (nrows (g_A rv) - nr)) (seq 0 nc) 1%Z in
  Val (new_graph orc (g_dir rv) C (g_dt rv) (g_kid rv))).

(** ** unary.py *)
(** algorithms/operators/unary.py 8-12 *)
Definition complement (G : graph) : graph :=
  let A := g_A G in
  let R := mbuild (nrows A) (ncols A) (fun i j => if msNS A i j then Some 1%Z else None) in
  let R := mselect (fun i j => negb (i =? j)) R in
  new_graph orc (g_dir G) R (g_dt G) (g_kid G).
(** 15-18 with classes/digraph.py 614-621, copy=True *)
Definition reverse (G : graph) : outcome graph :=
  if negb (g_dir G) then Raise EAlg
  else Val (new_graph orc (g_dir G) (mtrans (g_A G)) (g_dt G) (g_kid G)).
(** classes/digraph.py 604-612, as_view=False.  [binary.any] may take either operand: [pick] is an
    oracle. *)
Definition to_undirected (pick : nat -> nat -> bool) (reciprocal : bool) (G : graph) : graph :=
  let A := g_A G in
  let AT := mtrans A in
  let any i j (x y : Z) := if pick i j : bool then x else y in
  let B := if reciprocal
           then mbuild (nrows A) (ncols A) (fun i j => oboth (any i j) (mget A i j) (mget AT i j))
           else mbuild (nrows A) (ncols A) (fun i j => omerge (any i j) (mget A i j) (mget AT i j)) in
  new_graph orc false B (g_dt G) (g_kid G).
End Ops.
