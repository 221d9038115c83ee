(** * Base: sparse vectors and matrices with the GraphBLAS operations the project calls.

    This file models the *library* python-graphblas (trusted semantics, see DESIGN.md section 1),
    not code of /repo.  A vector of size n is a list of n optional values, [None] meaning "no
    stored entry"; a matrix is a list of rows with an explicit number of columns. *)
From Coq Require Export List Arith ZArith Lia Bool.
Export ListNotations.

(** ** Options *)
(** an element that may be missing, [v.get(i, default)], for example algorithms/cluster.py 41 *)
Definition has {V} (o : option V) : bool := match o with Some _ => true | None => false end.

(** an element that may be missing, [v.get(i, default)], for example algorithms/cluster.py 41 *)
Definition omap {V W} (f : V -> W) (o : option V) : option W :=
  match o with Some x => Some (f x) | None => None end.

(** for example algorithms/_helpers.py 26: element-wise union ([|], eWiseAdd): keep the one that is
    present, combine when both are *)
Definition omerge {V} (op : V -> V -> V) (a b : option V) : option V :=
  match a, b with
  | Some x, Some y => Some (op x y)
  | Some x, None => Some x
  | None, b => b
  end.

(** for example algorithms/cluster.py 172: element-wise intersection ([&], eWiseMult) *)
Definition oboth {V W X} (op : V -> W -> X) (a : option V) (b : option W) : option X :=
  match a, b with Some x, Some y => Some (op x y) | _, _ => None end.

(** for example algorithms/operators/binary.py 92-109: eWiseUnion: like union but missing operands
    take the given defaults *)
Definition ounion {V W X} (op : V -> W -> X) (da : V) (db : W) (a : option V) (b : option W)
  : option X :=
  match a, b with
  | Some x, Some y => Some (op x y)
  | Some x, None => Some (op x db)
  | None, Some y => Some (op da y)
  | None, None => None
  end.

(** an element that may be missing, [v.get(i, default)], for example algorithms/cluster.py 41: value
    of an optional integer, [x.get(0)] *)
Definition oz (o : option Z) : Z := match o with Some z => z | None => 0%Z end.
(** an element that may be missing, [v.get(i, default)], for example algorithms/cluster.py 41 *)
Definition oget {V} (d : V) (o : option V) : V := match o with Some z => z | None => d end.

(** ** Folds over indices 0..n-1 *)
(** the fold of a reduction, for example algorithms/cluster.py 41 *)
Fixpoint ored {V} (op : V -> V -> V) (n : nat) (f : nat -> option V) : option V :=
  match n with
  | O => None
  | S n' => omerge op (ored op n' f) (f n')
  end.

(** [nvals] and sums, for example algorithms/cluster.py 143: number of indices below n satisfying p *)
Definition cnt (n : nat) (p : nat -> bool) : nat := length (filter p (seq 0 n)).
(** [nvals] and sums, for example algorithms/cluster.py 143 *)
Definition nsum (n : nat) (f : nat -> nat) : nat := fold_right Nat.add 0 (map f (seq 0 n)).
(** [nvals] and sums, for example algorithms/cluster.py 143 *)
Definition zsum (n : nat) (f : nat -> Z) : Z := fold_right Z.add 0%Z (map f (seq 0 n)).

(** ** Vectors *)
(** a GraphBLAS Vector, for example algorithms/cluster.py 26-30 *)
Definition vec (V : Type) : Type := list (option V).
(** a GraphBLAS Vector, for example algorithms/cluster.py 26-30 *)
Definition vget {V} (v : vec V) (i : nat) : option V := nth i v None.
(** a GraphBLAS Vector, for example algorithms/cluster.py 26-30 *)
Definition vbuild {V} (n : nat) (f : nat -> option V) : vec V := map f (seq 0 n).
(** a GraphBLAS Vector, for example algorithms/cluster.py 26-30 *)
Definition vsize {V} (v : vec V) : nat := length v.
(** a GraphBLAS Vector, for example algorithms/cluster.py 26-30 *)
Definition vempty {V} (n : nat) : vec V := vbuild n (fun _ => None).
(** a GraphBLAS Vector, for example algorithms/cluster.py 26-30 *)
Definition vset {V} (v : vec V) (i : nat) (x : V) : vec V :=
  vbuild (vsize v) (fun j => if j =? i then Some x else vget v j).
(** a GraphBLAS Vector, for example algorithms/cluster.py 26-30 *)
Definition vdel {V} (v : vec V) (i : nat) : vec V :=
  vbuild (vsize v) (fun j => if j =? i then None else vget v j).
(** for example algorithms/cluster.py 143: number of stored entries, [v.nvals] *)
Definition nvals {V} (v : vec V) : nat := cnt (vsize v) (fun i => has (vget v i)).
(** for example algorithms/_bfs.py 39 and classes/digraph.py 119-158: masks are predicates on
    indices: [v.S], [~v.S], [v.V] *)
Definition mS {V} (v : vec V) : nat -> bool := fun i => has (vget v i).
(** for example algorithms/_bfs.py 39 and classes/digraph.py 119-158 *)
Definition mNS {V} (v : vec V) : nat -> bool := fun i => negb (has (vget v i)).
(** for example algorithms/_bfs.py 39 and classes/digraph.py 119-158 *)
Definition mV (v : vec Z) : nat -> bool :=
  fun i => match vget v i with Some x => negb (x =? 0)%Z | None => false end.
(** for example classes/graph.py 12-14: [v.dup(mask=m)] and [expr.new(mask=m)] *)
Definition vrestrict {V} (m : nat -> bool) (v : vec V) : vec V :=
  vbuild (vsize v) (fun i => if m i then vget v i else None).
(** for example algorithms/_bfs.py 39: [C(mask, replace?) << T] *)
Definition vwrite {V} (m : nat -> bool) (repl : bool) (C T : vec V) : vec V :=
  vbuild (vsize C) (fun i => if m i then vget T i else if repl then None else vget C i).
(** for example algorithms/link_analysis/pagerank_alg.py 65: [C(mask) << scalar] *)
Definition vassign {V} (m : nat -> bool) (x : V) (C : vec V) : vec V :=
  vbuild (vsize C) (fun i => if m i then Some x else vget C i).
(** for example algorithms/_helpers.py 27 *)
Definition vmap {V W} (f : V -> W) (v : vec V) : vec W :=
  vbuild (vsize v) (fun i => omap f (vget v i)).
(** for example algorithms/_helpers.py 26 *)
Definition vunion {V} (op : V -> V -> V) (u v : vec V) : vec V :=
  vbuild (vsize u) (fun i => omerge op (vget u i) (vget v i)).
(** for example algorithms/link_analysis/pagerank_alg.py 95 *)
Definition vinter {U V W} (op : U -> V -> W) (u : vec U) (v : vec V) : vec W :=
  vbuild (vsize u) (fun i => oboth op (vget u i) (vget v i)).
(** for example algorithms/_helpers.py 28 *)
Definition vreduce {V} (op : V -> V -> V) (v : vec V) : option V := ored op (vsize v) (vget v).
(** for example classes/_utils.py 112-119: entries in index order, [v.to_coo()] *)
Definition vcoo {V} (v : vec V) : list (nat * V) :=
  flat_map (fun i => match vget v i with Some x => [(i, x)] | None => [] end) (seq 0 (vsize v)).
(** for example classes/_utils.py 122-129 *)
Definition vindices {V} (v : vec V) : list nat := map fst (vcoo v).
(** for example classes/_utils.py 122-129 *)
Definition vvalues {V} (v : vec V) : list V := map snd (vcoo v).

(** ** Matrices *)
(** a GraphBLAS Matrix, for example classes/graph.py 364-382 *)
Record mat (V : Type) : Type := Mat { ncols : nat; rows : list (vec V) }.
Arguments Mat {V} _ _.
Arguments ncols {V} _.
Arguments rows {V} _.
(** a GraphBLAS Matrix, for example classes/graph.py 364-382 *)
Definition nrows {V} (m : mat V) : nat := length (rows m).
(** a GraphBLAS Matrix, for example classes/graph.py 364-382 *)
Definition mrow {V} (m : mat V) (i : nat) : vec V := nth i (rows m) [].
(** a GraphBLAS Matrix, for example classes/graph.py 364-382 *)
Definition mget {V} (m : mat V) (i j : nat) : option V := vget (mrow m i) j.
(** a GraphBLAS Matrix, for example classes/graph.py 364-382 *)
Definition mbuild {V} (nr nc : nat) (f : nat -> nat -> option V) : mat V :=
  Mat nc (map (fun i => vbuild nc (f i)) (seq 0 nr)).
(** a GraphBLAS Matrix, for example classes/graph.py 364-382 *)
Definition mwf {V} (m : mat V) : Prop := Forall (fun r => length r = ncols m) (rows m).
(** a GraphBLAS Matrix, for example classes/graph.py 364-382 *)
Definition mnvals {V} (m : mat V) : nat :=
  nsum (nrows m) (fun i => cnt (ncols m) (fun j => has (mget m i j))).
(** a GraphBLAS Matrix, for example classes/graph.py 364-382 *)
Definition mempty {V} (nr nc : nat) : mat V := mbuild nr nc (fun _ _ => None).
(** [A.T], for example algorithms/cluster.py 55 *)
Definition mtrans {V} (m : mat V) : mat V := mbuild (ncols m) (nrows m) (fun i j => mget m j i).
(** for example classes/graph.py 24-37: index-unary selection: [select.triu], [select.tril],
    [select.offdiag] *)
Definition mselect {V} (p : nat -> nat -> bool) (m : mat V) : mat V :=
  mbuild (nrows m) (ncols m) (fun i j => if p i j then mget m i j else None).
(** for example algorithms/core.py 8-37: value selection *)
Definition mselectv {V} (p : V -> bool) (m : mat V) : mat V :=
  mbuild (nrows m) (ncols m)
    (fun i j => match mget m i j with Some x => if p x then Some x else None | None => None end).
(** [A.S], [~A.S], for example algorithms/cluster.py 55 and algorithms/operators/unary.py 8-12 *)
Definition msS {V} (m : mat V) : nat -> nat -> bool := fun i j => has (mget m i j).
(** [A.S], [~A.S], for example algorithms/cluster.py 55 and algorithms/operators/unary.py 8-12 *)
Definition msNS {V} (m : mat V) : nat -> nat -> bool := fun i j => negb (has (mget m i j)).
(** [A.diag()], classes/graph.py 114-131 *)
Definition mdiag {V} (m : mat V) : vec V := vbuild (nrows m) (fun i => mget m i i).
(** [v.diag()], for example linalg/laplacianmatrix.py 27-30 *)
Definition vdiag {V} (v : vec V) : mat V :=
  mbuild (vsize v) (vsize v) (fun i j => if i =? j then vget v i else None).
(** [op(A)], for example algorithms/cluster.py 50 *)
Definition mmap {V W} (f : V -> W) (m : mat V) : mat W :=
  mbuild (nrows m) (ncols m) (fun i j => omap f (mget m i j)).
(** for example algorithms/operators/binary.py 112-147 *)
Definition munion {V} (op : V -> V -> V) (a b : mat V) : mat V :=
  mbuild (nrows a) (ncols a) (fun i j => omerge op (mget a i j) (mget b i j)).
(** for example algorithms/operators/binary.py 59-70 *)
Definition minter {U V W} (op : U -> V -> W) (a : mat U) (b : mat V) : mat W :=
  mbuild (nrows a) (ncols a) (fun i j => oboth op (mget a i j) (mget b i j)).
(** for example algorithms/core.py 8-37: [C(mask, replace?) << T] *)
Definition mwrite {V} (m : nat -> nat -> bool) (repl : bool) (C T : mat V) : mat V :=
  mbuild (nrows C) (ncols C)
    (fun i j => if m i j then mget T i j else if repl then None else mget C i j).
(** for example algorithms/operators/unary.py 8-12 *)
Definition massign {V} (m : nat -> nat -> bool) (x : V) (C : mat V) : mat V :=
  mbuild (nrows C) (ncols C) (fun i j => if m i j then Some x else mget C i j).
(** [expr.new(mask=m)], for example algorithms/cluster.py 55 *)
Definition mrestrict {V} (p : nat -> nat -> bool) (m : mat V) : mat V := mselect p m.
(** for example algorithms/cluster.py 60-64, 71: reductions *)
Definition mred_row {V} (op : V -> V -> V) (m : mat V) : vec V :=
  vbuild (nrows m) (fun i => ored op (ncols m) (fun j => mget m i j)).
(** for example algorithms/cluster.py 60-64, 71 *)
Definition mred_col {V} (op : V -> V -> V) (m : mat V) : vec V :=
  vbuild (ncols m) (fun j => ored op (nrows m) (fun i => mget m i j)).
(** for example algorithms/cluster.py 60-64, 71 *)
Definition mred_scalar {V} (op : V -> V -> V) (m : mat V) : option V :=
  vreduce op (mred_row op m).
(** for example algorithms/link_analysis/pagerank_alg.py 96: products over a semiring (add, mul) *)
Definition vxm {U V W} (add : W -> W -> W) (mul : U -> V -> W) (v : vec U) (m : mat V) : vec W :=
  vbuild (ncols m) (fun j => ored add (nrows m) (fun k => oboth mul (vget v k) (mget m k j))).
(** for example algorithms/cluster.py 38 *)
Definition mxv {U V W} (add : W -> W -> W) (mul : U -> V -> W) (m : mat U) (v : vec V) : vec W :=
  vbuild (nrows m) (fun i => ored add (ncols m) (fun k => oboth mul (mget m i k) (vget v k))).
(** for example algorithms/cluster.py 55 *)
Definition mxm {U V W} (add : W -> W -> W) (mul : U -> V -> W) (a : mat U) (b : mat V) : mat W :=
  mbuild (nrows a) (ncols b)
    (fun i j => ored add (ncols a) (fun k => oboth mul (mget a i k) (mget b k j))).
(** [u @ v], for example algorithms/link_analysis/pagerank_alg.py 91 *)
Definition vdot {U V W} (add : W -> W -> W) (mul : U -> V -> W) (u : vec U) (v : vec V)
  : option W := ored add (vsize u) (fun k => oboth mul (vget u k) (vget v k)).
(** for example algorithms/link_analysis/pagerank_alg.py 115: [M[I, J].new()] *)
Definition mextract {V} (m : mat V) (I J : list nat) : mat V :=
  mbuild (length I) (length J) (fun a b => mget m (nth a I 0) (nth b J 0)).
(** for example algorithms/link_analysis/pagerank_alg.py 127 *)
Definition vextract {V} (v : vec V) (I : list nat) : vec V :=
  vbuild (length I) (fun a => vget v (nth a I 0)).
(** for example algorithms/link_analysis/pagerank_alg.py 155: broadcasting a vector over rows ([v &
    A]) and over columns ([A & v]) *)
Definition vm_inter {U V W} (op : U -> V -> W) (v : vec U) (m : mat V) : mat W :=
  mbuild (nrows m) (ncols m) (fun i j => oboth op (vget v i) (mget m i j)).
(** for example algorithms/link_analysis/pagerank_alg.py 155 *)
Definition mv_inter {U V W} (op : U -> V -> W) (m : mat U) (v : vec V) : mat W :=
  mbuild (nrows m) (ncols m) (fun i j => oboth op (mget m i j) (vget v j)).
(** for example algorithms/cluster.py 3 and algorithms/_bfs.py 1-8: multiplicative operators of the
    semirings used *)
Definition op_first {U V} (x : U) (_ : V) : U := x.
(** for example algorithms/cluster.py 3 and algorithms/_bfs.py 1-8 *)
Definition op_second {U V} (_ : U) (y : V) : V := y.
(** for example algorithms/cluster.py 3 and algorithms/_bfs.py 1-8 *)
Definition op_any {V} (x _ : V) : V := x.
(** for example algorithms/cluster.py 3 and algorithms/_bfs.py 1-8 *)
Definition op_pairb {U V} (_ : U) (_ : V) : bool := true.
(** for example algorithms/cluster.py 3 and algorithms/_bfs.py 1-8 *)
Definition op_pairz {U V} (_ : U) (_ : V) : Z := 1%Z.
(** for example classes/_utils.py 229-249: entries in row-major order, [m.to_coo()] *)
Definition mcoo {V} (m : mat V) : list (nat * nat * V) :=
  flat_map (fun i =>
    flat_map (fun j => match mget m i j with Some x => [(i, j, x)] | None => [] end)
             (seq 0 (ncols m))) (seq 0 (nrows m)).
