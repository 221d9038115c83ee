(** * Graph matrices: linalg/*.py and nxapi/linalg/*.py
    Results are matrices without labels; multigraph branches are not modelled.  Floats are exact
    rationals (Qc); [unary.sqrt] is an oracle [sqr]; a division by zero inside a matrix gives 0 here (inf
    or nan in graphblas): the theorems only concern non-zero denominators. *)
From Verif Require Import Base Model_Graph Model_Cache Model_Keys Model_Measures Model_Cluster.
From Coq Require Import QArith Qcanon.
Open Scope nat_scope.

(** [G.list_to_ids(nodelist)], classes/_utils.py 84-88 *)
Definition opt_ids (G : graph) (nodelist : option (list nkey)) : M (option (list nat)) :=
  match nodelist with
  | None => ret None
  | Some l => ids <- lifto (list_to_ids (g_kid G) l) ;; ret (Some ids)
  end.
(** used in linalg/laplacianmatrix.py 33-54: [unary.one(A)] *)
Definition mone {V} (A : mat V) : mat Z := mmap (fun _ => 1%Z) A.
(** used in linalg/laplacianmatrix.py 33-54: [A - B] of two matrices: union with default 0; [v + w]
    likewise *)
Definition msubz (A B : mat Z) : mat Z := mbuild (nrows A) (ncols A) (fun i j => ounion Z.sub 0%Z 0%Z (mget A i j) (mget B i j)).
(** used in linalg/laplacianmatrix.py 33-54 *)
Definition msubq (A B : mat Qc) : mat Qc := mbuild (nrows A) (ncols A) (fun i j => ounion Qcminus 0%Qc 0%Qc (mget A i j) (mget B i j)).
(** used in linalg/modularitymatrix.py 8-14: [u.outer(v)] with times *)
Definition vouter {U V W} (op : U -> V -> W) (u : vec U) (v : vec V) : mat W :=
  mbuild (vsize u) (vsize v) (fun i j => oboth op (vget u i) (vget v j)).
(** [get_property("degrees+")]: an alias of Graph only; on a DiGraph the name is unknown, KeyError
    (graph.py 354-361, digraph.py 509-514) *)
Definition get_degrees (G : graph) : M (vec Z) :=
  if g_dir G then raise EKey else get_red G Row RCount SP None.

(** graphmatrix.py 6-19; the dtype argument is not modelled *)
Definition nx_adjacency_matrix (G : graph) (nodelist : option (list nkey)) (weighted : bool) : M (mat Z) :=
  o <- opt_ids G nodelist ;;
  match o with
  | None => ret (if weighted then g_A G else mone (g_A G))
  | Some ids => let A := mextract (g_A G) ids ids in ret (if weighted then A else mone A)
  end.
(** laplacianmatrix.py 9-24 *)
Definition laplacian_helper (G : graph) (nodelist : option (list nkey)) (weighted : bool) : M (vec Z * mat Z) :=
  o <- opt_ids G nodelist ;;
  match o with
  | Some ids =>
      let A := mextract (g_A G) ids ids in
      let A := if weighted then A else mone A in
      ret (mred_row Z.add A, A)
  | None =>
      if weighted then d <- get_red G Row RPlus SP None ;; ret (d, g_A G)
      else d <- get_degrees G ;; ret (d, mone (g_A G))
  end.
(** laplacianmatrix.py 27-30 *)
Definition nx_laplacian_matrix (G : graph) (nodelist : option (list nkey)) (weighted : bool) : M (mat Z) :=
  p <- laplacian_helper G nodelist weighted ;; let (d, A) := p in
  ret (msubz (vdiag d) A).
(** laplacianmatrix.py 33-54 *)
Definition nx_normalized_laplacian (sqr : Qc -> Qc) (G : graph) (nodelist : option (list nkey)) (weighted : bool) : M (mat Qc) :=
  p <- laplacian_helper G nodelist weighted ;; let (d, A) := p in
  let dis := vmap (fun x => / sqr (zq x))%Qc d in
  let W := mrestrict (msS A) (vouter Qcmult dis dis) in
  let W := minter Qcmult W (mmap zq A) in
  ret (msubq (vdiag (vmap (fun _ => 1%Qc) dis)) W).
(** modularitymatrix.py 8-14; [k.reduce().get(0)] *)
Definition modularity (k_out k_in : vec Z) (A : mat Z) : mat Qc :=
  let m := zq (oz (vreduce Z.add k_out)) in
  let X := vouter (fun x y => zq (x * y)) k_out k_in in
  let X := mmap (fun x => x / m)%Qc X in
  msubq (mmap zq A) X.
(** nxapi/linalg/modularitymatrix.py 9-13: not for DiGraphs *)
Definition nx_modularity_matrix (G : graph) (nodelist : option (list nkey)) (weighted : bool) : M (mat Qc) :=
  if g_dir G then raise ENotImpl else
  p <- laplacian_helper G nodelist weighted ;; let (k, A) := p in
  ret (modularity k k A).
(** modularitymatrix.py 17-37; nxapi/linalg/modularitymatrix.py 16-20: not for Graphs *)
Definition nx_directed_modularity (G : graph) (nodelist : option (list nkey)) (weighted : bool) : M (mat Qc) :=
  if negb (g_dir G) then raise ENotImpl else
  o <- opt_ids G nodelist ;;
  match o with
  | Some ids =>
      let A := mextract (g_A G) ids ids in
      let A := if weighted then A else mone A in
      ret (modularity (mred_row Z.add A) (mred_col Z.add A) A)
  | None =>
      if weighted then
        k_out <- get_red G Row RPlus SP None ;; k_in <- get_red G Col RPlus SP None ;;
        ret (modularity k_out k_in (g_A G))
      else
        k_out <- get_red G Row RCount SP None ;; k_in <- get_red G Col RCount SP None ;;
        ret (modularity k_out k_in (mone (g_A G)))
  end.
(** bethehessianmatrix.py 6-25; nxapi/linalg/bethehessianmatrix.py 8-12: not for DiGraphs.  An int
    divided by the int 0 is a ZeroDivisionError. *)
Definition nx_bethe_hessian (G : graph) (r : option Qc) (nodelist : option (list nkey)) : M (mat Qc) :=
  if g_dir G then raise ENotImpl else
  o <- opt_ids G nodelist ;;
  p <- match o with
       | Some ids => let A := mextract (g_A G) ids ids in ret (mred_row Z.add A, A)
       | None => d <- get_red G Row RPlus SP None ;; ret (d, g_A G)
       end ;;
  let (d, A) := p in
  r <- match r with
       | Some r => ret r
       | None =>
           degrees <- get_degrees G ;;
           let k := oz (vreduce Z.add degrees) in
           let k2 := oz (vdot Z.add Z.mul degrees degrees) in
           q <- lifto (qdiv (zq k2) (zq k)) ;; ret (q - 1)%Qc
       end ;;
  let n := nrows A in
  let ri := vbuild n (fun i => Some (r * r - 1 + zq (oz (vget d i)))%Qc) in
  let rI := vdiag ri in
  ret (mbuild n n (fun i j => omerge Qcplus (mget rI i j) (omap (fun x => - r * zq x)%Qc (mget A i j)))).
