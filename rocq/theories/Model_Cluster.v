(** * Triangles, clustering, square clustering, generalized degree, k-truss
    (algorithms/cluster.py, algorithms/core.py, nxapi/cluster.py, nxapi/core.py) *)
From Verif Require Import Base Model_Graph Model_Cache Model_Keys Model_Utils Model_Operators Model_Measures.
From Coq Require Import QArith Qcanon.
Open Scope nat_scope.

(** values of algorithms/cluster.py 24-193: floats are modelled by canonical rationals; division by
    zero gives 0 (python-graphblas gives
    inf/nan there; the positive theorems only concern non-zero denominators) *)
Definition zq (z : Z) : Qc := Q2Qc (inject_Z z).
(** values of algorithms/cluster.py 24-193 *)
Definition oq (o : option Qc) : Qc := oget 0%Qc o.
(** values of algorithms/cluster.py 24-193 *)
Definition vsumq (v : vec Qc) : Qc := oq (vreduce Qcplus v).
(** values of algorithms/cluster.py 24-193 *)
Definition msumz (m : mat Z) : Z := oz (mred_scalar Z.add m).
(** for example algorithms/cluster.py 44-64: [expr.new(mask=mask)] with an optional mask *)
Definition omask {V} (mask : mask_t) (v : vec V) : vec V := match mask with Some p => vrestrict p v | None => v end.
(** for example algorithms/cluster.py 74-80: python [a / b] on numbers *)
Definition qdiv (a b : Qc) : outcome Qc := if Qc_eq_bool b 0 then Raise EZeroDiv else Val (a / b)%Qc.

(** nxapi/cluster.py 20-29, nxapi/cluster.py 43-57: the argument [nodes]: None, a key, or a list of
    keys *)
Inductive nodes_arg := AllNodes | OneNode (k : nkey) | Nodes (l : list nkey).
(** [G.list_to_vector(nodes)] after [nodes in G] was false; classes/_utils.py 68-81 *)
Definition arg_vec (G : graph) (a : nodes_arg) : M (option (vec bool)) :=
  match a with
  | AllNodes => ret None
  | OneNode k => l <- lifto (iter_key k) ;; v <- list_vec_of G l ;; ret (Some v)
  | Nodes l => v <- list_vec_of G l ;; ret (Some v)
  end.
(** nxapi/cluster.py 20-29, nxapi/cluster.py 43-57: [nodes in G] *)
Definition arg_node (G : graph) (a : nodes_arg) : option nat :=
  match a with OneNode k => kid G k | _ => None end.
(** classes/_utils.py 138-152: [G.vector_to_nodemap(v, mask=mask, fill_value=fill)] *)
Definition masked_nodemap {V} (G : graph) (fill : V) (mv : option (vec bool)) (v : vec V) : nodemap V :=
  match mv with
  | None => to_nodemap_fill G fill v
  | Some m => to_nodemap G (if nvals v <? nvals m
                            then vbuild (vsize v) (fun i => if mS m i then omerge op_first (vget v i) (Some fill) else vget v i)
                            else v)
  end.
(** nxapi/cluster.py 20-29, nxapi/cluster.py 43-57: what a call on one node, or on several, returns;
    [REmpty] is the dict [{}] of a graph without nodes *)
Inductive cres (X Y : Type) := REmpty | ROne (x : X) | RMap (m : Y).
Arguments REmpty {X Y}. Arguments ROne {X Y} _. Arguments RMap {X Y} _.

(** [G._cacheit], classes/_utils.py 252-255: the entries "transitivity" and
    "average_clustering(count_zeros=...)" of the same dict, kept beside [st] *)
Record xcache := { x_trans : option Qc; x_avg : bool -> option Qc }.
(** classes/_utils.py 252-255 *)
Definition x0 : xcache := {| x_trans := None; x_avg := fun _ => None |}.
(** classes/_utils.py 252-255: [if key not in cache: cache[key] = func(...)] ; [return cache[key]];
    nothing is stored when func raises *)
Definition XM (X : Type) : Type := xcache -> M (X * xcache).

Section Cluster.
(** see Model_Cache: whether python-graphblas' Matrix has a [reduce] method *)
Variable mhr : bool.
(** [unary.cbrt]: an oracle *)
Variable cbrt : Qc -> Qc.

(** algorithms/cluster.py 31-34, 48-51: [unary.cbrt(X / maxval)], with [maxval =
    G.get_property("max_element-")].  Dividing by an empty
    Scalar (no such element) raises graphblas' EmptyObject. *)
Definition get_maxval (G : graph) : M Qc :=
  m <- get_elem mhr G RMax SM ;; match m with Some x => ret (zq x) | None => raise EValue end.
(** algorithms/cluster.py 31-34, 48-51 *)
Definition normv (mx : Qc) (x : Z) : Qc := cbrt (zq x / mx)%Qc.

(** ** algorithms/cluster.py 24-41.  [post] is the weighted branch [val *= r] *)
Definition single_tri_gen {U V} (add : V -> V -> V) (mul : U -> U -> V) (post : vec V -> vec U -> vec V)
  (L : mat U) (r : vec U) : option V :=
  vreduce add (post (vrestrict (mS r) (mxv add mul L r)) r).
(** algorithms/cluster.py 24-30: the common prefix; [del r[index]] only when the graph has self-edges *)
Definition single_row (G : graph) (i : nat) : M (mat Z * vec Z) :=
  L <- get_Lm G ;; hs <- has_self_edges G ;;
  let r := mrow (g_A G) i in
  ret (L, if hs : bool then vdel r i else r).
(** algorithms/cluster.py 24-41 *)
Definition single_triangle (G : graph) (i : nat) : M Z :=
  p <- single_row G i ;; let (L, r) := p in
  ret (oz (single_tri_gen Z.add op_pairz (fun v _ => v) L r)).
(** algorithms/cluster.py 24-41 *)
Definition single_triangle_w (G : graph) (i : nat) : M Qc :=
  p <- single_row G i ;; let (L, r) := p in
  mx <- get_maxval G ;;
  ret (oq (single_tri_gen Qcplus Qcmult (vinter Qcmult) (mmap (normv mx) L) (vmap (normv mx) r))).

(** ** algorithms/cluster.py 44-64 *)
Definition triangles_gen {U V} (add : V -> V -> V) (mul : U -> U -> V) (post : mat V -> mat U -> mat V)
  (L Um : mat U) (mask : mask_t) : vec V :=
  let C := post (mrestrict (msS L) (mxm add mul L (mtrans L))) L in
  let D := post (mrestrict (msS Um) (mxm add mul Um (mtrans L))) Um in
  vunion add (vunion add (omask mask (mred_row add C)) (omask mask (mred_col add C))) (omask mask (mred_row add D)).
(** algorithms/cluster.py 47: "L- U-": U- comes first in the evaluation order *)
Definition get_LU (G : graph) : M (mat Z * mat Z) := Um <- get_Um G ;; L <- get_Lm G ;; ret (L, Um).
(** algorithms/cluster.py 44-64 *)
Definition triangles (G : graph) (mask : mask_t) : M (vec Z) :=
  p <- get_LU G ;; let (L, Um) := p in
  ret (triangles_gen Z.add op_pairz (fun C _ => C) L Um mask).
(** algorithms/cluster.py 44-64 *)
Definition triangles_w (G : graph) (mask : mask_t) : M (vec Qc) :=
  p <- get_LU G ;; let (L, Um) := p in
  mx <- get_maxval G ;;
  ret (triangles_gen Qcplus Qcmult (minter Qcmult) (mmap (normv mx) L) (mmap (normv mx) Um) mask).

(** ** algorithms/cluster.py 67-71 *)
Definition total_triangles (G : graph) : M Z :=
  p <- get_LU G ;; let (L, Um) := p in
  ret (msumz (mrestrict (msS L) (mxm Z.add op_pairz L (mtrans Um)))).
(** algorithms/cluster.py 79, 97: [degrees * (degrees - 1)] *)
Definition dd1 (d : vec Z) : vec Z := vinter Z.mul d (vmap (fun x => x - 1)%Z d).
(** ** algorithms/cluster.py 74-80; [denom] 0 is a ZeroDivisionError *)
Definition transitivity (G : graph) : M Qc :=
  num <- total_triangles G ;;
  if (num =? 0)%Z then ret 0%Qc else
  d <- get_red G Row RCount SM None ;;
  lifto (qdiv (zq (6 * num)) (zq (vsum (dd1 d)))).
(** ** algorithms/cluster.py 83-91; "offdiag AT": AT is evaluated first *)
Definition transitivity_directed (G : graph) : M Qc :=
  AT <- get_AT G ;; A <- get_offdiag G ;;
  let num := msumz (mrestrict (msS A) (mxm Z.add op_pairz A (mtrans A))) in
  if (num =? 0)%Z then ret 0%Qc else
  d <- get_red G Row RCount SM None ;;
  lifto (qdiv (zq num) (zq (vsum (dd1 d)))).

(** ** algorithms/cluster.py 94-98; vectors divide on the intersection of their structures *)
Definition clustering_of (tri : vec Qc) (d : vec Z) : vec Qc :=
  vinter (fun t c => t / zq c)%Qc (vmap (fun t => zq 2 * t)%Qc tri) (dd1 d).
(** algorithms/cluster.py 94-98 *)
Definition clustering (G : graph) (weighted : bool) (mask : mask_t) : M (vec Qc) :=
  tri <- (if weighted then triangles_w G mask else t <- triangles G mask ;; ret (vmap zq t)) ;;
  d <- get_red G Row RCount SM None ;;
  ret (clustering_of tri d).

(** ** algorithms/cluster.py 101-126 *)
Definition dtri_gen {U V} (add : V -> V -> V) (mul : U -> U -> V) (post : mat V -> mat U -> mat V)
  (A AT : mat U) (mask : mask_t) : vec V :=
  let C := post (mrestrict (msS A) (mxm add mul A (mtrans A))) A in
  let D := post (mrestrict (msS A) (mxm add mul AT (mtrans A))) A in
  let E := post (mrestrict (msS A) (mxm add mul AT (mtrans AT))) A in
  vunion add (vunion add (vunion add (omask mask (mred_row add C)) (omask mask (mred_col add C)))
    (omask mask (mred_row add D))) (omask mask (mred_col add E)).
(** algorithms/cluster.py 125: [total_degrees * (total_degrees - 1) - 2 * recip_degrees]: [-] is
    eWiseUnion with default 0 *)
Definition ddenom (rd td : vec Z) : vec Z :=
  vbuild (vsize td) (fun i => ounion Z.sub 0%Z 0%Z (vget (dd1 td) i) (omap (Z.mul 2) (vget rd i))).
(** algorithms/cluster.py 101-126 *)
Definition clustering_directed (G : graph) (weighted : bool) (mask : mask_t) : M (vec Qc) :=
  AT <- get_AT G ;; A <- get_offdiag G ;;
  tri <- (if weighted
          then mx <- get_maxval G ;;
               ret (dtri_gen Qcplus Qcmult (minter Qcmult) (mmap (normv mx) A) (mmap (normv mx) AT) mask)
          else ret (vmap zq (dtri_gen Z.add op_pairz (fun C _ => C) A AT mask))) ;;
  rd <- get_recip G SM mask ;; td <- get_total G SM mask ;;
  ret (vinter (fun t c => t / zq c)%Qc tri (ddenom rd td)).

(** ** algorithms/cluster.py 129-147 *)
Definition single_degree (G : graph) (i : nat) : M Z :=
  let A := g_A G in
  s <- get_st ;;
  if has (c_vec s (KAliasDeg SM)) then d <- get_red G Row RCount SM None ;; ret (oz (vget d i))
  else if has (c_vec s (KAliasDeg SP)) then
    d <- get_red G Row RCount SP None ;; hs <- has_self_edges G ;;
    ret (oz (vget d i) - (if hs && has (mget A i i) then 1 else 0))%Z
  else
    hs <- has_self_edges G ;;
    ret (Z.of_nat (nvals (mrow A i)) - (if hs && has (mget A i i) then 1 else 0))%Z.
(** algorithms/cluster.py 129-147 *)
Definition single_clustering (G : graph) (weighted : bool) (i : nat) : M Qc :=
  tri <- (if weighted then single_triangle_w G i else t <- single_triangle G i ;; ret (zq t)) ;;
  if Qc_eq_bool tri 0 then ret 0%Qc else
  d <- single_degree G i ;;
  lifto (qdiv (zq 2 * tri)%Qc (zq (d * (d - 1)))).

(** ** algorithms/cluster.py 150-173; r and c are a row and a column of the off-diagonal matrix *)
Definition mcol {V} (m : mat V) (j : nat) : vec V := vbuild (nrows m) (fun i => mget m i j).
(** algorithms/cluster.py 150-173 *)
Definition sdir_gen {U V} (add : V -> V -> V) (mul : U -> U -> V) (post : vec V -> vec U -> vec V) (zero : V)
  (A : mat U) (i : nat) : V :=
  let r := mrow A i in let c := mcol A i in
  let t x y := oget zero (vreduce add (post (vrestrict (mS y) (mxv add mul A x)) y)) in
  add (add (add (add zero (t c c)) (t c r)) (t r c)) (t r r).
(** algorithms/cluster.py 150-173 *)
Definition single_clustering_directed (G : graph) (weighted : bool) (i : nat) : M Qc :=
  A <- get_offdiag G ;;
  tri <- (if weighted
          then mx <- get_maxval G ;; ret (sdir_gen Qcplus Qcmult (vinter Qcmult) 0%Qc (mmap (normv mx) A) i)
          else ret (zq (sdir_gen Z.add op_pairz (fun v _ => v) 0%Z A i))) ;;
  if Qc_eq_bool tri 0 then ret 0%Qc else
  let r := mrow A i in let c := mcol A i in
  let td := (Z.of_nat (nvals c) + Z.of_nat (nvals r))%Z in
  let rd := Z.of_nat (nvals (vinter op_pairz c r)) in
  lifto (qdiv tri (zq (td * (td - 1) - 2 * rd))).

(** ** algorithms/cluster.py 176-193.  [mask] comes with [mask.parent.nvals] *)
Definition average_of (c : vec Qc) (count_zeros : bool) (nmask : option nat) : outcome Qc :=
  let val := vsumq c in
  if negb count_zeros then qdiv val (zq (Z.of_nat (nvals c))) else
  match nmask with
  | Some k => qdiv val (zq (Z.of_nat k))
  | None => qdiv val (zq (Z.of_nat (vsize c)))
  end.
(** algorithms/cluster.py 177, 187 *)
Definition clustering_any (G : graph) (weighted : bool) (mask : mask_t) : M (vec Qc) :=
  if g_dir G then clustering_directed G weighted mask else clustering G weighted mask.
(** algorithms/cluster.py 176-183, algorithms/cluster.py 186-193 *)
Definition average_clustering (G : graph) (count_zeros weighted : bool) (v : option (vec bool)) : M Qc :=
  c <- clustering_any G weighted (omap mS v) ;;
  lifto (average_of c count_zeros (omap nvals v)).

(** ** nxapi/cluster.py *)
(** nxapi/cluster.py 20-29 *)
Definition nx_triangles (G : graph) (a : nodes_arg) : M (cres Z (nodemap Z)) :=
  only_undirected G (
    if glen G =? 0 then ret REmpty else
    match arg_node G a with
    | Some i => t <- single_triangle G i ;; ret (ROne t)
    | None => mv <- arg_vec G a ;; r <- triangles G (omap mS mv) ;; ret (RMap (masked_nodemap G 0%Z mv r))
    end).
(** nxapi/cluster.py 43-57 *)
Definition nx_clustering (G : graph) (a : nodes_arg) (weighted : bool) : M (cres Qc (nodemap Qc)) :=
  if glen G =? 0 then ret REmpty else
  match arg_node G a with
  | Some i => t <- (if g_dir G then single_clustering_directed G weighted i else single_clustering G weighted i) ;; ret (ROne t)
  | None => mv <- arg_vec G a ;; r <- clustering_any G weighted (omap mS mv) ;; ret (RMap (masked_nodemap G 0%Qc mv r))
  end.

(** nxapi/cluster.py 32-40 *)
Definition nx_transitivity (G : graph) : XM Qc := fun x =>
  if glen G =? 0 then ret (0%Qc, x) else
  match x_trans x with
  | Some q => ret (q, x)
  | None => q <- (if g_dir G then transitivity_directed G else transitivity G) ;;
            ret (q, {| x_trans := Some q; x_avg := x_avg x |})
  end.
(** nxapi/cluster.py 60-78 *)
Definition nx_average_clustering (G : graph) (a : nodes_arg) (weighted count_zeros : bool) : XM Qc := fun x =>
  if glen G =? 0 then raise EZeroDiv else
  mv <- arg_vec G a ;;
  match mv with
  | None =>
      match x_avg x count_zeros with
      | Some q => ret (q, x)
      | None => q <- average_clustering G count_zeros weighted None ;;
                ret (q, {| x_trans := x_trans x;
                           x_avg := fun b => if Bool.eqb b count_zeros then Some q else x_avg x b |})
      end
  | Some v => q <- average_clustering G count_zeros weighted (Some v) ;; ret (q, x)
  end.
End Cluster.

(** ** square clustering *)
(** [G.get_properties("A degrees+")], algorithms/cluster.py 197, 241.  A DiGraph has no property of
    that name
    (classes/digraph.py 407-441, 509-514): KeyError.  It can get here because [to_undirected_graph] returns every
    instance of Graph, and DiGraph is a subclass (classes/graph.py 254-255, nxapi/cluster.py 100). *)
Definition get_degrees_A (G : graph) : M (vec Z) :=
  if g_dir G then raise EKey else get_red G Row RCount SP None.
(** algorithms/cluster.py 196-224; [//] on non-negative integers *)
Definition single_square_clustering (G : graph) (i : nat) : M Qc :=
  let A := g_A G in
  degrees <- get_degrees_A G ;;
  let deg := oz (vget degrees i) in
  if (deg <=? 1)%Z then ret 0%Qc else
  let v := mrow A i in
  let p2 := vdel (vxm Z.add op_pairz v A) i in
  let denom := (- oz (vdot Z.add op_first p2 v))%Z in
  let p2 := vunion Z.mul p2 (vmap (fun x => x - 1)%Z p2) in
  let squares := (vsum p2 / 2)%Z in
  if (squares =? 0)%Z then ret 0%Qc else
  let denom := (denom - deg * (deg - 1))%Z in
  let denom := (denom + oz (vdot Z.add Z.mul v degrees) * (deg - 1))%Z in
  let denom := (denom - squares)%Z in
  lifto (qdiv (zq squares) (zq denom)).
(** algorithms/cluster.py 227-282.  [C(accum) << T] is a union with [accum]; [C(accum, mask) << T]
    does it inside the
    mask and keeps [C] outside; [squares(squares.V, replace) << ...] drops the zeros. *)
Definition square_clustering (G : graph) (node_ids : option (list nat)) : M (vec Qc) :=
  degrees <- get_degrees_A G ;;
  let A := g_A G in
  let Asub := match node_ids with
              | Some ids => vm_inter op_second (vscatter (vsize degrees) ids true) A
              | None => A end in
  let A' := match node_ids with Some _ => A | None => mtrans A end in
  let D := vdiag degrees in
  let P2 := mrestrict (msNS D) (mxm Z.add op_pairz Asub A') in
  let neg_denom := mred_row Z.add (minter op_first P2 Asub) in
  let P2 := munion Z.mul P2 (mmap (fun x => x - 1)%Z P2) in
  let squares := mred_row Z.add P2 in
  let squares := vwrite (mV squares) true squares (vmap (fun x => x / 2)%Z squares) in
  let denom := vrestrict (mS squares) (vmap (fun x => x - 1)%Z degrees) in
  let neg_denom := vunion Z.add neg_denom (vinter Z.mul degrees denom) in
  let T := mxv Z.add Z.mul Asub degrees in
  let denom := vbuild (vsize denom) (fun i => if mS denom i then omerge Z.mul (vget denom i) (vget T i) else vget denom i) in
  let denom := vunion Z.sub denom (vinter Z.add neg_denom squares) in
  ret (vinter (fun s d => zq s / zq d)%Qc squares denom).

(** nxapi/cluster.py 82-92.  A chunk of size 1 is a bare id ([partition]): [scalar_index] says whether
    [Vector.from_coo] accepts that as a one-element index array.  [None]: there was no chunk *)
Definition chunk_ids (scalar_index : bool) (p : piece nat) : outcome (list nat) :=
  match p with Chunk l => Val l | Elem i => if scalar_index then Val [i] else Raise EType end.
(** nxapi/cluster.py 82-92 *)
Fixpoint square_chunks (G : graph) (si : bool) (ps : list (piece nat)) (result : option (vec Qc)) : M (option (vec Qc)) :=
  match ps with
  | [] => ret result
  | p :: ps' =>
      ids <- lifto (chunk_ids si p) ;; res <- square_clustering G (Some ids) ;;
      square_chunks G si ps' (Some (match result with None => res | Some r => vunion op_any r res end))
  end.
(** nxapi/cluster.py 82-92 *)
Definition square_clustering_split (G : graph) (si : bool) (node_ids : option (list nat)) (chunksize : Z) : M (option (vec Qc)) :=
  let ids := match node_ids with
             | Some l => l
             | None => vindices (red_row RAny (g_A G)) end in
  square_chunks G si (partition chunksize ids true) None.
(** nxapi/cluster.py 95-121: [RMap None]: a NodeMap around python's None.  [cs] is the outcome of
    [normalize_chunksize]
    (Model_Utils) on the chunksize argument. *)
Definition nx_square_clustering (G : graph) (a : nodes_arg) (si : bool) (cs : outcome (option Z))
  : M (cres Qc (option (nodemap Qc))) :=
  if glen G =? 0 then ret REmpty else
  cs <- lifto cs ;;
  match a with
  | AllNodes =>
      r <- match cs with None => r <- square_clustering G None ;; ret (Some r) | Some c => square_clustering_split G si None c end ;;
      ret (RMap (omap (to_nodemap_fill G 0%Qc) r))
  | _ =>
      match arg_node G a with
      | Some i => q <- single_square_clustering G i ;; ret (ROne q)
      | None =>
          l <- match a with OneNode k => lifto (iter_key k) | Nodes l => ret l | AllNodes => ret [] end ;;
          ids <- lifto (list_to_ids (g_kid G) l) ;;
          r <- match cs with None => r <- square_clustering G (Some ids) ;; ret (Some r) | Some c => square_clustering_split G si (Some ids) c end ;;
          ret (RMap (omap (to_nodemap G) r))
      end
  end.

(** ** generalized degree, algorithms/cluster.py 285-310 *)
Definition generalized_degree (G : graph) (mask : option (vec bool)) : M (mat Z) :=
  A <- get_offdiag G ;;
  let Tri := match mask with
             | Some v => mmap (fun _ => 0%Z) (vm_inter op_pairz v A)
             | None => mmap (fun _ => 0%Z) A
             end in
  (* [Tri(Tri.S, binary.second) << plus_pair(Tri @ A.T)]: inside the mask the new value replaces the old one *)
  let T := mxm Z.add op_pairz Tri (mtrans A) in
  let Tri := mbuild (nrows Tri) (ncols Tri)
               (fun i j => if has (mget Tri i j) then omerge op_second (mget Tri i j) (mget T i j) else mget Tri i j) in
  (* Matrix.from_coo(rows, vals, ones, dup_op=plus, ncols=A.ncols - 1): an index out of range is an error *)
  let coo := mcoo Tri in
  if forallb (fun e => (snd e <? Z.of_nat (ncols A) - 1)%Z) coo then
    ret (mbuild (nrows A) (ncols A - 1) (fun i k =>
           ored Z.add (List.length coo) (fun t => match nth_error coo t with
             | Some (a, _, x) => if (a =? i) && (x =? Z.of_nat k)%Z then Some 1%Z else None
             | None => None end)))
  else raise EIndex.
(** algorithms/cluster.py 313-318 *)
Definition single_generalized_degree (G : graph) (i : nat) : M (vec Z) :=
  m <- generalized_degree G (Some (vset (vempty (glen G)) i true)) ;; ret (mrow m i).
(** nxapi/cluster.py 124-134; one node: [G.vector_to_nodemap(result)] *)
Definition nx_generalized_degree (G : graph) (a : nodes_arg) : M (cres (nodemap Z) (rowmap Z)) :=
  only_undirected G (
    if glen G =? 0 then ret REmpty else
    match arg_node G a with
    | Some i => r <- single_generalized_degree G i ;; ret (ROne (to_nodemap G r))
    | None => mv <- arg_vec G a ;; m <- generalized_degree G mv ;; ret (RMap (mkrm m (g_kid G) None))
    end).

(** ** k-truss, algorithms/core.py 8-37 *)
(** algorithms/core.py 8-37: one round: [C(S.S, replace) << plus_pair(S @ S.T)], [C <<
    select.value(k - 2 <= C)] *)
Definition truss_round (k : Z) (Sm : mat Z) : mat Z :=
  mselectv (fun x => k - 2 <=? x)%Z (mrestrict (msS Sm) (mxm Z.add op_pairz Sm (mtrans Sm))).
(** algorithms/core.py 8-37: [while True]; [None]: the fuel did not suffice *)
Fixpoint truss_loop (fuel : nat) (k : Z) (Sm : mat Z) (nvals_last : nat) : option (mat Z) :=
  match fuel with
  | O => None
  | S fuel' =>
      let C := truss_round k Sm in
      if mnvals C =? nvals_last then Some C else truss_loop fuel' k C (mnvals C)
  end.
(** algorithms/core.py 8-37: [None]: no termination within the fuel.  The values of the result are
    the triangle counts of the last
    round; with k < 3 the weights of G.  [orc] is the iso flag of the new matrix (Model_Operators). *)
Definition k_truss (orc : mat Z -> bool) (fuel : nat) (G : graph) (k : Z) : M (option graph) :=
  Sm <- get_offdiag G ;;
  match (if (k <? 3)%Z then Some Sm else truss_loop fuel k Sm (mnvals Sm)) with
  | None => ret None
  | Some C =>
      let indices := vindices (mred_row op_any C) in
      kid' <- lifto (renumber_key_to_id (g_kid G) indices) ;;
      ret (Some (new_graph orc false (mextract C indices indices) (if (k <? 3)%Z then g_dt G else DInt) kid'))
  end.
(** nxapi/core.py 8-13 *)
Definition nx_k_truss (orc : mat Z -> bool) (fuel : nat) (G : graph) (k : Z) : M (option graph) :=
  only_undirected G (k_truss orc fuel G k).
