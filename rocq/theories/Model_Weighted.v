(** * Weighted shortest paths: algorithms/shortest_paths/weighted.py and its nxapi wrappers *)
From Verif Require Import Base Model_Graph Model_Cache Model_Keys Model_Utils Model_Bfs.
From Coq Require Import QArith.
Open Scope nat_scope.

(** algorithms/shortest_paths/weighted.py 108-111: [mask.V] of a boolean mask *)
Definition mVb (v : vec bool) : nat -> bool := fun i => match vget v i with Some b => b | None => false end.
(** algorithms/shortest_paths/weighted.py 108-111 *)
Definition mMVb (m : mat bool) : nat -> nat -> bool := fun i j => match mget m i j with Some b => b | None => false end.
(** algorithms/shortest_paths/weighted.py 108-111: [select.valuele(v, c)] / [select.valuelt(v, c)] *)
Definition vselectv {V} (p : V -> bool) (v : vec V) : vec V :=
  vbuild (vsize v) (fun i => match vget v i with Some x => if p x then Some x else None | None => None end).
(** [cutoff is not None] -> [cur << select.valuele(cur, cutoff)], weighted.py 71-72 *)
Definition cutsel (cutoff : option Z) (v : vec Z) : vec Z :=
  match cutoff with None => v | Some c => vselectv (fun x => (x <=? c)%Z) v end.
(** weighted.py 70-72 *)
Definition bf_cand (A : mat Z) (cutoff : option Z) (cur : vec Z) : vec Z := cutsel cutoff (vxm Z.min Z.add cur A).
(** weighted.py 74-79: keep only what improves *)
Definition bf_mask (cur d : vec Z) : vec bool := vunion op_second (vmap (fun _ => true) cur) (vinter Z.ltb cur d).
(** algorithms/shortest_paths/weighted.py 74-79 *)
Definition bf_keep (cur d : vec Z) : vec Z := vwrite (mVb (bf_mask cur d)) true cur cur.
(** [cur.get(dst_id, cutoff)], weighted.py 84-86 *)
Definition bf_limit (lim : bool) (dst : option nat) (cur : vec Z) (cutoff : option Z) : option Z :=
  match lim, dst with
  | true, Some t => match vget cur t with Some x => Some x | None => cutoff end
  | _, _ => cutoff
  end.
(** weighted.py 66-86; the boolean says that the loop ended without [break] *)
Fixpoint bf_loop (A : mat Z) (dst : option nat) (lim : bool) (k : nat) (cutoff : option Z) (d cur : vec Z)
  : bool * option Z * vec Z * vec Z :=
  match k with
  | O => (true, cutoff, d, cur)
  | S k' =>
      let cur := bf_keep (bf_cand A cutoff cur) d in
      if nvals cur =? 0 then (false, cutoff, d, cur) else
      let d := vwrite (mS cur) false d cur in
      bf_loop A dst lim k' (bf_limit lim dst cur cutoff) d cur
  end.
(** weighted.py 87-94: the check of the [else] clause *)
Definition bf_check (A : mat Z) (dst : option nat) (cutoff : option Z) (d cur : vec Z) : bool :=
  let mask := vinter Z.ltb (bf_cand A cutoff cur) d in
  match dst with
  | None => match vreduce orb mask with Some b => b | None => false end
  | Some t => mVb mask t
  end.
(** algorithms/shortest_paths/weighted.py 87-94 *)
Definition negsel (v : vec Z) : vec Z := vselectv (fun x => (x <? 0)%Z) v.
(** weighted.py 46-100 up to the final lookup: the distances.  [get_properties] evaluates its names by
    priority: offdiag, has_negative_diagonal, has_negative_edges- (_utils.py 41-55).  The first argument
    of has_negative_edgesm: python-graphblas matrices have no [reduce] (Model_Cache). *)
Definition bf_core (G : graph) (src : nat) (dst : option nat) (cutoff : option Z) : M (vec Z) :=
  A <- get_offdiag G ;;
  nd <- has_negative_diagonal G ;;
  neg <- match dst with None => ret false | Some _ => has_negative_edgesm false G end ;;
  let n := nrows A in
  let d := vset (vempty n) src 0%Z in
  let '(completed, cutoff, d, cur) := bf_loop A dst (negb neg) (n - 1) cutoff d d in
  if completed && bf_check A dst cutoff d cur then raise EUnbounded else
  if nd : bool then
    diag <- get_diag G None ;;
    if has (vdot op_any op_pairb d (negsel diag)) then raise EUnbounded else ret d
  else ret d.
(** classes/graph.py 230-249: the common value of an iso-valued matrix; [None] for an empty Scalar *)
Definition isoz (iv : option (option Z)) : option Z := match iv with Some (Some z) => Some z | _ => None end.
(** weighted.py 25-44; [None]: fall through to the general algorithm.  An empty iso scalar (no edges at
    all but the flag set) makes [d *= iso_value] fail; graphblas.EmptyObject is modelled as EValue. *)
Definition bf_iso (G : graph) (source : nkey) (src : nat) (target : option nkey) (dst : option nat) (cutoff : option Z)
  : M (option (vec Z)) :=
  neg <- has_negative_edgesp G ;;
  iv <- get_iso_value G ;;
  if negb neg then
    c <- match cutoff with
         | None => ret None
         | Some c => match isoz iv with
                     | None => raise EType
                     | Some z => if (z =? 0)%Z then raise EZeroDiv else ret (Some (c / z)%Z)
                     end
         end ;;
    d <- bfs_level G source target c false ;;
    match dst with Some t => if has (vget d t) then ret tt else raise ENoPath | None => ret tt end ;;;
    match isoz iv with
    | None => raise EValue
    | Some z => ret (Some (if (z =? 1)%Z then d else vmap (fun x => (x * z)%Z) d))
    end
  else if has (mget (g_A G) src src) then raise EUnbounded
  else if negb (g_dir G) && (0 <? nvals (mrow (g_A G) src)) then raise EUnbounded
  else ret None.
(** weighted.py 17-105 [_bellman_ford_path_length]; the vector of distances *)
Definition bf_lengths (G : graph) (source : nkey) (target : option nkey) (cutoff : option Z) : M (vec Z) :=
  src <- idx (kid G source) ;;
  dst <- match target with None => ret None | Some t => j <- idx (kid G t) ;; ret (Some j) end ;;
  iso <- is_iso G ;;
  r <- (if iso : bool then bf_iso G source src target dst cutoff else ret None) ;;
  match r with Some d => ret d | None => bf_core G src dst cutoff end.
(** weighted.py 108-111 *)
Definition single_source_bf (G : graph) (source : nkey) (cutoff : option Z) : M (vec Z) := bf_lengths G source None cutoff.
(** weighted.py 101-105, 114-115 *)
Definition bf_path_length (G : graph) (source target : nkey) : M Z :=
  d <- bf_lengths G source (Some target) None ;;
  t <- idx (kid G target) ;;
  match vget d t with Some x => ret x | None => raise ENoPath end.
(** nxapi/shortest_paths/weighted.py 48-57; Unbounded and KeyError become their networkx counterparts *)
Definition nx_single_source_bf (G : graph) (source : nkey) : M (nodemap Z) :=
  d <- single_source_bf G source None ;; ret (to_nodemap G d).
(** nxapi/shortest_paths/weighted.py 69-76; Unbounded is raised as it is *)
Definition nx_bf_path_length (G : graph) (source target : nkey) : M Z := bf_path_length G source target.

(** ** Several sources at once *)
(** weighted.py 175-182 *)
Fixpoint bfm_loop (A : mat Z) (k : nat) (D Cur : mat Z) : bool * mat Z * mat Z :=
  match k with
  | O => (true, D, Cur)
  | S k' =>
      let Cur := mxm Z.min Z.add Cur A in
      let Mask := munion op_second (mmap (fun _ => true) Cur) (minter Z.ltb Cur D) in
      let Cur := mwrite (mMVb Mask) true Cur Cur in
      if mnvals Cur =? 0 then (false, D, Cur) else
      bfm_loop A k' (mwrite (msS Cur) false D Cur) Cur
  end.
(** weighted.py 150-192 without the last expansion; [ids] are the rows' nodes *)
Definition bfm_core (G : graph) (nodes : option (list nkey)) : M (mat Z) :=
  A <- get_offdiag G ;;
  nd <- has_negative_diagonal G ;;
  let n := nrows A in
  ids <- match nodes with None => ret (seq 0 n) | Some l => lifto (list_to_ids (g_kid G) l) end ;;
  let D := mbuild (List.length ids) n (fun r j => if nth r ids 0 =? j then Some 0%Z else None) in
  let '(completed, D, Cur) := bfm_loop A (n - 1) D D in
  if completed && match mred_scalar orb (minter Z.ltb (mxm Z.min Z.add Cur A) D) with Some b => b | None => false end
  then raise EUnbounded else
  if nd : bool then
    diag <- get_diag G None ;;
    if 0 <? nvals (mxv op_any op_pairb D (negsel diag)) then raise EUnbounded else ret D
  else ret D.
(** weighted.py 129-148 *)
Definition bfm_iso (G : graph) (nodes : option (list nkey)) : M (option (mat Z)) :=
  neg <- has_negative_edgesp G ;;
  iv <- get_iso_value G ;;
  if negb neg then
    D <- bfs_levels G nodes None ;;
    match isoz iv with
    | None => raise EValue
    | Some z => ret (Some (if (z =? 1)%Z then D else mmap (fun x => (x * z)%Z) D))
    end
  else if negb (g_dir G) then
    match nodes with
    | Some l => ids <- lifto (list_to_ids (g_kid G) l) ;;
                if 0 <? mnvals (mextract (g_A G) ids (seq 0 (ncols (g_A G)))) then raise EUnbounded else ret None
    | None => if 0 <? mnvals (g_A G) then raise EUnbounded else ret None
    end
  else ret None.
(** weighted.py 118-197 [bellman_ford_path_lengths]; [rv[ids, :] = D] when expand_output is set *)
Definition bf_path_lengths (G : graph) (nodes : option (list nkey)) (expand : bool) : M (mat Z) :=
  iso <- is_iso G ;;
  r <- (if iso : bool then bfm_iso G nodes else ret None) ;;
  D <- match r with Some D => ret D | None => bfm_core G nodes end ;;
  match nodes with
  | Some l =>
      if expand && negb (ncols D =? nrows D) then
        ids <- lifto (list_to_ids (g_kid G) l) ;;
        ret (mbuild (ncols D) (ncols D)
               (fun i j => match find (fun r => nth r ids 0 =? i) (seq 0 (List.length ids)) with
                           | Some r => mget D r j | None => None end))
      else ret D
  | None => ret D
  end.
(** nxapi/shortest_paths/weighted.py 16-45, everything the generator yields (or the exception that
    ends it) *)
Definition nx_all_pairs_bf (pyfloat : list Ascii.ascii -> option Q) (isz : Z) (G : graph) (chunk : chunkarg)
  : M (list (nkey * nodemap Z)) :=
  cs <- lifto (normalize_chunksize pyfloat chunk (Z.of_nat (glen G) * isz) (Some (Z.of_nat (glen G)))) ;;
  match cs with
  | None => D <- bf_path_lengths G None false ;; lifto (nnm_items (to_nodenodemap G D))
  | Some c =>
      if (c <? 2)%Z then
        mapM (fun source => d <- single_source_bf G source None ;; ret (source, to_nodemap G d)) (gnodes G)
      else
        Ls <- mapM (fun p =>
                match p with
                | Elem _ => raise EType (* not reached: chunksize >= 2 *)
                | Chunk cur =>
                    D <- bf_path_lengths G (Some cur) false ;;
                    ret (map (fun iu => (snd iu, to_nodemap G (mrow D (fst iu)))) (combine (seq 0 (List.length cur)) cur))
                end) (partition c (gnodes G) true) ;;
        ret (List.concat Ls)
  end.

(** ** Paths *)
(** weighted.py 200-210 [_reconstruct_path_from_parents]: the ids of the path.  Python's [while]
    need not
    terminate; [fuel] bounds the number of its iterations and [None] means that they did not suffice. *)
Fixpoint recon (fuel : nat) (p : vec nat) (src cur : nat) (acc : list nat) : option (outcome (list nat)) :=
  if cur =? src then Some (Val (cur :: acc)) else
  match fuel with
  | O => None
  | S f => match vget p cur with
           | None => Some (Raise EKey)
           | Some q => recon f p src q (cur :: acc)
           end
  end.
(** algorithms/shortest_paths/weighted.py 200-210 *)
Definition reconstruct (fuel : nat) (G : graph) (p : vec nat) (src dst : nat) : option (outcome (list nkey)) :=
  if has (vget p dst) then
    match recon fuel p src dst [] with
    | None => None
    | Some (Raise e) => Some (Raise e)
    | Some (Val l) => Some (match mapO (ikey (g_kid G)) l with Some ks => Val ks | None => Raise EIndex end)
    end
  else Some (Val []).
(** weighted.py 268-283: the parents found in this round *)
Definition bfp_parents (A : mat Z) (prev cur : vec Z) : vec nat :=
  let n := nrows A in
  let B := mbuild n n (fun i j => if has (vget prev i) && has (vget cur j) then mget A i j else None) in
  let B := mv_inter Z.eqb (vm_inter Z.add prev B) cur in
  let B := mselectv (fun b : bool => b) B in
  mred_col Nat.min (mbuild n n (fun i j => omap (fun _ => i) (mget B i j))).
(** weighted.py 246-284 *)
Fixpoint bfp_loop (A : mat Z) (dst : nat) (lim : bool) (k : nat) (cutoff : option Z) (d : vec Z) (p : vec nat) (prev : vec Z)
  : bool * option Z * vec Z * vec nat * vec Z :=
  match k with
  | O => (true, cutoff, d, p, prev)
  | S k' =>
      let cur := bf_keep (bf_cand A cutoff prev) d in
      if nvals cur =? 0 then (false, cutoff, d, p, cur) else
      let d := vwrite (mS cur) false d cur in
      let indices := bfp_parents A prev cur in
      bfp_loop A dst lim k' (bf_limit lim (Some dst) cur cutoff) d (vwrite (mS indices) false p indices) cur
  end.
(** weighted.py 213-308 [bellman_ford_path].  Line 304 unpacks the array of indices into two variables:
    ValueError unless there are exactly two. *)
Definition bf_path (fuel : nat) (G : graph) (source target : nkey) : M (option (list nkey)) :=
  src <- idx (kid G source) ;;
  dst <- idx (kid G target) ;;
  let finish (o : option (outcome (list nkey))) : M (option (list nkey)) :=
    match o with None => ret None | Some (Raise e) => raise e | Some (Val l) => ret (Some l) end in
  iso <- is_iso G ;;
  if iso : bool then
    neg <- has_negative_edgesp G ;;
    if negb neg then p <- bfs_parent G source (Some target) None false ;; finish (reconstruct fuel G p src dst)
    else raise EUnbounded
  else
  A <- get_offdiag G ;;
  nd <- has_negative_diagonal G ;;
  neg <- has_negative_edgesm false G ;;
  let n := nrows A in
  let d := vset (vempty n) src 0%Z in
  let p := vset (vempty n) src src in
  let '(completed, cutoff, d, p, cur) := bfp_loop A dst (negb neg) (n - 1) None d p d in
  let cur := if completed then bf_cand A cutoff cur else cur in
  if completed && mVb (vinter Z.ltb cur d) dst then raise EUnbounded else
  o <- finish (reconstruct fuel G p src dst) ;;
  match o with
  | None => ret None
  | Some path =>
      if nd && negb (match path with [] => true | _ => false end) then
        ids <- lifto (list_to_ids (g_kid G) path) ;;
        let mask := vscatter n ids true in
        diag <- get_diag G (Some (mS mask)) ;;
        if 0 <? nvals diag then raise EUnbounded else
        let mask := vinter op_first mask cur in
        match vindices mask with
        | [] => ret (Some path)
        | [i; _] => q <- bfs_plain_ix G [i] (Some dst) (Some (Z.of_nat n - 2)%Z) false ;;
                    if has (vget q dst) then raise EUnbounded else ret (Some path)
        | _ => raise EValue
        end
      else ret (Some path)
  end.
(** nxapi/shortest_paths/weighted.py 60-66 *)
Definition nx_bf_path (fuel : nat) (G : graph) (source target : nkey) : M (option (list nkey)) := bf_path fuel G source target.

(** ** Negative cycles *)
(** weighted.py 336-348 *)
Fixpoint nec_loop (A : mat Z) (k : nat) (d cur : vec Z) : bool :=
  match k with
  | O => bf_check A None None d cur
  | S k' =>
      let cur := bf_keep (bf_cand A None cur) d in
      if nvals cur =? 0 then false else nec_loop A k' (vwrite (mS cur) false d cur) cur
  end.
(** weighted.py 311-348 [negative_edge_cycle] *)
Definition negative_edge_cycle (G : graph) : M bool :=
  A <- get_offdiag G ;;
  degrees <- (if g_dir G then get_total G SM None else get_red G Row RCount SM None) ;;
  nd <- has_negative_diagonal G ;;
  neg <- has_negative_edgesm false G ;;
  if nd : bool then ret true else
  if negb neg then ret false else
  let n := nrows A in
  let d := vassign (mS degrees) 0%Z (vempty n) in
  ret (nec_loop A (n - 1) d d).
(** nxapi/shortest_paths/weighted.py 79-83 *)
Definition nx_negative_edge_cycle (G : graph) : M bool := negative_edge_cycle G.
