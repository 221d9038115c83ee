(** * Breadth-first searches and the algorithms built on them *)
From Verif Require Import Base Model_Graph Model_Cache Model_Keys Model_Utils.
From Coq Require Import QArith.
Open Scope nat_scope.

(** algorithms/_bfs.py 8-11 [_get_cutoff]; cutoff is any integer *)
Definition get_cutoff (n : nat) (cutoff : option Z) : Z :=
  match cutoff with
  | None => Z.of_nat n
  | Some c => if (c >=? Z.of_nat n)%Z then Z.of_nat n else (c + 1)%Z
  end.
(** algorithms/_bfs.py 48-75: number of iterations of [for i in range(1, c)] *)
Definition range1 (c : Z) : nat := Z.to_nat (c - 1).

(** one step [q(~v.S, replace) << any_pair(q @ A)], _bfs.py 39 *)
Definition bfs_step {V} (A : mat Z) (v : vec V) (q : vec bool) : vec bool :=
  vwrite (mNS v) true q (vxm op_any op_pairb q A).
(** algorithms/_bfs.py 39 *)
Definition in_q (dst : option nat) {V} (q : vec V) : bool :=
  match dst with Some d => has (vget q d) | None => false end.
(** the matrix used: "offdiag", transposed on request for directed graphs; _bfs.py 28-30 *)
Definition bfs_matrix (G : graph) (transpose : bool) : M (mat Z) :=
  A <- get_offdiag G ;; ret (if transpose && g_dir G then mtrans A else A).

(** _bfs.py 38-45, the loop of [_bfs_plain]; [k] iterations remain *)
Fixpoint bfs_plain_loop (A : mat Z) (dst : option nat) (k : nat) (v q : vec bool) : vec bool :=
  match k with
  | O => v
  | S k' =>
      let q := bfs_step A v q in
      if nvals q =? 0 then v else
      let v := vassign (mS q) true v in
      if in_q dst q then v else bfs_plain_loop A dst k' v q
  end.
(** _bfs.py 15-45 [_bfs_plain] with the start ids already looked up ([index=]) *)
Definition bfs_plain_ix (G : graph) (index : list nat) (dst : option nat) (cutoff : option Z) (transpose : bool)
  : M (vec bool) :=
  A <- bfs_matrix G transpose ;;
  let n := nrows A in
  let v := vscatter n index true in
  ret (bfs_plain_loop A dst (range1 (get_cutoff n cutoff)) v v).
(** _bfs.py 15-27 with [source=] *)
Definition bfs_plain (G : graph) (source : nkey) (cutoff : option Z) (transpose : bool) : M (vec bool) :=
  i <- idx (kid G source) ;; bfs_plain_ix G [i] None cutoff transpose.

(** _bfs.py 68-75 *)
Fixpoint bfs_level_loop (A : mat Z) (dst : option nat) (k : nat) (i : Z) (v : vec Z) (q : vec bool) : vec Z :=
  match k with
  | O => v
  | S k' =>
      let q := bfs_step A v q in
      if nvals q =? 0 then v else
      let v := vassign (mS q) i v in
      if in_q dst q then v else bfs_level_loop A dst k' (i + 1) v q
  end.
(** _bfs.py 48-75 [_bfs_level]; the dtype of the result is not modelled (Z) *)
Definition bfs_level (G : graph) (source : nkey) (target : option nkey) (cutoff : option Z) (transpose : bool)
  : M (vec Z) :=
  i <- idx (kid G source) ;;
  dst <- match target with None => ret None | Some t => j <- idx (kid G t) ;; ret (Some j) end ;;
  A <- bfs_matrix G transpose ;;
  let n := nrows A in
  ret (bfs_level_loop A dst (range1 (get_cutoff n cutoff)) 1 (vset (vempty n) i 0%Z) (vset (vempty n) i true)).

(** _bfs.py 102-107 *)
Fixpoint bfs_levels_loop (A : mat Z) (k : nat) (i : Z) (D : mat Z) (Q : mat bool) : mat Z :=
  match k with
  | O => D
  | S k' =>
      let Q := mwrite (msNS D) true Q (mxm op_any op_pairb Q A) in
      if mnvals Q =? 0 then D else
      bfs_levels_loop A k' (i + 1) (massign (msS Q) i D) Q
  end.
(** _bfs.py 78-107 [_bfs_levels]: one row per requested node (all nodes, in id order, when [None]) *)
Definition bfs_levels_ix (A : mat Z) (ids : list nat) (cutoff : option Z) : mat Z :=
  let n := nrows A in
  let D := mbuild (List.length ids) n (fun r j => if nth r ids 0 =? j then Some 0%Z else None) in
  bfs_levels_loop A (range1 (get_cutoff n cutoff)) 1 D (mmap (fun _ => true) D).
(** algorithms/_bfs.py 78-107 *)
Definition bfs_levels (G : graph) (nodes : option (list nkey)) (cutoff : option Z) : M (mat Z) :=
  A <- get_offdiag G ;;
  match nodes with
  | None => ret (bfs_levels_ix A (seq 0 (nrows A)) cutoff)
  | Some l => ids <- lifto (list_to_ids (g_kid G) l) ;; ret (bfs_levels_ix A ids cutoff)
  end.

(** _bfs.py 129-137 *)
Fixpoint bfs_parent_loop (A : mat Z) (dst : option nat) (k : nat) (v q : vec nat) : vec nat :=
  match k with
  | O => v
  | S k' =>
      let q := vwrite (mNS v) true q (vxm Nat.min op_first q A) in
      if nvals q =? 0 then v else
      let v := vwrite (mS q) false v q in
      if in_q dst q then v else
      bfs_parent_loop A dst k' v (vbuild (vsize q) (fun i => omap (fun _ => i) (vget q i)))
  end.
(** _bfs.py 110-137 [_bfs_parent] *)
Definition bfs_parent (G : graph) (source : nkey) (target : option nkey) (cutoff : option Z) (transpose : bool)
  : M (vec nat) :=
  i <- idx (kid G source) ;;
  dst <- match target with None => ret None | Some t => j <- idx (kid G t) ;; ret (Some j) end ;;
  A <- bfs_matrix G transpose ;;
  let n := nrows A in
  ret (bfs_parent_loop A dst (range1 (get_cutoff n cutoff)) (vset (vempty n) i i) (vset (vempty n) i i)).

(** _bfs.py 155-178: [out_e], [in_e] are is_out_empty, is_in_empty *)
Fixpoint bfs_bidir_loop (A : mat Z) (k : nat) (v qo qi : vec bool) (out_e in_e : bool) : vec bool :=
  match k with
  | O => v
  | S k' =>
      let qo := if out_e then vwrite (mNS v) false qo (vxm op_any op_pairb qi A)
                else vwrite (mNS v) true qo (vxm op_any op_pairb (vunion op_any qo qi) A) in
      let out_e := nvals qo =? 0 in
      if out_e && in_e then v else
      let v := if out_e then v else vassign (mS qo) true v in
      let qi := if in_e then vwrite (mNS v) false qi (mxv op_any op_pairb A qo)
                else vwrite (mNS v) true qi (mxv op_any op_pairb A (vunion op_any qo qi)) in
      let in_e := nvals qi =? 0 in
      if in_e && out_e then v else
      let v := if in_e then v else vassign (mS qi) true v in
      bfs_bidir_loop A k' v qo qi out_e in_e
  end.
(** _bfs.py 141-178 [_bfs_plain_bidirectional] *)
Definition bfs_plain_bidirectional (G : graph) (source : nkey) : M (vec bool) :=
  i <- idx (kid G source) ;;
  A <- get_offdiag G ;;
  let n := nrows A in
  ret (bfs_bidir_loop A (n - 1) (vset (vempty n) i true) (vempty n) (vset (vempty n) i true) true false).

(** ** algorithms/dag.py 6-17 and nxapi/dag.py 9-26 *)
Definition descendants (G : graph) (source : nkey) : M (vec bool) :=
  rv <- bfs_plain G source None false ;; i <- idx (kid G source) ;; ret (vdel rv i).
(** algorithms/dag.py 13-17 *)
Definition ancestors (G : graph) (source : nkey) : M (vec bool) :=
  rv <- bfs_plain G source None true ;; i <- idx (kid G source) ;; ret (vdel rv i).
(** nxapi/dag.py 9-16 *)
Definition nx_descendants (G : graph) (source : nkey) : M nodeset :=
  v <- descendants G source ;; ret (to_nodeset G v).
(** nxapi/dag.py 19-26 *)
Definition nx_ancestors (G : graph) (source : nkey) : M nodeset :=
  v <- ancestors G source ;; ret (to_nodeset G v).

(** ** algorithms/components/connected.py, weakly_connected.py and their nxapi wrappers *)
(** algorithms/components/connected.py 5-8 and weakly_connected.py 5-8: [next(iter(G))]: the first
    key *)
Definition first_node (G : graph) : M nkey :=
  match gnodes G with k :: _ => ret k | [] => raise EAlg (* StopIteration; unreachable when len(G) > 0 *) end.
(** connected.py 5-8; nxapi/components/connected.py 14-20 (not_implemented_for directed) *)
Definition is_connected (G : graph) : M bool :=
  if glen G =? 0 then raise EPointless else
  u <- first_node G ;; v <- bfs_plain G u None false ;; ret (nvals v =? glen G).
(** nxapi/components/connected.py 14-20 *)
Definition nx_is_connected (G : graph) : M bool := if g_dir G then raise ENotImpl else is_connected G.
(** connected.py 11-12; nxapi 23-27 *)
Definition node_connected_component (G : graph) (u : nkey) : M (vec bool) := bfs_plain G u None false.
(** nxapi/components/connected.py 23-27 *)
Definition nx_node_connected_component (G : graph) (u : nkey) : M nodeset :=
  if g_dir G then raise ENotImpl else v <- node_connected_component G u ;; ret (to_nodeset G v).
(** weakly_connected.py 5-8; nxapi 13-19 *)
Definition is_weakly_connected (G : graph) : M bool :=
  if glen G =? 0 then raise EPointless else
  u <- first_node G ;; v <- bfs_plain_bidirectional G u ;; ret (nvals v =? glen G).
(** nxapi/components/weakly_connected.py 13-19 *)
Definition nx_is_weakly_connected (G : graph) : M bool := if g_dir G then is_weakly_connected G else raise ENotImpl.

(** ** algorithms/shortest_paths/unweighted.py and nxapi/shortest_paths/unweighted.py *)
(** algorithms/shortest_paths/unweighted.py 14-15; nxapi 14-27 *)
Definition single_source_spl (G : graph) (source : nkey) (cutoff : option Z) : M (vec Z) := bfs_level G source None cutoff false.
(** algorithms/shortest_paths/unweighted.py 18-19 *)
Definition single_target_spl (G : graph) (target : nkey) (cutoff : option Z) : M (vec Z) := bfs_level G target None cutoff true.
(** nxapi/shortest_paths/unweighted.py 14-19 *)
Definition nx_single_source_spl (G : graph) (source : nkey) (cutoff : option Z) : M (nodemap Z) :=
  if in_graph G source then v <- single_source_spl G source cutoff ;; ret (to_nodemap G v) else raise EKey.
(** nxapi/shortest_paths/unweighted.py 22-27 *)
Definition nx_single_target_spl (G : graph) (target : nkey) (cutoff : option Z) : M (nodemap Z) :=
  if in_graph G target then v <- single_target_spl G target cutoff ;; ret (to_nodemap G v) else raise EKey.
(** algorithms/shortest_paths/unweighted.py 22-29: [rv[ids, :] = D] *)
Definition all_pairs_spl (G : graph) (cutoff : option Z) (nodes : option (list nkey)) (expand : bool) : M (mat Z) :=
  D <- bfs_levels G nodes cutoff ;;
  match nodes with
  | Some l =>
      if expand && negb (ncols D =? nrows D) then
        ids <- lifto (list_to_ids (g_kid G) l) ;;
        ret (mbuild (ncols D) (ncols D)
               (fun i j => match find (fun r => nth r ids 0 =? i) (seq 0 (List.length ids)) with
                           | Some r => mget D r j | None => None end))
      else ret D
  | None => ret D
  end.

(** for example nxapi/shortest_paths/unweighted.py 30-45: python loops that collect results *)
Fixpoint mapM {X Y} (f : X -> M Y) (l : list X) : M (list Y) :=
  match l with
  | [] => ret []
  | x :: l' => y <- f x ;; ys <- mapM f l' ;; ret (y :: ys)
  end.
(** for example nxapi/shortest_paths/unweighted.py 30-45 *)
Fixpoint mapOut {X Y} (f : X -> outcome Y) (l : list X) : outcome (list Y) :=
  match l with
  | [] => Val []
  | x :: l' => match f x with
               | Raise e => Raise e
               | Val y => match mapOut f l' with Raise e => Raise e | Val ys => Val (y :: ys) end
               end
  end.
(** classes/nodemap.py 311-443: [NodeNodeMap.items()] (collections.abc.Mapping): iterate the keys,
    look each one up *)
Definition nnm_items {V} (r : rowmap V) : outcome (list (nkey * nodemap V)) :=
  match rm_iter r with
  | Raise e => Raise e
  | Val ks => mapOut (fun k => match nnm_getitem (snd (rm_get_rows r)) k with
                               | Val (m, _) => Val (k, m) | Raise e => Raise e end) ks
  end.
(** nxapi/shortest_paths/unweighted.py 30-45, the whole sequence the generator yields.  [isz] is
    [G._A.dtype.np_type.itemsize]; [pyfloat] is python's [float] on strings (oracle). *)
Definition nx_all_pairs_spl (pyfloat : list Ascii.ascii -> option Q) (isz : Z) (G : graph) (cutoff : option Z) (chunk : chunkarg)
  : M (list (nkey * nodemap Z)) :=
  cs <- lifto (normalize_chunksize pyfloat chunk (Z.of_nat (glen G) * isz) (Some (Z.of_nat (glen G)))) ;;
  match cs with
  | None => D <- all_pairs_spl G cutoff None false ;; lifto (nnm_items (to_nodenodemap G D))
  | Some c =>
      if (c <? 2)%Z then
        mapM (fun source => d <- single_source_spl G source cutoff ;; ret (source, to_nodemap G d)) (gnodes G)
      else
        Ls <- mapM (fun p =>
                match p with
                | Elem _ => raise EType (* not reached: chunksize >= 2 *)
                | Chunk cur =>
                    D <- all_pairs_spl G cutoff (Some cur) false ;;
                    ret (map (fun iu => (snd iu, to_nodemap G (mrow D (fst iu)))) (combine (seq 0 (List.length cur)) cur))
                end) (partition c (gnodes G) true) ;;
        ret (List.concat Ls)
  end.

(** algorithms/shortest_paths/unweighted.py 49-64: the loop of [bidirectional_shortest_path_length];
    [i] is the python loop variable *)
Fixpoint bidir_loop (A : mat Z) (k : nat) (i : Z) (q_src seen_src q_dst seen_dst : vec bool) : outcome Z :=
  match k with
  | O => Raise ENoPath
  | S k' =>
      let q_src := bfs_step A seen_src q_src in
      if nvals q_src =? 0 then Raise ENoPath else
      if has (vdot op_any op_pairb q_src q_dst) then Val i else
      let seen_dst := vassign (mS q_dst) true seen_dst in
      let q_dst := vwrite (mNS seen_dst) true q_dst (mxv op_any op_pairb A q_dst) in
      if nvals q_dst =? 0 then Raise ENoPath else
      if has (vdot op_any op_pairb q_src q_dst) then Val (i + 1)%Z else
      let seen_src := vassign (mS q_src) true seen_src in
      bidir_loop A k' (i + 2) q_src seen_src q_dst seen_dst
  end.
(** algorithms/shortest_paths/unweighted.py 32-64: [range(1, n + 1, 2)] has (n + 1) / 2 elements *)
Definition bidirectional_spl (G : graph) (source target : nkey) : M Z :=
  if negb (in_graph G source) || negb (in_graph G target) then raise EKey else
  src <- idx (kid G source) ;; dst <- idx (kid G target) ;;
  if src =? dst then ret 0%Z else
  A <- get_offdiag G ;;
  let n := nrows A in
  let q_src := vset (vempty n) src true in
  let q_dst := vset (vempty n) dst true in
  lifto (bidir_loop A ((n + 1) / 2) 1 q_src q_src q_dst (vempty n)).
(** algorithms/shortest_paths/generic.py 7-12 *)
Definition has_path (G : graph) (source target : nkey) : M bool :=
  try_except (bidirectional_spl G source target ;;; ret true) ENoPath (ret false).
(** algorithms/efficiency_measures.py 7-12; [1 / 0] raises ZeroDivisionError.  nxapi: undirected only *)
Definition efficiency (G : graph) (u v : nkey) : M Q :=
  try_except (d <- bidirectional_spl G u v ;; if (d =? 0)%Z then raise EZeroDiv else ret (1 / inject_Z d)%Q)
             ENoPath (ret 0%Q).
(** nxapi/efficiency_measures.py 6-9 *)
Definition nx_efficiency (G : graph) (u v : nkey) : M Q := if g_dir G then raise ENotImpl else efficiency G u v.

(** ** algorithms/traversal/breadth_first_search.py *)
(** algorithms/traversal/breadth_first_search.py 22-27: the generator's remaining layers *)
Fixpoint layers_loop (A : mat Z) (k : nat) (v q : vec bool) : list (vec bool) :=
  match k with
  | O => []
  | S k' =>
      let v := vassign (mS q) true v in
      let q := bfs_step A v q in
      if nvals q =? 0 then [] else q :: layers_loop A k' v q
  end.
(** algorithms/traversal/breadth_first_search.py 10-27: the argument [sources]: one node or a
    collection *)
Inductive sources := One (k : nkey) | Many (l : list nkey).
(** algorithms/traversal/breadth_first_search.py 10-27: [bfs_layers], the whole sequence it yields.  A single object
    that is not a node is iterated by python. *)
Definition bfs_layers (G : graph) (srcs : sources) : M (list (vec bool)) :=
  l <- match srcs with
       | One k => if in_graph G k then ret [k] else lifto (iter_key k)
       | Many l => ret l
       end ;;
  ids <- lifto (list_to_ids (g_kid G) l) ;;
  match ids with
  | [] => ret []
  | _ => A <- get_offdiag G ;;
         let n := nrows A in
         let q := vscatter n ids true in
         ret (q :: layers_loop A (n - 1) (vempty n) q)
  end.
(** nxapi/traversal/breadth_first_search.py 12-18 *)
Definition nx_bfs_layers (G : graph) (srcs : sources) : M (list (list nkey)) :=
  ls <- bfs_layers G srcs ;; lifto (mapOut (vector_to_list (g_kid G)) ls).
(** algorithms/traversal/breadth_first_search.py 40-45 *)
Fixpoint dad_loop (A : mat Z) (k : nat) (v q : vec bool) : vec bool :=
  match k with
  | O => q
  | S k' =>
      let v := vassign (mS q) true v in
      let q := bfs_step A v q in
      if nvals q =? 0 then q else dad_loop A k' v q
  end.
(** algorithms/traversal/breadth_first_search.py 30-45: [descendants_at_distance]; [range(1,
    distance + 1)] *)
Definition descendants_at_distance (G : graph) (source : nkey) (distance : Z) : M (vec bool) :=
  i <- idx (kid G source) ;;
  A <- get_offdiag G ;;
  let n := nrows A in
  let q := vset (vempty n) i true in
  if (distance =? 0)%Z then ret q else ret (dad_loop A (Z.to_nat distance) (vempty n) q).
(** nxapi/traversal/breadth_first_search.py 21-27 *)
Definition nx_descendants_at_distance (G : graph) (source : nkey) (distance : Z) : M nodeset :=
  v <- descendants_at_distance G source distance ;; ret (to_nodeset G v).

(** ** algorithms/lowest_common_ancestors.py 9-21 *)
Definition lowest_common_ancestor (G : graph) (node1 node2 : nkey) (default : option nkey) : M (option nkey) :=
  ca <- bfs_plain G node1 None true ;;
  oa <- bfs_plain G node2 None true ;;
  let ca := vinter op_pairb ca oa in
  if nvals ca =? 0 then ret default else
  let oa := vwrite (mS ca) true oa (mxv op_any op_pairb (g_A G) ca) in
  let ca := vwrite (mNS oa) true ca ca in
  match vindices ca with
  | [] => raise EIndex
  | i :: _ => k <- idx (ikey (g_kid G) i) ;; ret (Some k)
  end.
(** nxapi/lowest_common_ancestors.py 8-11 *)
Definition nx_lowest_common_ancestor (G : graph) (node1 node2 : nkey) (default : option nkey) : M (option nkey) :=
  if g_dir G then lowest_common_ancestor G node1 node2 default else raise ENotImpl.
