(** * Generators: bfs_layers, all_pairs_shortest_path_length and all_pairs_bellman_ford_path_length are python generator
    functions.  Calling one does nothing; every [next()] runs the body up to its next [yield], on whatever the graph's cache is then. *)
From Verif Require Import Base Model_Graph Model_Cache Model_Keys Model_Utils Model_Bfs Model_Weighted Model_Operators Model_Nx Model_Convert.
From Coq Require Import QArith.
Open Scope nat_scope.

(** nxapi/traversal/breadth_first_search.py 12-18, nxapi/shortest_paths/unweighted.py 30-45, nxapi/shortest_paths/weighted.py 16-45:
    a suspended generator: what [next()] does to the heap: it ends, raises, or yields and is suspended again *)
Inductive gen (H X : Type) : Type := Gen (body : H -> gres H X)
with gres (H X : Type) : Type :=
| GDone (h : H)
| GFail (e : exn) (h : H)
| GYield (x : X) (h : H) (rest : gen H X).
Arguments Gen {H X} _.
Arguments GDone {H X} _.
Arguments GFail {H X} _ _.
Arguments GYield {H X} _ _ _.
(** nxapi/shortest_paths/unweighted.py 30-45: [next(g)] *)
Definition next {H X} (g : gen H X) : H -> gres H X := match g with Gen b => b end.
(** nxapi/shortest_paths/unweighted.py 30-45: the end of the body *)
Definition finish {H X} : gen H X := Gen (fun h => GDone h).
(** nxapi/shortest_paths/unweighted.py 35: [yield from l] *)
Fixpoint emit {H X} (l : list X) (k : gen H X) : gen H X :=
  match l with
  | [] => k
  | x :: l' => Gen (fun h => GYield x h (emit l' k))
  end.
(** nxapi/shortest_paths/unweighted.py 30-45: statements without [yield], then the rest of the body *)
Definition run {X Y} (m : M Y) (k : Y -> gen st X) : gen st X :=
  Gen (fun s => match m s with
                | (Val y, s') => next (k y) s'
                | (Raise e, s') => GFail e s'
                end).
(** nxapi/shortest_paths/unweighted.py 38-45: a loop whose rounds compute some rows and yield them *)
Fixpoint rounds {X} (ps : list (M (list X))) : gen st X :=
  match ps with
  | [] => finish
  | p :: ps' => run p (fun rows => emit rows (rounds ps'))
  end.

(** nxapi/shortest_paths/unweighted.py 30-45.  The NodeNodeMap of line 35 belongs to the generator alone, so its items are listed at once. *)
Definition g_all_pairs_spl (pyfloat : list Ascii.ascii -> option Q) (isz : Z) (G : graph) (cutoff : option Z) (chunk : chunkarg)
  : gen st (nkey * nodemap Z) :=
  run (lifto (normalize_chunksize pyfloat chunk (Z.of_nat (glen G) * isz) (Some (Z.of_nat (glen G))))) (fun cs =>
  match cs with
  | None => rounds [D <- all_pairs_spl G cutoff None false ;; lifto (nnm_items (to_nodenodemap G D))]
  | Some c =>
      if (c <? 2)%Z then
        rounds (map (fun source => d <- single_source_spl G source cutoff ;; ret [(source, to_nodemap G d)]) (gnodes G))
      else
        rounds (map (fun p =>
                match p with
                | Elem _ => raise EType (* not reached: chunksize >= 2 *)
                | Chunk cur =>
                    D <- all_pairs_spl G cutoff (Some cur) false ;;
                    ret (map (fun iu => (snd iu, to_nodemap G (mrow D (fst iu)))) (combine (seq 0 (List.length cur)) cur))
                end) (partition c (gnodes G) true))
  end).
(** nxapi/shortest_paths/weighted.py 16-45 *)
Definition g_all_pairs_bf (pyfloat : list Ascii.ascii -> option Q) (isz : Z) (G : graph) (chunk : chunkarg)
  : gen st (nkey * nodemap Z) :=
  run (lifto (normalize_chunksize pyfloat chunk (Z.of_nat (glen G) * isz) (Some (Z.of_nat (glen G))))) (fun cs =>
  match cs with
  | None => rounds [D <- bf_path_lengths G None false ;; lifto (nnm_items (to_nodenodemap G D))]
  | Some c =>
      if (c <? 2)%Z then
        rounds (map (fun source => d <- single_source_bf G source None ;; ret [(source, to_nodemap G d)]) (gnodes G))
      else
        rounds (map (fun p =>
                match p with
                | Elem _ => raise EType (* not reached: chunksize >= 2 *)
                | Chunk cur =>
                    D <- bf_path_lengths G (Some cur) false ;;
                    ret (map (fun iu => (snd iu, to_nodemap G (mrow D (fst iu)))) (combine (seq 0 (List.length cur)) cur))
                end) (partition c (gnodes G) true))
  end).
(** nxapi/traversal/breadth_first_search.py 15-16: one layer, as a list *)
Definition g_layer (G : graph) (q : vec bool) (k : gen st (list nkey)) : gen st (list nkey) :=
  run (lifto (vector_to_list (g_kid G) q)) (fun l => emit [l] k).
(** algorithms/traversal/breadth_first_search.py 22-27 under nxapi/traversal/breadth_first_search.py 15-16; [k] rounds are left *)
Fixpoint g_layers (G : graph) (A : mat Z) (k : nat) (v q : vec bool) : gen st (list nkey) :=
  match k with
  | O => finish
  | S k' =>
      let v := vassign (mS q) true v in
      let q := bfs_step A v q in
      if nvals q =? 0 then finish else g_layer G q (g_layers G A k' v q)
  end.
(** algorithms/traversal/breadth_first_search.py 10-27, nxapi/traversal/breadth_first_search.py 12-18 *)
Definition g_bfs_layers (G : graph) (srcs : sources) : gen st (list nkey) :=
  run (match srcs with
       | One k => if in_graph G k then ret [k] else lifto (iter_key k)
       | Many l => ret l
       end) (fun l =>
  run (lifto (list_to_ids (g_kid G) l)) (fun ids =>
  match ids with
  | [] => finish
  | _ => run (get_offdiag G) (fun A =>
         let n := nrows A in
         let q := vscatter n ids true in
         g_layer G q (g_layers G A (n - 1) (vempty n) q))
  end)).

(** ** as called with any argument: line 1 of the body is [G = to_graph(G)], so the conversion, too, waits for the first [next()].
    The heap is the argument object: what it is when [next()] is called. *)
(** nxapi/traversal/breadth_first_search.py 13, nxapi/shortest_paths/unweighted.py 31, nxapi/shortest_paths/weighted.py 21:
    on a library graph the generator works on the argument's own cache, *)
Fixpoint on_own {X} (g : gen st X) : gen garg X :=
  Gen (fun a => match a with
    | AGraph G s => match next g s with
                    | GDone s' => GDone (AGraph G s')
                    | GFail e s' => GFail e (AGraph G s')
                    | GYield x s' g' => GYield x (AGraph G s') (on_own g')
                    end
    | _ => GFail EType a (* not reached: an object does not change its class *)
    end).
(** nxapi/traversal/breadth_first_search.py 13, nxapi/shortest_paths/unweighted.py 31, nxapi/shortest_paths/weighted.py 21:
    otherwise on that of a converted graph nobody else has *)
Fixpoint on_copy {X} (g : gen st X) (s : st) : gen garg X :=
  Gen (fun a => match next g s with
    | GDone _ => GDone a
    | GFail e _ => GFail e a
    | GYield x s' g' => GYield x a (on_copy g' s')
    end).
(** nxapi/traversal/breadth_first_search.py 13, nxapi/shortest_paths/unweighted.py 31, nxapi/shortest_paths/weighted.py 21 *)
Definition lazily {X} (orc : mat Z -> bool) (w : option nkey) (f : graph -> gen st X) : gen garg X :=
  Gen (fun a => match to_graph orc a w None with
    | Raise e => GFail e a
    | Val (G, s) => match a with AGraph _ _ => next (on_own (f G)) a | _ => next (on_copy (f G) s) a end
    end).
