(** * Boundaries, cuts, dominating sets, isolates, regularity, tournaments, paths, reciprocity,
    s-metric, communities, mutual weight, degree centrality, isomorphism tests *)
From Verif Require Import Base Model_Graph Model_Cache Model_Keys Model_Bfs Model_Operators.
From Coq Require Import QArith.
Open Scope nat_scope.

(** for example algorithms/cuts.py 48-52: python's [a / b] on integers; floats are modelled by exact
    rationals *)
Definition pdiv (a b : Z) : outcome Q :=
  if (b =? 0)%Z then Raise EZeroDiv else Val (inject_Z a / inject_Z b)%Q.
(** for example algorithms/cuts.py 20-76: a Vector used only for its structure *)
Definition vstruct {V} (v : vec V) : vec bool := vmap (fun _ => true) v.
(** for example algorithms/cuts.py 20-76 *)
Definition mplus (m : mat Z) : Z := oz (mred_scalar Z.add m).
(** for example algorithms/cuts.py 20-76: [(~v.S).new()]: a full complement *)
Definition vcompl {V} (v : vec V) : vec bool := vbuild (vsize v) (fun i => if mNS v i then Some true else None).
(** [G.set_to_vector(nodes, ignore_extra=True)], None passes through; classes/_utils.py 98-109 *)
Definition set_vec_of (G : graph) (l : list nkey) : M (vec bool) := lifto (set_to_vector (g_kid G) (glen G) true l).
(** classes/_utils.py 98-109, classes/_utils.py 68-75 *)
Definition set_vec_opt (G : graph) (l : option (list nkey)) : M (option (vec bool)) :=
  match l with None => ret None | Some l => v <- set_vec_of G l ;; ret (Some v) end.
(** classes/_utils.py 98-109, classes/_utils.py 68-75 *)
Definition list_vec_of (G : graph) (l : list nkey) : M (vec bool) := lifto (list_to_vector (g_kid G) (glen G) l).
(** the decorator of nxapi/tournament.py 10-14 and of nxapi/cluster.py 20-29:
    [nx.utils.not_implemented_for] applied to the directedness *)
Definition only_directed {X} (G : graph) (m : M X) : M X := if g_dir G then m else raise ENotImpl.
(** the decorator of nxapi/tournament.py 10-14 and of nxapi/cluster.py 20-29 *)
Definition only_undirected {X} (G : graph) (m : M X) : M X := if g_dir G then raise ENotImpl else m.
(** nxapi/reciprocity.py 10, 27 and classes/digraph.py 374-390: networkx joins the types given to one [not_implemented_for] with "and", so
    [not_implemented_for("undirected", "multigraph")] lets an undirected Graph pass, and [to_directed_graph] raises TypeError *)
Definition as_digraph {X} (G : graph) (m : M X) : M X := if g_dir G then m else raise EType.
(** for example algorithms/isolate.py 13-18: [G.get_property("total_degrees+")] when directed,
    [("degrees+")] otherwise *)
Definition degrees_plus (G : graph) : M (vec Z) :=
  if g_dir G then get_total G SP None else get_red G Row RCount SP None.

(** ** boundary.py *)
(** algorithms/boundary.py 7-20; a None first argument makes [None & A] a TypeError *)
Definition edge_boundary (G : graph) (n1 n2 : option (vec bool)) (is_weighted : bool) : M (mat Z) :=
  match n1 with
  | None => raise EType
  | Some v1 =>
      let B := if is_weighted then vm_inter op_second v1 (g_A G) else vm_inter op_pairz v1 (g_A G) in
      v2 <- match n2 with
            | Some v => ret v
            | None => d <- get_red G Row RCount SP (Some (mNS v1)) ;; ret (vstruct d)
            end ;;
      ret (if is_weighted then mv_inter op_first B v2 else mv_inter op_pairz B v2)
  end.
(** algorithms/boundary.py 23-29 *)
Definition node_boundary (G : graph) (v1 : vec bool) (mask : option (nat -> bool)) : vec bool :=
  let m := match mask with None => mNS v1 | Some p => fun i => p i && mNS v1 i end in
  vrestrict m (vxm op_any op_pairb v1 (g_A G)).
(** nxapi/boundary.py 9-45 (simple graphs); with [data] the third component is the weight *)
Definition nx_edge_boundary (G : graph) (S : list nkey) (T : option (list nkey)) (data : bool)
  : M (list (nkey * nkey * option Z)) :=
  v1 <- set_vec_of G S ;; v2 <- set_vec_opt G T ;;
  B <- edge_boundary G (Some v1) v2 data ;;
  lifto (okey (mapO (fun e => match e with (i, j, w) =>
                      match ikey (g_kid G) i, ikey (g_kid G) j with
                      | Some u, Some v => Some (u, v, if data then Some w else None)
                      | _, _ => None end end) (mcoo B))).
(** nxapi/boundary.py 48-56 *)
Definition nx_node_boundary (G : graph) (S : list nkey) (T : option (list nkey)) : M nodeset :=
  v1 <- set_vec_of G S ;; v2 <- set_vec_opt G T ;;
  ret (to_nodeset G (node_boundary G v1 (omap mS v2))).

(** ** cuts.py *)
(** algorithms/cuts.py 18-30 *)
Definition cut_size (G : graph) (s t : option (vec bool)) (is_weighted : bool) : M Z :=
  E <- edge_boundary G s t is_weighted ;;
  let rv := if is_weighted then mplus E else Z.of_nat (mnvals E) in
  if g_dir G then
    E' <- edge_boundary G t s is_weighted ;;
    ret (rv + (if is_weighted then mplus E' else Z.of_nat (mnvals E')))%Z
  else ret rv.
(** algorithms/cuts.py 33-38 *)
Definition volume (G : graph) (s : vec bool) (weighted : bool) : M Z :=
  if weighted then ret (vsum (mxv Z.add op_first (g_A G) s))
  else d <- get_red G Row RCount SP (Some (mS s)) ;; ret (vsum d).
(** algorithms/cuts.py 41-45 *)
Definition normalized_cut_size (G : graph) (s t : vec bool) : M Q :=
  c <- cut_size G (Some s) (Some t) false ;;
  vs <- volume G s false ;; vt <- volume G t false ;;
  a <- lifto (pdiv 1 vs) ;; b <- lifto (pdiv 1 vt) ;;
  ret (inject_Z c * (a + b))%Q.
(** algorithms/cuts.py 48-52 *)
Definition conductance (G : graph) (s t : vec bool) : M Q :=
  c <- cut_size G (Some s) (Some t) false ;;
  vs <- volume G s false ;; vt <- volume G t false ;;
  lifto (pdiv c (Z.min vs vt)).
(** algorithms/cuts.py 55-61 *)
Definition edge_expansion (G : graph) (s : vec bool) (t : option (vec bool)) : M Q :=
  c <- cut_size G (Some s) t false ;;
  let tn := match t with None => vsize s - nvals s | Some t => nvals t end in
  lifto (pdiv c (Z.min (Z.of_nat (nvals s)) (Z.of_nat tn))).
(** algorithms/cuts.py 64-66 *)
Definition mixing_expansion (G : graph) (s : vec bool) (t : option (vec bool)) : M Q :=
  c <- cut_size G (Some s) t false ;; lifto (pdiv c (Z.of_nat (mnvals (g_A G)))).
(** algorithms/cuts.py 69-71 *)
Definition node_expansion (G : graph) (s : vec bool) : M Q :=
  lifto (pdiv (Z.of_nat (nvals (vxm op_any op_pairb s (g_A G)))) (Z.of_nat (nvals s))).
(** algorithms/cuts.py 74-76 *)
Definition boundary_expansion (G : graph) (s : vec bool) : M Q :=
  lifto (pdiv (Z.of_nat (nvals (node_boundary G s None))) (Z.of_nat (nvals s))).
(** nxapi/cuts.py 16-21; [w]: whether a weight was named *)
Definition nx_cut_size (G : graph) (S : list nkey) (T : option (list nkey)) (w : bool) : M Z :=
  s <- set_vec_of G S ;; t <- set_vec_opt G T ;; cut_size G (Some s) t w.
(** nxapi/cuts.py 24-28 *)
Definition nx_volume (G : graph) (S : list nkey) (w : bool) : M Z := s <- list_vec_of G S ;; volume G s w.
(** nxapi/cuts.py 34-37, 44-47 *)
Definition t_or_compl (G : graph) (s : vec bool) (T : option (list nkey)) : M (vec bool) :=
  match T with None => ret (vcompl s) | Some T => set_vec_of G T end.
(** nxapi/cuts.py 31-38; the weight only reaches the conversion from networkx *)
Definition nx_normalized_cut_size (G : graph) (S : list nkey) (T : option (list nkey)) (w : bool) : M Q :=
  s <- set_vec_of G S ;; t <- t_or_compl G s T ;; normalized_cut_size G s t.
(** nxapi/cuts.py 41-48 *)
Definition nx_conductance (G : graph) (S : list nkey) (T : option (list nkey)) (w : bool) : M Q :=
  s <- set_vec_of G S ;; t <- t_or_compl G s T ;; conductance G s t.
(** nxapi/cuts.py 51-55 *)
Definition nx_edge_expansion (G : graph) (S : list nkey) (T : option (list nkey)) (w : bool) : M Q :=
  s <- set_vec_of G S ;; t <- set_vec_opt G T ;; edge_expansion G s t.
(** nxapi/cuts.py 58-62 *)
Definition nx_mixing_expansion (G : graph) (S : list nkey) (T : option (list nkey)) (w : bool) : M Q :=
  s <- set_vec_of G S ;; t <- set_vec_opt G T ;; mixing_expansion G s t.
(** nxapi/cuts.py 65-68 *)
Definition nx_node_expansion (G : graph) (S : list nkey) : M Q := s <- list_vec_of G S ;; node_expansion G s.
(** nxapi/cuts.py 71-74 *)
Definition nx_boundary_expansion (G : graph) (S : list nkey) : M Q := s <- set_vec_of G S ;; boundary_expansion G s.

(** ** algorithms/dominating.py 6-8, nxapi/dominating.py 7-10 *)
Definition is_dominating_set (G : graph) (nb : vec bool) : bool :=
  let nbrs := vrestrict (mNS nb) (vxm op_any op_pairb nb (g_A G)) in
  (Z.of_nat (vsize nbrs) - Z.of_nat (nvals nb) - Z.of_nat (nvals nbrs) =? 0)%Z.
(** nxapi/dominating.py 7-10 *)
Definition nx_is_dominating_set (G : graph) (S : list nkey) : M bool :=
  v <- set_vec_of G S ;; ret (is_dominating_set G v).

(** ** algorithms/isolate.py 4-10, 13-18, 21-26; nxapi/isolate.py 7-20 *)
Definition nx_is_isolate (G : graph) (n : nkey) : M bool :=
  i <- idx (kid G n) ;; d <- degrees_plus G ;; ret (negb (has (vget d i))).
(** nxapi/isolate.py 12-15 *)
Definition nx_isolates (G : graph) : M nodeset := d <- degrees_plus G ;; ret (to_nodeset G (vcompl d)).
(** nxapi/isolate.py 18-20 *)
Definition nx_number_of_isolates (G : graph) : M nat := d <- degrees_plus G ;; ret (vsize d - nvals d).

(** ** algorithms/regular.py.  [(v == d).reduce(monoid.land)]: all
    stored entries equal d *)
(** algorithms/regular.py 6-23 *)
Definition all_eq (v : vec Z) (d : Z) : bool := forallb (fun x => Z.eqb x d) (vvalues v).
(** algorithms/regular.py 6-23: [v.get(0)]: an IndexError when the vector has size 0.  Only used on
    full vectors. *)
Definition get0 (v : vec Z) : outcome Z :=
  if vsize v =? 0 then Raise EIndex else Val (oz (vget v 0)).
(** regular.py 6-23 *)
Definition nx_is_regular (G : graph) : M bool :=
  if g_dir G then
    r <- get_red G Row RCount SP None ;;
    if negb (nvals r =? vsize r) then ret false else
    c <- get_red G Col RCount SP None ;;
    if negb (nvals c =? vsize c) then ret false else
    d <- lifto (get0 r) ;;
    if negb (all_eq r d) then ret false else
    d <- lifto (get0 c) ;; ret (all_eq c d)
  else
    d <- get_red G Row RCount SP None ;;
    if negb (nvals d =? vsize d) then ret false else
    x <- lifto (get0 d) ;; ret (all_eq d x).
(** regular.py 26-30, nxapi/regular.py 14-17 *)
Definition nx_is_k_regular (G : graph) (k : Z) : M bool :=
  only_undirected G (
    d <- get_red G Row RCount SP None ;;
    if negb (nvals d =? vsize d) then ret false else ret (all_eq d k)).

(** ** algorithms/tournament.py, nxapi/tournament.py *)
(** tournament.py 7-13 *)
Definition nx_is_tournament (G : graph) : M bool :=
  only_directed G (
    let A := g_A G in
    if negb (mnvals A =? (nrows A * (ncols A - 1)) / 2) then ret false else
    hs <- has_self_edges G ;;
    if hs : bool then ret false else
    ret (mnvals (mrestrict (msS A) (triu1 (mtrans A))) =? 0)).
(** algorithms/tournament.py 16-22: numpy's sort; any sorting algorithm gives this list *)
Fixpoint zinsert (x : Z) (l : list Z) : list Z :=
  match l with [] => [x] | y :: l' => if (x <=? y)%Z then x :: l else y :: zinsert x l' end.
(** algorithms/tournament.py 16-22 *)
Definition zsort (l : list Z) : list Z := fold_right zinsert [] l.
(** tournament.py 16-22 *)
Definition nx_score_sequence (G : graph) : M (list Z) :=
  only_directed G (
    d <- get_red G Row RCount SP None ;;
    ret (repeat 0%Z (vsize d - nvals d) ++ zsort (vvalues d))).
(** tournament.py 25-27: python-graphblas' [A - B] is eWiseUnion with default 0 *)
Definition nx_tournament_matrix (G : graph) : M (mat Z) :=
  only_directed G (
    let A := g_A G in
    ret (mbuild (nrows A) (ncols A) (fun i j => ounion Z.sub 0%Z 0%Z (mget A i j) (mget (mtrans A) i j)))).

(** ** algorithms/simple_paths.py 6-21 *)
Fixpoint ids_known (d : kidmap) (l : list nkey) : list nat :=
  match l with [] => [] | k :: l' => match dget d k with Some i => i :: ids_known d l' | None => ids_known d l' end end.
(** nxapi/simple_paths.py 7-9 *)
Definition nx_is_simple_path (G : graph) (nodes : list nkey) : M bool :=
  match nodes with
  | [] => ret false
  | [k] => ret (in_graph G k)
  | _ =>
      let A := g_A G in
      if mnvals A <? List.length nodes - 1 then ret false else
      let ids := ids_known (g_kid G) nodes in
      if negb (List.length ids =? List.length nodes) || (List.length (nodup Nat.eq_dec ids) <? List.length ids)
      then ret false else
      let steps := combine (removelast ids) (tl ids) in
      let P := mbuild (nrows A) (ncols A)
                 (fun i j => if existsb (fun e => (fst e =? i) && (snd e =? j)) steps then Some true else None) in
      ret (mnvals (minter op_second A P) =? List.length ids - 1)
  end.

(** ** algorithms/smetric.py 6-11 *)
Definition nx_s_metric (G : graph) : M Q :=
  d <- degrees_plus G ;;
  ret (inject_Z (vsum (mxv Z.add Z.mul (vm_inter op_first d (g_A G)) d)) / 2)%Q.

(** nxapi/smetric.py 9-22: keyword arguments, by name; "normalized" only causes a warning (not modelled) and whatever accompanies it
    is accepted *)
Definition nx_s_metric_kw (G : graph) (kw : list String.string) : M Q :=
  match kw with
  | [] => nx_s_metric G
  | _ => if existsb (String.eqb "normalized"%string) kw then nx_s_metric G else raise EType
  end.

(** ** algorithms/reciprocity.py *)
(** reciprocity.py 8-12; recip_degrees+ is evaluated before total_degrees+ (digraph.py 450-484).
    [truediv] with both defaults 0; division by zero cannot occur (see the proofs), Qdiv gives 0 *)
Definition reciprocity (G : graph) (mask : mask_t) : M (vec Q) :=
  o <- get_recip G SP mask ;; t <- get_total G SP mask ;;
  ret (vbuild (vsize o) (fun i => ounion (fun a b => (inject_Z a / inject_Z b)%Q) 0%Z 0%Z
                                   (omap (Z.mul 2) (vget o i)) (vget t i))).
(** reciprocity.py 15-22 *)
Definition overall_reciprocity (G : graph) : M Q :=
  let n := Z.of_nat (mnvals (g_A G)) in
  if (n =? 0)%Z then raise EEmptyGraph else
  r <- total_recip_plus G ;; hs <- has_self_edges G ;;
  r <- (if hs : bool then d <- get_diag G None ;; ret (r - Z.of_nat (nvals d))%Z else ret r) ;;
  lifto (pdiv r n).
(** nxapi/reciprocity.py 10-24 for one node: None means "isolated", NetworkXError *)
Definition nx_reciprocity_node (G : graph) (u : nkey) : M Q :=
  as_digraph G (
    i <- idx (kid G u) ;;
    r <- reciprocity G (Some (mS (vscatter (glen G) [i] true))) ;;
    match vget r i with Some x => ret x | None => raise EAlg end).
(** nxapi/reciprocity.py 22-24 for several nodes *)
Definition nx_reciprocity_nodes (G : graph) (l : list nkey) : M (nodemap Q) :=
  as_digraph G (
    v <- list_vec_of G l ;; r <- reciprocity G (Some (mS v)) ;; ret (to_nodemap G r)).
(** nxapi/reciprocity.py 27-33 (EmptyGraphError becomes NetworkXError) *)
Definition nx_overall_reciprocity (G : graph) : M Q := as_digraph G (overall_reciprocity G).

(** ** algorithms/community/quality.py 6-12, 15-21; nxapi/community/quality.py 7-16 *)
Fixpoint sum_blocks (G : graph) (f : vec bool -> Z) (blocks : list (list nkey)) (acc : Z) : M Z :=
  match blocks with
  | [] => ret acc
  | b :: bs => v <- set_vec_of G b ;; sum_blocks G f bs (acc + f v)%Z
  end.
(** algorithms/community/quality.py 6-12 *)
Definition block_edges (G : graph) (inside : bool) (v : vec bool) : Z :=
  vsum (vrestrict (if inside then mS v else mNS v) (mxv Z.add op_pairz (g_A G) v)).
(** nxapi/community/quality.py 7-10 *)
Definition nx_intra_community_edges (G : graph) (p : list (list nkey)) : M Z := sum_blocks G (block_edges G true) p 0%Z.
(** nxapi/community/quality.py 13-16 *)
Definition nx_inter_community_edges (G : graph) (p : list (list nkey)) : M Z := sum_blocks G (block_edges G false) p 0%Z.

(** ** algorithms/structuralholes.py 4-11 *)
Definition nx_mutual_weight (G : graph) (u v : nkey) : M Z :=
  match kid G u, kid G v with
  | Some i, Some j => ret (oz (mget (g_A G) i j) + oz (mget (g_A G) j i))%Z
  | _, _ => ret 0%Z
  end.

(** ** algorithms/centrality/degree_alg.py 6-32; nxapi/centrality/degree_alg.py 8-25 *)
Definition degree_centrality_of (G : graph) (d : vec Z) : vec Q :=
  let n := glen G in
  if n <=? 1 then vbuild n (fun _ => Some 1%Q)
  else vbuild n (fun i => omap (fun x => (1 / inject_Z (Z.of_nat (n - 1))) * inject_Z x)%Q (vget d i)).
(** nxapi/centrality/degree_alg.py 8-11 *)
Definition nx_degree_centrality (G : graph) : M (nodemap Q) :=
  d <- degrees_plus G ;; ret (to_nodemap_fill G 0%Q (degree_centrality_of G d)).
(** nxapi/centrality/degree_alg.py 14-18 *)
Definition nx_in_degree_centrality (G : graph) : M (nodemap Q) :=
  only_directed G (d <- get_red G Col RCount SP None ;; ret (to_nodemap_fill G 0%Q (degree_centrality_of G d))).
(** nxapi/centrality/degree_alg.py 21-25 *)
Definition nx_out_degree_centrality (G : graph) : M (nodemap Q) :=
  only_directed G (d <- get_red G Row RCount SP None ;; ret (to_nodemap_fill G 0%Q (degree_centrality_of G d))).

(** ** algorithms/triads.py 6-12 *)
Definition nx_is_triad (G : graph) : M bool :=
  if g_dir G && (glen G =? 3) then hs <- has_self_edges G ;; ret (negb hs) else ret false.

(** ** algorithms/isomorphism/isomorph.py 43-56.  Two graphs, two caches. *)
Definition zlist_eqb (a b : list Z) : bool :=
  (List.length a =? List.length b) && forallb (fun p => Z.eqb (fst p) (snd p)) (combine a b).
(** algorithms/isomorphism/isomorph.py 43-56 *)
Definition faster_core (G1 G2 : graph) (d1 d2 : vec Z) : bool :=
  if negb (nvals d1 =? nvals d2) then false
  else zlist_eqb (zsort (vvalues d1)) (zsort (vvalues d2)).
(** nxapi/isomorphism/isomorph.py 19-22 *)
Definition nx_faster_could_be_isomorphic (G1 G2 : graph) (s1 s2 : st) : outcome bool * st * st :=
  if negb (glen G1 =? glen G2) then (Val false, s1, s2) else
  match degrees_plus G1 s1 with
  | (Raise e, s1') => (Raise e, s1', s2)
  | (Val d1, s1') =>
      match degrees_plus G2 s2 with
      | (Raise e, s2') => (Raise e, s1', s2')
      | (Val d2, s2') => (Val (faster_core G1 G2 d1 d2), s1', s2')
      end
  end.
