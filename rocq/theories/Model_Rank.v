(** * Power iterations and the Google matrix: algorithms/_helpers.py, link_analysis/*.py,
    centrality/eigenvector.py,
    centrality/katz.py and their nxapi wrappers.
    Floats are exact rationals (Qc); [** 0.5] is an oracle [sqr]; a division by zero inside a vector gives 0
    here (inf or nan in graphblas): the theorems only concern non-zero denominators.  max_iter is a nat (a
    negative one behaves like 0).
    Two points of graphblas cannot be read off this repository and are left open as flags:
    [em]  true: using an empty Scalar (the dot product of vectors with no common entry) as an operand raises
          graphblas.EmptyObject (modelled as EValue); false: it adds nothing;
    [fl]  true: [vector + scalar] also fills the missing entries; false: it only changes the entries present.
    with_authority=True is reachable only below the networkx-like interface (hits_alg.py 29-41). *)
From Verif Require Import Base Model_Graph Model_Cache Model_Keys Model_Measures Model_Cluster Model_Linalg.
From Coq Require Import QArith Qcanon Qcabs.
Open Scope nat_scope.

(** values of algorithms/_helpers.py 4-18, algorithms/_helpers.py 21-29 *)
Definition qlt (a b : Qc) : bool := match (a ?= b)%Qc with Lt => true | _ => false end.
(** values of algorithms/_helpers.py 4-18, algorithms/_helpers.py 21-29 *)
Definition qmax (a b : Qc) : Qc := if qlt a b then b else a.
(** values of algorithms/_helpers.py 4-18, algorithms/_helpers.py 21-29 *)
Definition qn (n : nat) : Qc := zq (Z.of_nat n).
(** values of algorithms/_helpers.py 4-18, algorithms/_helpers.py 21-29 *)
Definition is0 (q : Qc) : bool := Qc_eq_bool q 0.

(** _helpers.py 21-29 *)
Definition is_converged (xprev x : vec Qc) (tol : Qc) : bool :=
  qlt (vsumq (vmap Qcabs (vunion Qcminus xprev x))) (qn (vsize xprev) * tol)%Qc.
(** _helpers.py 4-18; [denom] is the norm; dividing by zero is ignored *)
Definition normalize_by (denom : Qc) (x : vec Qc) : vec Qc := if is0 denom then x else vmap (fun y => y * (1 / denom))%Qc x.
(** algorithms/_helpers.py 4-18 *)
Definition normalize_l1 (x : vec Qc) : vec Qc := normalize_by (vsumq x) x.
(** algorithms/_helpers.py 4-18 *)
Definition normalize_l2 (sqr : Qc -> Qc) (x : vec Qc) : vec Qc := normalize_by (sqr (oq (vdot Qcplus Qcmult x x))) x.
(** algorithms/_helpers.py 4-18 *)
Definition normalize_linf (x : vec Qc) : vec Qc := normalize_by (oq (vreduce qmax x)) x.
(** for example algorithms/link_analysis/pagerank_alg.py 12-101: the loop [for _i in
    range(max_iter)] of all the algorithms; [val] is the vector that has to converge *)
Fixpoint power {X} (step : X -> outcome X) (val : X -> vec Qc) (tol : Qc) (k : nat) (x : X) : outcome X :=
  match k with
  | O => Raise EConv
  | S k => match step x with
           | Raise e => Raise e
           | Val x' => if is_converged (val x) (val x') tol then Val x' else power step val tol k x'
           end
  end.
(** an optional dict argument, [G.dict_to_vector(d, dtype=float)], classes/_utils.py 58-65 *)
Definition dict_vec (G : graph) (d : option (list (nkey * Qc))) : M (option (vec Qc)) :=
  match d with
  | None => ret None
  | Some d => v <- lifto (dict_to_vector (g_kid G) (glen G) d) ;; ret (Some v)
  end.
(** algorithms/link_analysis/pagerank_alg.py 12-101: a given vector divided by its sum *)
Definition share (v : vec Qc) : outcome (vec Qc) :=
  let d := vsumq v in if is0 d then Raise EZeroDiv else Val (vmap (fun y => y / d)%Qc v).
(** algorithms/link_analysis/pagerank_alg.py 12-101 *)
Definition vconst (n : nat) (q : Qc) : vec Qc := vbuild n (fun _ => Some q).
(** algorithms/link_analysis/pagerank_alg.py 12-101: plus_first or plus_times *)
Definition vxm_sr (first : bool) (x : vec Qc) (A : mat Z) : vec Qc :=
  vxm Qcplus (fun y a => if first then y else (y * zq a)%Qc) x A.

(** ** pagerank, link_analysis/pagerank_alg.py 12-101 *)
(** algorithms/link_analysis/pagerank_alg.py 62-75: what is added for the dangling nodes: nothing, a
    scalar (the mask holds alpha * p), or a vector *)
Inductive dmode := DNone | DFast (mask : vec Qc) | DVec (mask w : vec Qc).
(** algorithms/link_analysis/pagerank_alg.py 84-96: [p] is already multiplied by 1 - alpha; [x << p]
    of a scalar p is the full vector *)
Definition pr_step (em first : bool) (A : mat Z) (S p : vec Qc) (d : dmode) (xprev : vec Qc) : outcome (vec Qc) :=
  match (match d with
         | DNone => Val p
         | DFast m => match vdot Qcplus Qcmult xprev m with
                      | Some c => Val (vmap (fun y => y + c)%Qc p)
                      | None => if em then Raise EValue else Val p
                      end
         | DVec m w => match vdot Qcplus op_first xprev m with
                       | Some c => Val (vunion Qcplus p (vmap (fun y => c * y)%Qc w))
                       | None => if em then Raise EValue else Val p
                       end
         end) with
  | Raise e => Raise e
  | Val x => Val (vunion Qcplus x (vxm_sr first (vinter Qcmult xprev S) A))
  end.
(** algorithms/link_analysis/pagerank_alg.py 12-101 *)
Definition pagerank (em : bool) (G : graph) (alpha : Qc) (pers : option (vec Qc)) (max_iter : nat) (tol : Qc)
    (nstart dangling : option (vec Qc)) (row_degrees : vec Z) : M (vec Qc) :=
  let A := g_A G in
  let N := nrows A in
  if mnvals A =? 0 then ret (vempty N) else
  x <- lifto (match nstart with None => Val (vconst N (1 / qn N)%Qc) | Some v => share v end) ;;
  p <- lifto (match pers with None => Val (vconst N (1 / qn N)%Qc) | Some v => share v end) ;;
  let S := vmap (fun d => alpha / zq d)%Qc row_degrees in
  iv <- get_iso_value G ;;
  let S := match iv with
           | Some o => if (oget 1 o =? 1)%Z then S else vmap (fun y => y * zq (oz o))%Qc S
           | None => S
           end in
  let first := has iv in
  let mask := vassign (mNS S) 1%Qc (vempty N) in
  d <- lifto (if nvals S <? N then
                match dangling, pers with
                | Some dv, _ => let s := vsumq dv in
                    if is0 s then Raise EZeroDiv else Val (DVec mask (vmap (fun y => alpha / s * y)%Qc dv))
                | None, None => Val (DFast (vassign (mS mask) (alpha * (1 / qn N))%Qc mask))
                | None, Some _ => Val (DVec mask (vmap (fun y => alpha * y)%Qc p))
                end
              else Val DNone) ;;
  let p := vmap (fun y => y * (1 - alpha))%Qc p in
  lifto (power (pr_step em first A S p d) id tol max_iter x).
(** nxapi/link_analysis/pagerank_alg.py 9-45; None is the empty dict *)
Definition nx_pagerank (em : bool) (G : graph) (alpha : Qc) (pers : option (list (nkey * Qc))) (max_iter : nat) (tol : Qc)
    (nstart dangling : option (list (nkey * Qc))) : M (option (nodemap Qc)) :=
  let N := glen G in
  if N =? 0 then ret None else
  x <- dict_vec G nstart ;;
  p <- dict_vec G pers ;;
  rd <- get_red G Row RPlus SP None ;;
  dw <- (if has dangling && (nvals rd <? N) then dict_vec G dangling else ret None) ;;
  r <- pagerank em G alpha p max_iter tol x dw rd ;;
  ret (Some (to_nodemap_fill G 0%Qc r)).

(** ** google_matrix, link_analysis/pagerank_alg.py 104-162 *)
(** algorithms/link_analysis/pagerank_alg.py 104-162: a mask [v.V] *)
Definition mVq (v : vec Qc) : nat -> bool := fun i => match vget v i with Some q => negb (is0 q) | None => false end.
(** algorithms/link_analysis/pagerank_alg.py 104-162: [binary.first(X | A)] *)
Definition mfirst (X A : mat Qc) : mat Qc := munion op_first X A.
(** algorithms/link_analysis/pagerank_alg.py 104-162 *)
Definition google_matrix (G : graph) (alpha : Qc) (pers : option (vec Qc)) (nodelist : option (list nkey)) (dangling : option (vec Qc)) : M (mat Qc) :=
  o <- opt_ids G nodelist ;;
  let A := mmap zq (match o with Some ids => mextract (g_A G) ids ids | None => g_A G end) in
  let N := nrows A in
  if N =? 0 then ret A else
  let sub := fun v : vec Qc => match o with Some ids => vextract v ids | None => v end in
  p <- lifto (match pers with
              | None => Val (vconst N (1 / qn N)%Qc)
              | Some v => let v := sub v in
                  match share v with Val p => Val (vrestrict (mVq v) p) | Raise e => Raise e end
              end) ;;
  ne <- (if (match o with Some ids => List.length ids =? glen G | None => true end)
         then v <- get_red G Row RAny SP None ;; ret (mS v)
         else ret (mS (mred_row op_first A))) ;;
  A <- lifto (if cnt N ne <? N then
                let er := vbuild N (fun i => if ne i then None else Some 1%Qc) in
                match dangling with
                | Some dv => let dv := sub dv in let s := vsumq dv in
                    if is0 s then Raise EZeroDiv
                    else Val (mfirst (vouter op_second er (vrestrict (mVq dv) (vmap (fun y => 1 / s * y)%Qc dv))) A)
                | None => Val (mfirst (vouter op_second er p) A)
                end
              else Val A) ;;
  let scale := vmap (fun s => alpha / s)%Qc (mred_row Qcplus A) in
  let A := vm_inter Qcmult scale A in
  let p := vmap (fun y => y * (1 - alpha))%Qc p in
  ret (mbuild N N (fun i j => omerge Qcplus (mget A i j) (vget p j))).
(** nxapi/link_analysis/pagerank_alg.py 48-63 *)
Definition nx_google_matrix (G : graph) (alpha : Qc) (pers : option (list (nkey * Qc))) (nodelist : option (list nkey))
    (dangling : option (list (nkey * Qc))) : M (mat Qc) :=
  p <- dict_vec G pers ;;
  b <- (if has dangling then v <- get_red G Row RCount SP None ;; ret (nvals v <? glen G) else ret false) ;;
  dw <- (if b then dict_vec G dangling else ret None) ;;
  google_matrix G alpha p nodelist dw.

(** ** eigenvector_centrality, centrality/eigenvector.py 9-33; nxapi/centrality/eigenvector.py 10-22 *)
Definition eig_step (sqr : Qc -> Qc) (A : mat Z) (x : vec Qc) : outcome (vec Qc) :=
  Val (normalize_l2 sqr (vunion Qcplus x (vxm_sr false x A))).
(** nxapi/centrality/eigenvector.py 10-22 *)
Definition nx_eigenvector_centrality (sqr : Qc -> Qc) (G : graph) (max_iter : nat) (tol : Qc) (nstart : option (list (nkey * Qc))) : M (nodemap Qc) :=
  let N := glen G in
  if N =? 0 then raise EPointless else
  x <- dict_vec G nstart ;;
  x <- lifto (match x with
              | None => Val (vconst N (1 / qn N)%Qc)
              | Some v => let d := vsumq v in if is0 d then Raise EAlg else Val (vmap (fun y => y * (1 / d))%Qc v)
              end) ;;
  r <- lifto (power (eig_step sqr (g_A G)) id tol max_iter x) ;;
  ret (to_nodemap G r).

(** ** katz_centrality, centrality/katz.py 11-55; nxapi/centrality/katz.py 10-40.  [beta] is a
    number or a dict. *)
Definition katz_step (fl first : bool) (A : mat Z) (alpha : Qc) (b : Qc + vec Qc) (x : vec Qc) : outcome (vec Qc) :=
  let y := vmap (fun q => q * alpha)%Qc (vxm_sr first x A) in
  Val (match b with
       | inl q => if fl then vbuild (vsize y) (fun i => Some (oq (vget y i) + q)%Qc) else vmap (fun z => z + q)%Qc y
       | inr v => vunion Qcplus y v
       end).
(** nxapi/centrality/katz.py 10-40 *)
Definition nx_katz_centrality (sqr : Qc -> Qc) (fl : bool) (G : graph) (alpha : Qc) (beta : Qc + list (nkey * Qc)) (max_iter : nat) (tol : Qc)
    (nstart : option (list (nkey * Qc))) (normalized : bool) : M (option (nodemap Qc)) :=
  let N := glen G in
  if N =? 0 then ret None else
  x <- dict_vec G nstart ;;
  b <- lifto (match beta with
              | inl q => Val (inl q)
              | inr d => match dict_to_vector (g_kid G) N d with
                         | Val v => Val (inr v)
                         | Raise EValue => Raise EAlg
                         | Raise e => Raise e
                         end
              end) ;;
  let x := match x with None => vconst N 0%Qc | Some v => v end in
  lifto (match b with inr v => if nvals v =? N then Val tt else Raise EAlg | inl _ => Val tt end) ;;;
  iv <- get_iso_value G ;;
  let alpha := match iv with Some o => (alpha * zq (oget 1%Z o))%Qc | None => alpha end in
  r <- lifto (power (katz_step fl (has iv) (g_A G) alpha b) id tol max_iter x) ;;
  ret (Some (to_nodemap G (if normalized then normalize_l2 sqr r else r))).

(** ** hits, link_analysis/hits_alg.py 9-62; nxapi/link_analysis/hits_alg.py 9-22 *)
Definition mxv_t (A : mat Z) (x : vec Qc) : vec Qc := mxv Qcplus (fun a y => (zq a * y)%Qc) A x.
(** algorithms/link_analysis/hits_alg.py 45-48: the state is (h, a) *)
Definition hits_step (A : mat Z) (s : vec Qc * vec Qc) : outcome (vec Qc * vec Qc) :=
  let a := vxm_sr false (fst s) A in Val (normalize_linf (mxv_t A a), a).
(** algorithms/link_analysis/hits_alg.py 31-36: the authority matrix *)
Definition auth_step (A : mat Z) (a : vec Qc) : outcome (vec Qc) :=
  let ATA := mxm Z.add Z.mul (mtrans A) A in Val (normalize_linf (mxv_t ATA a)).
(** algorithms/link_analysis/hits_alg.py 9-62 *)
Definition hits (G : graph) (max_iter : nat) (tol : Qc) (nstart : option (vec Qc)) (normalized with_authority : bool) : M (vec Qc * vec Qc) :=
  let N := glen G in
  if N =? 0 then ret (vempty N, vempty N) else
  h <- lifto (match nstart with
              | None => Val (vconst N (1 / qn N)%Qc)
              | Some v => let d := vsumq v in if is0 d then Raise EZeroDiv else Val (vmap (fun y => y * (1 / d))%Qc v)
              end) ;;
  let A := g_A G in
  r <- lifto (if with_authority then
                match power (auth_step A) id tol max_iter h with
                | Val a => Val (mxv_t A a, a)
                | Raise e => Raise e
                end
              else power (hits_step A) fst tol max_iter (h, vempty N)) ;;
  let (h, a) := r in
  ret (if normalized then (normalize_l1 h, normalize_l1 a)
       else if with_authority then (normalize_linf h, a) else (h, normalize_linf a)).
(** nxapi/link_analysis/hits_alg.py 9-22 *)
Definition nx_hits (G : graph) (max_iter : nat) (tol : Qc) (nstart : option (list (nkey * Qc))) (normalized : bool)
  : M (option (nodemap Qc * nodemap Qc)) :=
  if glen G =? 0 then ret None else
  x <- dict_vec G nstart ;;
  fun s => match hits G max_iter tol x normalized false s with
           | (Val (h, a), s') => (Val (Some (to_nodemap_fill G 0%Qc h, to_nodemap_fill G 0%Qc a)), s')
           | (Raise EConv, s') => (Raise (if max_iter <? 1 then EValue else EConv), s')
           | (Raise e, s') => (Raise e, s')
           end.
