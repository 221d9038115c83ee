(** * Floyd-Warshall: algorithms/shortest_paths/dense.py and nxapi/shortest_paths/dense.py *)
From Verif Require Import Base Model_Graph Model_Cache Model_Keys Model_Bfs Model_Weighted.

(** algorithms/shortest_paths/dense.py 13-111: [binary.any] may take either operand; [pk r i j] is
    an oracle for the choice made in round r at position (i, j) *)
Definition anyz {V} (b : bool) (x y : V) : V := if b then x else y.

Section FW.
Variable dir : bool.
Variable pk : nat -> nat -> nat -> bool.
Variable n : nat.
(** [X[[i], :]], joined with [X.T[[i], :]] for undirected graphs; algorithms/shortest_paths/dense.py
    62-67, 90-93 *)
Definition fw_row {V} (r i : nat) (X : mat V) : vec V :=
  vbuild n (fun j => if dir then mget X i j else omerge (anyz (pk r i j)) (mget X i j) (mget X j i)).
(** dense.py 64, 67 *)
Definition fw_col {V} (r i : nat) (X : mat V) : vec V :=
  if dir then vbuild n (fun k => mget X k i) else fw_row r i X.
(** dense.py 68 *)
Definition fw_outer (r i : nat) (D : mat Z) : mat Z :=
  mbuild n n (fun k j => oboth Z.add (vget (fw_col r i D) k) (vget (fw_row r i D) j)).
(** algorithms/shortest_paths/dense.py 13-111: [offdiag] / [triu(., 1)] *)
Definition fw_sel (k j : nat) : bool := if dir then negb (k =? j) else k <? j.
(** dense.py 70-76 *)
Definition fw_dist (r i : nat) (D : mat Z) : mat Z := munion Z.min D (mselect fw_sel (fw_outer r i D)).
(** dense.py 79-84: the entries of Outer that improve on D *)
Definition fw_better (r i : nat) (D : mat Z) : mat Z :=
  let Outer := fw_outer r i D in
  let Mask := mbuild n n (fun k j => omap (fun _ => fw_sel k j) (mget Outer k j)) in
  let Mask := munion op_second Mask (minter Z.ltb Outer D) in
  mwrite (mMVb Mask) true Outer Outer.
(** dense.py 86-94 *)
Definition fw_both (r i : nat) (DP : mat Z * mat nat) : mat Z * mat nat :=
  let (D, P) := DP in
  let Outer := fw_better r i D in
  let prow := fw_row r i P in
  let present k := if dir then has (vget (fw_col r i D) k) else has (vget prow k) in
  let T := mbuild n n (fun k j => if present k then vget prow j else None) in
  (mwrite (msS Outer) false D Outer, mwrite (msS Outer) false P T).
(** dense.py 61-94; r counts the rounds *)
Fixpoint fw_loop_d (r : nat) (l : list nat) (D : mat Z) : mat Z :=
  match l with [] => D | i :: l' => fw_loop_d (S r) l' (fw_dist r i D) end.
(** algorithms/shortest_paths/dense.py 61-94 *)
Fixpoint fw_loop_p (r : nat) (l : list nat) (DP : mat Z * mat nat) : mat Z * mat nat :=
  match l with [] => DP | i :: l' => fw_loop_p (S r) l' (fw_both r i DP) end.
(** dense.py 97-102 *)
Definition fw_sym {V} (r : nat) (X : mat V) : mat V :=
  if dir then X else mbuild n n (fun i j => omerge (anyz (pk r i j)) (mget X i j) (mget X j i)).
(** dense.py 104-109 *)
Definition fw_diag (D : mat Z) : mat Z := mbuild n n (fun i j => if i =? j then Some 0%Z else mget D i j).
End FW.

(** dense.py 13-111 [floyd_warshall_predecessor_and_distance]; [get_properties] reads in priority
    order *)
Definition fw_inputs (G : graph) : M (mat Z * vec Z) :=
  if g_dir G then
    A <- get_offdiag G ;;
    rd <- get_red G Row RCount SM None ;;
    cd <- get_red G Col RCount SM None ;;
    ret (A, vinter op_pairz rd cd)
  else
    A <- get_Um G ;;
    d <- get_red G Row RCount SM None ;;
    ret (A, d).
(** dense.py 26-43: permuted input and initial distances *)
Definition fw_start (G : graph) (weighted : bool) (perm : option (list nat)) : M (mat Z * vec Z) :=
  An <- fw_inputs G ;;
  let (A, ne) := An in
  An <- match perm with
              | None => ret (A, ne)
              | Some p => if negb (List.length p =? vsize ne) then raise EAlg
                          else ret (mextract A p p, vextract ne p)
              end ;;
  let (A, ne) := An in
  ret (if weighted then A else mmap (fun _ => 1%Z) A, ne).
(** algorithms/shortest_paths/dense.py 9-10: compute_predecessors=False *)
Definition fw_distance (pk : nat -> nat -> nat -> bool) (G : graph) (weighted : bool) (perm : option (list nat)) : M (mat Z) :=
  Dn <- fw_start G weighted perm ;;
  let (D, ne) := Dn in
  let n := nrows D in
  let l := vindices ne in
  ret (fw_diag n (fw_sym (g_dir G) pk n (List.length l) (fw_loop_d (g_dir G) pk n 0 l D))).
(** algorithms/shortest_paths/dense.py 13-111: compute_predecessors=True: (P, D) *)
Definition fw_pred_distance (pk : nat -> nat -> nat -> bool) (G : graph) (weighted : bool) : M (mat nat * mat Z) :=
  Dn <- fw_start G weighted None ;;
  let (D, ne) := Dn in
  let n := nrows D in
  let l := vindices ne in
  let P := mbuild n n (fun i j => omap (fun _ => i) (mget D i j)) in
  let '(D, P) := fw_loop_p (g_dir G) pk n 0 l (D, P) in
  ret (fw_sym (g_dir G) pk n (List.length l) P, fw_diag n (fw_sym (g_dir G) pk n (List.length l) D)).

(** nxapi/shortest_paths/dense.py 9-12; [weighted] is [weight is not None] *)
Definition nx_floyd_warshall (pk : nat -> nat -> nat -> bool) (G : graph) (weighted : bool) : M (rowmap Z) :=
  D <- fw_distance pk G weighted None ;; ret (to_nodenodemap G D).
(** nxapi/shortest_paths/dense.py 9-12: distances extended with float("inf") *)
Inductive zinf : Type := Fin (z : Z) | Inf.
(** nxapi/shortest_paths/dense.py 15-21; the first map has values_are_keys=True (use km_getitem on
    its rows) *)
Definition nx_fw_pred_dist (pk : nat -> nat -> nat -> bool) (G : graph) (weighted : bool) : M (rowmap nat * rowmap zinf) :=
  PD <- fw_pred_distance pk G weighted ;;
  let (P, D) := PD in
  ret (mkrm P (g_kid G) None, mkrm (mmap Fin D) (g_kid G) (Some Inf)).
(** nxapi/shortest_paths/dense.py 24-37: python's [len(set(nodelist))] *)
Fixpoint distinct (l : list nkey) : nat :=
  match l with [] => 0 | x :: l' => (if existsb (nkey_eqb x) l' then 0 else 1) + distinct l' end.
(** nxapi/shortest_paths/dense.py 24-38 *)
Definition nx_fw_numpy (pk : nat -> nat -> nat -> bool) (G : graph) (nodelist : option (list nkey)) (weighted : bool) : M (mat Z) :=
  perm <- match nodelist with
          | None => ret None
          | Some l => if negb ((List.length l =? glen G) && (glen G =? distinct l)) then raise EAlg
                      else p <- lifto (list_to_ids (g_kid G) l) ;; ret (Some p)
          end ;;
  fw_distance pk G weighted perm.
