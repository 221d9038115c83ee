(** * Specification vocabulary for link analysis and power iterations *)
From Verif Require Import Base Model_Graph Model_Keys Spec Spec_Count Spec_Cluster Spec_Linalg.
From Coq Require Import QArith Qcanon Qcabs.
Open Scope nat_scope.

(** number of nodes; value of a dict, 0 for absent keys *)
Definition qlen {X} (l : list X) : Qc := qz (Z.of_nat (List.length l)).
Definition dval (d : list (nkey * Qc)) (u : nkey) : Qc := match dget d u with Some q => q | None => 0%Qc end.
(** a distribution over the nodes [l]: uniform, or proportional to the given values *)
Definition distr (l : list nkey) (d : option (list (nkey * Qc))) (u : nkey) : Qc :=
  match d with None => (1 / qlen l)%Qc | Some d => (dval d u / qtotal (dval d) l)%Qc end.
(** a node without successors among [l] *)
Definition dangling (G : graph) (l : list nkey) (u : nkey) : bool := negb (existsb (has_edge G u) l).
(** probability of the step u -> v: proportional to the weight, or [dw v] from a dangling node *)
Definition step (G : graph) (l : list nkey) (dw : nkey -> Qc) (u v : nkey) : Qc :=
  if dangling G l u then dw v else (qz (Spec_Linalg.adj G true u v) / qz (rsum G true l u))%Qc.
(** one round of PageRank: teleport to [p] with probability 1 - alpha, otherwise step *)
Definition pr_next (G : graph) (alpha : Qc) (p dw : nkey -> Qc) (x : nkey -> Qc) (v : nkey) : Qc :=
  ((1 - alpha) * p v + alpha * qtotal (fun u => x u * step G (gnodes G) dw u v) (gnodes G))%Qc.
(** an entry of the Google matrix *)
Definition google (G : graph) (l : list nkey) (alpha : Qc) (p dw : nkey -> Qc) (u v : nkey) : Qc :=
  (alpha * step G l dw u v + (1 - alpha) * p v)%Qc.

(** ** power iterations *)
Fixpoint iterate (F : (nkey -> Qc) -> nkey -> Qc) (k : nat) (x : nkey -> Qc) : nkey -> Qc :=
  match k with O => x | S k => F (iterate F k x) end.
(** sum of the absolute differences over the nodes *)
Definition l1 (G : graph) (x y : nkey -> Qc) : Qc := qtotal (fun u => Qcabs (x u - y u)) (gnodes G).
(** the k-th iterate (k >= 1) is close to the one before it *)
Definition settled (G : graph) (F : (nkey -> Qc) -> nkey -> Qc) (x0 : nkey -> Qc) (tol : Qc) (k : nat) : Prop :=
  (l1 G (iterate F (k - 1) x0) (iterate F k x0) < qlen (gnodes G) * tol)%Qc.
(** k is the first such iterate, and within the allowed number of rounds; there is none *)
Definition first_settled G F x0 tol (max_iter k : nat) : Prop :=
  1 <= k <= max_iter /\ settled G F x0 tol k /\ forall j, 1 <= j < k -> ~ settled G F x0 tol j.
Definition never_settled G F x0 tol (max_iter : nat) : Prop := forall j, 1 <= j <= max_iter -> ~ settled G F x0 tol j.

(** ** dict arguments *)
(** a python dict has no duplicate keys *)
Definition is_dict (d : option (list (nkey * Qc))) : Prop := match d with Some d => NoDup (map fst d) | None => True end.
(** a key that is not a node; no entries at all; values that sum to zero *)
Definition foreign (G : graph) (d : option (list (nkey * Qc))) : Prop := exists d' u q, d = Some d' /\ In (u, q) d' /\ ~ node G u.
Definition no_entries (d : option (list (nkey * Qc))) : Prop := d = Some [].
Definition sums_to_zero (l : list nkey) (d : option (list (nkey * Qc))) : Prop := exists d', d = Some d' /\ qtotal (dval d') l = 0%Qc.

(** ** norms *)
(** divided by [q], unchanged when that is zero *)
Definition divided (q : Qc) (x : nkey -> Qc) (u : nkey) : Qc := if Qc_eq_bool q 0 then x u else (x u * (1 / q))%Qc.
Definition l2norm (sqr : Qc -> Qc) (G : graph) (x : nkey -> Qc) : Qc := sqr (qtotal (fun u => x u * x u) (gnodes G))%Qc.
(** sums over predecessors and successors *)
Definition from_preds (G : graph) (x : nkey -> Qc) (v : nkey) : Qc := qtotal (fun u => x u * qz (Spec_Linalg.adj G true u v))%Qc (gnodes G).
Definition from_succs (G : graph) (x : nkey -> Qc) (u : nkey) : Qc := qtotal (fun v => qz (Spec_Linalg.adj G true u v) * x v)%Qc (gnodes G).
(** eigenvector centrality: x + xA, divided by its Euclidean length *)
Definition eig_next (sqr : Qc -> Qc) (G : graph) (x : nkey -> Qc) : nkey -> Qc :=
  let y := fun v => (x v + from_preds G x v)%Qc in divided (l2norm sqr G y) y.
(** Katz: alpha xA + beta *)
Definition katz_next (G : graph) (alpha : Qc) (beta : nkey -> Qc) (x : nkey -> Qc) (v : nkey) : Qc :=
  (alpha * from_preds G x v + beta v)%Qc.
(** PageRank: what dangling nodes step to, and the start *)
Definition pr_dangling (pers dang : option (list (nkey * Qc))) : option (list (nkey * Qc)) := match dang with Some _ => dang | None => pers end.
Definition pr_round (G : graph) (alpha : Qc) (pers dang : option (list (nkey * Qc))) : (nkey -> Qc) -> nkey -> Qc :=
  pr_next G alpha (distr (gnodes G) pers) (distr (gnodes G) (pr_dangling pers dang)).
(** some node is dangling, and [x] is zero on all of them *)
Definition zero_on_dangling (G : graph) (x : nkey -> Qc) : Prop :=
  (exists u, node G u /\ dangling G (gnodes G) u = true) /\ forall u, node G u -> dangling G (gnodes G) u = true -> x u = 0%Qc.
(** a dangling distribution is only looked at if some node is dangling *)
Definition used (G : graph) (dang : option (list (nkey * Qc))) : option (list (nkey * Qc)) :=
  if existsb (dangling G (gnodes G)) (gnodes G) then dang else None.

(** ** eigenvector centrality: which nodes have a value after k rounds *)
Definition given (d : option (list (nkey * Qc))) (u : nkey) : Prop := match d with Some d => In u (map fst d) | None => True end.
Fixpoint spread (G : graph) (P : nkey -> Prop) (k : nat) (u : nkey) : Prop :=
  match k with O => P u | S k => spread G P k u \/ exists w, edge G w u /\ spread G P k w end.
(** ** Katz: beta is a number or a dict *)
Definition beta_val (b : Qc + list (nkey * Qc)) (u : nkey) : Qc := match b with inl q => q | inr d => dval d u end.
Definition beta_dict (b : Qc + list (nkey * Qc)) : option (list (nkey * Qc)) := match b with inl _ => None | inr d => Some d end.
(** ** hits: the largest value over a list (0 if empty), hubs and authorities *)
Definition bigger (a b : Qc) : Qc := match (a ?= b)%Qc with Lt => b | _ => a end.
Fixpoint largest (f : nkey -> Qc) (l : list nkey) : Qc :=
  match l with [] => 0%Qc | x :: l' => match l' with [] => f x | _ :: _ => bigger (f x) (largest f l') end end.
Definition hubs (G : graph) : list nkey := filter (fun u => existsb (has_edge G u) (gnodes G)) (gnodes G).
Definition auths (G : graph) : list nkey := filter (fun v => existsb (fun u => has_edge G u v) (gnodes G)) (gnodes G).
(** hub scores: h A A^T, divided by the largest score *)
Definition hits_next (G : graph) (h : nkey -> Qc) : nkey -> Qc :=
  let g := from_succs G (from_preds G h) in divided (largest g (hubs G)) g.
(** authority scores: A^T A a, divided by the largest score *)
Definition auth_next (G : graph) (a : nkey -> Qc) : nkey -> Qc :=
  let g := from_preds G (from_succs G a) in divided (largest g (auths G)) g.
