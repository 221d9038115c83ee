(** * Specification vocabulary for graph matrices *)
From Verif Require Import Base Model_Graph Model_Keys Spec Spec_Count Spec_Cluster.
From Coq Require Import QArith Qcanon.
Open Scope nat_scope.

(** [l] lists the nodes in the order of the rows: the nodelist, or all nodes by internal number *)
Definition row_order (G : graph) (nodelist : option (list nkey)) (l : list nkey) : Prop :=
  match nodelist with
  | Some l' => l = l'
  | None => map (kid G) l = map Some (seq 0 (glen G))
  end.
(** an unusable nodelist *)
Definition bad_list (G : graph) (nodelist : option (list nkey)) : Prop :=
  exists l, nodelist = Some l /\ exists u, In u l /\ ~ node G u.
Definition no_dup (nodelist : option (list nkey)) : Prop := match nodelist with Some l => NoDup l | None => True end.
(** the square matrix with rows and columns labelled by [l] and the value [f u v] at (u, v); an entry
    that is not stored counts as zero *)
Definition is_matrix {V} (zero : V) (M : mat V) (l : list nkey) (f : nkey -> nkey -> V) : Prop :=
  nrows M = List.length l /\ ncols M = List.length l /\
  forall a b u v, nth_error l a = Some u -> nth_error l b = Some v -> oget zero (mget M a b) = f u v.
(** entry of the adjacency matrix *)
Definition adj (G : graph) (weighted : bool) (u v : nkey) : Z :=
  match weight G u v with Some x => if weighted then x else 1%Z | None => 0%Z end.
(** row and column sums over the nodes [l] *)
Definition rsum (G : graph) (weighted : bool) (l : list nkey) (u : nkey) : Z := total (fun v => adj G weighted u v) l.
Definition csum (G : graph) (weighted : bool) (l : list nkey) (v : nkey) : Z := total (fun u => adj G weighted u v) l.
Definition diag_z (u v : nkey) (x : Z) : Z := if nkey_eqb u v then x else 0%Z.
Definition diag_q (u v : nkey) (x : Qc) : Qc := if nkey_eqb u v then x else 0%Qc.
(** L = D - A *)
Definition lap (G : graph) (weighted : bool) (l : list nkey) (u v : nkey) : Z :=
  (diag_z u v (rsum G weighted l u) - adj G weighted u v)%Z.
(** N = D^-1/2 L D^-1/2, with 0 for the rows of nodes without neighbours; [sqr] is the square root used *)
Definition isq (sqr : Qc -> Qc) (x : Z) : Qc := if (x =? 0)%Z then 0%Qc else (/ sqr (qz x))%Qc.
Definition nlap (sqr : Qc -> Qc) (G : graph) (weighted : bool) (l : list nkey) (u v : nkey) : Qc :=
  (diag_q u v (if (rsum G weighted l u =? 0)%Z then 0 else 1) -
   isq sqr (rsum G weighted l u) * qz (adj G weighted u v) * isq sqr (rsum G weighted l v))%Qc.
(** B = A - k_out k_in / m, m the sum of all entries *)
Definition modul (G : graph) (weighted : bool) (l : list nkey) (u v : nkey) : Qc :=
  (qz (adj G weighted u v) - qz (rsum G weighted l u * csum G weighted l v) / qz (total (rsum G weighted l) l))%Qc.
(** H = (r^2 - 1) I - r A + D *)
Definition bethe (G : graph) (r : Qc) (l : list nkey) (u v : nkey) : Qc :=
  (diag_q u v (r * r - 1 + qz (rsum G true l u)) - r * qz (adj G true u v))%Qc.

(** the default parameter of the Bethe Hessian, for a notion [deg] of degree: sum of squared degrees over sum
    of degrees, minus 1 *)
Definition default_r (deg : nkey -> nat) (G : graph) : Qc :=
  (qz (total (fun u => Z.of_nat (deg u) * Z.of_nat (deg u))%Z (gnodes G)) / qz (total (fun u => Z.of_nat (deg u)) (gnodes G)) - 1)%Qc.
