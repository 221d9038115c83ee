(** * Specification vocabulary for counting: degrees, edges, sums over nodes *)
From Verif Require Import Base Model_Graph Model_Keys Spec.

(** number of elements of [l] satisfying [p], sum of [f] over [l] *)
Definition count {X} (p : X -> bool) (l : list X) : nat := List.length (filter p l).
Definition total {X} (f : X -> Z) (l : list X) : Z := fold_right Z.add 0%Z (map f l).

Definition has_edge (G : graph) (u v : nkey) : bool := has (weight G u v).
(** weight of u->v, 0 when there is no such edge *)
Definition weight0 (G : graph) (u v : nkey) : Z := oz (weight G u v).
(** is the key among the given ones *)
Definition mem (k : nkey) (l : list nkey) : bool := existsb (nkey_eqb k) l.
(** successors and predecessors; in an undirected graph both count the neighbours (oneself once,
    if there is a self-loop) *)
Definition out_degree (G : graph) (u : nkey) : nat := count (fun v => has_edge G u v) (gnodes G).
Definition in_degree (G : graph) (v : nkey) : nat := count (fun u => has_edge G u v) (gnodes G).
(** networkx's G.degree: in + out when directed; when undirected a self-loop counts twice *)
Definition degree (G : graph) (u : nkey) : nat :=
  if g_dir G then out_degree G u + in_degree G u
  else out_degree G u + (if has_edge G u u then 1 else 0).
(** no self-loops *)
Definition loop_free (G : graph) : Prop := forall u, ~ edge G u u.
(** every ordered pair of elements; every unordered pair (with repetition) once *)
Fixpoint upairs {X} (l : list X) : list (X * X) :=
  match l with [] => [] | x :: l' => map (pair x) (x :: l') ++ upairs l' end.
Definition pairs {X} (l : list X) : list (X * X) := list_prod l l.
(** the edges of G, each once: ordered pairs when directed, unordered ones otherwise *)
Definition edges (G : graph) : list (nkey * nkey) :=
  filter (fun e => has_edge G (fst e) (snd e)) (if g_dir G then pairs (gnodes G) else upairs (gnodes G)).
(** membership in S, and in T where T defaults to the complement of S *)
Definition in_T (S : list nkey) (T : option (list nkey)) (k : nkey) : bool :=
  match T with Some T => mem k T | None => negb (mem k S) end.
(** nodes of G among S *)
Definition members (G : graph) (P : nkey -> bool) : list nkey := filter P (gnodes G).
