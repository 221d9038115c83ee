(** * Concrete graphs for non-vacuity examples and counterexamples (not a model of code) *)
From Verif Require Import Base BaseProofs Model_Graph.
From Coq Require Import Permutation.

Definition elist := list (nat * nat * Z).
Fixpoint efind (l : elist) (i j : nat) : option Z :=
  match l with
  | [] => None
  | (a, c, w) :: l' => if (a =? i) && (c =? j) then Some w else efind l' i j
  end.
Definition eget (dir : bool) (l : elist) (i j : nat) : option Z :=
  if dir then efind l i j else efind l (Nat.min i j) (Nat.max i j).
(** graph on nodes 0..n-1 (keys KI 0..KI (n-1)); undirected edges are listed with the smaller end first *)
Definition mkg (dir : bool) (n : nat) (l : elist) : graph := {|
  g_dir := dir; g_A := mbuild n n (eget dir l); g_dt := DInt; g_iso := false;
  g_kid := map (fun i => (KI (Z.of_nat i), i)) (seq 0 n) |}.
Lemma map_fst_pair {X Y Z'} (f : X -> Y) (g : X -> Z') l : map fst (map (fun i => (f i, g i)) l) = map f l.
Proof. rewrite map_map. reflexivity. Qed.
Lemma mkg_wf dir n l : gwf (mkg dir n l).
Proof.
  constructor; simpl.
  - apply mwf_mbuild.
  - rewrite nrows_mbuild. reflexivity.
  - intros -> i j. rewrite !mget_mbuild. rewrite (andb_comm (j <? n)). destruct (_ && _); [|reflexivity].
    unfold eget. rewrite Nat.min_comm, Nat.max_comm. reflexivity.
  - discriminate.
  - discriminate.
  - rewrite map_fst_pair. apply FinFun.Injective_map_NoDup; [|apply seq_NoDup].
    intros a b [= H]. apply Nat2Z.inj. assumption.
  - rewrite map_map, map_id. unfold glen. simpl. rewrite nrows_mbuild. apply Permutation_refl.
Qed.
(** an iso-valued graph *)
Definition mkg_iso (dir : bool) (n : nat) (l : list (nat * nat)) (v : Z) : graph :=
  let G := mkg dir n (map (fun p => (fst p, snd p, v)) l) in
  {| g_dir := g_dir G; g_A := g_A G; g_dt := g_dt G; g_iso := true; g_kid := g_kid G |}.
Lemma mkg_iso_wf dir n l v : gwf (mkg_iso dir n l v).
Proof.
  destruct (mkg_wf dir n (map (fun p => (fst p, snd p, v)) l)) as [H1 H2 H3 H4 H5 H6 H7].
  constructor; auto. simpl. intros _.
  assert (E : forall i j x, mget (mbuild n n (eget dir (map (fun p => (fst p, snd p, v)) l))) i j = Some x -> x = v).
  { intros i j x. rewrite mget_mbuild. destruct (_ && _); [|discriminate].
    assert (F : forall a b, efind (map (fun p => (fst p, snd p, v)) l) a b = Some x -> x = v).
    { clear. intros a b. induction l as [|[c d] l IH]; simpl; [discriminate|].
      destruct (_ && _); [intros [= <-]; reflexivity|apply IH]. }
    unfold eget. destruct dir; apply F. }
  intros i j k l' x y Hx Hy. apply E in Hx, Hy. congruence.
Qed.

(** a graph with the given node keys, numbered in order *)
Definition mkgk (dir : bool) (ks : list nkey) (l : elist) : graph := {|
  g_dir := dir; g_A := mbuild (List.length ks) (List.length ks) (eget dir l); g_dt := DInt; g_iso := false;
  g_kid := combine ks (seq 0 (List.length ks)) |}.
Lemma mkgk_wf dir ks l : NoDup ks -> gwf (mkgk dir ks l).
Proof.
  intros ND. assert (F : forall s, map fst (combine ks (seq s (List.length ks))) = ks /\ map snd (combine ks (seq s (List.length ks))) = seq s (List.length ks)).
  { clear. induction ks as [|k ks IH]; intros s; simpl; [auto|]. destruct (IH (S s)) as [-> ->]. auto. }
  constructor; simpl.
  - apply mwf_mbuild.
  - rewrite nrows_mbuild. reflexivity.
  - intros -> i j. rewrite !mget_mbuild. rewrite (andb_comm (j <? _)). destruct (_ && _); [|reflexivity].
    unfold eget. rewrite Nat.min_comm, Nat.max_comm. reflexivity.
  - discriminate.
  - discriminate.
  - rewrite (proj1 (F 0)). assumption.
  - rewrite (proj2 (F 0)). unfold glen. simpl. rewrite nrows_mbuild. apply Permutation_refl.
Qed.
