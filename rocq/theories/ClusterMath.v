(** * Sums over a commutative semiring and entries of sparse products *)
From Verif Require Import Base BaseProofs.
From Coq Require Import Ring Permutation.

(** sum of [f 0 .. f (n-1)] and of [f] over a list *)
Definition gsum {V} (zero : V) (add : V -> V -> V) (n : nat) (f : nat -> V) : V := fold_right add zero (map f (seq 0 n)).
Definition gtotal {V X} (zero : V) (add : V -> V -> V) (f : X -> V) (l : list X) : V := fold_right add zero (map f l).

Section SR.
Context {V : Type} (zero one : V) (add mul : V -> V -> V).
Hypothesis SRth : semi_ring_theory zero one add mul (@eq V).
Add Ring VRing : SRth.
Notation "0" := zero.
Notation "1" := one.
Infix "+" := add.
Infix "*" := mul.
Notation sum := (gsum zero add).
Notation tot := (gtotal zero add).

Lemma fold_snoc l x : fold_right add 0 (l ++ [x]) = fold_right add 0 l + x.
Proof. induction l as [|y l IH]; simpl; [ring|]. rewrite IH. ring. Qed.
Lemma gsum_S n f : sum (S n) f = sum n f + f n.
Proof. unfold gsum. rewrite seq_snoc, map_app. apply fold_snoc. Qed.
Lemma gsum_0 f : sum 0%nat f = 0. Proof. reflexivity. Qed.
Lemma gsum_ext n f g : (forall i, (i < n)%nat -> f i = g i) -> sum n f = sum n g.
Proof.
  induction n as [|n IH]; intros H; [reflexivity|]. rewrite !gsum_S, IH, H by auto with arith. reflexivity.
Qed.
Lemma gsum_zero n f : (forall i, (i < n)%nat -> f i = 0) -> sum n f = 0.
Proof. induction n as [|n IH]; intros H; [reflexivity|]. rewrite gsum_S, IH, H by auto with arith. ring. Qed.
Lemma gsum_add n f g : sum n (fun i => f i + g i) = sum n f + sum n g.
Proof. induction n as [|n IH]; [simpl; cbn; ring|]. rewrite !gsum_S, IH. ring. Qed.
Lemma gsum_scale n c f : sum n (fun i => c * f i) = c * sum n f.
Proof. induction n as [|n IH]; [cbn; ring|]. rewrite !gsum_S, IH. ring. Qed.
Lemma gsum_scale_r n c f : sum n (fun i => f i * c) = sum n f * c.
Proof. induction n as [|n IH]; [cbn; ring|]. rewrite !gsum_S, IH. ring. Qed.
Lemma gsum_swap n m f : sum n (fun i => sum m (fun j => f i j)) = sum m (fun j => sum n (fun i => f i j)).
Proof.
  induction n as [|n IH].
  - rewrite gsum_0. symmetry. apply gsum_zero. intros. reflexivity.
  - rewrite gsum_S, IH, <- gsum_add. apply gsum_ext. intros j _. rewrite gsum_S. reflexivity.
Qed.
Lemma gsum_if n (c : bool) f : sum n (fun i => if c then f i else 0) = if c then sum n f else 0.
Proof. destruct c; [reflexivity|]. apply gsum_zero. reflexivity. Qed.
Lemma gsum2_ext n f g : (forall i j, (i < n)%nat -> (j < n)%nat -> f i j = g i j) ->
  sum n (fun i => sum n (fun j => f i j)) = sum n (fun i => sum n (fun j => g i j)).
Proof. intros H. apply gsum_ext. intros i Hi. apply gsum_ext. intros j Hj. apply H; assumption. Qed.
Lemma gsum2_add n f g : sum n (fun i => sum n (fun j => f i j + g i j)) =
  sum n (fun i => sum n (fun j => f i j)) + sum n (fun i => sum n (fun j => g i j)).
Proof. rewrite <- gsum_add. apply gsum_ext. intros i _. apply gsum_add. Qed.
(** a symmetric function that vanishes on the diagonal *)
Lemma gsum2_half n f : (forall i j, f i j = f j i) -> (forall i, f i i = 0) ->
  sum n (fun i => sum n (fun j => f i j)) =
  sum n (fun i => sum n (fun j => if j <? i then f i j else 0)) + sum n (fun i => sum n (fun j => if j <? i then f i j else 0)).
Proof.
  intros Hs Hd.
  rewrite (gsum2_ext n f (fun i j => (if j <? i then f i j else 0) + (if i <? j then f i j else 0))).
  - rewrite gsum2_add. f_equal. rewrite gsum_swap. apply gsum2_ext. intros i j _ _. rewrite Hs. reflexivity.
  - intros i j _ _. destruct (Nat.ltb_spec j i), (Nat.ltb_spec i j); try lia; try ring.
    replace j with i by lia. rewrite Hd. ring.
Qed.

(** totals over lists *)
Lemma gtotal_perm {X} (f : X -> V) l l' : Permutation l l' -> tot f l = tot f l'.
Proof. unfold gtotal. induction 1; simpl; try congruence. ring. Qed.
Lemma gtotal_app {X} (f : X -> V) a b : tot f (a ++ b) = tot f a + tot f b.
Proof. unfold gtotal. induction a; simpl; [ring|]. rewrite IHa. ring. Qed.
Lemma gtotal_map {X Y} (f : Y -> V) (g : X -> Y) l : tot f (map g l) = tot (fun x => f (g x)) l.
Proof. unfold gtotal. rewrite map_map. reflexivity. Qed.
Lemma gtotal_ext {X} (f g : X -> V) l : (forall x, In x l -> f x = g x) -> tot f l = tot g l.
Proof. intros H. unfold gtotal. f_equal. apply map_ext_in. assumption. Qed.
Lemma gtotal_prod {X Y} (f : X * Y -> V) l l' : tot f (list_prod l l') = tot (fun x => tot (fun y => f (x, y)) l') l.
Proof. induction l; simpl; [reflexivity|]. rewrite gtotal_app, IHl, gtotal_map. reflexivity. Qed.
Lemma gtotal_seq f n l : Permutation l (seq 0 n) -> tot f l = sum n f.
Proof. intros H. rewrite (gtotal_perm f _ _ H). reflexivity. Qed.

(** ** entries: presence and value (absent entries count as zero) *)
Section E.
Context {U : Type} (xv : U -> V).
Definition eval (o : option U) : V := match o with Some u => xv u | None => 0 end.
Definition eis (o : option U) (p : Prop) (x : V) : Prop := (has o = true <-> p) /\ eval o = x.
Lemma eis_conv o p q x y : eis o p x -> (p <-> q) -> x = y -> eis o q y.
Proof. intros [H1 H2] H <-. split; [rewrite H1; assumption|assumption]. Qed.
Lemma eis_refl o : eis o (has o = true) (eval o). Proof. split; reflexivity. Qed.
Lemma eis_if (b : bool) o p x : eis o p x -> eis (if b then o else None) (b = true /\ p) (if b then x else 0).
Proof. intros [H1 H2]. destruct b; split; simpl; intuition discriminate. Qed.
Lemma eis_none : eis None False 0. Proof. split; [split; [discriminate|intros []]|reflexivity]. Qed.
End E.
Lemma eis_ored n f p x : (forall i, (i < n)%nat -> eis id (f i) (p i) (x i)) ->
  eis id (ored add n f) (exists i, (i < n)%nat /\ p i) (sum n x).
Proof.
  induction n as [|n IH]; intros H.
  - split; [split; [discriminate|intros (i & ? & _); lia]|reflexivity].
  - destruct IH as [I1 I2]; [intros; apply H; lia|]. destruct (H n ltac:(lia)) as [H1 H2]. cbn [ored]. split.
    + rewrite has_omerge, orb_true_iff, I1, H1. split.
      * intros [(i & Hi & Hp)|Hp]; [exists i; split; [lia|assumption]|exists n; split; [lia|assumption]].
      * intros (i & Hi & Hp). destruct (Nat.eq_dec i n) as [->|]; [right; assumption|left; exists i; split; [lia|assumption]].
    + rewrite gsum_S, <- I2, <- H2. unfold eval, id. destruct (ored add n f), (f n); cbn; ring.
Qed.
Lemma eis_omerge a b p q x y : eis id a p x -> eis id b q y -> eis id (omerge add a b) (p \/ q) (x + y).
Proof.
  intros [A1 A2] [B1 B2]. split; [rewrite has_omerge, orb_true_iff, A1, B1; reflexivity|].
  rewrite <- A2, <- B2. unfold eval, id. destruct a, b; cbn; ring.
Qed.
Lemma eis_oboth {U} (xv : U -> V) (m : U -> U -> V) a b p q x y : (forall u v, m u v = xv u * xv v) ->
  eis xv a p x -> eis xv b q y -> eis id (oboth m a b) (p /\ q) (x * y).
Proof.
  intros Hm [A1 A2] [B1 B2]. split; [rewrite has_oboth, andb_true_iff, A1, B1; reflexivity|].
  rewrite <- A2, <- B2. unfold eval, id. destruct a, b; cbn; rewrite ?Hm; ring.
Qed.
End SR.
