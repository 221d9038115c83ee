(** * Counting squares: arithmetic of 0/1 symmetric matrices *)
From Verif Require Import Base BaseProofs ClusterMath.
From Coq Require Import Ring.
Open Scope Z_scope.

Lemma Zsr0 : semi_ring_theory 0 1 Z.add Z.mul eq.
Proof. constructor; intros; ring. Qed.
Notation zs := (gsum 0%Z Z.add).
Lemma zs_ext n f g : (forall i, (i < n)%nat -> f i = g i) -> zs n f = zs n g.
Proof. apply (gsum_ext _ _ _ _ Zsr0). Qed.
Lemma zs_add n f g : zs n (fun i => f i + g i) = zs n f + zs n g.
Proof. apply (gsum_add _ _ _ _ Zsr0). Qed.
Lemma zs_scale n c f : zs n (fun i => c * f i) = c * zs n f.
Proof. apply (gsum_scale _ _ _ _ Zsr0). Qed.
Lemma zs_scale_r n c f : zs n (fun i => f i * c) = zs n f * c.
Proof. apply (gsum_scale_r _ _ _ _ Zsr0). Qed.
Lemma zs_swap n m f : zs n (fun i => zs m (fun j => f i j)) = zs m (fun j => zs n (fun i => f i j)).
Proof. apply (gsum_swap _ _ _ _ Zsr0). Qed.
Lemma zs_zero n f : (forall i, (i < n)%nat -> f i = 0) -> zs n f = 0.
Proof. apply (gsum_zero _ _ _ _ Zsr0). Qed.
Lemma zs_S n f : zs (S n) f = zs n f + f n.
Proof. apply (gsum_S _ _ _ _ Zsr0). Qed.
Lemma zs_sub n f g : zs n (fun i => f i - g i) = zs n f - zs n g.
Proof. induction n as [|n IH]; [reflexivity|]. rewrite !zs_S, IH. lia. Qed.
Lemma zs_le n f g : (forall i, (i < n)%nat -> f i <= g i) -> zs n f <= zs n g.
Proof. induction n as [|n IH]; intros H; [reflexivity|]. rewrite !zs_S. assert (zs n f <= zs n g) by (apply IH; intros; apply H; lia). specialize (H n ltac:(lia)). lia. Qed.
Lemma zs_nonneg n f : (forall i, (i < n)%nat -> 0 <= f i) -> 0 <= zs n f.
Proof. intros H. assert (E : zs n (fun _ => 0) = 0) by (apply zs_zero; reflexivity). rewrite <- E at 1. apply zs_le. assumption. Qed.
Lemma zs_pos n f : (forall i, (i < n)%nat -> 0 <= f i) -> zs n f = 0 -> forall i, (i < n)%nat -> f i = 0.
Proof.
  induction n as [|n IH]; intros H E i Hi; [lia|]. rewrite zs_S in E. assert (0 <= zs n f) by (apply zs_nonneg; intros; apply H; lia).
  pose proof (H n ltac:(lia)). destruct (Nat.eq_dec i n) as [->|]; [lia|]. apply IH; [intros; apply H; lia|lia|lia].
Qed.
Lemma zs_single n f k : (k < n)%nat -> zs n (fun i => if (i =? k)%nat then f i else 0) = f k.
Proof.
  induction n as [|n IH]; intros H; [lia|]. rewrite zs_S. destruct (Nat.eq_dec k n) as [->|].
  - rewrite Nat.eqb_refl. rewrite zs_zero; [reflexivity|]. intros i Hi. destruct (Nat.eqb_spec i n); [lia|reflexivity].
  - rewrite IH by lia. destruct (Nat.eqb_spec n k); [lia|ring].
Qed.

Section Sq.
Variable n : nat.
Variable c : nat -> nat -> Z.
Hypothesis c01 : forall i j, c i j = 0 \/ c i j = 1.
Hypothesis c_sym : forall i j, c i j = c j i.
Hypothesis c_irr : forall i, c i i = 0.

Lemma c_sq i j : c i j * c i j = c i j.
Proof. destruct (c01 i j) as [-> | ->]; reflexivity. Qed.
(** degree; paths of length two; the same without the way back *)
Definition dg (i : nat) : Z := zs n (fun j => c i j).
Definition pp (i x : nat) : Z := zs n (fun k => c i k * c k x).
Definition np (i x : nat) : Z := if (x =? i)%nat then 0 else pp i x.
(** ordered pairs of different neighbours of v *)
Definition pr (v u w : nat) : Z := if (u =? w)%nat then 0 else c v u * c v w.
(** common neighbours of u and w other than v *)
Definition com (v u w : nat) : Z := zs n (fun x => if (x =? v)%nat then 0 else c u x * c w x).
(** twice the number of squares, twice the potential *)
Definition sq2 (v : nat) : Z := zs n (fun u => zs n (fun w => pr v u w * com v u w)).
Definition po2 (v : nat) : Z := zs n (fun u => zs n (fun w => pr v u w *
  ((dg u - (com v u w + 1 + c u w)) + (dg w - (com v u w + 1 + c u w)) + com v u w))).

Lemma pr_expand v (f : nat -> nat -> Z) :
  zs n (fun u => zs n (fun w => pr v u w * f u w)) =
  zs n (fun u => zs n (fun w => c v u * c v w * f u w)) - zs n (fun u => c v u * f u u).
Proof.
  rewrite <- zs_sub. apply zs_ext. intros u Hu.
  rewrite <- (zs_single n (fun w => c v u * f u w) u Hu), <- zs_sub. apply zs_ext. intros w Hw. unfold pr. rewrite (Nat.eqb_sym w u).
  destruct (Nat.eqb_spec u w) as [->|]; [|ring]. rewrite c_sq. ring.
Qed.
Lemma sq2_np v : sq2 v = zs n (fun x => np v x * (np v x - 1)).
Proof.
  unfold sq2. rewrite pr_expand.
  assert (E1 : zs n (fun u => zs n (fun w => c v u * c v w * com v u w)) = zs n (fun x => np v x * np v x)).
  { unfold com. rewrite (zs_ext n _ (fun u => zs n (fun w => zs n (fun x => c v u * c v w * (if (x =? v)%nat then 0 else c u x * c w x)))))
      by (intros u _; apply zs_ext; intros w _; symmetry; apply zs_scale).
    rewrite (zs_ext n _ (fun u => zs n (fun x => zs n (fun w => c v u * c v w * (if (x =? v)%nat then 0 else c u x * c w x))))) by (intros; apply zs_swap).
    rewrite zs_swap. apply zs_ext. intros x _. unfold np. destruct (x =? v)%nat.
    - apply zs_zero. intros u _. apply zs_zero. intros; ring.
    - unfold pp. rewrite <- zs_scale_r. apply zs_ext. intros u _. rewrite <- zs_scale. apply zs_ext. intros w _. ring. }
  assert (E2 : zs n (fun u => c v u * com v u u) = zs n (fun x => np v x)).
  { unfold com. rewrite (zs_ext n _ (fun u => zs n (fun x => c v u * (if (x =? v)%nat then 0 else c u x * c u x)))) by (intros; symmetry; apply zs_scale).
    rewrite zs_swap. apply zs_ext. intros x _. unfold np. destruct (x =? v)%nat.
    - apply zs_zero. intros; ring.
    - apply zs_ext. intros u _. rewrite c_sq. reflexivity. }
  rewrite E1, E2, <- zs_sub. apply zs_ext. intros; ring.
Qed.
Lemma np_nonneg v x : 0 <= np v x.
Proof. unfold np, pp. destruct (x =? v)%nat; [lia|]. apply zs_nonneg. intros k _. destruct (c01 v k) as [-> | ->], (c01 k x) as [-> | ->]; lia. Qed.
Lemma np1 x : 0 <= x -> 0 <= x * (x - 1).
Proof. intros H. destruct (Z.eq_dec x 0) as [->|]; [lia|]. apply Z.mul_nonneg_nonneg; lia. Qed.
Lemma sq2_nonneg v : 0 <= sq2 v.
Proof. rewrite sq2_np. apply zs_nonneg. intros x _. apply np1, np_nonneg. Qed.
Lemma zs_even m f : (forall i, (i < m)%nat -> exists k, f i = 2 * k) -> exists k, zs m f = 2 * k.
Proof.
  induction m as [|m IH]; intros H; [exists 0; reflexivity|]. rewrite zs_S. destruct IH as [a Ha]; [intros; apply H; lia|].
  destruct (H m ltac:(lia)) as [b Hb]. exists (a + b). lia.
Qed.
Lemma sq2_even v : exists k, sq2 v = 2 * k.
Proof.
  rewrite sq2_np. apply zs_even. intros i _. set (x := np v i). destruct (Z.Even_or_Odd x) as [[k Hk]|[k Hk]].
  - exists (k * (x - 1)). rewrite Hk. ring.
  - exists (x * k). rewrite Hk. ring.
Qed.
Lemma tri_pp v : zs n (fun u => zs n (fun w => c v u * c v w * c u w)) = zs n (fun x => c v x * np v x).
Proof.
  rewrite zs_swap. apply zs_ext. intros w _. unfold np. destruct (Nat.eqb_spec w v) as [->|].
  - rewrite c_irr. rewrite zs_zero; [ring|]. intros; ring.
  - unfold pp. rewrite <- zs_scale. apply zs_ext. intros; ring.
Qed.
(** the potential as the code computes it *)
Definition pot (v : nat) : Z :=
  (zs n (fun x => c v x * dg x)) * (dg v - 1) - dg v * (dg v - 1) - zs n (fun x => c v x * np v x).
Lemma po2_pot v : po2 v = 2 * pot v - sq2 v.
Proof.
  unfold po2.
  assert (E : zs n (fun u => zs n (fun w => pr v u w * ((dg u - (com v u w + 1 + c u w)) + (dg w - (com v u w + 1 + c u w)) + com v u w))) =
    zs n (fun u => zs n (fun w => pr v u w * dg u)) + zs n (fun u => zs n (fun w => pr v u w * dg w))
    - 2 * zs n (fun u => zs n (fun w => pr v u w * 1)) - 2 * zs n (fun u => zs n (fun w => pr v u w * c u w)) - sq2 v).
  { unfold sq2. rewrite <- !zs_scale, <- zs_add, <- !zs_sub. apply zs_ext. intros u _. rewrite <- !zs_scale, <- zs_add, <- !zs_sub. apply zs_ext. intros w _. ring. }
  rewrite E. clear E. rewrite !pr_expand.
  rewrite (zs_ext n (fun u => zs n (fun w => c v u * c v w * dg u)) (fun u => (c v u * dg u) * dg v))
    by (intros u _; unfold dg at 3; rewrite <- zs_scale; apply zs_ext; intros; ring).
  rewrite zs_scale_r.
  rewrite (zs_ext n (fun u => zs n (fun w => c v u * c v w * dg w)) (fun u => c v u * zs n (fun w => c v w * dg w)))
    by (intros u _; rewrite <- zs_scale; apply zs_ext; intros; ring).
  rewrite zs_scale_r.
  rewrite (zs_ext n (fun u => zs n (fun w => c v u * c v w * 1)) (fun u => c v u * dg v))
    by (intros u _; unfold dg; rewrite <- zs_scale; apply zs_ext; intros; ring).
  rewrite zs_scale_r. rewrite (zs_ext n (fun u => c v u * 1) (fun u => c v u)) by (intros; ring).
  rewrite tri_pp. rewrite (zs_zero n (fun u => c v u * c u u)) by (intros; rewrite c_irr; ring).
  change (zs n (c v)) with (dg v). fold (dg v). unfold pot. ring.
Qed.
Lemma com_sym v u w : com v u w = com v w u.
Proof. unfold com. apply zs_ext. intros x _. destruct (x =? v)%nat; [reflexivity|ring]. Qed.
Lemma com_le v a b : (v < n)%nat -> (b < n)%nat -> c v a = 1 -> c v b = 1 -> com v a b + 1 + c a b <= dg a.
Proof.
  intros Lv Lb Ea Eb. unfold com, dg. rewrite <- (zs_single n (fun _ => 1) v Lv), <- (zs_single n (fun x => c a x) b Lb), <- !zs_add. apply zs_le. intros x Hx.
  destruct (Nat.eqb_spec x v) as [->|Nv].
  - rewrite (c_sym a v), Ea. destruct (Nat.eqb_spec v b) as [->|]; [rewrite c_irr in Eb; discriminate|lia].
  - destruct (Nat.eqb_spec x b) as [->|]; [rewrite c_irr; lia|]. destruct (c01 a x) as [-> | ->], (c01 b x) as [-> | ->]; lia.
Qed.
Lemma pot_ge v : (v < n)%nat -> sq2 v <= po2 v.
Proof.
  intros Lv. unfold sq2, po2. apply zs_le. intros u Hu. apply zs_le. intros w Hw. unfold pr. destruct (Nat.eqb_spec u w) as [->|N]; [lia|].
  destruct (c01 v u) as [-> | Eu]; [lia|]. destruct (c01 v w) as [-> | Ew]; [lia|]. rewrite Eu, Ew.
  pose proof (com_le v u w Lv Hw Eu Ew). pose proof (com_le v w u Lv Hu Ew Eu) as H2. rewrite (com_sym v w u), (c_sym w u) in H2. lia.
Qed.
End Sq.
