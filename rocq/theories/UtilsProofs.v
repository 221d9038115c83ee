(** * Partitions and chunk sizes *)
From Verif Require Import Base BaseProofs Model_Graph Model_Utils.
From Coq Require Import QArith Qround String Ascii Lia.
Open Scope nat_scope.
Open Scope list_scope.

Definition nonempty {X} (l : list X) : bool := match l with [] => false | _ => true end.
Lemma slice_length {X} a b (L : list X) : a <= b -> b <= List.length L -> List.length (slice a b L) = b - a.
Proof. intros H1 H2. unfold slice. rewrite firstn_length, skipn_length. lia. Qed.
Lemma firstn_slice {X} a b (L : list X) : a <= b -> firstn a L ++ slice a b L = firstn b L.
Proof.
  intros H. unfold slice. revert a b H. induction L as [|x L IH]; intros a b H.
  - rewrite skipn_nil, !firstn_nil. reflexivity.
  - destruct a as [|a].
    + simpl. rewrite Nat.sub_0_r. reflexivity.
    + destruct b as [|b]; [lia|]. simpl. f_equal. apply IH. lia.
Qed.
Lemma concat_slices {X} (c : nat -> nat) (L : list X) : c 0 = 0 -> (forall t, c t <= c (S t)) ->
  forall m, List.concat (map (fun t => slice (c t) (c (S t)) L) (seq 0 m)) = firstn (c m) L.
Proof.
  intros H0 Hm. induction m as [|m IH].
  - rewrite H0. reflexivity.
  - rewrite seq_S, map_app, concat_app, IH. simpl. rewrite app_nil_r. apply firstn_slice. apply Hm.
Qed.
Lemma concat_filter_nonempty {X} (l : list (list X)) : List.concat (filter nonempty l) = List.concat l.
Proof. induction l as [|[|x y] l IH]; simpl; congruence. Qed.

Lemma filter_all {X} (p : X -> bool) l : forallb p l = true -> filter p l = l.
Proof. induction l as [|x l IH]; simpl; [reflexivity|]. destruct (p x); [intros H; f_equal; auto|discriminate]. Qed.
Section Split.
Context {X : Type}.
Variable L : list X.
Variable k : nat.
Notation N := (List.length L).
Hypothesis Hk : 2 <= k.
Hypothesis HN : 0 < N.
Definition cut (i : nat) : nat := (N * i + k - 1) / k.
Lemma cut_0 : cut 0 = 0.
Proof. unfold cut. rewrite Nat.mul_0_r, Nat.add_0_l. apply Nat.div_small. lia. Qed.
Lemma cut_k : cut k = N.
Proof.
  unfold cut. symmetry. apply Nat.div_unique with (r := k - 1); [lia|]. lia.
Qed.
Lemma cut_step i : N / k <= cut (S i) - cut i /\ cut (S i) - cut i <= cdiv N k /\ cut i <= cut (S i).
Proof.
  unfold cut, cdiv. replace (N * S i + k - 1) with ((N * i + k - 1) + N) by lia.
  set (a := N * i + k - 1). 
  pose proof (Nat.div_mod (a + N) k ltac:(lia)). pose proof (Nat.div_mod a k ltac:(lia)).
  pose proof (Nat.div_mod N k ltac:(lia)). pose proof (Nat.div_mod (N + k - 1) k ltac:(lia)).
  pose proof (Nat.mod_upper_bound (a + N) k ltac:(lia)). pose proof (Nat.mod_upper_bound a k ltac:(lia)).
  pose proof (Nat.mod_upper_bound N k ltac:(lia)). pose proof (Nat.mod_upper_bound (N + k - 1) k ltac:(lia)).
  assert (a / k <= (a + N) / k) by (apply Nat.div_le_mono; lia).
  set (x := (a + N) / k) in *. set (y := a / k) in *. set (z := N / k) in *. set (w := (N + k - 1) / k) in *.
  set (p := (a + N) mod k) in *. set (q := a mod k) in *. set (r := N mod k) in *. set (s := (N + k - 1) mod k) in *.
  split; [|split; [|assumption]].
  - assert (k * (y + z) < k * (x + 1)) by nia. assert (y + z < x + 1) by nia. lia.
  - assert (k * x < k * (y + w + 1)) by nia. assert (x < y + w + 1) by nia. lia.
Qed.
Lemma cut_mono i : cut i <= cut (S i). Proof. apply cut_step. Qed.
Lemma cut_le i j : i <= j -> cut i <= cut j.
Proof. induction 1; [lia|]. pose proof (cut_mono m). lia. Qed.
Lemma split_loop_ok c : forall i, i + c <= k ->
  split_loop L k c (S i) (cut i) =
  (filter nonempty (map (fun t => slice (cut t) (cut (S t)) L) (seq i c)), cut (i + c)).
Proof.
  induction c as [|c IH]; intros i Hi; cbn [split_loop].
  - rewrite Nat.add_0_r. reflexivity.
  - fold (cut (S i)). rewrite <- Nat.add_succ_comm. specialize (IH (S i) ltac:(lia)). cbn [seq map filter].
    assert (Hle : cut (S i) <= N) by (rewrite <- cut_k; apply cut_le; lia).
    pose proof (slice_length (cut i) (cut (S i)) L (cut_mono i) Hle) as Hlen.
    destruct (Nat.eqb_spec (cut (S i)) (cut i)) as [He|He].
    + rewrite <- He at 1. rewrite IH. destruct (slice (cut i) (cut (S i)) L); [reflexivity|]. simpl in Hlen. lia.
    + rewrite IH. destruct (slice (cut i) (cut (S i)) L) eqn:Es; [simpl in Hlen; pose proof (cut_mono i); lia|]. reflexivity.
Qed.
Lemma skipn_slice_end i : i <= N -> slice i N L = skipn i L.
Proof. intros H. unfold slice. apply firstn_all2. rewrite skipn_length. lia. Qed.
Lemma split_evenly_slices :
  split_evenly (Z.of_nat k) L = filter nonempty (map (fun t => slice (cut t) (cut (S t)) L) (seq 0 k)).
Proof.
  unfold split_evenly. destruct (Nat.eqb_spec N 0); [lia|]. destruct (Z.leb_spec (Z.of_nat k) 1); [lia|].
  rewrite Nat2Z.id. pose proof (split_loop_ok (k - 1) 0 ltac:(lia)) as Hl. rewrite cut_0 in Hl. rewrite Hl. clear Hl.
  replace k with (S (k - 1)) at 4 by lia. rewrite seq_S, map_app, filter_app. f_equal. simpl seq. cbn [map filter].
  replace (0 + (k - 1)) with (k - 1) by lia. replace (S (k - 1)) with k by lia. rewrite cut_k.
  assert (Hle : cut (k - 1) <= N) by (rewrite <- cut_k; apply cut_le; lia).
  rewrite skipn_slice_end by assumption.
  destruct (Nat.eqb_spec (cut (k - 1)) N) as [He|He].
  - rewrite He. rewrite skipn_all. reflexivity.
  - destruct (skipn (cut (k - 1)) L) eqn:Es; [|reflexivity]. assert (N - cut (k - 1) = 0) by (rewrite <- skipn_length, Es; reflexivity). lia.
Qed.
Lemma split_concat : List.concat (split_evenly (Z.of_nat k) L) = L.
Proof.
  rewrite split_evenly_slices, concat_filter_nonempty, (concat_slices cut L cut_0 cut_mono), cut_k. apply firstn_all.
Qed.
Lemma split_size ch : In ch (split_evenly (Z.of_nat k) L) -> 1 <= List.length ch /\ N / k <= List.length ch <= cdiv N k.
Proof.
  rewrite split_evenly_slices. intros H. apply filter_In in H as [H Hne]. apply in_map_iff in H as (t & <- & Ht). apply in_seq in Ht.
  assert (Hle : cut (S t) <= N) by (rewrite <- cut_k; apply cut_le; lia).
  pose proof (slice_length (cut t) (cut (S t)) L (cut_mono t) Hle) as Hlen. pose proof (cut_step t).
  destruct (slice (cut t) (cut (S t)) L); [discriminate|]. simpl in Hlen |- *. lia.
Qed.
Lemma split_count : k <= N -> List.length (split_evenly (Z.of_nat k) L) = k.
Proof.
  intros Hkn. rewrite split_evenly_slices. rewrite filter_all; [rewrite map_length, seq_length; reflexivity|].
  apply forallb_forall. intros ch H. apply in_map_iff in H as (t & <- & Ht). apply in_seq in Ht.
  assert (Hle : cut (S t) <= N) by (rewrite <- cut_k; apply cut_le; lia).
  pose proof (slice_length (cut t) (cut (S t)) L (cut_mono t) Hle) as Hlen. pose proof (cut_step t).
  assert (1 <= N / k) by (apply Nat.div_le_lower_bound; lia).
  destruct (slice (cut t) (cut (S t)) L); [simpl in Hlen; lia|reflexivity].
Qed.
End Split.
