(** * Mathematics of breadth-first search on a finite boolean relation *)
From Verif Require Import Base BaseProofs Model_Graph Model_Keys Spec.

Section B.
Variable n : nat.
Variable E : nat -> nat -> bool.
Variable S0 : nat -> bool.
Hypothesis Eb : forall a b, E a b = true -> a < n /\ b < n.
Hypothesis Sb : forall a, S0 a = true -> a < n.

(** j is the end of a walk of exactly d steps from a start node *)
Fixpoint wb (d j : nat) : bool :=
  match d with
  | O => S0 j
  | S d' => existsb (fun k => wb d' k && E k j) (seq 0 n)
  end.
Definition seen (d j : nat) : bool := existsb (fun d' => wb d' j) (seq 0 d).
Definition fresh (d j : nat) : bool := wb d j && negb (seen d j).
Fixpoint lev (d j : nat) : option Z :=
  match d with
  | O => None
  | S d' => match lev d' j with Some x => Some x | None => if wb d' j then Some (Z.of_nat d') else None end
  end.

Definition Er (a b : nat) : Prop := E a b = true.
Lemma existsb_seq (p : nat -> bool) m : existsb p (seq 0 m) = true <-> exists k, k < m /\ p k = true.
Proof.
  rewrite existsb_exists. split.
  - intros (x & H & Hp). apply in_seq in H. exists x. split; [lia|assumption].
  - intros (x & H & Hp). exists x. split; [apply in_seq; lia|assumption].
Qed.
Lemma wb_lt d j : wb d j = true -> j < n.
Proof.
  destruct d; simpl; [apply Sb|]. intros H. apply existsb_seq in H as (k & _ & H).
  apply andb_true_iff in H as [_ H]. apply Eb in H. tauto.
Qed.
Lemma wb_S d j : wb (S d) j = true <-> exists k, wb d k = true /\ E k j = true.
Proof.
  simpl. rewrite existsb_seq. split.
  - intros (k & _ & H). apply andb_true_iff in H. eauto.
  - intros (k & H1 & H2). exists k. split; [eapply wb_lt; eassumption|]. rewrite H1, H2. reflexivity.
Qed.
Lemma wb_walk d j : wb d j = true <-> exists i, S0 i = true /\ walk Er i d j.
Proof.
  revert j. induction d as [|d IH]; intros j.
  - simpl. split; [intros H; exists j; split; [assumption|constructor]|].
    intros (i & Hi & H). inversion H; subst. assumption.
  - rewrite wb_S. split.
    + intros (k & Hk & HE). apply IH in Hk as (i & Hi & Hw). exists i. split; [assumption|]. econstructor; eassumption.
    + intros (i & Hi & H). inversion H as [|? y z Hw HE]; subst. exists y. split; [|assumption]. apply IH. eauto.
Qed.
Lemma seen_true d j : seen d j = true <-> exists d', d' < d /\ wb d' j = true.
Proof. apply existsb_seq. Qed.
Lemma seen_S d j : seen (S d) j = seen d j || wb d j.
Proof.
  unfold seen. rewrite seq_snoc, existsb_app. simpl. rewrite orb_false_r. reflexivity.
Qed.
Lemma seen_S_fresh d j : seen (S d) j = seen d j || fresh d j.
Proof. rewrite seen_S. unfold fresh. destruct (seen d j), (wb d j); reflexivity. Qed.
Lemma seen_mono d d' j : d <= d' -> seen d j = true -> seen d' j = true.
Proof. intros H Hs. apply seen_true in Hs as (x & Hx & Hw). apply seen_true. exists x. split; [lia|assumption]. Qed.
Lemma seen_lt d j : seen d j = true -> j < n.
Proof. intros H. apply seen_true in H as (x & _ & H). eapply wb_lt; eassumption. Qed.
Lemma fresh_lt d j : fresh d j = true -> j < n.
Proof. intros H. apply andb_true_iff in H as [H _]. eapply wb_lt; eassumption. Qed.
Lemma fresh_step d j : fresh (S d) j = negb (seen (S d) j) && existsb (fun k => fresh d k && E k j) (seq 0 n).
Proof.
  unfold fresh at 1. rewrite andb_comm. destruct (seen (S d) j) eqn:Es; [reflexivity|]. simpl negb. cbv iota.
  rewrite !andb_true_l.
  destruct (wb (S d) j) eqn:Ew.
  - symmetry. apply wb_S in Ew as (k & Hk & HE). apply existsb_seq. exists k. split; [eapply wb_lt; eassumption|].
    rewrite HE, andb_true_r. unfold fresh. rewrite Hk. destruct (seen d k) eqn:Ek; [|reflexivity].
    exfalso. apply seen_true in Ek as (x & Hx & Hw).
    assert (seen (S d) j = true); [|congruence]. apply seen_true. exists (S x). split; [lia|]. apply wb_S. eauto.
  - symmetry. apply not_true_is_false. intros H. apply existsb_seq in H as (k & _ & H).
    apply andb_true_iff in H as [H HE]. unfold fresh in H. apply andb_true_iff in H as [H _].
    assert (wb (S d) j = true) by (apply wb_S; eauto). congruence.
Qed.
Lemma fresh_stop d : (forall j, fresh d j = false) -> forall d', d <= d' -> forall j, fresh d' j = false.
Proof.
  intros H. induction 1; [assumption|]. intros j. rewrite fresh_step.
  apply andb_false_iff. right. apply not_true_is_false. intros Hx. apply existsb_seq in Hx as (k & _ & Hx).
  rewrite IHle in Hx. discriminate.
Qed.
Lemma seen_stop d : (forall j, fresh d j = false) -> forall d', d <= d' -> forall j, seen d' j = seen d j.
Proof.
  intros H. induction 1; [reflexivity|]. intros j. rewrite seen_S_fresh, (fresh_stop d H m H0), orb_false_r. apply IHle.
Qed.
Lemma fresh_dec d : (forall j, fresh d j = false) \/ exists j, fresh d j = true.
Proof.
  destruct (existsb (fresh d) (seq 0 n)) eqn:Ex.
  - right. apply existsb_seq in Ex as (k & _ & H). eauto.
  - left. intros j. apply not_true_is_false. intros H.
    assert (existsb (fresh d) (seq 0 n) = true); [|congruence]. apply existsb_seq. exists j. split; [eapply fresh_lt; eassumption|assumption].
Qed.
Lemma seen_cnt d : (exists j, fresh d j = true) -> S d <= cnt n (seen (S d)).
Proof.
  induction d as [|d IH]; intros [j Hj].
  - assert (0 < cnt n (seen 1)); [|lia]. apply cnt_pos. exists j. split; [eapply fresh_lt; eassumption|].
    rewrite seen_S_fresh, Hj. apply orb_true_r.
  - assert (H : exists j, fresh d j = true).
    { destruct (fresh_dec d) as [H|H]; [|assumption]. rewrite (fresh_stop d H (S d)) in Hj by lia. discriminate. }
    specialize (IH H).
    assert (cnt n (seen (S d)) < cnt n (seen (S (S d)))); [|lia].
    apply cnt_strict with (k := j).
    + intros i _ Hi. eapply seen_mono; [|exact Hi]. lia.
    + eapply fresh_lt; eassumption.
    + unfold fresh in Hj. apply andb_true_iff in Hj as [_ Hj]. apply negb_true_iff in Hj. assumption.
    + rewrite seen_S_fresh, Hj. apply orb_true_r.
Qed.
Lemma fresh_bound d j : fresh d j = true -> d < n.
Proof.
  intros H. assert (S d <= cnt n (seen (S d))) by (apply seen_cnt; eauto).
  pose proof (cnt_le_n n (seen (S d))). lia.
Qed.
Lemma fresh_n d : n <= d -> forall j, fresh d j = false.
Proof. intros H j. apply not_true_is_false. intros Hf. apply fresh_bound in Hf. lia. Qed.
Lemma seen_n d j : n <= d -> seen d j = seen n j.
Proof. intros H. apply seen_stop; [|assumption]. apply fresh_n. lia. Qed.
(** minimal steps *)
Lemma fresh_dist d j : fresh d j = true <-> dist_from Er (fun i => S0 i = true) j d.
Proof.
  unfold fresh, dist_from. rewrite andb_true_iff, negb_true_iff. split.
  - intros [H1 H2]. split; [apply wb_walk; assumption|].
    intros i d' Hi Hw. destruct (Nat.le_gt_cases d d'); [assumption|].
    assert (seen d j = true); [|congruence]. apply seen_true. exists d'. split; [assumption|]. apply wb_walk. eauto.
  - intros [H1 H2]. split; [apply wb_walk; assumption|]. apply not_true_is_false. intros H.
    apply seen_true in H as (d' & Hd & Hw). apply wb_walk in Hw as (i & Hi & Hw). specialize (H2 i d' Hi Hw). lia.
Qed.
Lemma wb_fresh d j : wb d j = true -> exists d', d' <= d /\ fresh d' j = true.
Proof.
  induction d as [d IH] using lt_wf_ind. intros H. destruct (seen d j) eqn:Es.
  - apply seen_true in Es as (x & Hx & Hw). destruct (IH x Hx Hw) as (y & Hy & Hf). exists y. split; [lia|assumption].
  - exists d. split; [lia|]. unfold fresh. rewrite H, Es. reflexivity.
Qed.
Lemma seen_fresh d j : seen d j = true <-> exists d', d' < d /\ fresh d' j = true.
Proof.
  rewrite seen_true. split.
  - intros (x & Hx & Hw). apply wb_fresh in Hw as (y & Hy & Hf). exists y. split; [lia|assumption].
  - intros (x & Hx & Hf). apply andb_true_iff in Hf as [Hf _]. eauto.
Qed.
Lemma seen_reach j : seen n j = true <-> exists i, S0 i = true /\ reach Er i j.
Proof.
  split.
  - intros H. apply seen_true in H as (d & _ & H). apply wb_walk in H as (i & Hi & H). exists i. split; [assumption|]. exists d. assumption.
  - intros (i & Hi & d & H). assert (Hw : wb d j = true) by (apply wb_walk; eauto).
    apply wb_fresh in Hw as (d' & _ & Hf). apply seen_fresh. exists d'. split; [eapply fresh_bound; eassumption|assumption].
Qed.
Lemma has_lev d j : has (lev d j) = seen d j.
Proof.
  induction d; [reflexivity|]. rewrite seen_S. simpl. rewrite <- IHd. destruct (lev d j); [reflexivity|]. simpl.
  destruct (wb d j); reflexivity.
Qed.
Lemma lev_some d j x : lev d j = Some x <-> exists d', d' < d /\ x = Z.of_nat d' /\ fresh d' j = true.
Proof.
  induction d as [|d IH]; simpl.
  - split; [discriminate|intros (? & ? & _); lia].
  - destruct (lev d j) as [y|] eqn:El.
    + rewrite IH. split.
      * intros (d' & H & H'). exists d'. split; [lia|assumption].
      * intros (d' & H & Hx & Hf). destruct (Nat.eq_dec d' d) as [->|Hne]; [|exists d'; split; [lia|auto]].
        exfalso. apply andb_true_iff in Hf as [_ Hf]. rewrite <- has_lev, El in Hf. discriminate.
    + destruct (wb d j) eqn:Ew.
      * split.
        -- intros [= <-]. exists d. split; [lia|]. split; [reflexivity|]. unfold fresh. rewrite Ew, <- has_lev, El. reflexivity.
        -- intros (d' & H & Hx & Hf). destruct (Nat.eq_dec d' d) as [->|Hne]; [congruence|].
           assert (None = Some x) by (apply IH; exists d'; split; [lia|auto]). discriminate.
      * split; [discriminate|]. intros (d' & H & Hx & Hf). destruct (Nat.eq_dec d' d) as [->|Hne].
        -- unfold fresh in Hf. rewrite Ew in Hf. discriminate.
        -- apply IH. exists d'. split; [lia|auto].
Qed.
Lemma lev_S d j : lev (S d) j = if fresh d j then Some (Z.of_nat d) else lev d j.
Proof.
  simpl. unfold fresh. rewrite <- has_lev. destruct (lev d j); simpl.
  - rewrite andb_false_r. reflexivity.
  - rewrite andb_true_r. reflexivity.
Qed.
Lemma lev_stop d : (forall j, fresh d j = false) -> forall d', d <= d' -> forall j, lev d' j = lev d j.
Proof.
  intros H. induction 1; [reflexivity|]. intros j. rewrite lev_S, (fresh_stop d H m H0). apply IHle.
Qed.
Lemma lev_n d j : n <= d -> lev d j = lev n j.
Proof. intros H. apply lev_stop; [|assumption]. apply fresh_n. lia. Qed.
End B.
