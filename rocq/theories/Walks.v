(** * Walks as functions, pigeonhole, sinks of finite acyclic relations (mathematics only) *)
From Verif Require Import Base BaseProofs Model_Graph Model_Keys Spec BfsProofs.

Lemma pigeonhole n : forall f : nat -> nat, (forall k, k <= n -> f k < n) -> exists i j, i < j /\ j <= n /\ f i = f j.
Proof.
  intros f Hf.
  destruct (existsb (fun j => existsb (fun i => f i =? f j) (seq 0 j)) (seq 0 (S n))) eqn:Ex.
  - apply existsb_exists in Ex as (j & Hj & Ex). apply existsb_exists in Ex as (i & Hi & Ex).
    apply in_seq in Hj, Hi. apply Nat.eqb_eq in Ex. exists i, j. repeat split; try assumption; lia.
  - exfalso.
    assert (Hinj : forall i j, i < j -> j <= n -> f i <> f j).
    { intros i j Hij Hj Hf'. assert (existsb (fun j => existsb (fun i => f i =? f j) (seq 0 j)) (seq 0 (S n)) = true); [|congruence].
      apply existsb_exists. exists j. split; [apply in_seq; lia|]. apply existsb_exists. exists i. split; [apply in_seq; lia|].
      apply Nat.eqb_eq. assumption. }
    assert (ND : NoDup (map f (seq 0 (S n)))).
    { assert (forall a m, a + m <= S n -> NoDup (map f (seq a m))) as H; [|apply H; lia].
      intros a m. revert a. induction m as [|m IH]; intros a Ha; simpl; constructor.
      - rewrite in_map_iff. intros (k & Hk & Hin). apply in_seq in Hin. apply (Hinj a k); [lia|lia|congruence].
      - apply IH. lia. }
    assert (Hi : incl (map f (seq 0 (S n))) (seq 0 n)).
    { intros y Hy. apply in_map_iff in Hy as (k & <- & Hk). apply in_seq in Hk. apply in_seq. pose proof (Hf k). lia. }
    pose proof (NoDup_incl_length ND Hi) as Hl. rewrite map_length, !seq_length in Hl. lia.
Qed.
Lemma walk_mono {X} (E F : X -> X -> Prop) x d y : (forall a b, E a b -> F a b) -> walk E x d y -> walk F x d y.
Proof. intros H. induction 1; econstructor; eauto. Qed.
(** a walk visits d + 1 points *)
Lemma walk_fun {X} (E : X -> X -> Prop) x d y : walk E x d y ->
  exists f, f 0 = x /\ f d = y /\ forall k, k < d -> E (f k) (f (S k)).
Proof.
  induction 1 as [|d y z _ (f & H0 & Hd & Hf) HE].
  - exists (fun _ => x). repeat split; intros; lia.
  - exists (fun k => if k <=? d then f k else z). split; [assumption|]. split.
    + destruct (Nat.leb_spec (S d) d); [lia|reflexivity].
    + intros k Hk. destruct (Nat.leb_spec k d); [|lia]. destruct (Nat.leb_spec (S k) d).
      * apply Hf. lia.
      * assert (k = d) by lia. subst. assumption.
Qed.
Lemma fun_walk {X} (E : X -> X -> Prop) (f : nat -> X) d : (forall k, k < d -> E (f k) (f (S k))) ->
  forall i j, i <= j -> j <= d -> walk E (f i) (j - i) (f j).
Proof.
  intros Hf i j Hij. induction Hij as [|j Hij IH]; intros Hj.
  - rewrite Nat.sub_diag. constructor.
  - replace (S j - i) with (S (j - i)) by lia. econstructor; [apply IH; lia|]. apply Hf. lia.
Qed.
(** ** acyclic relations *)
Definition acyclic {X} (E : X -> X -> Prop) : Prop := forall x d, ~ walk E x (S d) x.
Lemma acyclic_bound n (E : nat -> nat -> Prop) : (forall a b, E a b -> a < n /\ b < n) -> acyclic E ->
  forall x d y, walk E x d y -> d < n \/ d = 0.
Proof.
  intros Hb Ha x d y H. destruct d as [|d]; [right; reflexivity|left]. destruct (Nat.lt_ge_cases (S d) n) as [|Hn]; [assumption|exfalso].
  destruct (walk_fun _ _ _ _ H) as (f & H0 & Hd & Hf).
  destruct (pigeonhole n f) as (i & j & Hij & Hj & E').
  { intros k Hk. destruct k as [|k]; [apply (proj1 (Hb _ _ (Hf 0 ltac:(lia))))|]. apply (Hb _ _ (Hf k ltac:(lia))). }
  pose proof (fun_walk E f (S d) Hf i j ltac:(lia) ltac:(lia)) as Hw. rewrite E' in Hw. replace (j - i) with (S (j - i - 1)) in Hw by lia.
  eapply Ha; eassumption.
Qed.
(** every non-empty finite set has a sink *)
Lemma sink_exists n (E : nat -> nat -> bool) (S : nat -> bool) : acyclic (fun a b => E a b = true) ->
  (forall a, S a = true -> a < n) -> (exists x, S x = true) ->
  exists x, S x = true /\ forall y, S y = true -> E x y = false.
Proof.
  intros Ha HS [x0 Hx0].
  set (sink := fun x => S x && negb (existsb (fun y => S y && E x y) (seq 0 n))).
  assert (sink_ok : forall x, sink x = true -> S x = true /\ forall y, S y = true -> E x y = false).
  { intros x Hx. unfold sink in Hx. apply andb_true_iff in Hx as [H1 H2]. split; [assumption|]. intros y Hy.
    apply negb_true_iff in H2. destruct (E x y) eqn:Exy; [|reflexivity].
    assert (existsb (fun y => S y && E x y) (seq 0 n) = true); [|congruence].
    apply existsb_exists. exists y. split; [apply in_seq; pose proof (HS y Hy); lia|]. rewrite Hy, Exy. reflexivity. }
  assert (step : (exists x, sink x = true) \/ forall x, S x = true -> exists y, S y = true /\ E x y = true).
  { destruct (existsb sink (seq 0 n)) eqn:Es.
    - left. apply existsb_exists in Es as (x & _ & Hx). eauto.
    - right. intros x Hx. destruct (existsb (fun y => S y && E x y) (seq 0 n)) eqn:Ey.
      + apply existsb_exists in Ey as (y & _ & Hy). apply andb_true_iff in Hy. eauto.
      + assert (existsb sink (seq 0 n) = true); [|congruence]. apply existsb_exists. exists x.
        split; [apply in_seq; pose proof (HS x Hx); lia|]. unfold sink. rewrite Hx, Ey. reflexivity. }
  destruct step as [[x Hx]|step]; [exists x; apply sink_ok; assumption|exfalso].
  assert (L : forall d, exists y, walk (fun a b => S a = true /\ S b = true /\ E a b = true) x0 d y /\ S y = true).
  { induction d as [|d (y & Hy & Sy)]; [exists x0; split; [constructor|assumption]|].
    destruct (step y Sy) as (z & Hz & Eyz). exists z. split; [|assumption]. econstructor; [exact Hy|]. auto. }
  destruct (L (Datatypes.S n)) as (y & Hw & _). apply (acyclic_bound n) in Hw.
  - destruct Hw; lia.
  - intros a b (H1 & H2 & _). split; apply HS; assumption.
  - intros x d Hc. apply (Ha x d). eapply walk_mono; [|exact Hc]. simpl. tauto.
Qed.
