(** * The BFS loops compute what [Bfs] says *)
From Verif Require Import Base BaseProofs Model_Graph Model_Cache Spec_Cache CacheMath CacheProofs CacheProofs2
  Model_Keys Spec KeyProofs Model_Bfs Bfs.

(** dropping self-edges changes neither distances nor reachability *)
Section Off.
Context {X : Type} (Xdec : forall a b : X, {a = b} + {a <> b}).
Variables F F' : X -> X -> Prop.
Hypothesis HF : forall a b, F' a b <-> F a b /\ a <> b.
Lemma walk_off_sub x d y : walk F' x d y -> walk F x d y.
Proof. induction 1; [constructor|]. econstructor; [eassumption|]. apply HF. assumption. Qed.
Lemma walk_off x d y : walk F x d y -> exists d', d' <= d /\ walk F' x d' y.
Proof.
  induction 1 as [|d y z H (d' & Hd & Hw) HE]; [exists 0; split; [lia|constructor]|].
  destruct (Xdec y z) as [->|Hne]; [exists d'; split; [lia|assumption]|].
  exists (S d'). split; [lia|]. econstructor; [eassumption|]. apply HF. auto.
Qed.
Lemma reach_off x y : reach F' x y <-> reach F x y.
Proof.
  split; intros [d H].
  - exists d. apply walk_off_sub. assumption.
  - apply walk_off in H as (d' & _ & H). exists d'. assumption.
Qed.
Lemma dist_from_off S y d : dist_from F' S y d <-> dist_from F S y d.
Proof.
  split; intros [(x & Hx & Hw) Hm].
  - split; [exists x; split; [assumption|apply walk_off_sub; assumption]|].
    intros x' d' Hx' Hw'. apply walk_off in Hw' as (d2 & Hd2 & Hw'). specialize (Hm _ _ Hx' Hw'). lia.
  - split.
    + apply walk_off in Hw as (d2 & Hd2 & Hw'). assert (d <= d2) by (apply (Hm x); [assumption|apply walk_off_sub; assumption]).
      assert (d2 = d) by lia. subst. eauto.
    + intros x' d' Hx' Hw'. apply (Hm x'); [assumption|apply walk_off_sub; assumption].
Qed.
Lemma dist_off x y d : dist F' x y d <-> dist F x y d.
Proof.
  pose proof (dist_from_off (fun z => z = x) y d) as H. unfold dist_from in H. unfold dist.
  split; intros [H1 H2].
  - destruct (proj1 H) as [(x' & -> & A1) A2].
    + split; [eauto|]. intros ? ? -> ?. auto.
    + split; [assumption|]. intros d' Hd'. apply (A2 x); auto.
  - destruct (proj2 H) as [(x' & -> & A1) A2].
    + split; [eauto|]. intros ? ? -> ?. auto.
    + split; [assumption|]. intros d' Hd'. apply (A2 x); auto.
Qed.
End Off.
Lemma walk_iff {X} (E F : X -> X -> Prop) x d y : (forall a b, E a b <-> F a b) -> walk E x d y -> walk F x d y.
Proof. intros H. induction 1; [constructor|]. econstructor; [eassumption|]. apply H. assumption. Qed.
Lemma dist_from_ext {X} (E F : X -> X -> Prop) (S T : X -> Prop) y d :
  (forall a b, E a b <-> F a b) -> (forall a, S a <-> T a) -> (dist_from E S y d <-> dist_from F T y d).
Proof.
  intros H HS. assert (H' : forall a b, F a b <-> E a b) by (intros; symmetry; apply H).
  split; intros [(x & Hx & Hw) Hm].
  - split; [exists x; split; [apply HS; assumption|eapply walk_iff; eassumption]|].
    intros x' d' Hx' Hw'. apply (Hm x'); [apply HS; assumption|eapply walk_iff; eassumption].
  - split; [exists x; split; [apply HS; assumption|eapply walk_iff; eassumption]|].
    intros x' d' Hx' Hw'. apply (Hm x'); [apply HS; assumption|eapply walk_iff; eassumption].
Qed.
Lemma dist_from_single {X} (E : X -> X -> Prop) x y d : dist_from E (fun z => z = x) y d <-> dist E x y d.
Proof.
  unfold dist_from, dist. split.
  - intros [(x' & -> & H) Hm]. split; [assumption|]. intros d' Hd'. apply (Hm x); auto.
  - intros [H Hm]. split; [eauto|]. intros x' d' -> Hw. auto.
Qed.
Lemma dist_ext {X} (E F : X -> X -> Prop) x y d : (forall a b, E a b <-> F a b) -> (dist E x y d <-> dist F x y d).
Proof. intros H. rewrite <- !dist_from_single. apply dist_from_ext; [assumption|reflexivity]. Qed.
Lemma reach_ext {X} (E F : X -> X -> Prop) x y : (forall a b, E a b <-> F a b) -> (reach E x y <-> reach F x y).
Proof.
  intros H. split; intros [d Hd]; exists d; eapply walk_iff; try eassumption. intros; symmetry; apply H.
Qed.
Lemma walk_trans {X} (E : X -> X -> Prop) x y z d d' : walk E x d y -> walk E y d' z -> walk E x (d + d') z.
Proof.
  intros H. induction 1; [rewrite Nat.add_0_r; assumption|]. rewrite Nat.add_succ_r. econstructor; eassumption.
Qed.
Lemma walk_cons {X} (E : X -> X -> Prop) x y z d : E x y -> walk E y d z -> walk E x (S d) z.
Proof. intros H Hw. change (S d) with (1 + d). eapply walk_trans; [|exact Hw]. econstructor; [constructor|assumption]. Qed.
Lemma walk_rev {X} (E : X -> X -> Prop) x d y : walk E x d y -> walk (rev E) y d x.
Proof. induction 1; [constructor|]. eapply walk_cons; [|eassumption]. assumption. Qed.
Lemma reach_rev {X} (E : X -> X -> Prop) x y : reach (rev E) y x <-> reach E x y.
Proof.
  split; intros [d H]; exists d; apply walk_rev in H; [|assumption].
  eapply walk_iff; [|exact H]. unfold rev. reflexivity.
Qed.
Lemma reach_refl {X} (E : X -> X -> Prop) x : reach E x x. Proof. exists 0. constructor. Qed.
Lemma reach_trans {X} (E : X -> X -> Prop) x y z : reach E x y -> reach E y z -> reach E x z.
Proof. intros [d H] [d' H']. exists (d + d'). eapply walk_trans; eassumption. Qed.
Lemma walk_uncons {X} (E : X -> X -> Prop) x z d : walk E x (S d) z -> exists y, E x y /\ walk E y d z.
Proof.
  revert z. induction d as [|d IH]; intros z H; inversion H as [|? y ? Hw HE]; subst.
  - inversion Hw; subst. exists z. split; [assumption|constructor].
  - apply IH in Hw as (x' & H1 & H2). exists x'. split; [assumption|]. econstructor; eassumption.
Qed.

Section L.
Variable A : mat Z.
Notation n := (nrows A).
Hypothesis Aw : mwf A.
Hypothesis Asq : ncols A = n.
Definition EA (i j : nat) : bool := has (mget A i j).
Lemma EA_lt a b : EA a b = true -> a < n /\ b < n.
Proof. intros H. apply has_true in H as [x H]. rewrite <- Asq at 2. eapply mget_some_lt; eassumption. Qed.
Lemma EA_out a b : n <= b -> EA a b = false.
Proof. intros H. apply not_true_is_false. intros H'. apply EA_lt in H'. lia. Qed.

Lemma has_vxm {U W} (add : W -> W -> W) (mul : U -> Z -> W) (q : vec U) j : vsize q = n ->
  has (vget (vxm add mul q A) j) = existsb (fun k => has (vget q k) && EA k j) (seq 0 n).
Proof.
  intros Hq. destruct (Nat.lt_ge_cases j n) as [Hj|Hj].
  - rewrite vget_vxm by assumption. 
    apply Bool.eq_iff_eq_true. rewrite has_ored_true, existsb_seq. split; intros (k & Hk & H); exists k; (split; [assumption|]);
      rewrite has_oboth in *; exact H.
  - rewrite vget_out by (unfold vxm; rewrite vsize_vbuild, Asq; assumption). symmetry. apply not_true_is_false. intros H.
    apply existsb_seq in H as (k & _ & H). rewrite EA_out, andb_false_r in H by assumption. discriminate.
Qed.
Lemma has_mxv {U W} (add : W -> W -> W) (mul : Z -> U -> W) (q : vec U) j : vsize q = n ->
  has (vget (mxv add mul A q) j) = existsb (fun k => has (vget q k) && EA j k) (seq 0 n).
Proof.
  intros Hq. destruct (Nat.lt_ge_cases j n) as [Hj|Hj].
  - rewrite vget_mxv by assumption. rewrite Asq.
    apply Bool.eq_iff_eq_true. rewrite has_ored_true, existsb_seq. split; intros (k & Hk & H); exists k; (split; [assumption|]);
      rewrite has_oboth in *; rewrite andb_comm; exact H.
  - rewrite vget_out by (unfold mxv; rewrite vsize_vbuild; assumption). symmetry. apply not_true_is_false. intros H.
    apply existsb_seq in H as (k & _ & H). apply andb_true_iff in H as [_ H]. apply EA_lt in H. lia.
Qed.
Lemma has_bfs_step {V} (v : vec V) q j : vsize q = n ->
  has (vget (bfs_step A v q) j) = negb (has (vget v j)) && existsb (fun k => has (vget q k) && EA k j) (seq 0 n).
Proof.
  intros Hq. unfold bfs_step. rewrite vget_vwrite, Hq. unfold mNS.
  destruct (Nat.ltb_spec j n).
  - destruct (has (vget v j)); [reflexivity|]. simpl. apply has_vxm. assumption.
  - simpl. symmetry. apply andb_false_iff. right. apply not_true_is_false. intros H1.
    apply existsb_seq in H1 as (k & _ & H1). rewrite EA_out, andb_false_r in H1 by assumption. discriminate.
Qed.
Lemma vsize_bfs_step {V} (v : vec V) q : vsize (bfs_step A v q) = vsize q.
Proof. apply vsize_vwrite. Qed.

Variable S0 : nat -> bool.
Hypothesis Sb : forall a, S0 a = true -> a < n.
Notation fresh := (fresh n EA S0).
Notation seen := (seen n EA S0).
Notation lev := (lev n EA S0).
Lemma step_fresh {V} (v : vec V) q d : vsize q = n ->
  (forall j, has (vget v j) = seen (S d) j) -> (forall j, has (vget q j) = fresh d j) ->
  forall j, has (vget (bfs_step A v q) j) = fresh (S d) j.
Proof.
  intros Hs Hv Hq j. rewrite has_bfs_step by assumption. rewrite fresh_step by (exact EA_lt || exact Sb). rewrite Hv. f_equal.
  apply existsb_ext_in. intros k _. rewrite Hq. reflexivity.
Qed.
Lemma empty_fresh {V} (q : vec V) d : (forall j, has (vget q j) = fresh d j) ->
  (nvals q =? 0) = true -> forall j, fresh d j = false.
Proof. intros H E j. apply Nat.eqb_eq in E. rewrite <- H. apply has_false. apply (proj1 (nvals_zero q) E). Qed.
Lemma assign_seen {V} (v : vec V) (q : vec bool) x d : vsize v = n ->
  (forall j, has (vget v j) = seen d j) -> (forall j, has (vget q j) = fresh d j) ->
  forall j, has (vget (vassign (mS q) x v) j) = seen (S d) j.
Proof.
  intros Hs Hv Hq j. rewrite vget_vassign, Hs, seen_S_fresh. unfold mS. rewrite Hq.
  destruct (Nat.ltb_spec j n) as [Hj|Hj].
  - destruct (fresh d j); [rewrite orb_true_r; reflexivity|rewrite orb_false_r; apply Hv].
  - simpl. symmetry. apply orb_false_iff. split; apply not_true_is_false; intros H0.
    + apply seen_lt in H0; [lia|exact EA_lt|exact Sb].
    + apply fresh_lt in H0; [lia|exact EA_lt|exact Sb].
Qed.

Lemma bfs_plain_loop_ok k : forall d (v q : vec bool), vsize v = n -> vsize q = n ->
  (forall j, has (vget v j) = seen (S d) j) -> (forall j, has (vget q j) = fresh d j) ->
  vsize (bfs_plain_loop A None k v q) = n /\
  forall j, has (vget (bfs_plain_loop A None k v q) j) = seen (S d + k) j.
Proof.
  induction k as [|k IH]; intros d v q Hsv Hsq Hv Hq.
  - simpl bfs_plain_loop. split; [assumption|]. intros j. rewrite Nat.add_0_r. apply Hv.
  - simpl bfs_plain_loop. pose proof (step_fresh v q d Hsq Hv Hq) as Hq'.
    destruct (nvals (bfs_step A v q) =? 0) eqn:E0.
    + split; [assumption|]. intros j. rewrite Hv. symmetry.
      apply seen_stop; [exact EA_lt|exact Sb| |lia]. eapply empty_fresh; eassumption.
    + replace (S d + S k) with (S (S d) + k) by lia. apply IH.
      * rewrite vsize_vassign. assumption.
      * rewrite vsize_bfs_step. assumption.
      * apply assign_seen; assumption.
      * assumption.
Qed.
(** with a target: what is returned was reached, and the target is found if it is within range *)
Lemma bfs_plain_loop_dst t k : forall d (v q : vec bool), vsize v = n -> vsize q = n ->
  (forall j, has (vget v j) = seen (S d) j) -> (forall j, has (vget q j) = fresh d j) ->
  vsize (bfs_plain_loop A (Some t) k v q) = n /\
  (exists m, m <= k /\ (forall j, has (vget (bfs_plain_loop A (Some t) k v q) j) = seen (S d + m) j)) /\
  has (vget (bfs_plain_loop A (Some t) k v q) t) = seen (S d + k) t.
Proof.
  induction k as [|k IH]; intros d v q Hsv Hsq Hv Hq.
  - simpl bfs_plain_loop. split; [assumption|]. split.
    + exists 0. split; [lia|]. intros j. rewrite Nat.add_0_r. apply Hv.
    + rewrite Nat.add_0_r. apply Hv.
  - simpl bfs_plain_loop. pose proof (step_fresh v q d Hsq Hv Hq) as Hq'.
    assert (Hv' : forall j, has (vget (vassign (mS (bfs_step A v q)) true v) j) = seen (S (S d)) j) by (apply assign_seen; assumption).
    destruct (nvals (bfs_step A v q) =? 0) eqn:E0.
    + assert (Es : forall j, seen (S d + S k) j = seen (S d) j).
      { apply seen_stop; [exact EA_lt|exact Sb| |lia]. eapply empty_fresh; eassumption. }
      split; [assumption|]. split.
      * exists 0. split; [lia|]. intros j. rewrite Nat.add_0_r. apply Hv.
      * rewrite Es. apply Hv.
    + unfold in_q. rewrite Hq'. destruct (fresh (S d) t) eqn:Ef.
      * split; [rewrite vsize_vassign; assumption|]. split.
        -- exists 1. split; [lia|]. intros j. rewrite Nat.add_1_r. apply Hv'.
        -- rewrite Hv'. rewrite seen_S_fresh, Ef, orb_true_r. symmetry. apply seen_fresh. exists (S d). split; [lia|assumption].
      * destruct (IH (S d) (vassign (mS (bfs_step A v q)) true v) (bfs_step A v q)) as (H1 & (m & Hm & H2) & H3).
        -- rewrite vsize_vassign. assumption.
        -- rewrite vsize_bfs_step. assumption.
        -- exact Hv'.
        -- exact Hq'.
        -- split; [exact H1|]. split.
           ++ exists (S m). split; [lia|]. intros j. replace (S d + S m) with (S (S d) + m) by lia. apply H2.
           ++ replace (S d + S k) with (S (S d) + k) by lia. exact H3.
Qed.

Lemma bfs_level_loop_ok k : forall d (v : vec Z) (q : vec bool), vsize v = n -> vsize q = n ->
  (forall j, vget v j = lev (S d) j) -> (forall j, has (vget q j) = fresh d j) ->
  vsize (bfs_level_loop A None k (Z.of_nat (S d)) v q) = n /\
  forall j, vget (bfs_level_loop A None k (Z.of_nat (S d)) v q) j = lev (S d + k) j.
Proof.
  induction k as [|k IH]; intros d v q Hsv Hsq Hv Hq.
  - simpl bfs_level_loop. split; [assumption|]. intros j. rewrite Nat.add_0_r. apply Hv.
  - cbn [bfs_level_loop]. 
    assert (Hv0 : forall j, has (vget v j) = seen (S d) j) by (intros; rewrite Hv; apply has_lev).
    pose proof (step_fresh v q d Hsq Hv0 Hq) as Hq'.
    destruct (nvals (bfs_step A v q) =? 0) eqn:E0.
    + split; [assumption|]. intros j. rewrite Hv. symmetry.
      apply lev_stop; [exact EA_lt|exact Sb| |lia]. eapply empty_fresh; eassumption.
    + replace (Z.of_nat (S d) + 1)%Z with (Z.of_nat (S (S d))) by lia. replace (S d + S k) with (S (S d) + k) by lia.
      unfold in_q. apply IH.
      * rewrite vsize_vassign. assumption.
      * rewrite vsize_bfs_step. assumption.
      * intros j. rewrite vget_vassign, Hsv, (lev_S _ _ _ (S d)). unfold mS. rewrite Hq', Hv.
        destruct (Nat.ltb_spec j n) as [Hj|Hj]; [reflexivity|].
        assert (Hf : fresh (S d) j = false).
        { apply not_true_is_false. intros H0. apply fresh_lt in H0; [lia|exact EA_lt|exact Sb]. }
        rewrite Hf. symmetry. apply has_false. rewrite has_lev. apply not_true_is_false. intros H0. apply seen_lt in H0; [lia|exact EA_lt|exact Sb].
      * assumption.
Qed.
(** with a target: the target's level is the same as without *)
Lemma bfs_level_loop_dst t k : forall d (v : vec Z) (q : vec bool), vsize v = n -> vsize q = n ->
  (forall j, vget v j = lev (S d) j) -> (forall j, has (vget q j) = fresh d j) ->
  vget (bfs_level_loop A (Some t) k (Z.of_nat (S d)) v q) t = lev (S d + k) t.
Proof.
  induction k as [|k IH]; intros d v q Hsv Hsq Hv Hq.
  - simpl bfs_level_loop. rewrite Nat.add_0_r. apply Hv.
  - cbn [bfs_level_loop]. 
    assert (Hv0 : forall j, has (vget v j) = seen (S d) j) by (intros; rewrite Hv; apply has_lev).
    pose proof (step_fresh v q d Hsq Hv0 Hq) as Hq'.
    destruct (nvals (bfs_step A v q) =? 0) eqn:E0.
    + rewrite Hv. symmetry.
      apply lev_stop; [exact EA_lt|exact Sb| |lia]. eapply empty_fresh; eassumption.
    + assert (Hv' : forall j, vget (vassign (mS (bfs_step A v q)) (Z.of_nat (S d)) v) j = lev (S (S d)) j).
      { intros j. rewrite vget_vassign, Hsv, (lev_S _ _ _ (S d)). unfold mS. rewrite Hq', Hv.
        destruct (Nat.ltb_spec j n) as [Hj|Hj]; [reflexivity|].
        assert (Hf : fresh (S d) j = false).
        { apply not_true_is_false. intros H0. apply fresh_lt in H0; [lia|exact EA_lt|exact Sb]. }
        rewrite Hf. symmetry. apply has_false. rewrite has_lev. apply not_true_is_false. intros H0. apply seen_lt in H0; [lia|exact EA_lt|exact Sb]. }
      unfold in_q. rewrite Hq'. destruct (fresh (S d) t) eqn:Ef.
      * rewrite Hv'. rewrite lev_S, Ef. symmetry. apply lev_some. exists (S d). split; [lia|]. auto.
      * replace (Z.of_nat (S d) + 1)%Z with (Z.of_nat (S (S d))) by lia. replace (S d + S k) with (S (S d) + k) by lia.
        apply IH; try assumption.
        -- rewrite vsize_vassign. assumption.
        -- rewrite vsize_bfs_step. assumption.
Qed.
End L.

(** the number of levels the loop can see *)
Definition horizon (n : nat) (cutoff : option Z) : nat := S (range1 (get_cutoff n cutoff)).
Lemma horizon_within n cutoff d : d < n -> (d < horizon n cutoff <-> within cutoff d).
Proof.
  intros Hd. unfold horizon, within, range1, get_cutoff. destruct cutoff as [c|].
  - destruct (Z.geb_spec c (Z.of_nat n)); lia.
  - split; [auto|]. intros _. lia.
Qed.
