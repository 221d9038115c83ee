(** * Using the single-call theorems inside laws *)
From Verif Require Import Base BaseProofs Model_Graph Model_Cache Spec_Cache Spec_Run Spec_Session Spec_Laws Model_Keys Spec RunProofs BfsProofs BfsProofs3 KeyProofs Spec_Weighted WeightedMath Spec_Count CountProofs OperatorProofs Props_Bfs Props_Dense Props_Session.
Open Scope nat_scope.

Lemma seen_ans G (wf : gwf G) X (m : M X) o R : seen G m o -> Spec_Run.answers G m R -> R o.
Proof. intros (mhr & s & Hs & <-) H. apply (C69_algorithms G wf mhr s X m R Hs H). Qed.
Lemma seen_ndok_ans G (wf : gwf G) X (m : M X) o R : seen_nd G m o -> answers_ndok G m R -> R o.
Proof. intros (mhr & s & Hs & Hn & <-) H. apply H; [apply (C69_sessions G wf mhr s Hs)|assumption]. Qed.
Lemma seen_td_ans G (wf : gwf G) X (m : M X) o R : seen G m o -> answers_td G m R -> R o.
Proof. intros (mhr & s & Hs & <-) H. apply H. apply InvF_weak. apply (C69_sessions G wf mhr s Hs). Qed.
Lemma seen_new G X (m : M X) : seen G m (fst (m st0)).
Proof. exists false, st0. split; [constructor|reflexivity]. Qed.
Lemma seen_nd_new G X (m : M X) : nd_ok G st0 -> seen_nd G m (fst (m st0)).
Proof. intros H. exists false, st0. split; [constructor|]. split; [assumption|reflexivity]. Qed.
Lemma seen_val G X (m : M X) r : fst (m st0) = Val r -> seen G m (Val r).
Proof. intros <-. apply seen_new. Qed.
(** after an earlier call *)
Lemma seen_after G X Y (m0 : M Y) (m : M X) r : public G Y m0 -> fst (m (snd (m0 st0))) = r -> seen G m r.
Proof. intros H <-. exists false, (snd (m0 st0)). split; [|reflexivity]. apply R_call with (m := m0); [constructor|assumption]. Qed.

(** ** walks counted by unit weights *)
Lemma unit_walk G u d w v : wwalk (eweight false G) u d w v -> w = Z.of_nat d /\ walk (edge G) u d v.
Proof.
  induction 1 as [|d w y x z Hw IH He]; [split; [reflexivity|constructor]|]. destruct IH as [-> IH].
  unfold eweight in He. destruct (weight G y z) as [e|] eqn:E; [|discriminate]. injection He as <-. split; [lia|].
  econstructor; [exact IH|]. exists e. assumption.
Qed.
Lemma walk_unit G u d v : walk (edge G) u d v -> wwalk (eweight false G) u d (Z.of_nat d) v.
Proof.
  induction 1 as [|d y z Hw IH [e He]]; [constructor|]. replace (Z.of_nat (S d)) with (Z.of_nat d + 1)%Z by lia.
  econstructor; [exact IH|]. unfold eweight. rewrite He. reflexivity.
Qed.
Lemma unit_shortest G u v x : shortest (eweight false G) u v x <-> exists d, x = Z.of_nat d /\ dist (edge G) u v d.
Proof.
  split.
  - intros [[d Hd] Hm]. destruct (unit_walk _ _ _ _ _ Hd) as [-> Hw]. exists d. split; [reflexivity|]. split; [assumption|].
    intros d' Hd'. apply walk_unit in Hd'. apply Hm in Hd'. lia.
  - intros (d & -> & Hw & Hm). split; [exists d; apply walk_unit; assumption|].
    intros d' w' Hw'. apply unit_walk in Hw' as [-> Hw']. apply Hm in Hw'. lia.
Qed.
Lemma unit_reach G u v : wreach (eweight false G) u v <-> reach (edge G) u v.
Proof.
  split; [intros (d & w & H); apply unit_walk in H as [_ H]; exists d; assumption|].
  intros [d H]. exists d, (Z.of_nat d). apply walk_unit. assumption.
Qed.
Lemma edge_dec G u v : {edge G u v} + {~ edge G u v}.
Proof. unfold edge. destruct (weight G u v) as [w|]; [left; exists w; reflexivity|right; intros [w Hw]; discriminate]. Qed.
Lemma fin_walk_dec (E : nkey -> nkey -> Prop) (l : list nkey) : (forall u v, E u v \/ ~ E u v) -> (forall u v, E u v -> In u l) ->
  forall d v u, walk E u d v \/ ~ walk E u d v.
Proof.
  intros Ed El. induction d as [|d IH]; intros v u.
  - destruct (nkey_dec u v) as [->|Ne]; [left; constructor|]. right. intros H. inversion H. subst. apply Ne. reflexivity.
  - assert (D : (exists y, In y l /\ walk E u d y /\ E y v) \/ ~ (exists y, In y l /\ walk E u d y /\ E y v)).
    { clear El. induction l as [|k l0 IHl]; [right; intros (y & [] & _)|]. destruct IHl as [(y & Hy & H)|N]; [left; exists y; split; [right; assumption|assumption]|].
      destruct (IH k u) as [Hw|Hw]; [destruct (Ed k v) as [He|He]; [left; exists k; split; [left; reflexivity|split; assumption]|]|];
        right; intros (y & [<-|Hy] & Hyw & Hye); auto; apply N; exists y; auto. }
    destruct D as [(y & _ & Hw & He)|N]; [left; econstructor; eassumption|]. right. intros H. inversion H as [|d' y z Hw He]; subst.
    apply N. exists y. split; [|split; assumption]. eapply El. exact He.
Qed.
Lemma key_walk_dec G d : forall v u, walk (edge G) u d v \/ ~ walk (edge G) u d v.
Proof.
  apply (fin_walk_dec (edge G) (gnodes G)); [intros u v; destruct (edge_dec G u v); auto|]. intros u v [w Hw]. apply (weight_nodes G u v w Hw).
Qed.
Lemma sym_walk_dec G d : forall v u, walk (Spec.sym (edge G)) u d v \/ ~ walk (Spec.sym (edge G)) u d v.
Proof.
  apply (fin_walk_dec _ (gnodes G)).
  - intros u v. unfold Spec.sym. destruct (edge_dec G u v), (edge_dec G v u); tauto.
  - intros u v [[w Hw]|[w Hw]]; apply (weight_nodes G _ _ w Hw).
Qed.
Lemma reach_has_dist G u v : reach (edge G) u v <-> exists d, dist (edge G) u v d.
Proof. split; [apply reach_dist; apply key_walk_dec|]. intros [d [H _]]. exists d. assumption. Qed.
Lemma dist_fun {X} (E : X -> X -> Prop) x y d d' : dist E x y d -> dist E x y d' -> d = d'.
Proof. intros [H1 H2] [H3 H4]. apply Nat.le_antisymm; [apply H2|apply H4]; assumption. Qed.

(** ** exchanging sums *)
Lemma total_exchange {X Y} (f : X -> Y -> Z) (a : list X) (b : list Y) :
  total (fun x => total (fun y => f x y) b) a = total (fun y => total (fun x => f x y) a) b.
Proof.
  induction a as [|x a IH]; [symmetry; apply total_zero; reflexivity|]. rewrite total_cons, IH, <- total_add. apply total_ext. intros y _. rewrite total_cons. reflexivity.
Qed.
Lemma total_pairs_swap {X} (f : X -> X -> Z) (l : list X) :
  total (fun p => f (fst p) (snd p)) (pairs l) = total (fun p => f (snd p) (fst p)) (pairs l).
Proof. unfold pairs. rewrite !total_prod. cbn [fst snd]. apply total_exchange. Qed.
Lemma count_pairs_swap {X} (f : X -> X -> bool) (l : list X) :
  count (fun p => f (fst p) (snd p)) (pairs l) = count (fun p => f (snd p) (fst p)) (pairs l).
Proof. apply Nat2Z.inj. rewrite !total_count. apply (total_pairs_swap (fun x y => if f x y then 1 else 0)%Z). Qed.
