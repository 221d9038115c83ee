(** * PageRank as a Markov chain: mass, contraction, non-negativity (facts about the specification only) *)
From Verif Require Import Base BaseProofs Model_Graph Model_Keys Spec KeyProofs Spec_Count CountProofs Spec_Cluster ClusterMath ClusterProofs
  Spec_Linalg Props_Linalg Spec_Rank.
From Coq Require Import QArith Qcanon Qcabs.
Open Scope nat_scope.

(** ** sums of rationals *)
Section Q.
Context {X : Type}.
Implicit Types (f g : X -> Qc) (l : list X).
Lemma qtotal_cons f x l : qtotal f (x :: l) = (f x + qtotal f l)%Qc. Proof. reflexivity. Qed.
Lemma qtotal_eq f g l : (forall x, In x l -> f x = g x) -> qtotal f l = qtotal g l.
Proof. apply (gtotal_ext 0%Qc Qcplus). Qed.
Lemma qtotal_add f g l : qtotal (fun x => f x + g x)%Qc l = (qtotal f l + qtotal g l)%Qc.
Proof. induction l as [|x l IH]; [reflexivity|]. rewrite !qtotal_cons, IH. ring. Qed.
Lemma qtotal_scale c f l : qtotal (fun x => c * f x)%Qc l = (c * qtotal f l)%Qc.
Proof. induction l as [|x l IH]; [cbn; ring|]. rewrite !qtotal_cons, IH. ring. Qed.
Lemma qtotal_scale_r c f l : qtotal (fun x => f x * c)%Qc l = (qtotal f l * c)%Qc.
Proof. induction l as [|x l IH]; [cbn; ring|]. rewrite !qtotal_cons, IH. ring. Qed.
Lemma qtotal_zero l : qtotal (fun _ : X => 0%Qc) l = 0%Qc.
Proof. induction l as [|x l IH]; [reflexivity|]. rewrite !qtotal_cons, IH. ring. Qed.
Lemma qtotal_one l : qtotal (fun _ : X => 1%Qc) l = qlen l.
Proof.
  unfold qlen. induction l as [|x l IH]; [reflexivity|]. rewrite qtotal_cons, IH. cbn [List.length]. rewrite Nat2Z.inj_succ.
  unfold Z.succ. rewrite Z.add_comm. change qz with Model_Cluster.zq. rewrite zq_add. reflexivity.
Qed.
Lemma qtotal_qz (f : X -> Z) l : qtotal (fun x => qz (f x)) l = qz (total f l).
Proof. induction l as [|x l IH]; [reflexivity|]. rewrite qtotal_cons, total_cons, IH. change qz with Model_Cluster.zq. rewrite zq_add. reflexivity. Qed.
Lemma qtotal_le f g l : (forall x, In x l -> f x <= g x)%Qc -> (qtotal f l <= qtotal g l)%Qc.
Proof.
  induction l as [|x l IH]; intros H; [apply Qcle_refl|]. rewrite !qtotal_cons. apply Qcplus_le_compat; [apply H; left; reflexivity|].
  apply IH. intros y Hy. apply H. right. assumption.
Qed.
Lemma qtotal_nonneg f l : (forall x, In x l -> 0 <= f x)%Qc -> (0 <= qtotal f l)%Qc.
Proof. intros H. rewrite <- (qtotal_zero l). apply qtotal_le. assumption. Qed.
Lemma qtotal_abs f l : (Qcabs (qtotal f l) <= qtotal (fun x => Qcabs (f x)) l)%Qc.
Proof.
  induction l as [|x l IH]; [unfold Qcle; cbn; discriminate|]. rewrite !qtotal_cons. eapply Qcle_trans; [apply Qcabs_triangle|].
  apply Qcplus_le_compat; [apply Qcle_refl|assumption].
Qed.
Lemma qtotal_pos f l x : (forall x, In x l -> 0 <= f x)%Qc -> In x l -> (f x <= qtotal f l)%Qc.
Proof.
  induction l as [|y l IH]; [intros _ []|]. intros H [->|Hx]; rewrite qtotal_cons.
  - rewrite <- (Qcplus_0_r (f x)) at 1. apply Qcplus_le_compat; [apply Qcle_refl|]. apply qtotal_nonneg. intros z Hz. apply H. right. assumption.
  - rewrite <- (Qcplus_0_l (f x)). apply Qcplus_le_compat; [apply H; left; reflexivity|]. apply IH; [intros z Hz; apply H; right; assumption|assumption].
Qed.
End Q.
Lemma qtotal_swap {X Y} (f : X -> Y -> Qc) (l : list X) (m : list Y) :
  qtotal (fun x => qtotal (fun y => f x y) m) l = qtotal (fun y => qtotal (fun x => f x y) l) m.
Proof.
  induction l as [|x l IH]; [cbn; symmetry; apply qtotal_zero|]. rewrite qtotal_cons, IH, <- qtotal_add. reflexivity.
Qed.
Lemma qlen_pos {X} (l : list X) : l <> [] -> qlen l <> 0%Qc.
Proof. intros H E. apply (zq_inj (Z.of_nat (List.length l)) 0) in E. destruct l; [congruence|]. cbn [List.length] in E. lia. Qed.
Lemma qz_nonneg z : (0 <= z)%Z -> (0 <= qz z)%Qc.
Proof. intros H. unfold qz, Qcle. cbn [this Q2Qc]. rewrite !Qred_correct. unfold Qle. cbn. lia. Qed.
Lemma qz_pos z : (0 < z)%Z -> (0 < qz z)%Qc.
Proof. intros H. unfold qz, Qclt. cbn [this Q2Qc]. rewrite !Qred_correct. unfold Qlt. cbn. lia. Qed.
Lemma Qc_inv_nonneg q : (0 <= q)%Qc -> (0 <= / q)%Qc.
Proof. intros H. unfold Qcle in *. unfold Qcinv. cbn [this Q2Qc] in *. rewrite !Qred_correct in *. apply Qinv_le_0_compat. assumption. Qed.
Lemma Qc_div_nonneg a b : (0 <= a -> 0 <= b -> 0 <= a / b)%Qc.
Proof.
  intros Ha Hb. unfold Qcdiv. apply Qc_inv_nonneg in Hb. pose proof (Qcmult_le_compat_r 0 a (/ b) Ha Hb) as H. rewrite Qcmult_0_l in H. assumption.
Qed.
Lemma Qc_mul_nonneg a b : (0 <= a -> 0 <= b -> 0 <= a * b)%Qc.
Proof. intros Ha Hb. pose proof (Qcmult_le_compat_r 0 a b Ha Hb) as H. rewrite Qcmult_0_l in H. assumption. Qed.
Lemma Qc_mul_le c a b : (0 <= c -> a <= b -> c * a <= c * b)%Qc.
Proof. intros Hc H. rewrite !(Qcmult_comm c). apply Qcmult_le_compat_r; assumption. Qed.
Lemma Qc_mul_lt c a b : (0 < c -> a < b -> c * a < c * b)%Qc.
Proof. intros Hc H. rewrite !(Qcmult_comm c). apply Qcmult_lt_compat_r; assumption. Qed.

(** ** distributions *)
Lemma distr_sum l d : l <> [] -> ~ sums_to_zero l d -> qtotal (distr l d) l = 1%Qc.
Proof.
  intros Hl Hd. unfold distr. destruct d as [d|].
  - unfold Qcdiv. rewrite qtotal_scale_r. apply Qcmult_inv_r. intros E. apply Hd. exists d. auto.
  - unfold Qcdiv. rewrite Qcmult_1_l. transitivity (qtotal (fun _ : nkey => 1 * / qlen l)%Qc l); [apply qtotal_eq; intros; ring|].
    rewrite qtotal_scale_r, qtotal_one. apply Qcmult_inv_r. apply qlen_pos. assumption.
Qed.
(** the values of a dict are not negative *)
Definition nonneg_dict (d : option (list (nkey * Qc))) : Prop := match d with Some d => forall u q, In (u, q) d -> (0 <= q)%Qc | None => True end.
Lemma distr_nonneg l d u : nonneg_dict d -> (0 <= distr l d u)%Qc.
Proof.
  assert (O1 : (0 <= 1)%Qc) by (unfold Qcle; cbn; discriminate).
  intros H. unfold distr. destruct d as [d|].
  - cbn in H. assert (D : forall v, (0 <= dval d v)%Qc).
    { intros v. unfold dval. destruct (dget d v) eqn:E; [|apply Qcle_refl]. apply dget_In in E. eapply H. eassumption. }
    apply Qc_div_nonneg; [apply D|]. apply qtotal_nonneg. intros; apply D.
  - apply Qc_div_nonneg; [assumption|]. apply qz_nonneg. lia.
Qed.

Section S.
Variable G : graph.
Variable l : list nkey.
Variable dw : nkey -> Qc.
Lemma dangling_false u : dangling G l u = false <-> exists v, In v l /\ edge G u v.
Proof.
  unfold dangling. rewrite negb_false_iff, existsb_exists. split; intros (v & Hv & He); exists v; split; auto; apply (has_edge_true G u v); assumption.
Qed.
(** the steps from a node are a distribution *)
Lemma step_sum u : rows_nonzero G true l -> In u l -> (dangling G l u = true -> qtotal dw l = 1%Qc) -> qtotal (step G l dw u) l = 1%Qc.
Proof.
  intros NZ Hu Hdw. unfold step. destruct (dangling G l u) eqn:E; [apply Hdw; reflexivity|]. apply dangling_false in E as (v & Hv & He).
  unfold Qcdiv. rewrite qtotal_scale_r, qtotal_qz. apply Qcmult_inv_r. intros E. apply (NZ u v Hu Hv He). apply (zq_inj _ 0). exact E.
Qed.
Lemma step_nonneg u v : (forall a b x, weight G a b = Some x -> (0 <= x)%Z) -> (forall a, (0 <= dw a)%Qc) -> (0 <= step G l dw u v)%Qc.
Proof.
  intros W D. unfold step. destruct (dangling G l u); [apply D|]. assert (A : forall b, (0 <= Spec_Linalg.adj G true u b)%Z).
  { intros b. unfold Spec_Linalg.adj. destruct (weight G u b) eqn:E; [eapply W; eassumption|lia]. }
  apply Qc_div_nonneg; apply qz_nonneg; [apply A|]. apply total_pos. intros; apply A.
Qed.
Theorem google_row_sum alpha p u : rows_nonzero G true l -> In u l -> qtotal p l = 1%Qc -> (dangling G l u = true -> qtotal dw l = 1%Qc) ->
  qtotal (google G l alpha p dw u) l = 1%Qc.
Proof.
  intros NZ Hu Hp Hd. unfold google. rewrite qtotal_add, !qtotal_scale, Hp, (step_sum u NZ Hu Hd). ring.
Qed.
End S.

Section M.
Variable G : graph.
Notation l := (gnodes G).
Variable alpha : Qc.
Variables p dw : nkey -> Qc.
Hypothesis NZ : rows_nonzero G true l.
Hypothesis Hp : qtotal p l = 1%Qc.
Hypothesis Hdw : forall u, In u l -> dangling G l u = true -> qtotal dw l = 1%Qc.
Notation F := (pr_next G alpha p dw).
Theorem pr_mass x : qtotal (F x) l = ((1 - alpha) + alpha * qtotal x l)%Qc.
Proof.
  unfold pr_next. rewrite qtotal_add, !qtotal_scale, Hp, qtotal_swap. f_equal; [ring|]. f_equal. apply qtotal_eq. intros u Hu.
  rewrite qtotal_scale, (step_sum G l dw u NZ Hu (Hdw u Hu)). ring.
Qed.
Theorem pr_mass_one x k : qtotal x l = 1%Qc -> qtotal (iterate F k x) l = 1%Qc.
Proof. intros H. induction k as [|k IH]; [assumption|]. cbn [iterate]. rewrite pr_mass, IH. ring. Qed.
Hypothesis W : forall a b x, weight G a b = Some x -> (0 <= x)%Z.
Hypothesis D : forall a, (0 <= dw a)%Qc.
Hypothesis A0 : (0 <= alpha)%Qc.
(** a round brings vectors closer by the factor alpha *)
Theorem pr_contract x y : (l1 G (F x) (F y) <= alpha * l1 G x y)%Qc.
Proof.
  unfold l1. apply Qcle_trans with (alpha * qtotal (fun v => qtotal (fun u => Qcabs (x u - y u) * step G l dw u v) l) l)%Qc.
  - rewrite <- qtotal_scale. apply qtotal_le. intros v _. unfold pr_next.
    replace ((1 - alpha) * p v + alpha * qtotal (fun u => x u * step G l dw u v) l - ((1 - alpha) * p v + alpha * qtotal (fun u => y u * step G l dw u v) l))%Qc
      with (alpha * qtotal (fun u => (x u - y u) * step G l dw u v) l)%Qc.
    + rewrite Qcabs_Qcmult, (Qcabs_pos alpha A0). apply Qc_mul_le; [assumption|]. eapply Qcle_trans; [apply qtotal_abs|].
      apply qtotal_le. intros u _. rewrite Qcabs_Qcmult, (Qcabs_pos (step G l dw u v)); [apply Qcle_refl|]. apply step_nonneg; assumption.
    + assert (E : qtotal (fun u => (x u - y u) * step G l dw u v)%Qc l = (qtotal (fun u => x u * step G l dw u v) l - qtotal (fun u => y u * step G l dw u v) l)%Qc).
      { transitivity (qtotal (fun u => x u * step G l dw u v + (- (1)) * (y u * step G l dw u v))%Qc l); [apply qtotal_eq; intros; ring|].
        rewrite qtotal_add, (qtotal_scale (- (1))%Qc). ring. }
      rewrite E. ring.
  - rewrite qtotal_swap. apply Qc_mul_le; [assumption|]. apply qtotal_le. intros u Hu. rewrite qtotal_scale, (step_sum G l dw u NZ Hu (Hdw u Hu)). rewrite Qcmult_1_r. apply Qcle_refl.
Qed.
Hypothesis A1 : (alpha <= 1)%Qc.
Hypothesis P : forall a, (0 <= p a)%Qc.
Theorem pr_nonneg x k : (forall a, (0 <= x a)%Qc) -> forall a, (0 <= iterate F k x a)%Qc.
Proof.
  intros H. induction k as [|k IH]; [assumption|]. intros v. cbn [iterate]. unfold pr_next.
  rewrite <- (Qcplus_0_l 0) at 1. apply Qcplus_le_compat; apply Qc_mul_nonneg; auto.
  - apply Qcle_minus_iff in A1. exact A1.
  - apply qtotal_nonneg. intros u _. apply Qc_mul_nonneg; [apply IH|]. apply step_nonneg; assumption.
Qed.
End M.
