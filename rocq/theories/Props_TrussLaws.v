(** * C82: how k-trusses for different k relate *)
From Verif Require Import Base BaseProofs Model_Graph Model_Cache Spec_Cache Spec_Run Spec_Session Spec_Laws Model_Keys Spec Spec_Count Spec_Cluster
  Model_Bfs Model_Measures Model_Cluster KeyProofs CountProofs OperatorProofs LawProofs RankMath ClusterMath ClusterProofs Concrete
  Props_Bfs Props_Operators Props_Cuts Props_Measures Props_Cluster Props_Truss Props_Counting Props_Session.
From Coq Require Import Permutation.
Open Scope nat_scope.

Lemma count_sub (l m : list nkey) (p : nkey -> bool) : NoDup l -> NoDup m -> (forall x, p x = true -> In x l) -> (forall x, p x = true -> In x m) -> count p l = count p m.
Proof.
  intros A B C D. unfold count. apply Permutation_length. apply NoDup_Permutation; [apply NoDup_filter; assumption|apply NoDup_filter; assumption|].
  intros x. rewrite !filter_In. split; intros [_ H]; auto.
Qed.
Section T.
Variable G : graph.
Hypothesis wf : gwf G.
Hypothesis D : g_dir G = false.
Notation big f := (glen G * glen G < f).

Lemma truss_mono k k' E : (k <= k')%Z -> truss G k' E -> truss G k E.
Proof. intros L (A & B & C). split; [assumption|]. split; [assumption|]. intros u v H. specialize (C u v H). lia. Qed.
(** the result of one call *)
Lemma truss_of orc fuel k o : big fuel -> seen G (nx_k_truss orc fuel G k) o -> exists T, o = Val (Some T) /\ gwf T /\ g_dir T = false /\
    truss G k (has_edge T) /\
    (forall E, truss G k E -> forall u v, E u v = true -> has_edge T u v = true) /\
    (forall u, node T u <-> exists v, has_edge T u v = true) /\
    (forall u v x, weight T u v = Some x ->
       if (k <? 3)%Z then weight G u v = Some x else x = Z.of_nat (count (fun y => has_edge T u y && has_edge T v y) (gnodes G))).
Proof. intros F H. exact (seen_ans G wf _ _ _ _ H (C25_k_truss G wf orc fuel k D F)). Qed.
(** larger k, smaller truss *)
Theorem C82_nested orc orc' fuel fuel' k k' T T' : (k <= k')%Z -> big fuel -> big fuel' ->
  seen G (nx_k_truss orc fuel G k) (Val (Some T)) -> seen G (nx_k_truss orc' fuel' G k') (Val (Some T')) ->
  (forall u, node T' u -> node T u) /\ forall u v, edge T' u v -> edge T u v.
Proof.
  intros L F F' H H'. destruct (truss_of _ _ _ _ F H) as (? & [= <-] & _ & _ & _ & MX & N & _). destruct (truss_of _ _ _ _ F' H') as (? & [= <-] & _ & _ & TR & _ & N' & _).
  assert (E : forall u v, has_edge T' u v = true -> has_edge T u v = true) by (apply MX, (truss_mono k k'); assumption).
  split.
  - intros u Hu. apply N' in Hu as [v Hv]. apply N. exists v. apply E. assumption.
  - intros u v. rewrite <- !has_edge_true. apply E.
Qed.
(** the answer does not depend on the order of evaluation *)
Theorem C82_deterministic orc orc' fuel fuel' k T T' : big fuel -> big fuel' ->
  seen G (nx_k_truss orc fuel G k) (Val (Some T)) -> seen G (nx_k_truss orc' fuel' G k) (Val (Some T')) -> same_graph T T'.
Proof.
  intros F F' H H'. assert (A := C82_nested orc orc' fuel fuel' k k T T' (Z.le_refl _) F F' H H'). assert (B := C82_nested orc' orc fuel' fuel k k T' T (Z.le_refl _) F' F H' H).
  destruct (truss_of _ _ _ _ F H) as (? & [= <-] & W & DT & _ & _ & _ & WT). destruct (truss_of _ _ _ _ F' H') as (? & [= <-] & W' & DT' & _ & _ & _ & WT').
  assert (E : forall u v, has_edge T u v = has_edge T' u v) by (intros u v; apply eq_true_iff_eq; rewrite !has_edge_true; split; [apply B|apply A]).
  split; [congruence|]. split; [intros u; split; [apply B|apply A]|]. intros u v. assert (E2 := E u v). unfold has_edge in E2. specialize (WT u v). specialize (WT' u v).
  destruct (weight T u v) as [x|], (weight T' u v) as [y|]; try discriminate; [|reflexivity]. specialize (WT x eq_refl). specialize (WT' y eq_refl). destruct (k <? 3)%Z; [congruence|].
  rewrite WT, WT'. f_equal. f_equal. unfold count. f_equal. apply filter_ext. intros z. rewrite !E. reflexivity.
Qed.
(** for k <= 2 only the self-loops and the isolated nodes go *)
Theorem C82_small orc fuel k T : (k <= 2)%Z -> big fuel -> seen G (nx_k_truss orc fuel G k) (Val (Some T)) ->
  (forall u v, weight T u v = if nkey_eqb u v then None else weight G u v) /\
  forall u, node T u <-> exists v, v <> u /\ edge G u v.
Proof.
  intros L F H. destruct (truss_of _ _ _ _ F H) as (? & [= <-] & W & DT & TR & MX & N & WT). assert (K : (k <? 3)%Z = true) by (apply Z.ltb_lt; lia). rewrite K in WT.
  assert (T2 : truss G k (nbr G)).
  { split; [auto|]. split; [intros; apply nbr_sym; assumption|]. intros u v _. lia. }
  assert (E : forall u v, has_edge T u v = nbr G u v).
  { intros u v. apply eq_true_iff_eq. split; [apply TR|apply (MX _ T2)]. }
  split.
  - intros u v. destruct (weight T u v) as [x|] eqn:Ex.
    + assert (E2 := E u v). unfold has_edge, nbr in E2. rewrite Ex in E2. cbn [has] in E2. destruct (nkey_eqb u v); [discriminate|]. rewrite (WT u v x Ex). reflexivity.
    + assert (E2 := E u v). unfold has_edge, nbr, has_edge in E2. rewrite Ex in E2. cbn [has] in E2. destruct (nkey_eqb u v); [reflexivity|]. cbn [negb andb] in E2. destruct (weight G u v); [discriminate|reflexivity].
  - intros u. rewrite N. split; intros [v Hv].
    + rewrite E in Hv. unfold nbr in Hv. apply andb_true_iff in Hv as [A B]. exists v. split; [intros ->; rewrite nkey_eqb_refl in A; discriminate|]. apply has_edge_true. assumption.
    + exists v. rewrite E. unfold nbr. destruct Hv as [A B]. apply has_edge_true in B. rewrite B, andb_true_r. destruct (nkey_eqb u v) eqn:Q; [apply nkey_eqb_eq in Q; congruence|reflexivity].
Qed.
(** every node of the k-truss has k - 1 or more neighbours in it, so a truss with a node has k or more nodes *)
Theorem C82_degree orc fuel k T u : big fuel -> seen G (nx_k_truss orc fuel G k) (Val (Some T)) -> node T u ->
  (k - 1 <= Z.of_nat (degree T u))%Z /\ (k <= Z.of_nat (List.length (gnodes T)))%Z.
Proof.
  intros F H Nu. destruct (truss_of _ _ _ _ F H) as (? & [= <-] & W & DT & (T1 & T2 & T3) & MX & N & WT). destruct (proj1 (N u) Nu) as [v Hv].
  assert (NL : forall a, has_edge T a a = false) by (intros a; apply not_true_iff_false; intros X; apply T1 in X; rewrite nbr_irr in X; discriminate).
  assert (Nd : forall a b, has_edge T a b = true -> node T a /\ node T b) by (intros a b X; apply has_edge_true in X as [x X]; exact (weight_nodes T _ _ _ X)).
  assert (Ng : forall a b, has_edge T a b = true -> node G a /\ node G b) by (intros a b X; apply T1 in X; unfold nbr in X; apply andb_true_iff in X as [_ X]; apply has_edge_true in X as [x X]; exact (weight_nodes G _ _ _ X)).
  specialize (T3 u v Hv). assert (CE : count (fun x => has_edge T u x && has_edge T v x) (gnodes G) = count (fun x => has_edge T u x && has_edge T v x) (gnodes T)).
  { apply count_sub; [apply gnodes_nodup; assumption|apply gnodes_nodup; assumption| |]; intros x Hx; apply andb_true_iff in Hx as [Hx _]; [apply (Ng u x Hx)|apply (Nd u x Hx)]. }
  rewrite CE in T3. assert (C1 : count (nkey_eqb v) (gnodes T) = 1) by (apply count_one; [apply gnodes_nodup; assumption|apply (Nd u v Hv)]).
  assert (C2 : count (nkey_eqb u) (gnodes T) = 1) by (apply count_one; [apply gnodes_nodup; assumption|exact Nu]).
  assert (DG : (k - 1 <= Z.of_nat (degree T u))%Z).
  { unfold degree. rewrite DT, NL, Nat.add_0_r. unfold out_degree.
    assert (X : (Z.of_nat (count (fun x => has_edge T u x && has_edge T v x) (gnodes T)) + Z.of_nat (count (nkey_eqb v) (gnodes T)) <= Z.of_nat (count (fun x => has_edge T u x) (gnodes T)))%Z); [|rewrite C1 in X; lia].
    rewrite !total_count, <- total_add. apply (total_le G wf). intros x _. destruct (nkey_eqb v x) eqn:Q; [apply nkey_eqb_eq in Q; subst; rewrite NL, Hv, andb_false_r; lia|].
    destruct (has_edge T u x), (has_edge T v x); cbn; lia. }
  split; [exact DG|]. unfold degree in DG. rewrite DT, NL, Nat.add_0_r in DG. unfold out_degree in DG.
  assert (X : (Z.of_nat (count (fun x => has_edge T u x) (gnodes T)) + Z.of_nat (count (nkey_eqb u) (gnodes T)) <= Z.of_nat (List.length (gnodes T)))%Z); [|rewrite C2 in X; lia].
  rewrite !total_count, total_length, <- total_add. apply (total_le G wf). intros x _. destruct (nkey_eqb u x) eqn:Q; [apply nkey_eqb_eq in Q; subst; rewrite NL; lia|]. destruct (has_edge T u x); lia.
Qed.
(** taking the truss of the truss changes nothing *)
Theorem C82_idempotent orc orc' fuel fuel' k T T' : big fuel -> glen T * glen T < fuel' ->
  seen G (nx_k_truss orc fuel G k) (Val (Some T)) -> seen T (nx_k_truss orc' fuel' T k) (Val (Some T')) -> same_graph T T'.
Proof.
  intros F F' H H'. destruct (truss_of _ _ _ _ F H) as (? & [= <-] & W & DT & (T1 & T2 & T3) & MX & N & WT).
  destruct (seen_ans T W _ _ _ _ H' (C25_k_truss T W orc' fuel' k DT F')) as (? & [= <-] & W' & DT' & (T1' & T2' & T3') & MX' & N' & WT').
  assert (NL : forall a, has_edge T a a = false) by (intros a; apply not_true_iff_false; intros X; apply T1 in X; rewrite nbr_irr in X; discriminate).
  assert (Nd : forall a b, has_edge T a b = true -> node T a /\ node T b) by (intros a b X; apply has_edge_true in X as [x X]; exact (weight_nodes T _ _ _ X)).
  assert (Ng : forall a b, has_edge T a b = true -> node G a /\ node G b) by (intros a b X; apply T1 in X; unfold nbr in X; apply andb_true_iff in X as [_ X]; apply has_edge_true in X as [x X]; exact (weight_nodes G _ _ _ X)).
  assert (CE : forall u v, count (fun x => has_edge T u x && has_edge T v x) (gnodes G) = count (fun x => has_edge T u x && has_edge T v x) (gnodes T)).
  { intros u v. apply count_sub; [apply gnodes_nodup; assumption|apply gnodes_nodup; assumption| |]; intros x Hx; apply andb_true_iff in Hx as [Hx _]; [apply (Ng u x Hx)|apply (Nd u x Hx)]. }
  assert (TT : truss T k (has_edge T)).
  { split; [|split; [assumption|intros u v Hu; rewrite <- CE; apply T3; assumption]]. intros u v Hu. unfold nbr. rewrite Hu, andb_true_r. destruct (nkey_eqb u v) eqn:Q; [|reflexivity].
    apply nkey_eqb_eq in Q. subst. rewrite NL in Hu. discriminate. }
  assert (E : forall u v, has_edge T u v = has_edge T' u v).
  { intros u v. apply eq_true_iff_eq. split; [apply (MX' _ TT)|]. intros X. apply T1' in X. unfold nbr in X. apply andb_true_iff in X as [_ X]. assumption. }
  split; [congruence|]. split.
  - intros u. rewrite N, N'. split; intros [v Hv]; exists v; [rewrite <- E|rewrite E]; assumption.
  - intros u v. assert (E2 := E u v). unfold has_edge in E2. specialize (WT u v). specialize (WT' u v).
    destruct (weight T u v) as [x|], (weight T' u v) as [y|]; try discriminate; [|reflexivity]. specialize (WT x eq_refl). specialize (WT' y eq_refl). destruct (k <? 3)%Z; [congruence|].
    rewrite WT, WT', CE. f_equal. f_equal. unfold count. f_equal. apply filter_ext. intros z. rewrite !E. reflexivity.
Qed.
End T.

Local Ltac run := eapply seen_after; [apply P_is_connected|vm_compute; reflexivity].
Example C82_ex : gwf g_tr /\ g_dir g_tr = false /\ glen g_tr * glen g_tr < 26 /\ exists T2 T3 T33,
  seen g_tr (nx_k_truss (fun _ => false) 26 g_tr 2) (Val (Some T2)) /\ seen g_tr (nx_k_truss (fun _ => true) 30 g_tr 3) (Val (Some T3)) /\
  seen T3 (nx_k_truss (fun _ => false) 17 T3 3) (Val (Some T33)) /\ glen T3 * glen T3 < 17 /\
  gnodes T2 = [KI 0; KI 1; KI 2; KI 3; KI 4] /\ gnodes T3 = [KI 0; KI 1; KI 2; KI 3] /\ degree T3 (KI 0) = 2 /\ gnodes T33 = gnodes T3 /\ weight T33 (KI 1) (KI 2) = Some 2%Z.
Proof.
  split; [apply mkg_wf|]. split; [reflexivity|]. split; [vm_compute; lia|]. do 3 eexists. split; [run|]. split; [run|]. split; [run|]. split; [vm_compute; lia|]. repeat split; vm_compute; reflexivity.
Qed.
Print Assumptions C82_nested.
Print Assumptions C82_deterministic.
Print Assumptions C82_small.
Print Assumptions C82_degree.
Print Assumptions C82_idempotent.
