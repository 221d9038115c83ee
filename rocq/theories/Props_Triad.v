(** * C85: triads and the tournament matrix *)
From Verif Require Import Base BaseProofs Model_Graph Model_Cache Model_Keys Spec KeyProofs Spec_Cache CacheMath CacheProofs CacheProofs2 CacheHist
  Spec_Run RunProofs Spec_Count CountProofs Model_Measures Concrete Model_Operators OperatorProofs Spec_Linalg Props_Linalg Props_Measures
  Spec_Session Spec_Laws LawProofs.
Open Scope nat_scope.

Section T.
Variable G : graph.
Hypothesis wf : gwf G.
Local Notation answers := Spec_Run.answers.

(** a triad: a directed graph of three nodes without self-loops *)
Theorem C85_is_triad :
  answers G (nx_is_triad G) (fun o => exists b, o = Val b /\
    (b = true <-> g_dir G = true /\ List.length (gnodes G) = 3 /\ loop_free G)).
Proof.
  assert (HL : glen G = List.length (gnodes G)) by (symmetry; apply (len_nodes G wf)).
  unfold nx_is_triad. destruct (g_dir G) eqn:D; cbn [andb].
  - destruct (glen G =? 3) eqn:E.
    + apply Nat.eqb_eq in E. eapply answers_bind_GV; [apply (has_self_edges_ok G wf true eq_refl)|].
      apply answers_ret. exists (negb (den_bool G KSelf)). split; [reflexivity|].
      assert (SELF : den_bool G KSelf = false <-> loop_free G).
      { rewrite (loop_free_dcount G wf). simpl. rewrite negb_false_iff, Nat.eqb_eq. reflexivity. }
      rewrite negb_true_iff, SELF, <- HL. tauto.
    + apply Nat.eqb_neq in E. apply answers_ret. exists false. split; [reflexivity|]. rewrite <- HL. split; [discriminate|]. tauto.
  - apply answers_ret. exists false. split; [reflexivity|]. split; [discriminate|]. intros [? _]. discriminate.
Qed.

(** the entry for (u, v) is the weight of u -> v minus the weight of v -> u; stored exactly where one of them is an edge *)
Theorem C85_tournament_matrix :
  answers G (nx_tournament_matrix G) (fun o =>
    match o with
    | Val M => g_dir G = true /\ exists l, row_order G None l /\
        is_matrix 0%Z M l (fun u v => weight0 G u v - weight0 G v u)%Z /\
        forall a b u v, nth_error l a = Some u -> nth_error l b = Some v -> (has (mget M a b) = true <-> edge G u v \/ edge G v u)
    | Raise e => e = ENotImpl /\ g_dir G = false
    end).
Proof.
  unfold nx_tournament_matrix, only_directed. destruct (g_dir G) eqn:D; [|apply answers_raise; auto].
  apply answers_ret. split; [reflexivity|]. destruct (row_order_ex G wf) as [l Hl]. exists l. split; [assumption|].
  assert (HN : glen G = List.length l) by (symmetry; apply (row_order_len G l Hl)).
  assert (Y : forall a b u v, nth_error l a = Some u -> nth_error l b = Some v -> mget (g_A G) a b = weight G u v).
  { intros a b u v Hu Hv. unfold weight. rewrite (row_order_nth G l a u Hl Hu), (row_order_nth G l b v Hl Hv). reflexivity. }
  set (M := mbuild _ _ _).
  assert (Z : forall a b u v, nth_error l a = Some u -> nth_error l b = Some v -> mget M a b = ounion Z.sub 0%Z 0%Z (weight G u v) (weight G v u)).
  { intros a b u v Hu Hv. pose proof (nth_error_Some l a) as La. pose proof (nth_error_Some l b) as Lb.
    assert (a < glen G) by (rewrite HN; apply La; congruence). assert (b < glen G) by (rewrite HN; apply Lb; congruence). unfold glen in *.
    unfold M. rewrite mget_mbuild, (gw_sq G wf). unfold mtrans. rewrite mget_mbuild, (gw_sq G wf).
    replace (a <? nrows (g_A G)) with true by (symmetry; apply Nat.ltb_lt; assumption).
    replace (b <? nrows (g_A G)) with true by (symmetry; apply Nat.ltb_lt; assumption). cbn [andb].
    rewrite (Y a b u v Hu Hv), (Y b a v u Hv Hu). reflexivity. }
  split.
  - split; [unfold M; rewrite nrows_mbuild; exact HN|]. split; [unfold M; cbn; rewrite (gw_sq G wf); exact HN|].
    intros a b u v Hu Hv. rewrite (Z a b u v Hu Hv). unfold weight0. destruct (weight G u v), (weight G v u); cbn; lia.
  - intros a b u v Hu Hv. rewrite (Z a b u v Hu Hv). unfold edge. destruct (weight G u v), (weight G v u); cbn; split; eauto; try discriminate.
    intros [[? ?]|[? ?]]; discriminate.
Qed.

(** hence the matrix is antisymmetric, whatever was called before *)
Theorem C85_antisymmetric M : seen G (nx_tournament_matrix G) (Val M) ->
  ncols M = nrows M /\ forall a b, a < nrows M -> b < nrows M -> oget 0%Z (mget M a b) = (- oget 0 (mget M b a))%Z.
Proof.
  intros H. pose proof (seen_ans G wf _ _ _ _ H C85_tournament_matrix) as (_ & l & Hl & (R & C & E) & Hs). split; [congruence|].
  intros a b La Lb. rewrite R in La, Lb. apply nth_error_Some in La, Lb.
  destruct (nth_error l a) as [u|] eqn:Ea, (nth_error l b) as [v|] eqn:Eb; try contradiction.
  rewrite (E a b u v Ea Eb), (E b a v u Eb Ea). lia.
Qed.
(** in a tournament whose edges have weight 1: 1 where the row's player wins, -1 where it loses, 0 on the diagonal *)
Theorem C85_tournament M : (forall u v x, weight G u v = Some x -> x = 1%Z) ->
  seen G (nx_is_tournament G) (Val true) -> seen G (nx_tournament_matrix G) (Val M) ->
  exists l, row_order G None l /\ is_matrix 0%Z M l (fun u v => if nkey_eqb u v then 0%Z else if has_edge G u v then 1%Z else (-1)%Z).
Proof.
  intros H1 HT H. pose proof (seen_ans G wf _ _ _ _ H C85_tournament_matrix) as (_ & l & Hl & (R & C & E) & _).
  destruct (seen_ans G wf _ _ _ _ HT (C46_is_tournament G wf)) as [_ T]. destruct (proj1 T eq_refl) as [LF TT].
  exists l. split; [assumption|]. split; [assumption|]. split; [assumption|]. intros a b u v Hu Hv. rewrite (E a b u v Hu Hv). cbv beta.
  assert (W : forall x y, weight0 G x y = if has_edge G x y then 1%Z else 0%Z).
  { intros x y. unfold weight0, has_edge. destruct (weight G x y) as [w|] eqn:Ew; cbn; [apply (H1 _ _ _ Ew)|reflexivity]. }
  rewrite !W. destruct (nkey_eqb u v) eqn:Euv; [apply nkey_eqb_eq in Euv; subst; lia|].
  assert (Hne : u <> v) by (intros ->; rewrite nkey_eqb_refl in Euv; discriminate).
  assert (Nu : node G u) by (apply (row_order_nodes G wf l Hl); eapply nth_error_In; eassumption).
  assert (Nv : node G v) by (apply (row_order_nodes G wf l Hl); eapply nth_error_In; eassumption).
  destruct (TT u v Nu Nv Hne) as [[A B]|[A B]]; apply has_edge_true in A; rewrite <- has_edge_true in B; apply not_true_is_false in B; rewrite A, B; reflexivity.
Qed.
End T.

Example C85_ex : fst (nx_is_triad tour3 st0) = Val true /\ fst (nx_is_triad dg4 st0) = Val false /\
  seen tour3 (nx_is_tournament tour3) (Val true) /\ (forall u v x, weight tour3 u v = Some x -> x = 1%Z) /\
  exists M, seen tour3 (nx_tournament_matrix tour3) (Val M) /\ mget M 0 1 = Some 1%Z /\ mget M 1 0 = Some (-1)%Z /\ mget M 0 0 = None.
Proof.
  split; [vm_compute; reflexivity|]. split; [vm_compute; reflexivity|]. split; [apply seen_val; vm_compute; reflexivity|].
  split.
  { intros u v x H. unfold weight in H. destruct (kid tour3 u) as [i|] eqn:Eu; [|discriminate]. destruct (kid tour3 v) as [j|] eqn:Ev; [|discriminate].
    assert (W : gwf tour3) by (apply (mkg_wf true 3); vm_compute; auto 10).
    pose proof (kid_lt tour3 W _ _ Eu) as Li. pose proof (kid_lt tour3 W _ _ Ev) as Lj. unfold glen in Li, Lj. change (nrows (g_A tour3)) with 3 in *.
    destruct i as [|[|[|?]]]; try lia; destruct j as [|[|[|?]]]; try lia; vm_compute in H; congruence. }
  eexists. split; [apply seen_val; vm_compute; reflexivity|]. vm_compute. auto.
Qed.
Print Assumptions C85_is_triad.
Print Assumptions C85_tournament_matrix.
Print Assumptions C85_antisymmetric.
Print Assumptions C85_tournament.
