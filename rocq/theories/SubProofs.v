(** * Graphs built from [A[indices, indices]] and [renumber_key_to_id(indices)] *)
From Verif Require Import Base BaseProofs Model_Graph Model_Keys Spec KeyProofs Model_Operators OperatorProofs Props_Containers.
Open Scope nat_scope.

Section Sub.
Variable G : graph.
Hypothesis wf : gwf G.
Notation n := (glen G).
Variables (orc : mat Z -> bool) (dir : bool) (C : mat Z) (dt : dtype) (ids : list nat).
Hypothesis Csym : dir = false -> forall i j, mget C i j = mget C j i.
Hypothesis Cnn : nonneg_dtype dt = true -> forall i j x, mget C i j = Some x -> (0 <= x)%Z.
Hypothesis ND : NoDup ids.
Hypothesis Hids : forall i, In i ids -> i < n.

Lemma mextract_entry a b x : mget (mextract C ids ids) a b = Some x -> exists i j, nth_error ids a = Some i /\ nth_error ids b = Some j /\ mget C i j = Some x.
Proof.
  intros H. pose proof H as H'. unfold mextract in H. rewrite mget_mbuild in H.
  destruct (Nat.ltb_spec a (List.length ids)) as [La|]; [|discriminate]. destruct (Nat.ltb_spec b (List.length ids)) as [Lb|]; [|discriminate].
  apply nth_error_Some in La, Lb. destruct (nth_error ids a) as [i|] eqn:Ea; [|congruence]. destruct (nth_error ids b) as [j|] eqn:Eb; [|congruence].
  exists i, j. rewrite (mget_mextract C ids ids a b i j Ea Eb) in H'. auto.
Qed.
(** the sub-graph on the numbers [ids], with the entries of [C] *)
Lemma sub_ok : exists d, renumber_key_to_id (g_kid G) ids = Val d /\
  let T := new_graph orc dir (mextract C ids ids) dt d in
  gwf T /\ g_dir T = dir /\ (forall u, node T u <-> exists i, kid G u = Some i /\ In i ids) /\
  forall u v, weight T u v = match kid G u, kid G v with
                             | Some i, Some j => if existsb (Nat.eqb i) ids && existsb (Nat.eqb j) ids then mget C i j else None
                             | _, _ => None
                             end.
Proof.
  destruct (C63_renumber (g_kid G) n (gkok G wf) ids ND Hids) as (d & E & K & H). exists d. split; [assumption|]. intros T.
  assert (HI : forall i, existsb (Nat.eqb i) ids = true <-> In i ids).
  { intros i. rewrite existsb_exists. split; [intros (j & Hj & Ej); apply Nat.eqb_eq in Ej; subst; assumption|]. intros Hi. exists i. rewrite Nat.eqb_refl. auto. }
  assert (HU : forall u a, kid T u = Some a <-> exists i, nth_error ids a = Some i /\ kid G u = Some i) by exact H.
  split.
  { destruct K as [K1 K2]. apply new_graph_wf.
    - apply mwf_mbuild.
    - unfold mextract. rewrite nrows_mbuild, ncols_mbuild. reflexivity.
    - intros D a b. specialize (Csym D). unfold mextract. rewrite !mget_mbuild. rewrite (andb_comm (b <? _)). destruct (_ && _); [apply Csym|reflexivity].
    - intros Hd a b x Hx. apply mextract_entry in Hx as (i & j & _ & _ & Hx). eapply Cnn; eassumption.
    - assumption.
    - unfold mextract. rewrite nrows_mbuild. assumption. }
  split; [reflexivity|]. split.
  - intros u. rewrite node_kid. split.
    + intros [a Ha]. apply HU in Ha as (i & Hi & Hu). exists i. split; [assumption|]. eapply nth_error_In. eassumption.
    + intros (i & Hu & Hi). apply In_nth_error in Hi as [a Ha]. exists a. apply HU. eauto.
  - intros u v. unfold weight. assert (HK : forall w, kid T w = None <-> match kid G w with Some i => existsb (Nat.eqb i) ids = false | None => True end).
    { intros w. split.
      - intros Hn. destruct (kid G w) as [i|] eqn:Ei; [|trivial]. destruct (existsb (Nat.eqb i) ids) eqn:EE; [|reflexivity].
        apply HI, In_nth_error in EE as [a Ha]. rewrite (proj2 (HU w a)) in Hn by eauto. discriminate.
      - intros Hn. destruct (kid T w) as [a|] eqn:Ea; [|reflexivity]. apply HU in Ea as (i & Hi & Hw). rewrite Hw in Hn.
        apply nth_error_In, HI in Hi. congruence. }
    destruct (kid T u) as [a|] eqn:Ea.
    + apply HU in Ea as (i & Hi & Hu). rewrite Hu. rewrite (proj2 (HI i)) by (eapply nth_error_In; eassumption). cbn [andb].
      destruct (kid T v) as [b|] eqn:Eb.
      * apply HU in Eb as (j & Hj & Hv). rewrite Hv. rewrite (proj2 (HI j)) by (eapply nth_error_In; eassumption). apply mget_mextract; assumption.
      * apply HK in Eb. destruct (kid G v) as [j|]; [rewrite Eb|]; reflexivity.
    + apply HK in Ea. destruct (kid G u) as [i|]; [|reflexivity]. rewrite Ea. destruct (kid G v); reflexivity.
Qed.
End Sub.
