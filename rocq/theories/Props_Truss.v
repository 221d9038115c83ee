(** * C25: k-truss *)
From Verif Require Import Base BaseProofs Model_Graph Model_Cache Spec_Cache CacheMath CacheProofs CacheProofs2
  Model_Keys Spec KeyProofs Spec_Run RunProofs Model_Utils Model_Operators OperatorProofs Spec_Count Model_Measures CountProofs Props_Cuts
  Model_Cluster ClusterMath ClusterMath2 Spec_Cluster ClusterProofs Props_Cluster SubProofs Props_Gdeg Concrete.
From Coq Require Import QArith Qcanon.
Open Scope nat_scope.

Section P.
Variable G : graph.
Hypothesis wf : gwf G.
Hypothesis D : g_dir G = false.
Notation n := (glen G).
Variable k : Z.

(** on numbers *)
Definition st (M : mat Z) (i j : nat) : bool := has (mget M i j).
Definition tri (F : nat -> nat -> bool) (i j : nat) : nat := cnt n (fun x => F i x && F j x).
Definition itruss (F : nat -> nat -> bool) : Prop :=
  (forall i j, F i j = true -> ee G i j) /\ (forall i j, F i j = F j i) /\ forall i j, F i j = true -> (k - 2 <= Z.of_nat (tri F i j))%Z.
Definition good (M : mat Z) : Prop :=
  mwf M /\ nrows M = n /\ ncols M = n /\ (forall i j, st M i j = true -> ee G i j) /\ (forall i j, st M i j = st M j i) /\
  forall F, itruss F -> forall i j, F i j = true -> st M i j = true.
Lemma good_off : good (den_mat G KOff).
Proof.
  split; [apply mwf_mbuild|]. split; [apply nrows_mbuild|]. split; [apply ncols_mbuild|]. unfold st. split; [|split].
  - intros i j. rewrite (mget_off G wf). auto.
  - intros i j. rewrite !(mget_off G wf), (ent_sym G wf SM i j D). reflexivity.
  - intros F (H & _) i j Hf. rewrite (mget_off G wf). apply H. assumption.
Qed.
Hypothesis Hk : (3 <= k)%Z.
Lemma round_get M i j : good M -> mget (truss_round k M) i j = if st M i j && (k - 2 <=? Z.of_nat (tri (st M) i j))%Z then Some (Z.of_nat (tri (st M) i j)) else None.
Proof.
  intros (W & N & C & Hee & Hs & _). unfold truss_round.
  assert (E : forall i j, mget (mxm Z.add op_pairz M (mtrans M)) i j = onz (tri (st M) i j)).
  { intros a b. rewrite mget_mxm by (try apply mwf_mbuild; assumption). rewrite C.
    rewrite (ored_ext Z.add n _ (fun x => if st M a x && st M b x then Some 1%Z else None)).
    - rewrite ored_plus_ones. reflexivity.
    - intros x _. rewrite mget_mtrans by assumption. unfold st. destruct (mget M a x), (mget M b x); reflexivity. }
  unfold mselectv. rewrite mget_mbuild. unfold mrestrict. rewrite nrows_mselect, ncols_mselect. rewrite mget_mselect by apply mwf_mbuild.
  rewrite E. unfold msS. change (has (mget M i j)) with (st M i j). replace (nrows (mxm Z.add op_pairz M (mtrans M))) with n by (unfold mxm; rewrite nrows_mbuild; auto).
  replace (ncols (mxm Z.add op_pairz M (mtrans M))) with n by (unfold mxm, mtrans; rewrite !ncols_mbuild; auto).
  destruct (st M i j) eqn:Es; cbn [andb].
  - destruct (ee_lt G wf i j (Hee i j Es)) as [Li Lj]. apply Nat.ltb_lt in Li, Lj. rewrite Li, Lj. cbn [andb]. unfold onz.
    destruct (Nat.eqb_spec (tri (st M) i j) 0) as [E0|E0]; [|reflexivity]. rewrite E0. destruct (Z.leb_spec (k - 2) (Z.of_nat 0)); [lia|reflexivity].
  - destruct (_ && _); reflexivity.
Qed.
Lemma round_st M i j : good M -> st (truss_round k M) i j = st M i j && (k - 2 <=? Z.of_nat (tri (st M) i j))%Z.
Proof. intros g. unfold st at 1. rewrite (round_get M i j g). destruct (_ && _); reflexivity. Qed.
Lemma tri_sym F i j : tri F i j = tri F j i.
Proof. apply cnt_ext. intros x _. apply andb_comm. Qed.
Lemma round_good M : good M -> good (truss_round k M).
Proof.
  intros g. pose proof g as (W & N & C & Hee & Hs & Hm).
  split; [apply mwf_mbuild|]. split; [unfold truss_round, mselectv, mrestrict; rewrite nrows_mbuild, nrows_mselect; unfold mxm; rewrite nrows_mbuild; assumption|].
  split; [unfold truss_round, mselectv, mrestrict; rewrite ncols_mbuild, ncols_mselect; unfold mxm, mtrans; rewrite !ncols_mbuild; assumption|].
  split; [|split].
  - intros i j. rewrite round_st by assumption. intros H. apply andb_true_iff in H as [H _]. auto.
  - intros i j. rewrite !round_st by assumption. rewrite (Hs i j), (tri_sym _ i j). reflexivity.
  - intros F HF i j Hf. rewrite round_st by assumption. rewrite (Hm F HF i j Hf). cbn [andb]. apply Z.leb_le.
    pose proof HF as (_ & _ & F3). specialize (F3 i j Hf). enough (tri F i j <= tri (st M) i j) by lia.
    apply cnt_mono. intros x _ Hx. apply andb_true_iff in Hx as [X1 X2]. rewrite (Hm F HF i x X1), (Hm F HF j x X2). reflexivity.
Qed.
Lemma round_le M : good M -> mnvals (truss_round k M) <= mnvals M.
Proof.
  intros g. pose proof g as (_ & N & C & _). pose proof (round_good M g) as (_ & N' & C' & _).
  unfold mnvals. rewrite N, C, N', C'. apply nsum_le. intros i _. apply cnt_mono. intros j _ H. change (st (truss_round k M) i j = true) in H.
  rewrite round_st in H by assumption. apply andb_true_iff in H as [H _]. exact H.
Qed.
Lemma round_fix M : good M -> mnvals (truss_round k M) = mnvals M -> forall i j, st (truss_round k M) i j = st M i j.
Proof.
  intros g E. pose proof g as (_ & N & C & Hee & _). pose proof (round_good M g) as (_ & N' & C' & Hee' & _).
  assert (HL : forall i j, st (truss_round k M) i j = true -> st M i j = true).
  { intros i j H. rewrite round_st in H by assumption. apply andb_true_iff in H as [H _]. exact H. }
  intros i j. destruct (st M i j) eqn:Es.
  - destruct (ee_lt G wf i j (Hee i j Es)) as [Li Lj]. destruct (st (truss_round k M) i j) eqn:Er; [reflexivity|]. exfalso.
    unfold mnvals in E. rewrite N, C, N', C' in E.
    assert (nsum n (fun i => cnt n (fun j => has (mget (truss_round k M) i j))) < nsum n (fun i => cnt n (fun j => has (mget M i j)))); [|lia].
    apply nsum_lt with (k := i); [intros a _; apply cnt_mono; intros b _; apply (HL a b)|assumption|].
    apply cnt_strict with (k := j); [intros b _; apply (HL i b)|assumption|exact Er|exact Es].
  - destruct (st (truss_round k M) i j) eqn:Er; [|reflexivity]. apply HL in Er. congruence.
Qed.
Lemma loop_ok fuel M : good M -> mnvals M < fuel -> exists C, truss_loop fuel k M (mnvals M) = Some C /\ good C /\ itruss (st C) /\
  forall i j, mget C i j = if st C i j then Some (Z.of_nat (tri (st C) i j)) else None.
Proof.
  revert M. induction fuel as [|fuel IH]; intros M g L; [lia|]. cbn [truss_loop]. pose proof (round_le M g) as HL.
  destruct (Nat.eqb_spec (mnvals (truss_round k M)) (mnvals M)) as [E|E].
  - exists (truss_round k M). split; [reflexivity|]. pose proof (round_good M g) as g'. split; [assumption|].
    pose proof (round_fix M g E) as HF.
    assert (HT : forall i j, tri (st (truss_round k M)) i j = tri (st M) i j).
    { intros i j. apply cnt_ext. intros x _. rewrite !HF. reflexivity. }
    split.
    + split; [apply g'|]. split; [apply g'|]. intros i j H. rewrite HT. rewrite round_st in H by assumption. apply andb_true_iff in H as [_ H]. apply Z.leb_le. assumption.
    + intros i j. rewrite HT. rewrite (round_get M i j g) at 1. rewrite (round_st M i j g).
      destruct (st M i j); cbn [andb]; reflexivity.
  - apply IH; [apply round_good; assumption|lia].
Qed.
End P.

Section T.
Variable G : graph.
Hypothesis wf : gwf G.
Notation n := (glen G).
Lemma loop_any k fuel : g_dir G = false -> n * n < fuel -> exists C, (if (k <? 3)%Z then Some (den_mat G KOff) else truss_loop fuel k (den_mat G KOff) (mnvals (den_mat G KOff))) = Some C /\
  good G k C /\ itruss G k (st C) /\
  (if (k <? 3)%Z then forall i j, mget C i j = ent G SM i j else forall i j, mget C i j = if st C i j then Some (Z.of_nat (tri G (st C) i j)) else None).
Proof.
  intros D L. pose proof (good_off G wf D k) as g. destruct (Z.ltb_spec k 3) as [K|K].
  - exists (den_mat G KOff). split; [reflexivity|]. split; [assumption|]. split; [|intros; apply mget_off; assumption].
    split; [apply g|]. split; [apply g|]. intros. lia.
  - apply loop_ok; auto. enough (mnvals (den_mat G KOff) <= n * n) by lia. destruct g as (_ & N & C & _). unfold mnvals. rewrite N, C.
    clear. generalize (glen G) at 1 3. intros m. generalize (den_mat G KOff). intros M. induction m as [|m IH]; [reflexivity|]. rewrite nsum_S.
    pose proof (cnt_le_n n (fun j => has (mget M m j))). lia.
Qed.
(** a relation on the nodes as a relation on the numbers *)
Definition onid (E : nkey -> nkey -> bool) (i j : nat) : bool :=
  match ikey (g_kid G) i, ikey (g_kid G) j with Some u, Some v => E u v | _, _ => false end.
Lemma onid_kid E u v i j : kid G u = Some i -> kid G v = Some j -> onid E i j = E u v.
Proof. intros Hu Hv. unfold onid. apply (kid_inv G wf) in Hu, Hv. rewrite Hu, Hv. reflexivity. Qed.
Lemma truss_ids k E : truss G k E -> itruss G k (onid E).
Proof.
  intros (H1 & H2 & H3). assert (X : forall i j, onid E i j = true -> exists u v, kid G u = Some i /\ kid G v = Some j /\ E u v = true).
  { intros i j H. unfold onid in H. destruct (ikey (g_kid G) i) as [u|] eqn:Eu; [|discriminate]. destruct (ikey (g_kid G) j) as [v|] eqn:Ev; [|discriminate].
    exists u, v. rewrite !(kid_inv G wf). auto. }
  split; [|split].
  - intros i j H. apply X in H as (u & v & Hu & Hv & HE). apply H1 in HE. rewrite (nbr_kid G wf u v i j Hu Hv) in HE. exact HE.
  - intros i j. unfold onid. destruct (ikey (g_kid G) i), (ikey (g_kid G) j); auto.
  - intros i j H. apply X in H as (u & v & Hu & Hv & HE). specialize (H3 u v HE).
    rewrite (count_nodes G wf _ (fun x => onid E i x && onid E j x)) in H3; [exact H3|].
    intros x a Ha. rewrite (onid_kid E u x i a), (onid_kid E v x j a) by assumption. reflexivity.
Qed.
(** the loop stops; the answer has exactly the edges of the largest k-truss and the nodes on them.
    Its weights are the triangles of each edge (k >= 3) or the weights of G *)
Theorem C25_k_truss orc fuel k : g_dir G = false -> n * n < fuel ->
  answers G (nx_k_truss orc fuel G k) (fun o => exists T, o = Val (Some T) /\ gwf T /\ g_dir T = false /\
    truss G k (has_edge T) /\
    (forall E, truss G k E -> forall u v, E u v = true -> has_edge T u v = true) /\
    (forall u, node T u <-> exists v, has_edge T u v = true) /\
    (forall u v x, weight T u v = Some x ->
       if (k <? 3)%Z then weight G u v = Some x else x = Z.of_nat (count (fun y => has_edge T u y && has_edge T v y) (gnodes G)))).
Proof.
  intros D L. unfold nx_k_truss, only_undirected. rewrite D. unfold k_truss.
  eapply answers_bind_GV; [apply (get_offdiag_ok G wf true)|]. cbv beta.
  destruct (loop_any k fuel D L) as (C & EC & g & IT & HV). rewrite EC. clear EC.
  pose proof g as (W & N & Cn & Hee & Hs & Hm).
  set (ids := vindices (mred_row op_any C)).
  assert (HI : forall i, In i ids <-> exists j, st C i j = true).
  { intros i. unfold ids. rewrite in_vindices, vget_mred_row by assumption. rewrite has_ored_true, Cn. split; [intros (j & _ & H); eauto|].
    intros [j H]. exists j. split; [apply (ee_lt G wf i j (Hee i j H))|exact H]. }
  destruct (sub_ok G wf orc false C (if (k <? 3)%Z then g_dt G else DInt) ids) as (d & Ed & T1 & T2 & T3 & T4).
  - intros _ i j. destruct (k <? 3)%Z; rewrite !HV; [apply (ent_sym G wf SM i j D)|]. rewrite (Hs j i), (tri_sym G _ j i). reflexivity.
  - destruct (k <? 3)%Z; [|discriminate]. intros Hd i j x Hx. rewrite HV in Hx. cbn [ent] in Hx. destruct (i =? j); [discriminate|]. eapply (gw_nn G wf Hd); eassumption.
  - apply NoDup_vindices.
  - intros i Hi. apply HI in Hi as [j Hj]. apply (ee_lt G wf i j (Hee i j Hj)).
  - eapply answers_bind_v; [apply answers_lifto; symmetry; exact Ed|]. apply answers_ret. cbv zeta in *. set (T := new_graph _ _ _ _ _) in *.
    assert (HE : forall u v i j, kid G u = Some i -> kid G v = Some j -> has_edge T u v = st C i j).
    { intros u v i j Hu Hv. unfold has_edge. rewrite T4, Hu, Hv. destruct (st C i j) eqn:Es.
      - assert (A1 : In i ids) by (apply HI; eauto). assert (A2 : In j ids) by (apply HI; exists i; rewrite Hs; assumption).
        assert (X : forall a, In a ids -> existsb (Nat.eqb a) ids = true) by (intros a Ha; apply existsb_exists; exists a; rewrite Nat.eqb_refl; auto).
        rewrite (X i A1), (X j A2). exact Es.
      - destruct (_ && _); [exact Es|reflexivity]. }
    assert (HX : forall u v, has_edge T u v = true -> exists i j, kid G u = Some i /\ kid G v = Some j /\ st C i j = true).
    { intros u v H. destruct (kid G u) as [i|] eqn:Eu.
      - destruct (kid G v) as [j|] eqn:Ev.
        + exists i, j. rewrite <- (HE u v i j Eu Ev). auto.
        + unfold has_edge in H. rewrite T4, Eu, Ev in H. discriminate.
      - unfold has_edge in H. rewrite T4, Eu in H. discriminate. }
    assert (HC : forall u v i j, kid G u = Some i -> kid G v = Some j -> count (fun y => has_edge T u y && has_edge T v y) (gnodes G) = tri G (st C) i j).
    { intros u v i j Hu Hv. apply (count_nodes G wf). intros x a Ha. rewrite (HE u x i a), (HE v x j a) by assumption. reflexivity. }
    exists T. split; [reflexivity|]. split; [assumption|]. split; [reflexivity|]. split; [split; [|split]|split; [|split]].
    + intros u v H. apply HX in H as (i & j & Hu & Hv & H). rewrite (nbr_kid G wf u v i j Hu Hv). apply (Hee i j H).
    + intros u v. destruct (kid G u) as [i|] eqn:Eu, (kid G v) as [j|] eqn:Ev.
      * rewrite (HE u v i j), (HE v u j i) by assumption. apply Hs.
      * unfold has_edge. rewrite !T4, Eu, Ev. reflexivity.
      * unfold has_edge. rewrite !T4, Eu, Ev. reflexivity.
      * unfold has_edge. rewrite !T4, Eu, Ev. reflexivity.
    + intros u v H. apply HX in H as (i & j & Hu & Hv & H). rewrite (HC u v i j Hu Hv). apply IT. assumption.
    + intros E HT u v H. pose proof (truss_ids k E HT) as IE. pose proof HT as (HN & _). apply HN in H as Hn. apply (nbr_node G) in Hn as [Nu Nv].
      apply node_kid in Nu as [i Hu], Nv as [j Hv]. rewrite (HE u v i j Hu Hv). apply (Hm (onid E) IE). rewrite (onid_kid E u v i j Hu Hv). assumption.
    + intros u. rewrite T3. split.
      * intros (i & Hu & Hi). apply HI in Hi as [j Hj]. destruct (ee_lt G wf i j (Hee i j Hj)) as [_ Lj]. destruct (kid_key G wf j Lj) as [v Hv].
        exists v. rewrite (HE u v i j Hu Hv). assumption.
      * intros [v Hv]. apply HX in Hv as (i & j & Hu & _ & H). exists i. split; [assumption|]. apply HI. eauto.
    + intros u v x Hx. assert (has_edge T u v = true) as H by (unfold has_edge; rewrite Hx; reflexivity). apply HX in H as (i & j & Hu & Hv & H).
      rewrite T4, Hu, Hv in Hx. destruct (_ && _); [|discriminate]. destruct (k <? 3)%Z.
      * unfold weight. rewrite Hu, Hv. rewrite HV in Hx. cbn [ent] in Hx. destruct (i =? j); [discriminate|]. assumption.
      * rewrite (HC u v i j Hu Hv). rewrite HV, H in Hx. congruence.
Qed.
Theorem C25_directed orc fuel k : g_dir G = true -> raises G (nx_k_truss orc fuel G k) ENotImpl.
Proof. intros D. unfold nx_k_truss, only_undirected. rewrite D. apply answers_raise. reflexivity. Qed.
End T.

(** two triangles 0-1-2 and 1-2-3 and the tail 3-4, a self-loop at 4: the 3-truss drops the tail *)
Definition g_tr : graph := mkg false 5 [(0, 1, 1%Z); (0, 2, 1%Z); (1, 2, 1%Z); (1, 3, 1%Z); (2, 3, 1%Z); (3, 4, 1%Z); (4, 4, 1%Z)].
Example C25_ex : gwf g_tr /\ g_dir g_tr = false /\ glen g_tr * glen g_tr < 26 /\
  (exists T, fst (nx_k_truss (fun _ => false) 26 g_tr 3 st0) = Val (Some T) /\ gnodes T = [KI 0; KI 1; KI 2; KI 3] /\ weight T (KI 1) (KI 2) = Some 2%Z /\ weight T (KI 0) (KI 1) = Some 1%Z) /\
  (exists T, fst (nx_k_truss (fun _ => false) 26 g_tr 4 st0) = Val (Some T) /\ gnodes T = []) /\
  (exists T, fst (nx_k_truss (fun _ => false) 26 g_tr 2 st0) = Val (Some T) /\ weight T (KI 3) (KI 4) = Some 1%Z /\ weight T (KI 4) (KI 4) = None).
Proof.
  split; [apply mkg_wf|]. split; [reflexivity|]. split; [vm_compute; lia|].
  split; [|split]; (eexists; split; [vm_compute; reflexivity|]; vm_compute; auto).
Qed.
Print Assumptions C25_k_truss.
