(** * Vectors as functions on nodes; the power iteration loop *)
From Verif Require Import Base BaseProofs Model_Graph Model_Cache Model_Keys Spec KeyProofs Spec_Cache CacheMath CacheProofs CacheProofs2 CacheHist
  Spec_Run RunProofs Spec_Count CountProofs Model_Measures Model_Cluster Spec_Cluster ClusterMath ClusterProofs Props_Containers
  Model_Linalg Spec_Linalg Props_Linalg Model_Rank Spec_Rank.
From Coq Require Import Permutation QArith Qcanon Qcabs.
Open Scope nat_scope.
Notation adj := Spec_Linalg.adj.

Lemma qlt_iff a b : qlt a b = true <-> (a < b)%Qc.
Proof.
  unfold qlt. destruct (Qccompare a b) eqn:E; split; try discriminate; try reflexivity; intros H.
  - apply Qceq_alt in E. subst. destruct (Qclt_not_eq _ _ H). reflexivity.
  - apply Qclt_alt in E. assumption.
  - apply Qcgt_alt in E. destruct (Qclt_not_le _ _ E). apply Qclt_le_weak. assumption.
Qed.
Lemma is0_iff q : is0 q = true <-> q = 0%Qc.
Proof. unfold is0. split; [apply Qc_eq_bool_correct|intros ->; reflexivity]. Qed.
Lemma gsum_oq n f : oq (ored Qcplus n f) = gsum 0%Qc Qcplus n (fun i => oq (f i)).
Proof.
  destruct (eis_ored 0%Qc 1%Qc Qcplus Qcmult Qcsr n f (fun i => has (f i) = true) (fun i => oq (f i))) as [_ H]; [|exact H].
  intros i _. split; [reflexivity|]. unfold eval, id, oq. destruct (f i); reflexivity.
Qed.
Lemma qtotal_ext {X} (f g : X -> Qc) l : (forall x, In x l -> f x = g x) -> qtotal f l = qtotal g l.
Proof. apply (gtotal_ext 0%Qc Qcplus). Qed.

Section R.
Variable G : graph.
Hypothesis wf : gwf G.
Notation n := (glen G).
Notation nodes := (gnodes G).

Lemma qtotal_nodes F f : (forall u i, kid G u = Some i -> F u = f i) -> qtotal F nodes = gsum 0%Qc Qcplus n f.
Proof. apply (gtotal_nodes G wf 0%Qc 1%Qc Qcplus Qcmult Qcsr). Qed.
Lemma nodes_len : List.length nodes = n.
Proof.
  destruct (gkok G wf) as [_ P]. apply Permutation_length in P. rewrite map_length, seq_length in P. unfold gnodes. rewrite map_length. exact P.
Qed.

(** the vector [x] holds the values [f], absent entries counting as zero *)
Definition rep (x : vec Qc) (f : nkey -> Qc) : Prop := vsize x = n /\ forall u i, kid G u = Some i -> oq (vget x i) = f u.
Lemma rep_ext x f g : rep x f -> (forall u, node G u -> f u = g u) -> rep x g.
Proof. intros [S H] E. split; [assumption|]. intros u i Hi. rewrite (H u i Hi). apply E. apply node_kid. eauto. Qed.
Lemma rep_sum x f : rep x f -> vsumq x = qtotal f nodes.
Proof. intros [S H]. unfold vsumq, vreduce. rewrite gsum_oq, S. symmetry. apply qtotal_nodes. intros u i Hi. symmetry. apply H. assumption. Qed.
Lemma rep_const q : rep (vconst n q) (fun _ => q).
Proof. split; [apply vsize_vbuild|]. intros u i Hi. unfold vconst. rewrite vget_vbuild_lt by (eapply kid_lt; eassumption). reflexivity. Qed.
Lemma rep_union x y f g : rep x f -> rep y g -> rep (vunion Qcplus x y) (fun u => f u + g u)%Qc.
Proof.
  intros [S1 H1] [S2 H2]. split; [unfold vunion; rewrite vsize_vbuild; assumption|]. intros u i Hi. rewrite vget_vunion by congruence.
  rewrite <- (H1 u i Hi), <- (H2 u i Hi). destruct (vget x i), (vget y i); cbn; ring.
Qed.
Lemma rep_inter x y f g : rep x f -> rep y g -> rep (vinter Qcmult x y) (fun u => f u * g u)%Qc.
Proof.
  intros [S1 H1] [S2 H2]. split; [unfold vinter; rewrite vsize_vbuild; assumption|]. intros u i Hi. rewrite vget_vinter by congruence.
  rewrite <- (H1 u i Hi), <- (H2 u i Hi). destruct (vget x i), (vget y i); cbn; ring.
Qed.
Lemma rep_map h x f : h 0%Qc = 0%Qc -> rep x f -> rep (vmap h x) (fun u => h (f u)).
Proof.
  intros H0 [S1 H1]. split; [unfold vmap; rewrite vsize_vbuild; assumption|]. intros u i Hi. rewrite vget_vmap.
  rewrite <- (H1 u i Hi). destruct (vget x i); cbn; [reflexivity|symmetry; assumption].
Qed.
Lemma rep_dot x y f g : rep x f -> rep y g -> oq (vdot Qcplus Qcmult x y) = qtotal (fun u => f u * g u)%Qc nodes.
Proof.
  intros [S1 H1] [S2 H2]. unfold vdot. rewrite gsum_oq, S1. symmetry. apply qtotal_nodes. intros u i Hi.
  rewrite <- (H1 u i Hi), <- (H2 u i Hi). destruct (vget x i), (vget y i); cbn; ring.
Qed.
Definition ind (b : bool) : Qc := if b then 1%Qc else 0%Qc.
Lemma rep_vxm first x f : rep x f ->
  rep (vxm_sr first x (g_A G)) (fun v => qtotal (fun u => f u * (if first then ind (has_edge G u v) else qz (adj G true u v)))%Qc nodes).
Proof.
  intros [S1 H1]. split; [unfold vxm_sr, vxm; rewrite vsize_vbuild; apply (gw_sq G wf)|]. intros v j Hj. unfold vxm_sr. rewrite vget_vxm by apply wf.
  rewrite gsum_oq. symmetry. apply qtotal_nodes. intros u i Hi. rewrite <- (H1 u i Hi). unfold has_edge, adj, weight. rewrite Hi, Hj.
  change zq with qz. assert (Z0 : qz 0 = 0%Qc) by reflexivity. destruct first, (vget x i), (mget (g_A G) i j); cbn [oq oget oboth has ind]; rewrite ?Z0; ring.
Qed.
Lemma rep_preds x f : rep x f -> rep (vxm_sr false x (g_A G)) (from_preds G f).
Proof. apply (rep_vxm false). Qed.
Lemma rep_succs x f : rep x f -> rep (mxv_t (g_A G) x) (from_succs G f).
Proof.
  intros [S1 H1]. split; [unfold mxv_t, mxv; rewrite vsize_vbuild; reflexivity|]. intros u i Hi. unfold mxv_t. rewrite vget_mxv by apply wf.
  rewrite gsum_oq, (gw_sq G wf). symmetry. apply qtotal_nodes. intros v j Hj. rewrite <- (H1 v j Hj). unfold adj, weight. rewrite Hi, Hj.
  change zq with qz. assert (Z0 : qz 0 = 0%Qc) by reflexivity. destruct (vget x j), (mget (g_A G) i j); cbn [oq oget oboth]; rewrite ?Z0; ring.
Qed.
Lemma rep_normalize q x f : rep x f -> rep (normalize_by q x) (divided q f).
Proof.
  intros H. unfold normalize_by, divided, is0. destruct (Qc_eq_bool q 0); [eapply rep_ext; [exact H|reflexivity]|].
  apply (rep_map (fun y => y * (1 / q))%Qc); [ring|assumption].
Qed.
Lemma rep_l2 sqr x f : rep x f -> rep (normalize_l2 sqr x) (divided (l2norm sqr G f) f).
Proof. intros H. unfold normalize_l2. rewrite (rep_dot x x f f H H). apply rep_normalize. assumption. Qed.
Lemma rep_l1 x f : rep x f -> rep (normalize_l1 x) (divided (qtotal f nodes) f).
Proof. intros H. unfold normalize_l1. rewrite (rep_sum x f H). apply rep_normalize. assumption. Qed.
Lemma converged_iff x y f g tol : rep x f -> rep y g -> (is_converged x y tol = true <-> (l1 G f g < qlen nodes * tol)%Qc).
Proof.
  intros [S1 H1] [S2 H2]. unfold is_converged. rewrite qlt_iff, S1. unfold qlen, qn. rewrite nodes_len. change zq with qz.
  replace (vsumq (vmap Qcabs (vunion Qcminus x y))) with (l1 G f g); [reflexivity|].
  unfold l1, vsumq, vreduce. rewrite gsum_oq. unfold vmap at 1. rewrite vsize_vbuild. unfold vunion at 1. rewrite vsize_vbuild, S1.
  apply qtotal_nodes. intros u i Hi. rewrite vget_vmap, vget_vunion by congruence. rewrite <- (H1 u i Hi), <- (H2 u i Hi).
  destruct (vget x i) as [a|], (vget y i) as [b|]; cbn [oq oget omerge omap].
  - reflexivity.
  - f_equal. ring.
  - rewrite Qcabs_Qcminus. f_equal. ring.
  - apply Qc_is_canon. reflexivity.
Qed.

(** ** the loop *)
Section Loop.
Context {X : Type} (stp : X -> outcome X) (val : X -> vec Qc) (tol : Qc).
Variable F : (nkey -> Qc) -> nkey -> Qc.
Variable f0 : nkey -> Qc.
Variable max_iter : nat.
Variable Rx : nat -> X -> Prop.
Variable Bad : nat -> exn -> Prop.
Hypothesis Hrep : forall k x, Rx k x -> rep (val x) (iterate F k f0).
Hypothesis Hstep : forall k x, k < max_iter -> Rx k x -> match stp x with Val x' => Rx (S k) x' | Raise e => Bad k e end.
Lemma power_from m : forall k x, k + m = max_iter -> Rx k x -> (forall j, 1 <= j <= k -> ~ settled G F f0 tol j) ->
  match power stp val tol m x with
  | Val r => exists k, first_settled G F f0 tol max_iter k /\ Rx k r
  | Raise e => (e = EConv /\ never_settled G F f0 tol max_iter) \/ exists k, k < max_iter /\ Bad k e
  end.
Proof.
  induction m as [|m IH]; intros k x Hk Hx Hj; cbn [power].
  - left. split; [reflexivity|]. replace max_iter with k by lia. exact Hj.
  - pose proof (Hstep k x ltac:(lia) Hx) as Hs. destruct (stp x) as [x'|e]; [|right; exists k; split; [lia|assumption]].
    assert (E : is_converged (val x) (val x') tol = true <-> settled G F f0 tol (S k)).
    { unfold settled. replace (S k - 1) with k by lia. apply converged_iff; apply Hrep; assumption. }
    destruct (is_converged (val x) (val x') tol).
    + exists (S k). split; [|assumption]. split; [lia|]. split; [apply E; reflexivity|]. intros j Lj. apply Hj. lia.
    + apply (IH (S k)); [lia|assumption|]. intros j Lj. destruct (Nat.eq_dec j (S k)) as [->|]; [|apply Hj; lia].
      intros Hc. apply E in Hc. discriminate.
Qed.
Lemma power_ok x : Rx 0 x ->
  match power stp val tol max_iter x with
  | Val r => exists k, first_settled G F f0 tol max_iter k /\ Rx k r
  | Raise e => (e = EConv /\ never_settled G F f0 tol max_iter) \/ exists k, k < max_iter /\ Bad k e
  end.
Proof. intros Hx. apply (power_from max_iter 0); [reflexivity|assumption|]. intros j Lj. lia. Qed.
End Loop.

(** ** dict arguments *)
Definition full (x : vec Qc) : Prop := forall i, i < n -> has (vget x i) = true.
Lemma dict_vec_ok d : is_dict d -> answers G (dict_vec G d) (fun o =>
  match o with
  | Val None => d = None
  | Val (Some v) => exists d', d = Some d' /\ rep v (dval d') /\ forall u i, kid G u = Some i -> (has (vget v i) = true <-> In u (map fst d'))
  | Raise e => (e = EKey /\ foreign G d) \/ (e = EValue /\ no_entries d)
  end).
Proof.
  destruct d as [d|]; cbn [dict_vec]; [|intros _; apply answers_ret; reflexivity]. cbn [is_dict]. intros ND. unfold dict_to_vector.
  destruct (mapO (fun kv => dget (g_kid G) (fst kv)) d) as [ids|] eqn:E.
  2:{ eapply answers_bind_e; [apply answers_lifto; reflexivity|]. left. split; [reflexivity|]. apply mapO_none in E as ([u q] & Hu & Hn).
      exists d, u, q. split; [reflexivity|]. split; [assumption|]. rewrite node_kid. intros [i Hi]. unfold kid in Hi. cbn in Hn. congruence. }
  pose proof (fun k i a H => vfrom_dict (g_kid G) n (gkok G wf) d ids ND E k i a H) as HV.
  destruct d as [|p d'] eqn:Ed; [eapply answers_bind_e; [apply answers_lifto; reflexivity|]; right; split; reflexivity|]. rewrite <- Ed in *.
  eapply answers_bind_v; [apply answers_lifto; reflexivity|]. apply answers_ret. exists d. split; [reflexivity|]. split.
  - split; [apply vsize_vbuild|]. intros u i Hi. unfold dval. destruct (dget d u) as [q|] eqn:Eq.
    + apply dget_In in Eq. apply (HV u i q Hi) in Eq. rewrite Eq. reflexivity.
    + destruct (vget _ i) as [q|] eqn:Ei; [|reflexivity]. apply (HV u i q Hi) in Ei. apply (In_dget d u q ND) in Ei. congruence.
  - intros u i Hi. split.
    + destruct (vget _ i) as [q|] eqn:Ei; [|discriminate]. intros _. apply (HV u i q Hi) in Ei. apply in_map_iff. exists (u, q). auto.
    + intros Hu. apply in_map_iff in Hu as ([u' q] & <- & Hq). apply (HV u' i q Hi) in Hq. rewrite Hq. reflexivity.
Qed.
End R.
