(** * C87: the scores of hits, eigenvector_centrality and katz_centrality are non-negative, normalised and supported where they should be *)
From Verif Require Import Base BaseProofs Model_Graph Model_Cache Model_Keys Spec KeyProofs Spec_Cache Spec_Run RunProofs Spec_Session Spec_Laws LawProofs OperatorProofs CacheProofs CacheProofs2 CacheHist
  Spec_Count CountProofs Model_Cluster Spec_Cluster ClusterProofs Concrete Spec_Iso IsoProofs Spec_Linalg Props_Linalg Model_Rank Spec_Rank RankProofs RankMath Props_Pagerank Props_Power Props_Session Props_Laws.
From Coq Require Import Permutation QArith Qcanon Qcabs.
Open Scope nat_scope.

(** every edge weight is >= 0 *)
Definition nonneg_weights (G : graph) : Prop := forall u v x, weight G u v = Some x -> (0 <= x)%Z.
(** the map [m] gives node u the score [f u], and 0 stands for a node it leaves out *)
Definition scores (G : graph) (m : nodemap Qc) (f : nkey -> Qc) : Prop :=
  forall u, node G u -> nm_getitem m u = Val (f u) \/ (nm_getitem m u = Raise EKey /\ f u = 0%Qc).
Definition no_succ (G : graph) (u : nkey) : Prop := forall v, ~ edge G u v.
Definition no_pred (G : graph) (u : nkey) : Prop := forall v, ~ edge G v u.

Lemma map_scores G m f : is_map m (fun u q => node G u /\ q = f u) -> scores G m f.
Proof. intros [H _] u Hu. left. apply H. auto. Qed.
Lemma Qc01 : (0 <= 1)%Qc. Proof. unfold Qcle; cbn; discriminate. Qed.
Lemma Qc_ne10 : 1%Qc <> 0%Qc. Proof. discriminate. Qed.
Lemma is0_true q : Qc_eq_bool q 0 = true <-> q = 0%Qc.
Proof. split; [apply Qc_eq_bool_correct|]. intros ->. reflexivity. Qed.

(** ** sums *)
Lemma divided_total c x (l : list nkey) : qtotal (divided c x) l = if Qc_eq_bool c 0 then qtotal x l else (qtotal x l * (1 / c))%Qc.
Proof. unfold divided. destruct (Qc_eq_bool c 0); [apply qtotal_eq; reflexivity|]. apply qtotal_scale_r. Qed.
Lemma divided_sum x (l : list nkey) : qtotal (divided (qtotal x l) x) l = 1%Qc \/ qtotal x l = 0%Qc.
Proof.
  rewrite divided_total. destruct (Qc_eq_bool (qtotal x l) 0) eqn:E; [right; apply is0_true; assumption|left]. field. intros H. rewrite H in E. discriminate.
Qed.
Lemma qtotal_all0 (x : nkey -> Qc) l : (forall u, In u l -> (0 <= x u)%Qc) -> qtotal x l = 0%Qc -> forall u, In u l -> x u = 0%Qc.
Proof. intros H E u Hu. apply Qcle_antisym; [|apply H; assumption]. rewrite <- E. apply qtotal_pos; assumption. Qed.
Lemma divided_zero c x u : x u = 0%Qc -> divided c x u = 0%Qc.
Proof. intros E. unfold divided. destruct (Qc_eq_bool c 0); [assumption|]. rewrite E. ring. Qed.

Section S.
Variable G : graph.
Hypothesis wf : gwf G.
Notation nodes := (gnodes G).
Lemma adj_none u v : ~ edge G u v -> Spec_Linalg.adj G true u v = 0%Z.
Proof. intros H. unfold Spec_Linalg.adj. destruct (weight G u v) as [x|] eqn:E; [|reflexivity]. destruct H. exists x. assumption. Qed.
Lemma adjq_nonneg u v : nonneg_weights G -> (0 <= qz (Spec_Linalg.adj G true u v))%Qc.
Proof. intros H. apply qz_nonneg. unfold Spec_Linalg.adj. destruct (weight G u v) as [x|] eqn:E; [|lia]. eapply H. eassumption. Qed.
Lemma preds_nn x : nonneg_weights G -> (forall u, (0 <= x u)%Qc) -> forall v, (0 <= from_preds G x v)%Qc.
Proof. intros W H v. apply qtotal_nonneg. intros u _. apply Qc_mul_nonneg; [apply H|apply adjq_nonneg; assumption]. Qed.
Lemma succs_nn x : nonneg_weights G -> (forall u, (0 <= x u)%Qc) -> forall v, (0 <= from_succs G x v)%Qc.
Proof. intros W H v. apply qtotal_nonneg. intros u _. apply Qc_mul_nonneg; [apply adjq_nonneg; assumption|apply H]. Qed.
Lemma preds_none x v : no_pred G v -> from_preds G x v = 0%Qc.
Proof. intros H. unfold from_preds. rewrite (qtotal_eq _ (fun _ => 0%Qc)); [apply qtotal_zero|]. intros u _. rewrite adj_none by apply H. change (qz 0) with 0%Qc. ring. Qed.
Lemma succs_none x u : no_succ G u -> from_succs G x u = 0%Qc.
Proof. intros H. unfold from_succs. rewrite (qtotal_eq _ (fun _ => 0%Qc)); [apply qtotal_zero|]. intros v _. rewrite adj_none by apply H. change (qz 0) with 0%Qc. ring. Qed.
Lemma hits_nn x0 k : nonneg_weights G -> (forall u, (0 <= x0 u)%Qc) -> forall u, (0 <= iterate (hits_next G) k x0 u)%Qc.
Proof.
  intros W H. induction k as [|k IH]; [exact H|]. intros u. cbn [iterate]. unfold hits_next. apply divided_nonneg; [apply largest_nonneg; intros|]; apply succs_nn; try assumption; apply preds_nn; assumption.
Qed.
Lemma not_hub u : node G u -> ~ In u (hubs G) -> no_succ G u.
Proof. intros Hu H v He. apply H. apply in_hubs. eauto. Qed.
Lemma not_auth u : node G u -> ~ In u (auths G) -> no_pred G u.
Proof. intros Hu H v He. apply H. apply in_auths. eauto. Qed.

(** after division by the largest value over [l], outside of which all values are 0 *)
Lemma divided_max x (l : list nkey) : (forall u, (0 <= x u)%Qc) -> (forall u, In u l -> node G u) -> (forall u, node G u -> ~ In u l -> x u = 0%Qc) ->
  (forall u, node G u -> (0 <= divided (largest x l) x u <= 1)%Qc) /\
  ((exists u, node G u /\ divided (largest x l) x u = 1%Qc) \/ forall u, node G u -> divided (largest x l) x u = 0%Qc).
Proof.
  intros N Hl Z. assert (L0 := largest_nonneg x l (fun u _ => N u)).
  destruct (Qc_eq_bool (largest x l) 0) eqn:E.
  - apply is0_true in E. assert (A : forall u, node G u -> x u = 0%Qc).
    { intros u Hu. destruct (in_dec nkey_dec u l) as [Hi|Hi]; [|apply Z; assumption]. destruct (largest_spec x l) as [_ B]; [intros ->; destruct Hi|].
      apply Qcle_antisym; [|apply N]. rewrite <- E. apply B. assumption. }
    assert (D : forall u, node G u -> divided (largest x l) x u = 0%Qc) by (intros u Hu; apply divided_zero, A, Hu).
    split; [|right; exact D]. intros u Hu. rewrite D by assumption. split; [apply Qcle_refl|exact Qc01].
  - assert (Ne : largest x l <> 0%Qc) by (intros H; apply is0_true in H; congruence).
    assert (Nl : l <> []) by (intros ->; apply Ne; reflexivity). destruct (largest_spec x l Nl) as [(w & Hw & Ew) B].
    assert (D : forall u, divided (largest x l) x u = (x u * (1 / largest x l))%Qc) by (intros; unfold divided; rewrite E; reflexivity).
    assert (P : (0 <= 1 / largest x l)%Qc) by (apply Qc_div_nonneg; [exact Qc01|exact L0]).
    split; [|left; exists w; split; [auto|]; rewrite D, Ew; field; exact Ne].
    intros u Hu. rewrite D. split; [apply Qc_mul_nonneg; [apply N|exact P]|].
    assert (Le : (x u <= largest x l)%Qc) by (destruct (in_dec nkey_dec u l) as [Hi|Hi]; [apply B; assumption|rewrite Z by assumption; exact L0]).
    apply (Qc_mul_le _ _ _ P) in Le. replace (1 / largest x l * largest x l)%Qc with 1%Qc in Le by (field; exact Ne). rewrite Qcmult_comm. exact Le.
Qed.

(** ** hits *)
(** normalized=True: hub scores and authority scores each sum to 1 (or to 0); with non-negative weights and start all are
    between 0 and 1, and the sum is 0 only if all are *)
Theorem C87_hits max_iter tol nstart h a : is_dict nstart -> hits_covered G (hubs G) nstart ->
  seen G (nx_hits G max_iter tol nstart true) (Val (Some (h, a))) ->
  exists f g, scores G h f /\ scores G a g /\
    (qtotal f nodes = 1 \/ qtotal f nodes = 0)%Qc /\ (qtotal g nodes = 1 \/ qtotal g nodes = 0)%Qc /\
    (nonneg_weights G -> nonneg_dict nstart ->
      (forall u, 0 <= f u /\ 0 <= g u)%Qc /\ (qtotal f nodes = 0%Qc -> forall u, node G u -> f u = 0%Qc) /\ (qtotal g nodes = 0%Qc -> forall u, node G u -> g u = 0%Qc)).
Proof.
  intros D C H. destruct (seen_ans G wf _ _ _ _ H (C58_hits G wf max_iter tol nstart true D C)) as (k & (Hk & _) & Mh & Ma).
  exists (hub_score G (distr nodes nstart) k true), (auth_score G (distr nodes nstart) k true).
  split; [apply map_scores; exact Mh|]. split; [apply map_scores; exact Ma|]. unfold hub_score, auth_score. cbv zeta.
  set (hv := iterate (hits_next G) k _). set (av := from_preds G _).
  assert (K : forall x, (qtotal (divided (qtotal x nodes) x) nodes = 1 \/ qtotal (divided (qtotal x nodes) x) nodes = 0)%Qc).
  { intros x. destruct (divided_sum x nodes) as [E|E]; [left; exact E|right]. rewrite divided_total, E. reflexivity. }
  split; [apply K|]. split; [apply K|]. intros W N.
  assert (X0 : forall u, (0 <= distr nodes nstart u)%Qc) by (intros; apply distr_nonneg; assumption).
  assert (Nh : forall u, (0 <= hv u)%Qc) by (intros; apply hits_nn; assumption).
  assert (Na : forall u, (0 <= av u)%Qc) by (intros; apply preds_nn; [assumption|]; intros; apply hits_nn; assumption).
  assert (B : forall x, (forall u, (0 <= x u)%Qc) -> forall u, (0 <= divided (qtotal x nodes) x u)%Qc).
  { intros x Hx u. apply divided_nonneg; [apply qtotal_nonneg; intros; apply Hx|apply Hx]. }
  split; [intros u; split; apply B; assumption|]. split; intros E; apply qtotal_all0; try assumption; intros; apply B; assumption.
Qed.
(** normalized=False: the scores lie between 0 and 1 and the largest is 1, unless all are 0 *)
Theorem C87_hits_max max_iter tol nstart h a : is_dict nstart -> nonneg_weights G -> nonneg_dict nstart ->
  seen G (nx_hits G max_iter tol nstart false) (Val (Some (h, a))) ->
  exists f g, scores G h f /\ scores G a g /\ (forall u, node G u -> (0 <= f u <= 1)%Qc /\ (0 <= g u <= 1)%Qc) /\
    ((exists u, node G u /\ f u = 1%Qc) \/ forall u, node G u -> f u = 0%Qc) /\ ((exists u, node G u /\ g u = 1%Qc) \/ forall u, node G u -> g u = 0%Qc).
Proof.
  intros D W N H. destruct (seen_ans G wf _ _ _ _ H (C58_hits G wf max_iter tol nstart false D (or_intror (conj N W)))) as (k & (Hk & _) & Mh & Ma).
  exists (hub_score G (distr nodes nstart) k false), (auth_score G (distr nodes nstart) k false).
  split; [apply map_scores; exact Mh|]. split; [apply map_scores; exact Ma|]. unfold hub_score, auth_score. cbv zeta.
  assert (X0 : forall u, (0 <= distr nodes nstart u)%Qc) by (intros; apply distr_nonneg; assumption).
  destruct k as [|k]; [lia|]. replace (S k - 1) with k by lia. cbn [iterate]. set (y := iterate (hits_next G) k _).
  assert (Ny : forall u, (0 <= y u)%Qc) by (intros; apply hits_nn; assumption).
  destruct (divided_max (from_succs G (from_preds G y)) (hubs G)) as [A1 A2].
  { apply succs_nn; [assumption|]. apply preds_nn; assumption. }
  { apply hubs_nodes. }
  { intros u Hu Hn. apply succs_none, not_hub; assumption. }
  destruct (divided_max (from_preds G y) (auths G)) as [B1 B2].
  { apply preds_nn; assumption. }
  { apply auths_nodes. }
  { intros u Hu Hn. apply preds_none, not_auth; assumption. }
  split; [intros u Hu; split; [apply A1|apply B1]; assumption|]. split; [exact A2|exact B2].
Qed.
(** a node without successors is no hub, one without predecessors no authority; any weights *)
Theorem C87_hits_support max_iter tol nstart normalized h a u : is_dict nstart -> hits_covered G (hubs G) nstart -> node G u ->
  seen G (nx_hits G max_iter tol nstart normalized) (Val (Some (h, a))) ->
  (no_succ G u -> nm_getitem h u = Val 0%Qc) /\ (no_pred G u -> nm_getitem a u = Val 0%Qc).
Proof.
  intros D C Hu H. destruct (seen_ans G wf _ _ _ _ H (C58_hits G wf max_iter tol nstart normalized D C)) as (k & (Hk & _) & [Mh _] & [Ma _]).
  destruct k as [|k]; [lia|]. split; intros Hn.
  - apply Mh. split; [assumption|]. unfold hub_score. cbv zeta. cbn [iterate]. unfold hits_next at 2 4.
    destruct normalized; symmetry; repeat apply divided_zero; apply succs_none; assumption.
  - apply Ma. split; [assumption|]. unfold auth_score. cbv zeta. destruct normalized; symmetry; apply divided_zero, preds_none; assumption.
Qed.

(** ** Euclidean length *)
(** [sqr] is a square root with relative error at most [e] *)
Definition root_within (e : Qc) (sqr : Qc -> Qc) : Prop :=
  (0 <= e)%Qc /\ (e < 1)%Qc /\ sqr 0%Qc = 0%Qc /\ forall q, (0 < q)%Qc -> (0 < sqr q)%Qc /\ ((1 - e) * q <= sqr q * sqr q)%Qc /\ (sqr q * sqr q <= (1 + e) * q)%Qc.
Definition squares (f : nkey -> Qc) : Qc := qtotal (fun u => f u * f u)%Qc nodes.
Lemma squares_nonneg f : (0 <= squares f)%Qc.
Proof. apply qtotal_nonneg. intros u _. assert (X := Qcabs_nonneg (f u * f u)). rewrite Qcabs_Qcmult in X. destruct (Qclt_le_dec (f u) 0) as [L|L].
  - replace (f u * f u)%Qc with ((- f u) * (- f u))%Qc by ring. apply Qc_mul_nonneg; apply Qclt_le_weak in L; apply (Qcopp_le_compat _ 0) in L; exact L.
  - apply Qc_mul_nonneg; assumption. Qed.
(** a vector divided by its length has length 1 up to the error of the root, or is zero *)
Lemma unit_length e sqr y : root_within e sqr -> let f := divided (l2norm sqr G y) y in
  (1 <= (1 + e) * squares f)%Qc /\ ((1 - e) * squares f <= 1)%Qc \/ forall u, node G u -> f u = 0%Qc.
Proof.
  intros (E0 & E1 & S0 & HS). cbv zeta. unfold l2norm. fold (squares y). assert (Nn := squares_nonneg y).
  destruct (Qc_eq_dec (squares y) 0) as [Z|Z].
  - right. rewrite Z, S0. intros u Hu. unfold divided. cbn. assert (X : (y u * y u = 0)%Qc).
    { apply (qtotal_all0 (fun u => y u * y u)%Qc nodes); [|exact Z|exact Hu]. intros w _. clear - w. 
      destruct (Qclt_le_dec (y w) 0) as [L|L]; [replace (y w * y w)%Qc with ((- y w) * (- y w))%Qc by ring; apply Qc_mul_nonneg; apply Qclt_le_weak in L; apply (Qcopp_le_compat _ 0) in L; exact L|apply Qc_mul_nonneg; assumption]. }
    change (Qc_eq_bool 0 0) with true. cbv iota. apply Qcmult_integral in X. tauto.
  - left. assert (P : (0 < squares y)%Qc). { apply Qcle_lt_or_eq in Nn as [L|L]; [exact L|congruence]. }
    destruct (HS _ P) as (R0 & R1 & R2). set (s := sqr (squares y)) in *. assert (Ns : s <> 0%Qc) by (intros Hs; rewrite Hs in R0; discriminate R0).
    assert (F : squares (divided s y) = (squares y * (1 / (s * s)))%Qc).
    { unfold squares. rewrite <- qtotal_scale_r. apply qtotal_eq. intros u _. unfold divided. destruct (Qc_eq_bool s 0) eqn:Q; [apply is0_true in Q; contradiction|]. field. exact Ns. }
    rewrite F. assert (I0 : (0 <= 1 / (s * s))%Qc). { apply Qc_div_nonneg; [exact Qc01|]. apply Qc_mul_nonneg; apply Qclt_le_weak; assumption. }
    assert (T : (1 / (s * s) * (s * s) = 1)%Qc) by (field; exact Ns). split.
    + apply (Qc_mul_le _ _ _ I0) in R2. rewrite T in R2. replace ((1 + e) * (squares y * (1 / (s * s))))%Qc with (1 / (s * s) * ((1 + e) * squares y))%Qc by ring. exact R2.
    + apply (Qc_mul_le _ _ _ I0) in R1. rewrite T in R1. replace ((1 - e) * (squares y * (1 / (s * s))))%Qc with (1 / (s * s) * ((1 - e) * squares y))%Qc by ring. exact R1.
Qed.
Lemma eig_nn sqr x0 k : nonneg_weights G -> (forall q, (0 <= sqr q)%Qc) -> (forall u, (0 <= x0 u)%Qc) -> forall u, (0 <= iterate (eig_next sqr G) k x0 u)%Qc.
Proof.
  intros W S H. induction k as [|k IH]; [exact H|]. intros u. cbn [iterate]. unfold eig_next. apply divided_nonneg; [apply S|].
  replace 0%Qc with (0 + 0)%Qc by ring. apply Qcplus_le_compat; [apply IH|apply preds_nn; assumption].
Qed.
Lemma not_spread sqr nstart k : forall u, ~ spread G (given nstart) k u -> iterate (eig_next sqr G) k (distr nodes nstart) u = 0%Qc.
Proof.
  induction k as [|k IH]; intros u H; cbn [iterate spread] in *.
  - unfold distr. destruct nstart as [d|]; [|destruct H; exact Logic.I]. cbn [given] in H. unfold dval. destruct (dget d u) as [q|] eqn:E; [|unfold Qcdiv; ring].
    apply dget_In in E. destruct H. apply (in_map fst) in E. exact E.
  - unfold eig_next. apply divided_zero. rewrite IH by tauto. unfold from_preds. rewrite (qtotal_eq _ (fun _ => 0%Qc)); [rewrite qtotal_zero; ring|].
    intros w _. destruct (edge_dec G w u) as [He|He]; [rewrite IH by (intros Hs; apply H; right; eauto); ring|rewrite adj_none by assumption; change (qz 0) with 0%Qc; ring].
Qed.
Lemma spread_dec P k : (forall u, P u \/ ~ P u) -> forall u, spread G P k u \/ ~ spread G P k u.
Proof.
  intros HP. induction k as [|k IH]; intros u; cbn [spread]; [apply HP|]. destruct (IH u) as [H|H]; [auto|].
  assert (X : (exists w, In w nodes /\ edge G w u /\ spread G P k w) \/ ~ exists w, In w nodes /\ edge G w u /\ spread G P k w).
  { induction nodes as [|w l IHl]; [right; intros (w & [] & _)|]. destruct IHl as [(w' & A & B)|IHl]; [left; exists w'; split; [right; exact A|exact B]|].
    destruct (edge_dec G w u) as [He|He]; [destruct (IH w) as [Hs|Hs]; [left; exists w; split; [left; reflexivity|auto]|]|];
      right; intros (w' & [<-|A] & B1 & B2); auto; apply IHl; eauto. }
  destruct X as [(w & _ & A)|X]; [left; right; eauto|right]. intros [A|(w & A & B)]; [auto|]. apply X. exists w. split; [|auto]. destruct A as [x Hx]. apply (weight_nodes G _ _ _ Hx).
Qed.
Theorem C87_eigenvector e sqr max_iter tol nstart m : is_dict nstart -> root_within e sqr ->
  seen G (nx_eigenvector_centrality sqr G max_iter tol nstart) (Val m) ->
  exists f, scores G m f /\
    ((1 <= (1 + e) * squares f)%Qc /\ ((1 - e) * squares f <= 1)%Qc \/ forall u, node G u -> f u = 0%Qc) /\
    (nonneg_weights G -> nonneg_dict nstart -> (forall q, (0 <= sqr q)%Qc) -> forall u, (0 <= f u)%Qc).
Proof.
  intros D R H. destruct (seen_ans G wf _ _ _ _ H (C58_eigenvector G wf sqr max_iter tol nstart D)) as (k & (Hk & _) & [M M2]).
  exists (iterate (eig_next sqr G) k (distr nodes nstart)). split; [|split].
  - intros u Hu. destruct (spread_dec (given nstart) k) with (u := u) as [Hs|Hs].
    + intros w. unfold given. destruct nstart as [d|]; [|auto]. destruct (in_dec nkey_dec w (map fst d)); auto.
    + left. apply M. auto.
    + right. split; [|apply not_spread; assumption]. destruct (nm_getitem m u) as [q|e0] eqn:E; [apply M in E as (_ & E & _); contradiction|]. apply nm_getitem_key in E. congruence.
  - destruct k as [|k]; [lia|]. cbn [iterate]. unfold eig_next at 1 3 5. apply unit_length. assumption.
  - intros W N S. apply eig_nn; try assumption. intros. apply distr_nonneg. assumption.
Qed.
(** ** katz *)
Lemma katz_nn alpha beta x0 k : nonneg_weights G -> (0 <= alpha)%Qc -> (forall u, (0 <= beta u)%Qc) -> (forall u, (0 <= x0 u)%Qc) -> forall u, (0 <= iterate (katz_next G alpha beta) k x0 u)%Qc.
Proof.
  intros W A B H. induction k as [|k IH]; [exact H|]. intros u. cbn [iterate]. unfold katz_next.
  replace 0%Qc with (0 + 0)%Qc by ring. apply Qcplus_le_compat; [apply Qc_mul_nonneg; [assumption|apply preds_nn; assumption]|apply B].
Qed.
Theorem C87_katz e sqr fl alpha beta max_iter tol nstart normalized m s : is_dict nstart -> is_dict (beta_dict beta) -> adds_everywhere G fl beta nstart -> root_within e sqr ->
  Inv G s -> iso_known s -> fst (nx_katz_centrality sqr fl G alpha beta max_iter tol nstart normalized s) = Val (Some m) ->
  exists f, scores G m f /\
    (normalized = true -> (1 <= (1 + e) * squares f)%Qc /\ ((1 - e) * squares f <= 1)%Qc \/ forall u, node G u -> f u = 0%Qc) /\
    (nonneg_weights G -> (0 <= alpha)%Qc -> (forall u, (0 <= beta_val beta u)%Qc) -> nonneg_dict nstart -> (forall q, (0 <= sqr q)%Qc) ->
       (forall u, (0 <= f u)%Qc) /\ (normalized = false -> forall u, node G u -> (beta_val beta u <= f u)%Qc)).
Proof.
  intros D D2 Ad R HI HK H. destruct (C58_katz_partial G wf sqr fl alpha beta max_iter tol nstart normalized D D2 Ad s HI HK) as [A _]. rewrite H in A.
  destruct A as (k & (Hk & _) & M). eexists (fun u => if normalized then _ else _). split; [apply map_scores; exact M|]. split.
  - intros ->. apply (unit_length e). assumption.
  - intros W A0 B N S. assert (X0 : forall u, (0 <= katz_start nstart u)%Qc).
    { intros u. unfold katz_start. destruct nstart as [d|]; [|apply Qcle_refl]. unfold dval. destruct (dget d u) as [q|] eqn:E; [|apply Qcle_refl]. apply dget_In in E. eapply N. exact E. }
    assert (I : forall j u, (0 <= iterate (katz_next G alpha (beta_val beta)) j (katz_start nstart) u)%Qc) by (intros; apply katz_nn; assumption).
    split; [intros u; destruct normalized; [apply divided_nonneg; [apply S|]|]; apply I|]. intros -> u _. destruct k as [|k]; [lia|]. cbn [iterate]. unfold katz_next at 1.
    rewrite <- (Qcplus_0_l (beta_val beta u)) at 1. apply Qcplus_le_compat; [|apply Qcle_refl]. apply Qc_mul_nonneg; [assumption|]. apply preds_nn; [assumption|]. apply I.
Qed.
End S.

(** ** The hypotheses hold: a root with error 1/50 exists, and the three functions return on concrete graphs *)
Definition root100 (q : Qc) : Qc := Q2Qc (Qmake (Z.sqrt (Qnum q * Zpos (Qden q) * 10000)) (Qden q * 100)).
Lemma root100_nonneg q : (0 <= root100 q)%Qc.
Proof.
  unfold Qcle, root100. repeat change (this (Q2Qc ?x)) with (Qred x). rewrite !Qred_correct. unfold Qle. cbn [Qnum Qden].
  assert (H := Z.sqrt_nonneg (Qnum q * Zpos (Qden q) * 10000)). lia.
Qed.
Example C87_root_ex : root_within (Q2Qc (1 # 50)) root100.
Proof.
  split; [vm_compute; discriminate|]. split; [vm_compute; reflexivity|]. split; [apply Qc_is_canon; reflexivity|].
  intros q Hq. assert (Pn : (0 < Qnum q)%Z). { unfold Qclt, Qlt in Hq. change (Qnum (this 0%Qc)) with 0%Z in Hq. change (Qden (this 0%Qc)) with 1%positive in Hq. lia. }
  set (n := Qnum q) in *. set (d := Zpos (Qden q)). assert (Pd : (0 < d)%Z) by (unfold d; lia).
  assert (P : (1 <= n * d)%Z) by nia. set (s := Z.sqrt (n * d * 10000)).
  assert (Hs : (s * s <= n * d * 10000 < (s + 1) * (s + 1))%Z) by (apply (Z.sqrt_spec (n * d * 10000)); lia).
  assert (S1 : (100 <= s)%Z). { unfold s. change 100%Z with (Z.sqrt 10000). apply Z.sqrt_le_mono. lia. }
  unfold root100, Qclt, Qcle. repeat change (this (Q2Qc ?x)) with (Qred x).
  change (this (Q2Qc ?x * Q2Qc ?x)%Qc) with (Qred (Qred x * Qred x)).
  assert (T : this q = n # Qden q) by (unfold n; destruct (this q); reflexivity).
  split; [rewrite !Qred_correct; unfold Qlt; cbn [Qnum Qden]; fold n; fold d; fold s; lia|].
  change (this ((1 - Q2Qc (1 # 50)) * q)%Qc) with (Qred ((49 # 50) * q)). change (this ((1 + Q2Qc (1 # 50)) * q)%Qc) with (Qred ((51 # 50) * q)).
  rewrite !Qred_correct, T. unfold Qle, Qmult. cbn [Qnum Qden]. fold n. fold d. fold s. rewrite !Pos2Z.inj_mul. fold d.
  clearbody n d s. assert (L1 : (49 * (n * d * 10000) <= s * s * 50)%Z) by nia. assert (L2 : (s * s * 50 <= 51 * (n * d * 10000))%Z) by nia.
  assert (M1 := Z.mul_le_mono_nonneg_r _ _ d (Z.lt_le_incl _ _ Pd) L1). assert (M2 := Z.mul_le_mono_nonneg_r _ _ d (Z.lt_le_incl _ _ Pd) L2). clear - M1 M2.
  replace (49 * n * (d * 100 * (d * 100)))%Z with (49 * (n * d * 10000) * d)%Z by ring. replace (51 * n * (d * 100 * (d * 100)))%Z with (51 * (n * d * 10000) * d)%Z by ring.
  replace (s * s * (50 * d))%Z with (s * s * 50 * d)%Z by ring. split; assumption.
Qed.
Definition g_sc : graph := mkg true 3 [(0, 1, 3%Z); (1, 2, 2%Z); (0, 2, 1%Z)].
Lemma g_sc_weights : nonneg_weights g_sc.
Proof. intros u v x H. destruct (weight_nodes _ _ _ _ H) as [Hu Hv]. vm_compute in Hu, Hv. destruct Hu as [<-|[<-|[<-|[]]]]; destruct Hv as [<-|[<-|[<-|[]]]]; vm_compute in H; try discriminate H; injection H as <-; lia. Qed.

Example C87_hits_ex : gwf g_sc /\ nonneg_weights g_sc /\ is_dict None /\ nonneg_dict None /\ hits_covered g_sc (hubs g_sc) None /\
  (exists h a q, seen g_sc (nx_hits g_sc 20 (Q2Qc (1 # 50)) None true) (Val (Some (h, a))) /\ nm_getitem h (KI 0) = Val q /\ q <> 0%Qc) /\
  exists h a q, seen g_sc (nx_hits g_sc 20 (Q2Qc (1 # 50)) None false) (Val (Some (h, a))) /\ nm_getitem h (KI 0) = Val q /\ q <> 0%Qc.
Proof.
  split; [apply mkg_wf|]. split; [exact g_sc_weights|]. split; [exact Logic.I|]. split; [exact Logic.I|]. split; [left; intros; exact Logic.I|].
  split; eexists _, _, _; (split; [eapply seen_after; [apply P_is_weakly_connected|vm_compute; reflexivity]|]); (split; [vm_compute; reflexivity|]); intros H; apply (f_equal this) in H; vm_compute in H; discriminate.
Qed.
Example C87_eigenvector_ex : exists m q, seen g_sc (nx_eigenvector_centrality root100 g_sc 5 1 None) (Val m) /\ nm_getitem m (KI 2) = Val q /\ q <> 0%Qc.
Proof. eexists _, _. split; [eapply seen_after; [apply P_is_weakly_connected|vm_compute; reflexivity]|]. split; [vm_compute; reflexivity|]. intros H; apply (f_equal this) in H; vm_compute in H; discriminate. Qed.
Example C87_katz_ex : Inv g_sc st0 /\ iso_known st0 /\ adds_everywhere g_sc true (inl 1%Qc) None /\
  exists m q, fst (nx_katz_centrality root100 true g_sc (Q2Qc (1 # 10)) (inl 1%Qc) 10 (Q2Qc (1 # 10)) None true st0) = Val (Some m) /\ nm_getitem m (KI 2) = Val q /\ q <> 0%Qc.
Proof.
  split; [apply Inv_st0|]. split; [apply iso_known_st0|]. split; [vm_compute; tauto|]. eexists _, _. split; [vm_compute; reflexivity|]. split; [vm_compute; reflexivity|].
  intros H; apply (f_equal this) in H; vm_compute in H; discriminate.
Qed.
Print Assumptions C87_hits.
Print Assumptions C87_hits_max.
Print Assumptions C87_hits_support.
Print Assumptions C87_eigenvector.
Print Assumptions C87_katz.
