(** * C58: katz_centrality with a number beta when [vector + scalar] changes only the entries present, and hits from any start:
    the exact answers *)
From Verif Require Import Base BaseProofs Model_Graph Model_Cache Model_Keys Spec KeyProofs Spec_Cache CacheMath CacheProofs CacheProofs2 CacheHist
  Spec_Run RunProofs Spec_Count CountProofs Model_Measures Model_Cluster Spec_Cluster ClusterMath ClusterProofs OperatorProofs Props_Containers
  Spec_Iso IsoProofs WeightedProofs2 Concrete Model_Linalg Spec_Linalg Props_Linalg Model_Rank Spec_Rank RankProofs RankMath Props_Pagerank Props_Google Props_Power.
From Coq Require Import Permutation QArith Qcanon Qcabs.
Open Scope nat_scope.

(** ** Specification *)
(** a sequence of scores: the k-th (k >= 1) is within tolerance of the one before; k is the first such; there is none *)
Definition close (G : graph) (f : nat -> nkey -> Qc) (tol : Qc) (k : nat) : Prop := (l1 G (f (k - 1)%nat) (f k) < qlen (gnodes G) * tol)%Qc.
Definition first_close G f tol (max_iter k : nat) : Prop := 1 <= k <= max_iter /\ close G f tol k /\ forall j, 1 <= j < k -> ~ close G f tol j.
Definition never_close G f tol (max_iter : nat) : Prop := forall j, 1 <= j <= max_iter -> ~ close G f tol j.
(** the nodes that have a start value; the nodes at the end of a walk of k edges from one of them *)
Definition starts (nstart : option (list (nkey * Qc))) (u : nkey) : bool := match nstart with Some d => existsb (nkey_eqb u) (map fst d) | None => true end.
Fixpoint ends (G : graph) (P : nkey -> bool) (k : nat) (v : nkey) : bool :=
  match k with O => P v | S k => existsb (fun u => has_edge G u v && ends G P k u) (gnodes G) end.
(** scores: alpha xA + q at those nodes, none (counted as 0) elsewhere *)
Fixpoint katz_sparse (G : graph) (alpha q : Qc) (P : nkey -> bool) (x0 : nkey -> Qc) (k : nat) (v : nkey) : Qc :=
  match k with
  | O => x0 v
  | S k => if ends G P (S k) v then (alpha * from_preds G (katz_sparse G alpha q P x0 k) v + q)%Qc else 0%Qc
  end.

(** hits: authorities reached from, and hubs reaching, the nodes of [P] *)
Definition pointed (G : graph) (P : nkey -> bool) (v : nkey) : bool := existsb (fun u => has_edge G u v && P u) (gnodes G).
Definition pointing (G : graph) (P : nkey -> bool) (u : nkey) : bool := existsb (fun v => has_edge G u v && P v) (gnodes G).
(** the nodes with a hub score after k rounds; the scores: h A A^T divided by the largest score present *)
Fixpoint scored (G : graph) (P : nkey -> bool) (k : nat) : nkey -> bool :=
  match k with O => P | S k => pointing G (pointed G (scored G P k)) end.
Fixpoint hits_sparse (G : graph) (P : nkey -> bool) (x0 : nkey -> Qc) (k : nat) : nkey -> Qc :=
  match k with
  | O => x0
  | S k' => let g := from_succs G (from_preds G (hits_sparse G P x0 k')) in divided (largest g (filter (scored G P k) (gnodes G))) g
  end.

Section P.
Variable G : graph.
Hypothesis wf : gwf G.
Notation n := (glen G).
Notation nodes := (gnodes G).
Notation rep := (rep G).
Section Loop.
Context {X : Type} (stp : X -> outcome X) (val : X -> vec Qc) (tol : Qc).
Variable f : nat -> nkey -> Qc.
Variable max_iter : nat.
Variable Rx : nat -> X -> Prop.
Hypothesis Hrep : forall k x, Rx k x -> rep (val x) (f k).
Hypothesis Hstep : forall k x, k < max_iter -> Rx k x -> match stp x with Val x' => Rx (S k) x' | Raise e => False end.
Lemma seq_from m : forall k x, k + m = max_iter -> Rx k x -> (forall j, 1 <= j <= k -> ~ close G f tol j) ->
  match power stp val tol m x with
  | Val r => exists k, first_close G f tol max_iter k /\ Rx k r
  | Raise e => e = EConv /\ never_close G f tol max_iter
  end.
Proof.
  induction m as [|m IH]; intros k x Hk Hx Hj; cbn [power].
  - split; [reflexivity|]. replace max_iter with k by lia. exact Hj.
  - pose proof (Hstep k x ltac:(lia) Hx) as Hs. destruct (stp x) as [x'|e]; [|contradiction].
    assert (E : is_converged (val x) (val x') tol = true <-> close G f tol (S k)).
    { unfold close. replace (S k - 1) with k by lia. apply (converged_iff G wf); apply Hrep; assumption. }
    destruct (is_converged (val x) (val x') tol).
    + exists (S k). split; [|assumption]. split; [lia|]. split; [apply E; reflexivity|]. intros j Lj. apply Hj. lia.
    + apply (IH (S k)); [lia|assumption|]. intros j Lj. destruct (Nat.eq_dec j (S k)) as [->|]; [|apply Hj; lia].
      intros Hc. apply E in Hc. discriminate.
Qed.
End Loop.

Theorem C58_katz_exact sqr alpha q max_iter tol nstart normalized : is_dict nstart ->
  let P := starts nstart in let f := katz_sparse G alpha q P (katz_start nstart) in
  answers_iso G (nx_katz_centrality sqr false G alpha (inl q) max_iter tol nstart normalized) (fun o => match o with
    | Val None => nodes = []
    | Val (Some m) => exists k, first_close G f tol max_iter k /\
        is_map m (fun u x => node G u /\ ends G P k u = true /\ x = (if normalized then divided (l2norm sqr G (f k)) (f k) u else f k u))
    | Raise EConv => never_close G f tol max_iter
    | Raise EKey => foreign G nstart
    | Raise EValue => no_entries nstart
    | Raise _ => False
    end).
Proof.
  intros D1 P f. unfold nx_katz_centrality. destruct (n =? 0) eqn:N0; [apply iso_ret; apply (n_zero G wf); assumption|].
  eapply iso_bind; [apply (dict_iso G wf); assumption| |intros e [[-> H]|[-> H]]; exact H]. intros o Ho.
  eapply iso_bind_v; [apply iso_lifto; reflexivity|].
  set (x := match o with None => vconst n 0%Qc | Some v => v end).
  assert (Rx : rep x (f 0) /\ forall u i, kid G u = Some i -> has (vget x i) = ends G P 0 u).
  { unfold x, f. cbn [katz_sparse ends]. unfold katz_start, P, starts. destruct o as [v|].
    - destruct Ho as (d & -> & R & H). split; [assumption|]. intros u i Hi. apply eq_true_iff_eq. rewrite (H u i Hi), existsb_exists. split.
      + intros Hin. exists u. split; [assumption|apply nkey_eqb_refl].
      + intros (w & Hw & E). apply nkey_eqb_eq in E. subst. assumption.
    - subst nstart. split; [apply (rep_const G wf)|]. intros u i Hi. unfold vconst. rewrite vget_vbuild_lt by (eapply kid_lt; eassumption). reflexivity. }
  destruct Rx as [Rx Kx].
  eapply iso_bind_v; [apply iso_lifto; reflexivity|].
  eapply iso_bind_v; [apply iso_get; assumption|]. destruct (iso_all G wf) as [z Hz]. set (first := has (den_iso G)).
  set (al := match den_iso G with Some o => (alpha * zq (oget 1%Z o))%Qc | None => alpha end).
  assert (RW : forall y g, rep y g -> rep (vmap (fun q => q * al)%Qc (vxm_sr first y (g_A G))) (fun v => alpha * from_preds G g v)%Qc).
  { intros y g Ry. eapply rep_ext; [apply (rep_map G (fun q => q * al)%Qc); [ring|apply (rep_vxm G wf first); exact Ry]|]. intros v _. cbv beta. unfold from_preds.
    rewrite <- qtotal_scale_r, <- qtotal_scale. apply qtotal_ext. intros u _. unfold first, al. destruct (den_iso G) as [oz'|]; cbn [has]; [|ring].
    destruct Hz as [-> Hz]. unfold has_edge, ind, Spec_Linalg.adj. destruct (weight G u v) as [w|] eqn:Ew; cbn [has].
    - rewrite (Hz u v w Ew). change zq with qz. ring.
    - change (qz 0) with 0%Qc. ring. }
  pose proof (seq_from (katz_step false first (g_A G) al (inl q)) id tol f max_iter
    (fun k y => rep y (f k) /\ forall u i, kid G u = Some i -> has (vget y i) = ends G P k u)) as PW.
  specialize (PW ltac:(intros k y H; apply H)).
  assert (ST : forall k y, k < max_iter -> rep y (f k) /\ (forall u i, kid G u = Some i -> has (vget y i) = ends G P k u) ->
    match katz_step false first (g_A G) al (inl q) y with
    | Val x' => rep x' (f (S k)) /\ (forall u i, kid G u = Some i -> has (vget x' i) = ends G P (S k) u)
    | Raise _ => False end).
  { intros k y _ (Ry & Gy). unfold katz_step. set (w := vmap (fun q => q * al)%Qc (vxm_sr first y (g_A G))). pose proof (RW y _ Ry) as Rw. fold w in Rw.
    assert (Hw : forall u i, kid G u = Some i -> has (vget w i) = ends G P (S k) u).
    { intros u i Hi. transitivity (has (vget (vxm_sr first y (g_A G)) i)); [unfold w; rewrite vget_vmap; destruct (vget (vxm_sr first y (g_A G)) i); reflexivity|].
      apply eq_true_iff_eq. rewrite (vxm_has G wf first y u i Hi (proj1 Ry)). cbn [ends]. rewrite existsb_exists. split.
      - intros (v & j & Hj & Hv & He). exists v. split; [apply node_kid; eauto|]. apply (has_edge_true G) in He. rewrite He. rewrite <- (Gy v j Hj). exact Hv.
      - intros (v & Hv & E). apply andb_prop in E as [E1 E2]. apply node_kid in Hv as [j Hj]. exists v, j. split; [assumption|]. split; [rewrite (Gy v j Hj); assumption|]. apply (has_edge_true G). assumption. }
    split; [|intros u i Hi; rewrite vget_vmap, <- (Hw u i Hi); destruct (vget w i); reflexivity].
    split; [unfold vmap at 1; rewrite vsize_vbuild; apply Rw|]. intros u i Hi. rewrite vget_vmap. specialize (Hw u i Hi). pose proof (proj2 Rw u i Hi) as Hv.
    unfold f. cbn [katz_sparse]. fold f. change (katz_sparse G alpha q P (katz_start nstart) k) with (f k).
    rewrite <- Hw. destruct (vget w i) as [y0|]; cbn [omap oq oget has] in *; [rewrite Hv; reflexivity|reflexivity]. }
  specialize (PW ST max_iter 0 x eq_refl (conj Rx Kx) ltac:(intros j Lj; lia)).
  destruct (power (katz_step false first (g_A G) al (inl q)) id tol max_iter x) as [r|e].
  - eapply iso_bind_v; [apply iso_lifto; reflexivity|]. apply iso_ret. destruct PW as (k & H1 & Rr & H2). exists k. split; [assumption|].
    set (r' := if normalized then normalize_l2 sqr r else r).
    assert (Rr' : rep r' (fun u => if normalized then divided (l2norm sqr G (f k)) (f k) u else f k u)) by (unfold r'; destruct normalized; [apply (rep_l2 G wf)|]; assumption).
    assert (Fr' : forall u i, kid G u = Some i -> has (vget r' i) = ends G P k u) by (unfold r'; destruct normalized; [|assumption]; intros u i Hi; unfold normalize_l2; rewrite norm_has; apply H2; assumption).
    apply (is_map_intro G wf); [rewrite (proj1 Rr'); unfold glen; lia|]. intros u y. split.
    + intros (Hu & He & ->). apply node_kid in Hu as [i Hi]. exists i. split; [assumption|]. rewrite <- (proj2 Rr' u i Hi). specialize (Fr' u i Hi). rewrite He in Fr'. destruct (vget r' i); [reflexivity|discriminate].
    + intros (i & Hi & Hv). split; [apply node_kid; eauto|]. split; [rewrite <- (Fr' u i Hi), Hv; reflexivity|]. rewrite <- (proj2 Rr' u i Hi), Hv. reflexivity.
  - eapply iso_bind_e; [apply iso_lifto; reflexivity|]. destruct PW as [-> H]. exact H.
Qed.

(** the largest entry present *)
Lemma max_present x g Q : rep x g -> (forall u i, kid G u = Some i -> has (vget x i) = Q u) -> rep (normalize_linf x) (divided (largest g (filter Q nodes)) g).
Proof.
  intros R H. unfold normalize_linf. rewrite (rep_max G wf x g (filter Q nodes)); [apply (rep_normalize G); assumption|assumption| | |].
  - intros u Hu. apply filter_In in Hu. apply Hu.
  - intros u i Hi Hv. apply filter_In. split; [apply node_kid; eauto|]. rewrite <- (H u i Hi). assumption.
  - left. intros u i Hi Hu. apply filter_In in Hu as [_ Hu]. rewrite (H u i Hi). assumption.
Qed.
Lemma pointed_ok x Q : vsize x = n -> (forall u i, kid G u = Some i -> has (vget x i) = Q u) ->
  forall v j, kid G v = Some j -> has (vget (vxm_sr false x (g_A G)) j) = pointed G Q v.
Proof.
  intros Sx H v j Hj. apply eq_true_iff_eq. rewrite (vxm_has G wf false x v j Hj Sx). unfold pointed. rewrite existsb_exists. split.
  - intros (u & i & Hi & Hx & He). exists u. split; [apply node_kid; eauto|]. apply (has_edge_true G) in He. rewrite He, <- (H u i Hi). exact Hx.
  - intros (u & Hu & E). apply andb_prop in E as [E1 E2]. apply node_kid in Hu as [i Hi]. exists u, i. split; [assumption|]. split; [rewrite (H u i Hi); assumption|]. apply (has_edge_true G). assumption.
Qed.
Lemma pointing_ok x Q : vsize x = n -> (forall u i, kid G u = Some i -> has (vget x i) = Q u) ->
  forall u i, kid G u = Some i -> has (vget (mxv_t (g_A G) x) i) = pointing G Q u.
Proof.
  intros Sx H u i Hi. apply eq_true_iff_eq. rewrite (mxv_has G wf x u i Hi Sx). unfold pointing. rewrite existsb_exists. split.
  - intros (v & j & Hj & Hx & He). exists v. split; [apply node_kid; eauto|]. apply (has_edge_true G) in He. rewrite He, <- (H v j Hj). exact Hx.
  - intros (v & Hv & E). apply andb_prop in E as [E1 E2]. apply node_kid in Hv as [j Hj]. exists v, j. split; [assumption|]. split; [rewrite (H v j Hj); assumption|]. apply (has_edge_true G). assumption.
Qed.
Theorem C58_hits_exact max_iter tol nstart normalized : is_dict nstart ->
  let P := starts nstart in let f := hits_sparse G P (distr nodes nstart) in
  answers G (nx_hits G max_iter tol nstart normalized) (fun o => match o with
    | Val None => nodes = []
    | Val (Some (h, a)) => exists k, first_close G f tol max_iter k /\
        let hv := f k in let av := from_preds G (f (k - 1)) in
        is_map h (fun u q => node G u /\ q = if normalized then divided (qtotal hv nodes) hv u else hv u) /\
        is_map a (fun u q => node G u /\ q = divided (if normalized then qtotal av nodes else largest av (filter (pointed G (scored G P (k - 1))) nodes)) av u)
    | Raise EConv => never_close G f tol max_iter /\ 1 <= max_iter
    | Raise EKey => foreign G nstart
    | Raise EValue => no_entries nstart \/ max_iter = 0
    | Raise EZeroDiv => sums_to_zero nodes nstart
    | Raise _ => False
    end).
Proof.
  intros D P f. unfold nx_hits. destruct (n =? 0) eqn:N0; [apply answers_ret; apply (n_zero G wf); assumption|].
  eapply answers_bind; [apply (dict_vec_ok G wf); assumption| |intros e [[-> H]|[-> H]]; [exact H|left; exact H]]. intros o Ho.
  assert (A : arg_ok G nstart o) by (destruct o; [destruct Ho as (d & -> & R & _); exists d; auto|exact Ho]).
  assert (K : forall v d', o = Some v -> nstart = Some d' -> forall u i, kid G u = Some i -> (has (vget v i) = true <-> In u (map fst d'))).
  { intros v d' -> E. destruct Ho as (d & E' & _ & H). assert (d = d') by congruence. subst. exact H. }
  pose (av := fun k => from_preds G (f (k - 1))). pose (AS := fun k => pointed G (scored G P (k - 1))).
  assert (HH : answers G (hits G max_iter tol o normalized false) (fun r => match r with
    | Val (h, a) => exists k, first_close G f tol max_iter k /\ rep h (fun u => if normalized then divided (qtotal (f k) nodes) (f k) u else f k u) /\
        rep a (divided (if normalized then qtotal (av k) nodes else largest (av k) (filter (AS k) nodes)) (av k))
    | Raise EConv => never_close G f tol max_iter | Raise EZeroDiv => sums_to_zero nodes nstart | Raise _ => False end)).
  { unfold hits. rewrite N0. pose proof (start_ok G wf nstart o EZeroDiv A K) as S0. cbv zeta in S0 |- *.
    destruct (match o with None => _ | Some v => _ end) as [x|e]; [|destruct S0 as [-> S0]; eapply answers_bind_e; [apply answers_lifto; reflexivity|exact S0]].
    destruct S0 as (R0 & _ & H0). eapply answers_bind_v; [apply answers_lifto; reflexivity|].
    assert (H0' : forall u i, kid G u = Some i -> has (vget x i) = scored G P 0 u).
    { intros u i Hi. apply eq_true_iff_eq. rewrite (H0 u i Hi). cbn [scored]. unfold P, starts, given. destruct nstart as [d|]; [|tauto]. rewrite existsb_exists. split.
      - intros Hin. exists u. split; [assumption|apply nkey_eqb_refl].
      - intros (w & Hw & E). apply nkey_eqb_eq in E. subst. assumption. }
    pose proof (seq_from (hits_step (g_A G)) fst tol f max_iter
      (fun k s => rep (fst s) (f k) /\ (forall u i, kid G u = Some i -> has (vget (fst s) i) = scored G P k u) /\
        (k <> 0 -> rep (snd s) (av k) /\ (forall u i, kid G u = Some i -> has (vget (snd s) i) = AS k u)))) as PW.
    specialize (PW ltac:(intros k y H; apply H)).
    assert (ST : forall k s, k < max_iter -> rep (fst s) (f k) /\ (forall u i, kid G u = Some i -> has (vget (fst s) i) = scored G P k u) /\
        (k <> 0 -> rep (snd s) (av k) /\ (forall u i, kid G u = Some i -> has (vget (snd s) i) = AS k u)) ->
      match hits_step (g_A G) s with
      | Val s' => rep (fst s') (f (S k)) /\ (forall u i, kid G u = Some i -> has (vget (fst s') i) = scored G P (S k) u) /\
        (S k <> 0 -> rep (snd s') (av (S k)) /\ (forall u i, kid G u = Some i -> has (vget (snd s') i) = AS (S k) u))
      | Raise _ => False end).
    { intros k [h a] _ (Rh & Sh & _). cbn [fst snd] in *. unfold hits_step. cbn [fst snd]. unfold av, AS. replace (S k - 1) with k by lia.
      pose proof (rep_preds G wf h _ Rh) as Ra. pose proof (pointed_ok h _ (proj1 Rh) Sh) as Sa.
      pose proof (rep_succs G wf _ _ Ra) as Rg. pose proof (pointing_ok _ _ (proj1 Ra) Sa) as Sg.
      split; [|split; [|intros _; split; assumption]].
      - unfold f. cbn [hits_sparse]. apply (max_present _ _ (scored G P (S k)) Rg). exact Sg.
      - intros u i Hi. unfold normalize_linf. rewrite norm_has. exact (Sg u i Hi). }
    specialize (PW ST max_iter 0 (x, vempty n) eq_refl (conj R0 (conj H0' (fun H => False_ind _ (H eq_refl)))) ltac:(intros j Lj; lia)).
    destruct (power (hits_step (g_A G)) fst tol max_iter (x, vempty n)) as [[h a]|e].
    - eapply answers_bind_v; [apply answers_lifto; reflexivity|]. cbv beta iota. apply answers_ret. destruct PW as (k & Hk & Rh & Sh & Ha). cbn [fst snd] in *. pose proof (proj1 (proj1 Hk)) as Lk. destruct (Ha ltac:(lia)) as [Ra Sa].
      assert (X : exists k, first_close G f tol max_iter k /\ rep (if normalized then normalize_l1 h else h) (fun u => if normalized then divided (qtotal (f k) nodes) (f k) u else f k u) /\
        rep (if normalized then normalize_l1 a else normalize_linf a) (divided (if normalized then qtotal (av k) nodes else largest (av k) (filter (AS k) nodes)) (av k))).
      { exists k. split; [assumption|]. destruct normalized.
        - split; apply (rep_l1 G wf); assumption.
        - split; [assumption|]. apply max_present; assumption. }
      destruct normalized; exact X.
    - eapply answers_bind_e; [apply answers_lifto; reflexivity|]. destruct PW as [-> H]. exact H. }
  intros s Hs. specialize (HH s Hs). cbv beta. destruct (hits G max_iter tol o normalized false s) as [[[h a]|e] s'] eqn:E; cbn [fst snd] in *; destruct HH as [HH HI].
  - split; [|exact HI]. cbn [fst]. destruct HH as (k & Hk & Rh & Ra). exists k. split; [assumption|]. split; apply (is_map_fill G wf); intros u i Hi; symmetry; [apply Rh|apply Ra]; assumption.
  - destruct e; try (destruct HH; fail); cbn [fst snd]; (split; [|exact HI]).
    + exact HH.
    + destruct (Nat.ltb_spec max_iter 1); [right; lia|split; [exact HH|lia]].
Qed.
(** the node has a score after k rounds iff a walk of k edges leads to it from a node with a start value; without nstart, on a
    graph where a node has no predecessor, that node never has a score *)
Lemma ends_source P v k : (forall u, ~ edge G u v) -> ends G P (S k) v = false.
Proof.
  intros H. cbn [ends]. apply Bool.not_true_is_false. intros E. apply existsb_exists in E as (u & _ & E). apply andb_prop in E as [E _]. apply (has_edge_true G) in E. apply (H u E).
Qed.
End P.
Theorem C58_katz_sources_missing G sqr alpha q max_iter tol nstart normalized s m v : gwf G -> is_dict nstart -> Inv G s -> iso_known s ->
  (forall u, ~ edge G u v) ->
  fst (nx_katz_centrality sqr false G alpha (inl q) max_iter tol nstart normalized s) = Val (Some m) -> forall x, nm_getitem m v <> Val x.
Proof.
  intros wf D HI HK Hs E x Hx. destruct (C58_katz_exact G wf sqr alpha q max_iter tol nstart normalized D s HI HK) as [A _]. rewrite E in A.
  destruct A as (k & FC & M). pose proof (proj1 (proj1 FC)) as L. pose proof (proj1 (proj1 M v x) Hx) as HR. pose proof (proj1 (proj2 HR)) as He. clear HR. destruct k; [lia|]. rewrite ends_source in He by assumption. discriminate.
Qed.
(** 0 -> 1 -> 2 -> 1 with node 0 a source: after the first round 1 and 2 keep their scores, 0 has none *)
Definition g_kz : graph := mkg true 3 [(0, 1, 1%Z); (1, 2, 1%Z); (2, 1, 1%Z)].
Example C58_katz_exact_ex : gwf g_kz /\ is_dict None /\ Inv g_kz st0 /\ iso_known st0 /\ (forall u, ~ edge g_kz u (KI 0)) /\
  exists m x y, fst (nx_katz_centrality id false g_kz (Q2Qc (1 # 10)) (inl 1%Qc) 30 (Q2Qc (1 # 100)) None false st0) = Val (Some m) /\
    nm_getitem m (KI 1) = Val x /\ nm_getitem m (KI 2) = Val y /\ nm_getitem m (KI 0) = Raise EKey /\ x <> 0%Qc.
Proof.
  split; [apply mkg_wf|]. split; [exact I|]. split; [apply Inv_st0|]. split; [apply iso_known_st0|]. split.
  - intros u [w Hw]. pose proof (weight_nodes _ _ _ _ Hw) as [Hu _]. unfold node in Hu. vm_compute in Hu. destruct Hu as [<-|[<-|[<-|[]]]]; vm_compute in Hw; discriminate.
  - do 3 eexists. split; [vm_compute; reflexivity|]. split; [vm_compute; reflexivity|]. split; [vm_compute; reflexivity|]. split; [vm_compute; reflexivity|].
    intros H. apply (f_equal this) in H. vm_compute in H. discriminate.
Qed.
(** 0 -> 2 with weight -1 and 1 -> 3, started at node 0 only: neither every hub is covered nor everything nonnegative *)
Definition g_ht : graph := mkg true 4 [(0, 2, (-1)%Z); (1, 3, 1%Z); (0, 3, 1%Z)].
Example C58_hits_exact_ex : gwf g_ht /\ is_dict (Some ((KI 0, 1%Qc) :: nil)) /\ ~ hits_covered g_ht (hubs g_ht) (Some ((KI 0, 1%Qc) :: nil)) /\
  exists h a, fst (nx_hits g_ht 30 (Q2Qc (1 # 10)) (Some ((KI 0, 1%Qc) :: nil)) true st0) = Val (Some (h, a)) /\ nm_getitem h (KI 1) <> Val 0%Qc.
Proof.
  split; [apply mkg_wf|]. split; [constructor; [intros []|constructor]|]. split.
  - intros [H|[_ H]].
    + assert (In (KI 1) (hubs g_ht)) as HI by (vm_compute; auto). specialize (H _ HI). cbn in H. destruct H as [H|[]]. discriminate.
    + specialize (H (KI 0) (KI 2) (-1)%Z eq_refl). lia.
  - do 2 eexists. split; [vm_compute; reflexivity|]. vm_compute. discriminate.
Qed.
Print Assumptions C58_hits_exact.
Print Assumptions C58_katz_exact.
Print Assumptions C58_katz_sources_missing.
