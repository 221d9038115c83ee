(** * C91: what earlier calls do to pagerank and katz_centrality *)
From Verif Require Import Base BaseProofs Model_Graph Model_Cache Spec_Cache CacheMath CacheProofs CacheProofs2 CacheHist Spec_Run RunProofs Spec_Iso IsoProofs
  Model_Keys Spec KeyProofs Model_Utils Model_Bfs Model_Measures Model_Weighted Model_Dense Model_Cluster Model_Ego Model_Linalg Model_Rank Spec_Session Spec_IsoHist IsoHistProofs CountProofs RankProofs OperatorProofs Props_Session Spec_Rank Props_Pagerank Props_Power Props_Katz Concrete.
From Coq Require Import QArith Qcanon.
Open Scope nat_scope.

Lemma iso_known_stuck s : iso_known s <-> ~ stuck s.
Proof.
  unfold iso_known, stuck. split.
  - intros H [H1 H2]. exact (H H1 H2).
  - intros H H1 H2. exact (H (conj H1 H2)).
Qed.

Lemma stuck_kept s s' : skept s s' -> stuck s -> stuck s'.
Proof. intros [H1 H2] [H3 H4]. split; congruence. Qed.
Lemma known_kept s s' : skept s s' -> iso_known s -> iso_known s'.
Proof. intros [H1 H2] H. unfold iso_known. rewrite H1, H2. exact H. Qed.
Lemma stuck_raise G s : stuck s -> get_iso_value G s = (Raise EKey, s).
Proof. intros [H1 H2]. unfold get_iso_value, bind, get_st. rewrite H2. cbn. unfold when, modify. rewrite H1. reflexivity. Qed.
Lemma stuck_val G : kp stuck (get_iso_value G).
Proof. intros s H. rewrite (stuck_raise G s H). exact H. Qed.
Lemma stuck_iso G : kp stuck (is_iso G).
Proof. intros s [H1 H2]. unfold is_iso, bind, in_bool, lk_bool, when, ret, idx. rewrite H1. cbn. rewrite H1. cbn. split; assumption. Qed.
Lemma known_val G : kp iso_known (get_iso_value G).
Proof.
  intros s H. unfold get_iso_value, bind, get_st. destruct (c_iso s) as [v|] eqn:Ei; cbn [has negb when ret].
  - rewrite Ei. exact H.
  - unfold when, modify. destruct (c_bool s KIsIso) as [[|]|] eqn:Eb.
    + cbn. unfold iso_known. cbn. discriminate.
    + cbn. exact H.
    + destruct (g_iso G); cbn; unfold iso_known; cbn; discriminate.
Qed.

(** ** C91 *)
(** once stuck, the graph stays so whatever is called *)
Theorem C91_forever mhr G s s' : later mhr G s s' -> stuck s -> stuck s'.
Proof.
  induction 1 as [|s' [nm mask] _ IH|s' X m _ IH Hp|s' X m _ IH Hp]; intros Hs; [assumption| | |]; specialize (IH Hs).
  - apply (prop_kp stuck stuck_kept G (stuck_val G) mhr nm mask); [intros _; apply stuck_iso|exact IH].
  - apply (public_kp stuck stuck_kept G (stuck_val G) X m Hp); [apply stuck_iso|exact IH].
  - apply (public_td_kp stuck stuck_kept G X m Hp _ IH).
Qed.

Lemma stuck_bind {X Y} (m : M X) (f : X -> M Y) s : stuck (snd (m s)) -> (forall x, kp stuck (f x)) -> stuck (snd (bind m f s)).
Proof. intros H Hf. unfold bind. destruct (m s) as [[x|e] s']; cbn [snd] in *; [apply Hf|]; exact H. Qed.
Lemma is_iso_stuck G s : gwf G -> g_iso G = false -> Inv G s -> c_iso s = None -> fst (is_iso G s) = Val false /\ stuck (snd (is_iso G s)).
Proof.
  intros wf Hf HI Hn. unfold is_iso, bind, in_bool, lk_bool, when, ret, get_st, modify, idx. destruct (c_bool s KIsIso) as [b|] eqn:E.
  - assert (X : b = false) by (rewrite <- Hf; exact (i_boolx G true KIsIso b s HI E ltac:(discriminate))). cbn. rewrite E. cbn. subst b. repeat split; assumption.
  - cbn. rewrite Hn. cbn. rewrite Hf. split; [reflexivity|]. split; [reflexivity|exact Hn].
Qed.
(** asking for is_iso, or any Bellman-Ford call on nodes, makes a graph that is not iso-valued stuck, unless iso_value was computed before *)
Theorem C91_cause G s : gwf G -> g_iso G = false -> Inv G s -> c_iso s = None ->
  (forall mhr mask, stuck (run_call mhr G s (Nis_iso, mask))) /\
  (forall u, node G u -> stuck (snd (nx_single_source_bf G u s))) /\
  (forall u v, node G u -> node G v -> stuck (snd (nx_bf_path_length G u v s))) /\
  (forall fuel u v, node G u -> node G v -> stuck (snd (nx_bf_path fuel G u v s))).
Proof.
  intros wf Hf HI Hn. destruct (is_iso_stuck G s wf Hf HI Hn) as [_ Hs].
  assert (N : forall u, node G u -> exists i, kid G u = Some i) by (intros u; apply node_kid).
  split; [|split; [|split]].
  - intros mhr mask. unfold run_call, get_property, alias. cbn [fst snd]. assert (X : stuck (snd (lift PBool (is_iso G) s))).
    { unfold lift. apply stuck_bind; [exact Hs|]. intros x. apply kp_ret. }
    destruct (g_dir G); exact X.
  - intros u Hu. destruct (N u Hu) as [i Hi]. apply (single_source_bf_P stuck stuck_kept G (stuck_val G) u i s Hi Hs).
  - intros u v Hu Hv. destruct (N u Hu) as [i Hi], (N v Hv) as [j Hj]. apply (bf_path_length_P stuck stuck_kept G (stuck_val G) u i v j s Hi Hj Hs).
  - intros fuel u v Hu Hv. destruct (N u Hu) as [i Hi], (N v Hv) as [j Hj]. apply (bf_path_P stuck stuck_kept G fuel u i v j s Hi Hj Hs).
Qed.

(** ** calls that cannot return any more *)
Definition fails {X} (m : M X) : Prop := forall s, stuck s -> exists e, fst (m s) = Raise e.
Lemma fails_bind {X Y} (m : M X) (f : X -> M Y) : kp stuck m -> (forall x, fails (f x)) -> fails (bind m f).
Proof.
  intros Hm Hf s Hs. specialize (Hm s Hs). unfold bind. destruct (m s) as [[x|e] s']; cbn [fst snd] in *; [apply Hf; exact Hm|]. exists e. reflexivity.
Qed.
Lemma fails_first {X Y} (m : M X) (f : X -> M Y) : fails m -> fails (bind m f).
Proof. intros Hm s Hs. destruct (Hm s Hs) as [e H]. unfold bind. destruct (m s) as [[x|e'] s']; cbn [fst] in *; [discriminate|]. exists e'. reflexivity. Qed.
Lemma fails_iso G : fails (get_iso_value G).
Proof. intros s Hs. rewrite (stuck_raise G s Hs). exists EKey. reflexivity. Qed.
Lemma kps_dict G d : kp stuck (dict_vec G d).
Proof. destruct d; [|apply kp_ret]. apply kp_bind; [apply kp_lifto|]. intros; apply kp_ret. Qed.
Lemma nonempty_nodes G : gwf G -> (exists u v, edge G u v) -> (glen G =? 0) = false /\ (mnvals (g_A G) =? 0) = false.
Proof.
  intros wf HE. split.
  - apply Nat.eqb_neq. intros E. destruct HE as (u & v & (w & Hw)). apply weight_nodes in Hw as [Hu _]. apply node_kid in Hu as [i Hi].
    pose proof (kid_lt G wf _ _ Hi) as L. unfold glen in E. lia.
  - apply Nat.eqb_neq. intros E. destruct HE as (u & v & (w & Hw)). unfold weight in Hw. destruct (kid G u) as [i|]; [|discriminate]. destruct (kid G v) as [j|]; [|discriminate].
    pose proof (proj1 (mnvals_zero (g_A G) ltac:(apply wf)) E i j) as Z. congruence.
Qed.
Lemma pagerank_fails em G alpha pers max_iter tol nstart dang : gwf G -> (exists u v, edge G u v) -> fails (nx_pagerank em G alpha pers max_iter tol nstart dang).
Proof.
  intros wf HE. destruct (nonempty_nodes G wf HE) as [N0 M0]. unfold nx_pagerank. rewrite N0.
  apply fails_bind; [apply kps_dict|]. intros x. apply fails_bind; [apply kps_dict|]. intros p.
  apply fails_bind; [apply (kp_red stuck stuck_kept G)|]. intros rd.
  apply fails_bind; [destruct (has dang && _); [apply kps_dict|apply kp_ret]|]. intros dw. apply fails_first. unfold pagerank. rewrite M0.
  apply fails_bind; [apply kp_lifto|]. intros y. apply fails_bind; [apply kp_lifto|]. intros q. apply fails_first. apply fails_iso.
Qed.
Lemma katz_fails sqr fl G alpha beta max_iter tol nstart normalized : gwf G -> gnodes G <> [] -> fails (nx_katz_centrality sqr fl G alpha beta max_iter tol nstart normalized).
Proof.
  intros wf NE. unfold nx_katz_centrality. assert (N0 : (glen G =? 0) = false). { apply Nat.eqb_neq. rewrite <- (nodes_len G wf). destruct (gnodes G); [congruence|discriminate]. }
  rewrite N0. apply fails_bind; [apply kps_dict|]. intros x. apply fails_bind; [apply kp_lifto|]. intros b. apply fails_bind; [apply kp_lifto|]. intros _. apply fails_first. apply fails_iso.
Qed.
(** ** C91: on a graph that is not iso-valued, once is_iso or a Bellman-Ford function has been called in a state [s0] where iso_value was not
    computed yet, every later pagerank (if the graph has an edge) and katz_centrality raises, whatever is called in between *)
Theorem C91_after_is_iso mhr G s0 s : gwf G -> g_iso G = false -> Inv G s0 -> c_iso s0 = None ->
  (exists mask, later mhr G (run_call mhr G s0 (Nis_iso, mask)) s) \/
  (exists u, node G u /\ later mhr G (snd (nx_single_source_bf G u s0)) s) \/
  (exists u v, node G u /\ node G v /\ later mhr G (snd (nx_bf_path_length G u v s0)) s) \/
  (exists fuel u v, node G u /\ node G v /\ later mhr G (snd (nx_bf_path fuel G u v s0)) s) ->
  (forall em alpha pers max_iter tol nstart dang, (exists u v, edge G u v) -> exists e, fst (nx_pagerank em G alpha pers max_iter tol nstart dang s) = Raise e) /\
  (forall sqr fl alpha beta max_iter tol nstart normalized, gnodes G <> [] -> exists e, fst (nx_katz_centrality sqr fl G alpha beta max_iter tol nstart normalized s) = Raise e) /\
  fst (get_property mhr G Niso_value None s) = Raise EKey.
Proof.
  intros wf Hf HI Hn H. destruct (C91_cause G s0 wf Hf HI Hn) as (K1 & K2 & K3 & K4).
  assert (Hs : stuck s).
  { destruct H as [(mask & L)|[(u & Hu & L)|[(u & v & Hu & Hv & L)|(fuel & u & v & Hu & Hv & L)]]]; eapply C91_forever; eauto. }
  split; [|split].
  - intros. apply pagerank_fails; assumption.
  - intros. apply katz_fails; assumption.
  - unfold get_property, alias. destruct (g_dir G); cbn [dispatch]; unfold lift, bind; rewrite (stuck_raise G s Hs); reflexivity.
Qed.
(** with a consistent cache and no dict arguments the exception is KeyError *)
Theorem C91_key_error G s em alpha max_iter tol : gwf G -> Inv G s -> stuck s -> (exists u v, edge G u v) ->
  fst (nx_pagerank em G alpha None max_iter tol None None s) = Raise EKey.
Proof.
  intros wf HI Hs HE. destruct (nonempty_nodes G wf HE) as [N0 M0]. unfold nx_pagerank. rewrite N0. cbn [dict_vec]. unfold bind at 1 2, ret at 1 2. cbn [fst].
  pose proof (get_red_ok G wf true eq_refl Row RPlus SP None s HI) as H. unfold bind at 1. unfold wp in H.
  pose proof (kp_red stuck stuck_kept G Row RPlus SP None s Hs) as Hk.
  destruct (get_red G Row RPlus SP None s) as [o s1]. cbn [fst snd] in H, Hk. destruct H as (-> & _). unfold bind at 1. cbn [has andb ret].
  unfold bind at 1, pagerank. rewrite M0. unfold bind at 1 2, lifto at 1 2. unfold bind. rewrite (stuck_raise G s1 Hk). reflexivity.
Qed.

(** ** where they do answer *)
Lemma silent_public G X (m : M X) : silent G X m -> public G X m.
Proof. intros H; destruct H; constructor. Qed.
Lemma quiet_reached mhr G s : quiet mhr G s -> reached mhr G s.
Proof.
  induction 1; [apply R_new|apply R_prop; assumption| |apply R_td; assumption]. apply R_call; [assumption|]. apply silent_public. assumption.
Qed.
Lemma quiet_known mhr G s : quiet mhr G s -> iso_known s.
Proof.
  induction 1 as [|s nm mask _ IH _ Hn|s X m _ IH Hp|s X m _ IH Hp _].
  - apply iso_known_st0.
  - apply (prop_kp iso_known known_kept G (known_val G) mhr nm mask); [congruence|exact IH].
  - apply (silent_kp iso_known known_kept G (known_val G) X m Hp _ IH).
  - apply (public_td_kp iso_known known_kept G X m Hp _ IH).
Qed.
(** after any session in which nothing asks for is_iso, *)
Theorem C91_quiet mhr G s X (m : M X) R : gwf G -> quiet mhr G s -> answers_iso G m R -> R (fst (m s)).
Proof. intros wf Hq Hm. apply (Hm s (C69_sessions G wf mhr s (quiet_reached mhr G s Hq)) (quiet_known mhr G s Hq)). Qed.
(** after any session at all on a graph flagged iso-valued, *)
Theorem C91_iso_valued mhr G s X (m : M X) R : gwf G -> g_iso G = true -> reached mhr G s -> answers_iso G m R -> R (fst (m s)).
Proof.
  intros wf Hi Hr Hm. pose proof (C69_sessions G wf mhr s Hr) as HI. apply (Hm s HI). intros E.
  pose proof (i_boolx G true KIsIso false s HI E ltac:(discriminate)) as Z. cbn in Z. congruence.
Qed.
(** and after any session in which iso_value was computed first, pagerank and katz_centrality give the answers of C57 and C58 *)
Lemma computed_kept s s' : skept s s' -> c_iso s <> None -> c_iso s' <> None.
Proof. intros [_ H] H1. congruence. Qed.
Lemma computed_val G : kp (fun s => c_iso s <> None) (get_iso_value G).
Proof. intros s H. unfold get_iso_value, bind, get_st. destruct (c_iso s) as [v|] eqn:Ei; [|congruence]. cbn [has negb when ret]. rewrite Ei. cbn [idx ret snd]. congruence. Qed.
Lemma computed_iso G : kp (fun s => c_iso s <> None) (is_iso G).
Proof.
  intros s H. unfold is_iso, bind, in_bool, lk_bool, when, ret, get_st, modify, idx. destruct (c_bool s KIsIso) as [b|] eqn:E.
  - cbn. rewrite E. exact H.
  - cbn. destruct (c_iso s) as [v|] eqn:Ei; [|congruence]. cbn. rewrite Ei. discriminate.
Qed.
Theorem C91_protected mhr G s s' : c_iso s <> None -> later mhr G s s' -> iso_known s'.
Proof.
  intros Hs L. assert (Z : c_iso s' <> None); [|unfold iso_known; auto].
  induction L as [|s' [nm mask] _ IH|s' X m _ IH Hp|s' X m _ IH Hp]; [assumption| | |].
  - apply (prop_kp _ computed_kept G (computed_val G) mhr nm mask); [intros _; apply computed_iso|exact IH].
  - apply (public_kp _ computed_kept G (computed_val G) X m Hp); [apply computed_iso|exact IH].
  - apply (public_td_kp _ computed_kept G X m Hp _ IH).
Qed.
Theorem C91_protects G mhr s mask : iso_known s -> c_iso (run_call mhr G s (Niso_value, mask)) <> None.
Proof.
  intros H. unfold run_call, get_property, alias. cbn [fst snd]. assert (X : c_iso (snd (lift PIso (get_iso_value G) s)) <> None).
  { unfold lift, get_iso_value, bind, get_st. destruct (c_iso s) as [v|] eqn:Ei; cbn [has negb when ret].
    - rewrite Ei. cbn. congruence.
    - unfold when, modify. destruct (c_bool s KIsIso) as [[|]|] eqn:Eb.
      + cbn. discriminate.
      + destruct (H Eb Ei).
      + destruct (g_iso G); cbn; discriminate. }
  destruct (g_dir G); exact X.
Qed.

(** ** Concrete sessions *)
Definition g_ih : graph := mkg true 3 [(0, 1, 2%Z); (1, 2, 3%Z); (1, 0, 1%Z)].
Example C91_after_is_iso_ex : gwf g_ih /\ g_iso g_ih = false /\ Inv g_ih st0 /\ c_iso st0 = None /\ node g_ih (KI 0) /\ (exists u v, edge g_ih u v) /\
  let s := snd (nx_is_triad g_ih (snd (nx_single_source_bf g_ih (KI 0) st0))) in
  later false g_ih (snd (nx_single_source_bf g_ih (KI 0) st0)) s /\
  fst (nx_pagerank true g_ih (Q2Qc (17 # 20)) None 100 (Q2Qc (1 # 10)) None None s) = Raise EKey /\
  fst (nx_katz_centrality id false g_ih (Q2Qc (1 # 10)) (inl 1%Qc) 100 (Q2Qc (1 # 10)) None false s) = Raise EKey.
Proof.
  split; [apply mkg_wf|]. split; [reflexivity|]. split; [apply Inv_st0|]. split; [reflexivity|]. split; [vm_compute; auto|]. split; [exists (KI 0), (KI 1), 2%Z; vm_compute; reflexivity|].
  split; [apply L_call; [apply L_refl|constructor]|]. split; vm_compute; reflexivity.
Qed.
Example C91_quiet_ex : let s := snd (nx_is_triad g_ih (run_call false g_ih st0 (Nself, None))) in quiet false g_ih s /\
  exists m, fst (nx_pagerank true g_ih (Q2Qc (17 # 20)) None 100 (Q2Qc (1 # 10)) None None s) = Val (Some m).
Proof.
  cbv zeta. split.
  - apply (Q_call false g_ih (run_call false g_ih st0 (Nself, None)) _ (nx_is_triad g_ih)).
    + apply Q_prop; [apply Q_new|split; discriminate|discriminate].
    + constructor.
  - eexists. vm_compute. reflexivity.
Qed.
(** asking for iso_value first protects the session: Bellman-Ford, then pagerank *)
Example C91_protected_ex : let s1 := run_call false g_ih st0 (Niso_value, None) in let s := snd (nx_single_source_bf g_ih (KI 0) s1) in
  iso_known st0 /\ later false g_ih s1 s /\ exists m, fst (nx_pagerank true g_ih (Q2Qc (17 # 20)) None 100 (Q2Qc (1 # 10)) None None s) = Val (Some m).
Proof.
  cbv zeta. split; [apply iso_known_st0|]. split; [apply L_call; [apply L_refl|constructor]|]. eexists. vm_compute. reflexivity.
Qed.
Print Assumptions C91_forever.
Print Assumptions C91_after_is_iso.
Print Assumptions C91_key_error.
Print Assumptions C91_quiet.
Print Assumptions C91_iso_valued.
Print Assumptions C91_protected.
Print Assumptions C91_protects.
