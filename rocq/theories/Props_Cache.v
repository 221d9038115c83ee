(** * C01–C06: the property cache *)
From Verif Require Import Base Model_Graph Model_Cache Spec_Cache BaseProofs CacheMath CacheProofs CacheProofs2 CacheHist Concrete.
From Coq Require Import Permutation.

(** ** Reading aid: what the denotations say, in elementary terms *)
(** degrees±: entry k exactly when the node has k > 0 (out-)edges *)
Theorem meaning_row_degrees (G : graph) (sg : sgn) (i : nat) (k : Z) :
  i < glen G ->
  (vget (den_red G Row RCount sg) i = Some k <->
   k = Z.of_nat (List.length (filter (fun j => has (ent G sg i j)) (seq 0 (glen G)))) /\ (0 < k)%Z).
Proof.
  intros Hi. rewrite den_count, vget_vbuild_lt by exact Hi. unfold onz, outdeg.
  change (List.length (filter (fun j => has (ent G sg i j)) (seq 0 (glen G)))) with (cnt (nrows (g_A G)) (fun j => has (ent G sg i j))).
  destruct (Nat.eqb_spec (cnt (nrows (g_A G)) (fun j => has (ent G sg i j))) 0) as [E|E].
  - rewrite E. split; [discriminate|]. intros [-> H]. simpl in H. lia.
  - split; [intros [= <-]; split; [reflexivity|lia]|intros [-> _]; reflexivity].
Qed.
(** min_element±: the least stored weight *)
Theorem meaning_min_element (G : graph) (sg : sgn) (m : Z) : gwf G ->
  den_scal G (KElem RMin sg) = Some m ->
  (exists i j, ent G sg i j = Some m) /\ forall i j x, ent G sg i j = Some x -> (m <= x)%Z.
Proof. intros wf. apply elem_min_spec; assumption. Qed.
(** has_self_edges *)
Theorem meaning_has_self_edges (G : graph) : gwf G ->
  (den_bool G KSelf = true <-> exists i x, mget (g_A G) i i = Some x).
Proof.
  intros wf. destruct (den_bool G KSelf) eqn:E; split; try discriminate; auto.
  - intros _. destruct (dcount G) eqn:Ed; [simpl in E; rewrite Ed in E; discriminate|].
    assert (H : 0 < dcount G) by lia. apply cnt_pos in H as (i & _ & H). apply has_true in H as [x H]. eauto.
  - intros (i & x & H). rewrite (noself_all G wf E) in H. discriminate.
Qed.

(** ** C01 *)
(** the names the property lists: they never raise *)
Definition core_name (nm : pname) : Prop :=
  match nm with
  | NA | NAT | Noffdiag | NU _ | NL _ | Ndiag | Nred _ _ _ | Nrow_degrees _ | Ncolumn_degrees _ | Nself
  | Nelement RPlus SP | Nelement RTimes SP | Nelement RMin SP | Nelement RMax SP | Nelement RAny SP
  | Ndiagonal _ | Nnegedges SP | Nis_iso => True
  | _ => False
  end.
Definition dir_name (nm : pname) : Prop :=
  match nm with Nrecip_degrees _ | Ntotal_degrees SM | Ntotal_recip _ => True | nm => core_name nm end.
Definition undir_name (nm : pname) : Prop :=
  match nm with Ndegrees _ => True | nm => core_name nm end.

Lemma core_plain nm : core_name nm -> plain_call (nm, None) /\ (forall sg, nm <> Nelement RCount sg) /\
  forall mhr G e, ~ raises_ok mhr G nm e.
Proof.
  intros H. split; [|split].
  - split; intros E; simpl in E; subst; destruct H.
  - intros sg ->. destruct sg; destruct H.
  - intros mhr G e [[_ E]|[(_ & -> & _)|(_ & _ & _ & [->|(o & _ & ->)])]]; try (destruct H; fail).
    + destruct nm; try discriminate; destruct H.
    + destruct o; destruct H.
Qed.
Lemma val_of_answers mhr G nm mask r : (forall sg, nm <> Nelement RCount sg) -> (forall e, ~ raises_ok mhr G nm e) ->
  answers mhr G nm mask r -> exists d, den_name G nm = Some d /\ r = Val (pmask mask d).
Proof.
  intros H1 H2 H. destruct r as [v|e]; [|destruct (H2 e H)]. destruct (H H1) as (d & Hd & ->). eauto.
Qed.

(** After any history of property calls that does not trigger one of the defects exhibited below, every
    property call on an undirected graph answers with the value its name denotes, restricted by the
    mask; it raises only KeyError for a name that does not exist, or in the two situations of the
    refutations [C06_iso_value_raises_refuted] and [C01_element_raises_refuted]. *)
Theorem C01_undirected_partial (mhr : bool) (G : graph) (h : list call) (nm : pname) (mask : mask_t) :
  gwf G -> g_dir G = false -> safe_hist mhr G st0 (h ++ [(nm, mask)]) ->
  (nm = Nnegdiag -> nd_safe G (run_history mhr G h st0)) ->
  answers mhr G nm mask (fst (get_property mhr G nm mask (run_history mhr G h st0))).
Proof. intros wf _ H Hx. apply history_ok; assumption. Qed.

(** The names the property mentions always return their value: after every history whatsoever if the graph has a
    self-edge, and after every history without has_negative_diagonal if it has none. *)
Theorem C01_undirected_values_partial (mhr : bool) (G : graph) (h : list call) (nm : pname) (mask : mask_t) :
  gwf G -> g_dir G = false -> (exists i x, mget (g_A G) i i = Some x) \/ (forall c, In c h -> fst c <> Nnegdiag) -> undir_name nm ->
  exists d, den_name G nm = Some d /\
            fst (get_property mhr G nm mask (run_history mhr G h st0)) = Val (pmask mask d).
Proof.
  intros wf Hd Hh Hn. rewrite <- (meaning_has_self_edges G wf) in Hh.
  assert (Hsafe : forall c s, In c h -> safe_call G s c \/ fst c = Ntotal_degrees SP) by
    (intros [n' m'] s Hc; destruct (pname_eqb n' (Ntotal_degrees SP)) eqn:E;
     [right; apply pname_eqb_eq in E; exact E|left; split; [intros E'; destruct Hh as [Hh|Hh]; [right; exact Hh|destruct (Hh _ Hc E')]|intros E'; simpl in E'; subst n'; discriminate]]).
  (* a total_degrees call on an undirected graph only raises KeyError *)
  assert (Hinv : forall s, Inv G s -> Inv G (run_history mhr G h s)).
  { clear Hn. induction h as [|c h' IH]; intros s HI; [exact HI|]. simpl. apply IH.
    - destruct Hh as [Hh|Hh]; [left; exact Hh|right]. intros c' Hc'. apply Hh. right. exact Hc'.
    - intros c' s' Hc'. apply Hsafe. right. exact Hc'.
    - destruct (Hsafe c s (or_introl eq_refl)) as [Hs|Hs].
      + destruct c as [n' m']. apply (get_property_ok mhr G wf n' m' s HI Hs).
      + destruct c as [n' m']. simpl in Hs. subst n'. unfold run_call, get_property, alias. simpl. unfold dispatch. rewrite Hd. exact HI. }
  pose proof (Hinv st0 (Inv_st0 G true)) as HI.
  destruct nm; try (destruct Hn; fail);
    try (match goal with |- context [get_property mhr G ?n mask _] =>
      destruct (core_plain n Hn) as (Hp & Hc & Hr);
      apply (val_of_answers mhr G n mask); [exact Hc|exact (Hr mhr G)|];
      apply (get_property_ok mhr G wf n mask _ HI); [apply plain_safe; exact Hp|apply plain_exact; exact Hp] end).
  apply (val_of_answers mhr G (Ndegrees s) mask); [discriminate| |].
  - intros e [[_ E]|[(_ & E & _)|(_ & _ & _ & [E|(o & _ & E)])]]; try discriminate. simpl in E. rewrite Hd in E. discriminate.
  - apply (get_property_ok mhr G wf _ mask _ HI); [split; discriminate|discriminate].
Qed.

(** ** C02 *)
Theorem C02_directed_partial (mhr : bool) (G : graph) (h : list call) (nm : pname) (mask : mask_t) :
  gwf G -> g_dir G = true -> safe_hist mhr G st0 (h ++ [(nm, mask)]) ->
  (nm = Nnegdiag -> nd_safe G (run_history mhr G h st0)) ->
  answers mhr G nm mask (fst (get_property mhr G nm mask (run_history mhr G h st0))).
Proof. intros wf _ H Hx. apply history_ok; assumption. Qed.
(** every listed name returns its value: after every history without total_degrees+ if the graph has a self-edge, and
    after every history without has_negative_diagonal if it has none *)
Definition no_trap (G : graph) (c : call) : Prop :=
  ((exists i x, mget (g_A G) i i = Some x) -> fst c <> Ntotal_degrees SP) /\
  ((forall i, mget (g_A G) i i = None) -> fst c <> Nnegdiag).
Lemma no_trap_hist mhr G h : gwf G -> (forall c, In c h -> no_trap G c) -> forall s, safe_hist mhr G s h.
Proof.
  intros wf. induction h as [|c h IH]; intros Hh s; simpl; [exact I|]. split; [|apply IH; intros c' Hc'; apply Hh; right; exact Hc'].
  destruct (Hh c (or_introl eq_refl)) as [H1 H2]. split.
  - intros E. right. destruct (den_bool G KSelf) eqn:K; [reflexivity|]. destruct (H2 (noself_all G wf K) E).
  - intros E _. left. destruct (den_bool G KSelf) eqn:K; [|reflexivity]. apply (meaning_has_self_edges G wf) in K. destruct (H1 K E).
Qed.
Theorem C02_directed_values_partial (mhr : bool) (G : graph) (h : list call) (nm : pname) (mask : mask_t) :
  gwf G -> g_dir G = true -> (forall c, In c h -> no_trap G c) -> dir_name nm ->
  exists d, den_name G nm = Some d /\
            fst (get_property mhr G nm mask (run_history mhr G h st0)) = Val (pmask mask d).
Proof.
  intros wf Hd Hh Hn.
  pose proof (no_trap_hist mhr G h wf Hh st0) as Hs.
  destruct (run_history_Inv mhr G wf h st0 (Inv_st0 G true) Hs) as [HI _].
  destruct nm; try (destruct Hn; fail);
    try (match goal with |- context [get_property mhr G ?n mask _] =>
      destruct (core_plain n Hn) as (Hp & Hc & Hr);
      apply (val_of_answers mhr G n mask); [exact Hc|exact (Hr mhr G)|];
      apply (get_property_ok mhr G wf n mask _ HI); [apply plain_safe; exact Hp|apply plain_exact; exact Hp] end).
  all: match goal with |- context [get_property ?r ?g ?n ?k _] => apply (val_of_answers r g n k); [discriminate| |] end.
  all: try (intros e [[_ E]|[(_ & E & _)|(_ & _ & _ & [E|(o & _ & E)])]]; try discriminate; simpl in E; rewrite Hd in E; discriminate).
  all: eapply get_property_ok; [exact wf|exact HI| |discriminate]; split; try discriminate; simpl; intros E; injection E as ->; destruct Hn.
Qed.
(** total_degrees+ itself is right after such a history, and harmless to a graph without self-edges *)
Theorem C02_total_degrees_plus_partial (mhr : bool) (G : graph) (h : list call) (mask : mask_t) :
  gwf G -> g_dir G = true -> (forall c, In c h -> no_trap G c) ->
  fst (get_property mhr G (Ntotal_degrees SP) mask (run_history mhr G h st0)) =
  Val (PVec (msk mask (den_vec G (KTotal SP)))).
Proof.
  intros wf Hd Hh.
  pose proof (no_trap_hist mhr G h wf Hh st0) as Hs.
  destruct (run_history_Inv mhr G wf h st0 (Inv_st0 G true) Hs) as [HI _].
  assert (HF : InvF G false (run_history mhr G h st0)).
  { destruct HI. constructor; auto. }
  pose proof (get_total_p_ok G wf false mask _ HF ltac:(discriminate)) as H. unfold wp in H.
  unfold get_property, alias. rewrite Hd. cbn [dispatch]. rewrite Hd. unfold lift, bind, ret.
  destruct (get_total G SP mask (run_history mhr G h st0)) as [o s']. simpl in H. destruct H as [-> _]. reflexivity.
Qed.

(** ** Refutations *)
(** C01/C02: "count_element+" after "degrees+" counts non-empty rows instead of edges *)
Definition g_path3 : graph := mkg false 3 [(0, 1, 5%Z); (1, 2, 7%Z)].
Theorem C01_count_element_refuted :
  exists (G : graph) (h : list call) (v : pval),
    gwf G /\ g_dir G = false /\
    fst (get_property false G (Nelement RCount SP) None (run_history false G h st0)) = Val v /\
    den_name G (Nelement RCount SP) <> Some v.
Proof.
  exists g_path3, [(Nred Row RCount SP, None)], (PScal (Some 3%Z)).
  split; [apply mkg_wf|]. split; [reflexivity|]. split; [vm_compute; reflexivity|].
  vm_compute. intros H. discriminate.
Qed.
(** C01/C02: with a self-edge and both strict triangles cached, "<op>_element-" raises AttributeError *)
Definition g_loop : graph := mkg false 2 [(0, 0, 4%Z); (0, 1, 1%Z)].
Theorem C01_element_raises_refuted :
  exists (G : graph) (h : list call),
    gwf G /\ g_dir G = false /\ Forall plain_call h /\ den_name G (Nelement RPlus SM) = Some (PScal (Some 2%Z)) /\
    fst (get_property false G (Nelement RPlus SM) None (run_history false G h st0)) = Raise EAttr.
Proof.
  exists g_loop, [(NL SM, None); (NU SM, None)].
  split; [apply mkg_wf|]. split; [reflexivity|]. split; [repeat constructor; discriminate|].
  split; vm_compute; reflexivity.
Qed.
(** C02: DiGraph.has_self_edges answers False after total_degrees+ although there is a self-edge,
    and then "offdiag" still contains the self-edge (digraph.py 367-368). *)
Definition d_loop : graph := mkg true 2 [(0, 0, 4%Z); (0, 1, 1%Z)].
Theorem C02_has_self_edges_refuted :
  exists (G : graph) (h : list call),
    gwf G /\ g_dir G = true /\ mget (g_A G) 0 0 = Some 4%Z /\
    fst (get_property false G Nself None (run_history false G h st0)) = Val (PBool false) /\
    fst (get_property false G Noffdiag None (run_history false G (h ++ [(Nself, None)]) st0)) = Val (PMat (g_A G)) /\
    fst (get_property false G Nself None st0) = Val (PBool true).
Proof.
  exists d_loop, [(Ntotal_degrees SP, None)].
  split; [apply mkg_wf|]. repeat split; vm_compute; reflexivity.
Qed.

(** ** C03 *)
Theorem C03_mask_is_restriction (mhr : bool) (G : graph) (h1 h2 : list call) (nm : pname) (p : nat -> bool) (u w : vec Z) :
  gwf G -> safe_hist mhr G st0 (h1 ++ [(nm, Some p)]) -> safe_hist mhr G st0 (h2 ++ [(nm, None)]) ->
  fst (get_property mhr G nm (Some p) (run_history mhr G h1 st0)) = Val (PVec u) ->
  fst (get_property mhr G nm None (run_history mhr G h2 st0)) = Val (PVec w) ->
  vsize u = vsize w /\ forall i, vget u i = if p i then vget w i else None.
Proof.
  intros wf H1 H2 E1 E2.
  assert (Hx : forall s, exact_call G s (nm, Some p)).
  { intros s E. simpl in E. subst nm. exfalso. clear H1 H2. revert E1. unfold get_property, alias. destruct (g_dir G); cbn [dispatch];
      unfold lift, bind, ret; destruct (has_negative_diagonal G _) as [[?|?] ?]; discriminate. }
  pose proof (history_ok mhr G wf h1 nm (Some p) H1 (Hx _)) as A1. rewrite E1 in A1.
  pose proof (history_ok mhr G wf h2 nm None H2 (Hx _)) as A2. rewrite E2 in A2.
  assert (Hc : forall sg, nm <> Nelement RCount sg).
  { intros sg ->. clear A1 A2 H1 H2. revert E1. unfold get_property, alias. destruct (g_dir G), sg; cbn [dispatch];
      unfold lift, bind, ret; destruct (get_elem mhr G RCount _ _) as [[?|?] ?]; discriminate. }
  destruct (A1 Hc) as (d1 & D1 & V1). destruct (A2 Hc) as (d2 & D2 & V2). rewrite D1 in D2. injection D2 as <-.
  destruct d1; simpl in V1, V2; try discriminate. injection V1 as ->. injection V2 as ->.
  split; [apply vsize_vrestrict|]. intros i. apply vget_vrestrict.
Qed.

(** ** C04 *)
(** [regular_name]: has_negative_diagonal, total_degrees+ and count_element± excluded, and names that raise *)
Theorem C04_get_properties_partial (mhr : bool) (G : graph) (h : list call) (names : list pname) (mask : mask_t) :
  gwf G -> safe_hist mhr G st0 h -> Forall (regular_name mhr G) names ->
  exists vs, fst (get_properties mhr G names mask (run_history mhr G h st0)) = Val vs /\
    List.length vs = List.length names /\
    forall k nm v, nth_error names k = Some nm -> nth_error vs k = Some v ->
      fst (get_property mhr G nm mask (run_history mhr G h st0)) = Val v.
Proof.
  intros wf Hs Hn. destruct (run_history_Inv mhr G wf h st0 (Inv_st0 G true) Hs) as [HI _].
  destruct (get_properties_ok mhr G wf names mask _ HI Hn) as (vs & s' & E & _ & HF).
  exists vs. rewrite E. split; [reflexivity|]. split; [clear - HF; induction HF; simpl; congruence|].
  intros k nm v Hk Hv.
  assert (Hin : In nm names) by (eapply nth_error_In; eassumption).
  assert (Hd : exists d, den_name G nm = Some d /\ v = pmask mask d).
  { clear - HF Hk Hv. revert k Hk Hv. induction HF; intros [|k] Hk Hv; try discriminate; simpl in *.
    - injection Hk as ->. injection Hv as ->. assumption.
    - eapply IHHF; eassumption. }
  destruct Hd as (d & Hd & ->). rewrite Forall_forall in Hn.
  destruct (regular_ok mhr G wf nm mask _ HI (Hn _ Hin)) as (d' & s'' & Hd' & E' & _).
  rewrite Hd in Hd'. injection Hd' as <-. unfold get_property. rewrite E'. reflexivity.
Qed.

(** For every graph, every state whatsoever and every list of names: [get_properties] is a run of [get_property] over the
    requested names in some order; it returns, in the order requested, what those calls returned, and raises the first
    exception one of them raises. *)
Lemma pinsert_perm G n l : Permutation (pinsert G n l) (n :: l).
Proof. induction l as [|m l IH]; simpl; [reflexivity|]. destruct (priority G n <? priority G m); [reflexivity|]. rewrite IH. apply perm_swap. Qed.
Lemma psort_perm G l : Permutation (psort G l) l.
Proof.
  unfold psort. assert (H : forall acc, Permutation (fold_left (fun a n => pinsert G n a) l acc) (l ++ acc)).
  { induction l as [|n l IH]; intros acc; simpl; [reflexivity|]. rewrite IH, pinsert_perm. apply Permutation_sym, Permutation_middle. }
  rewrite H, app_nil_r. reflexivity.
Qed.
Lemma pname_eqb_ok a b : pname_eqb a b = true <-> a = b.
Proof.
  split; [|intros ->; destruct b; simpl; try reflexivity; repeat (match goal with x : sgn |- _ => destruct x | x : ax |- _ => destruct x | x : rop |- _ => destruct x end; try reflexivity)].
  destruct a, b; simpl; try discriminate; try reflexivity; intros H;
  repeat (match goal with x : sgn |- _ => destruct x | x : ax |- _ => destruct x | x : rop |- _ => destruct x end; try discriminate H; try reflexivity).
Qed.
Theorem C04_sequence (mhr : bool) (G : graph) (names : list pname) (mask : mask_t) (s : st) :
  exists order, Permutation order names /\
  let before pre := run_history mhr G (map (fun n => (n, mask)) pre) s in
  match get_properties mhr G names mask s with
  | (Val vs, s') => s' = before order /\ List.length vs = List.length names /\
      forall k nm v, nth_error names k = Some nm -> nth_error vs k = Some v ->
        exists pre nm' post, order = pre ++ nm' :: post /\ alias G nm' = alias G nm /\ fst (get_property mhr G nm mask (before pre)) = Val v
  | (Raise e, s') => exists pre nm post, order = pre ++ nm :: post /\ fst (get_property mhr G nm mask (before pre)) = Raise e /\ s' = before (pre ++ [nm]) /\
      forall pre' nm' post', pre = pre' ++ nm' :: post' -> exists v, fst (get_property mhr G nm' mask (before pre')) = Val v
  end.
Proof.
  destruct (Permutation_map_inv (alias G) names (psort_perm G (map (alias G) names))) as (order & Eo & Po).
  exists order. split; [apply Permutation_sym; exact Po|]. cbv zeta. set (before := fun pre => run_history mhr G (map (fun n => (n, mask)) pre) s).
  assert (Bs : forall pre nm, before (pre ++ [nm]) = snd (get_property mhr G nm mask (before pre))).
  { intros. unfold before, run_history. rewrite map_app, fold_left_app. reflexivity. }
  (* the evaluation *)
  assert (EV : forall done todo acc, order = done ++ todo ->
    (forall pre nm post, done = pre ++ nm :: post -> exists v, fst (get_property mhr G nm mask (before pre)) = Val v) ->
    (forall nm v, lookup_result (alias G nm) acc = Some v -> exists pre nm' post, done = pre ++ nm' :: post /\ alias G nm' = alias G nm /\ fst (get_property mhr G nm mask (before pre)) = Val v) ->
    (forall nm, In (alias G nm) (map (alias G) done) -> lookup_result (alias G nm) acc <> None) ->
    match eval_all mhr G (map (alias G) todo) mask acc (before done) with
    | (Val res, s') => s' = before order /\ (forall nm v, lookup_result (alias G nm) res = Some v -> exists pre nm' post, order = pre ++ nm' :: post /\ alias G nm' = alias G nm /\ fst (get_property mhr G nm mask (before pre)) = Val v) /\
        (forall nm, In (alias G nm) (map (alias G) order) -> lookup_result (alias G nm) res <> None)
    | (Raise e, s') => exists pre nm post, order = pre ++ nm :: post /\ fst (get_property mhr G nm mask (before pre)) = Raise e /\ s' = before (pre ++ [nm]) /\
      forall pre' nm' post', pre = pre' ++ nm' :: post' -> exists v, fst (get_property mhr G nm' mask (before pre')) = Val v
    end).
  { intros done todo. revert done. induction todo as [|n todo IH]; intros done acc E H1 H2 H3; cbn [map eval_all].
    - rewrite app_nil_r in E. subst done. unfold ret. auto.
    - unfold bind. assert (Bn := Bs done n). unfold get_property in Bn. destruct (dispatch mhr G (alias G n) mask (before done)) as [[v|e] s1] eqn:Ed; cbn [snd] in Bn.
      + rewrite <- Bn. assert (Gn : fst (get_property mhr G n mask (before done)) = Val v) by (unfold get_property; rewrite Ed; reflexivity). apply IH.
        * rewrite <- app_assoc. exact E.
        * intros pre nm post Hp. destruct post as [|p post] using rev_ind.
          -- apply app_inj_tail in Hp as [-> ->]. eauto.
          -- rewrite app_comm_cons, app_assoc in Hp. apply app_inj_tail in Hp as [Hp _]. eapply H1. exact Hp.
        * intros nm v' Hl. cbn [lookup_result] in Hl. destruct (pname_eqb (alias G nm) (alias G n)) eqn:En.
          -- injection Hl as <-. apply pname_eqb_ok in En. exists done, n, []. split; [reflexivity|]. split; [auto|]. unfold get_property in *. rewrite En. exact Gn.
          -- destruct (H2 nm v' Hl) as (pre & nm' & post & -> & A & B). exists pre, nm', (post ++ [n]). rewrite <- app_assoc. auto.
        * intros nm Hin. cbn [lookup_result]. destruct (pname_eqb (alias G nm) (alias G n)) eqn:En; [discriminate|]. apply H3.
          rewrite map_app in Hin. apply in_app_iff in Hin as [Hin|[Hin|[]]]; [exact Hin|]. rewrite Hin in En. assert (X := proj2 (pname_eqb_ok (alias G nm) (alias G nm)) eq_refl). congruence.
      + exists done, n, todo. split; [exact E|]. split; [unfold get_property; rewrite Ed; reflexivity|]. split; [exact (eq_sym Bn)|]. exact H1. }
  specialize (EV [] order [] eq_refl). cbn [map app] in EV. unfold get_properties, bind. rewrite Eo.
  assert (E0 : before [] = s) by reflexivity. rewrite E0 in EV. destruct (eval_all mhr G (map (alias G) order) mask [] s) as [[res|e] s'].
  2:{ apply EV; [intros [|? ?] ? ? X; discriminate|intros ? ? X; discriminate|intros ? []]. }
  destruct EV as (-> & L1 & L2); [intros [|? ?] ? ? X; discriminate|intros ? ? X; discriminate|intros ? []|].
  assert (PK : forall l st1, (forall nm, In nm l -> In nm order) -> exists vs, pick_all (map (alias G) l) res st1 = (Val vs, st1) /\ List.length vs = List.length l /\
    forall k nm v, nth_error l k = Some nm -> nth_error vs k = Some v -> lookup_result (alias G nm) res = Some v).
  { induction l as [|n l IH]; intros st1 Hl; cbn [map pick_all]; [exists []; split; [reflexivity|]; split; [reflexivity|]; intros [|k] ? ? X; discriminate|].
    unfold bind. assert (N := L2 n (in_map _ _ _ (Hl n (or_introl eq_refl)))). destruct (lookup_result (alias G n) res) as [v|] eqn:El; [|congruence].
    destruct (IH st1 (fun nm H => Hl nm (or_intror H))) as (vs & E1 & E2 & E3). unfold idx, ret. rewrite E1. exists (v :: vs). split; [reflexivity|]. split; [simpl; congruence|].
    intros [|k] nm v' X Y; cbn [nth_error] in X, Y; [injection X as <-; injection Y as <-; exact El|eapply E3; eassumption]. }
  destruct (PK names (before order)) as (vs & E1 & E2 & E3).
  { intros nm Hin. eapply Permutation_in; [exact Po|exact Hin]. }
  rewrite E1. split; [reflexivity|]. split; [exact E2|]. intros k nm v Hk Hv. apply L1. eapply E3; eassumption.
Qed.
(** with the names whose answer depends on the history, the order of evaluation shows: asked together with the degrees (or the
    triangles), count_element+ (min_element-) is not what [get_property] answers *)
Theorem C04_refuted :
  (exists G v w, gwf G /\ fst (get_properties false G [Nelement RCount SP; Nrow_degrees SP] None st0) = Val [v; w] /\
     fst (get_property false G (Nelement RCount SP) None st0) <> Val v) /\
  (exists G v, gwf G /\ fst (get_properties false G [Nelement RPlus SM; NL SM; NU SM] None st0) = Raise EAttr /\
     fst (get_property false G (Nelement RPlus SM) None st0) = Val v).
Proof.
  split.
  - exists g_path3. do 2 eexists. split; [apply mkg_wf|]. split; [vm_compute; reflexivity|]. vm_compute. discriminate.
  - exists g_loop. eexists. split; [apply mkg_wf|]. split; vm_compute; reflexivity.
Qed.

(** ** C05 *)
Theorem C05_negative_edges_partial (mhr : bool) (G : graph) (h : list call) (mask : mask_t) (sg : sgn) (r : bool) :
  gwf G -> safe_hist mhr G st0 h ->
  fst (get_property mhr G (Nnegedges sg) mask (run_history mhr G h st0)) = Val (PBool r) ->
  (r = true <-> exists i j x, (sg = SM -> i <> j) /\ mget (g_A G) i j = Some x /\ (x < 0)%Z).
Proof.
  intros wf Hs E. destruct (run_history_Inv mhr G wf h st0 (Inv_st0 G true) Hs) as [HI _].
  destruct (get_property_ok mhr G wf (Nnegedges sg) mask _ HI ltac:(split; discriminate)) as [Ha _]. specialize (Ha ltac:(discriminate)). rewrite E in Ha.
  destruct (Ha ltac:(discriminate)) as (d & Hd & Hv). simpl in Hd. injection Hd as <-. simpl in Hv. injection Hv as ->.
  change (negent G sg) with (den_bool G (KNeg sg)). rewrite (neg_true_iff G wf). split.
  - intros (i & j & x & Hx & Hlt). exists i, j, x. destruct sg; simpl in Hx.
    + repeat split; auto. discriminate.
    + destruct (Nat.eqb_spec i j); [discriminate|]. auto.
  - intros (i & j & x & Hne & Hx & Hlt). exists i, j, x. split; [|assumption]. destruct sg; simpl; [assumption|].
    destruct (Nat.eqb_spec i j); [destruct (Hne eq_refl); assumption|assumption].
Qed.
Theorem C05_negative_diagonal_partial (mhr : bool) (G : graph) (h : list call) (mask : mask_t) :
  gwf G -> safe_hist mhr G st0 h -> nd_safe G (run_history mhr G h st0) ->
  exists r, fst (get_property mhr G Nnegdiag mask (run_history mhr G h st0)) = Val (PBool r) /\
  (r = true <-> exists i x, mget (g_A G) i i = Some x /\ (x < 0)%Z).
Proof.
  intros wf Hs Hnd. destruct (run_history_Inv mhr G wf h st0 (Inv_st0 G true) Hs) as [HI _].
  destruct (get_property_ok mhr G wf Nnegdiag mask _ HI) as [Ha _].
  { split; [auto|discriminate]. }
  specialize (Ha (fun _ => Hnd)).
  destruct (val_of_answers mhr G Nnegdiag mask _ ltac:(discriminate)
     ltac:(intros e [[_ E]|[(_ & E & _)|(_ & _ & _ & [E|(o & _ & E)])]]; discriminate) Ha) as (d & Hd & ->).
  simpl in Hd. injection Hd as <-. eexists. split; [reflexivity|].
  apply (negdiag_true_iff G wf).
Qed.
(** the empty cache is safe: a first question is always answered correctly *)
Theorem C05_fresh_graph (mhr : bool) (G : graph) : gwf G ->
  exists r, fst (get_property mhr G Nnegdiag None st0) = Val (PBool r) /\
  (r = true <-> exists i x, mget (g_A G) i i = Some x /\ (x < 0)%Z).
Proof.
  intros wf. apply (C05_negative_diagonal_partial mhr G [] None wf); [exact Logic.I|].
  right. split; [reflexivity|]. do 4 right. split; [discriminate|exact Logic.I].
Qed.
(** whatever was asked before, the answer False is right: a negative self-edge is never missed *)
Theorem C05_negative_diagonal_never_missed (mhr : bool) (G : graph) (h : list call) (mask : mask_t) :
  gwf G -> safe_hist mhr G st0 h ->
  fst (get_property mhr G Nnegdiag mask (run_history mhr G h st0)) = Val (PBool false) ->
  forall i x, mget (g_A G) i i = Some x -> (0 <= x)%Z.
Proof.
  intros wf Hs. destruct (run_history_Inv mhr G wf h st0 (Inv_st0 G true) Hs) as [HI _].
  generalize dependent (run_history mhr G h st0). intros s HI E i x Hx.
  destruct (den_bool G KSelf) eqn:K; [|rewrite (noself_all G wf K) in Hx; discriminate].
  destruct (has_negative_diagonal_any G wf true eq_refl s HI (or_intror K)) as (v & H1 & H2 & _).
  revert E. unfold get_property, alias. destruct (g_dir G); cbn [dispatch]; unfold lift, bind, ret; destruct (has_negative_diagonal G s) as [o s']; cbn [fst snd] in *; subst o; intros [= ->];
    (destruct (Z.lt_ge_cases x 0) as [Hlt|]; [|assumption]); discriminate (H2 (proj2 (negdiag_true_iff G wf) (ex_intro _ i (ex_intro _ x (conj Hx Hlt))))).
Qed.
(** after has_negative_edges+ on a graph with a negative edge and no self-edge, has_negative_diagonal is True *)
Definition g_neg : graph := mkg false 2 [(0, 1, (-1)%Z)].
Theorem C05_negative_diagonal_refuted :
  exists (G : graph) (h : list call),
    gwf G /\ (forall i, mget (g_A G) i i = None) /\ Forall (fun c => fst c = Nnegedges SP) h /\
    fst (get_property false G Nnegdiag None (run_history false G h st0)) = Val (PBool true).
Proof.
  exists g_neg, [(Nnegedges SP, None)]. split; [apply mkg_wf|]. split.
  - intros i. apply noself_all; [apply mkg_wf|]. vm_compute. reflexivity.
  - split; [repeat constructor|]. vm_compute. reflexivity.
Qed.

(** ** C06 *)
Theorem C06_iso_values_partial (mhr : bool) (G : graph) (h : list call) (mask : mask_t) :
  gwf G -> safe_hist mhr G st0 h ->
  fst (get_property mhr G Nis_iso mask (run_history mhr G h st0)) = Val (PBool (g_iso G)) /\
  forall v, fst (get_property mhr G Niso_value mask (run_history mhr G h st0)) = Val (PIso v) ->
    (has v = g_iso G) /\
    (forall x i j y, v = Some (Some x) -> mget (g_A G) i j = Some y -> x = y).
Proof.
  intros wf Hs. destruct (run_history_Inv mhr G wf h st0 (Inv_st0 G true) Hs) as [HI _]. split.
  - destruct (get_property_ok mhr G wf Nis_iso mask _ HI ltac:(split; discriminate)) as [Ha _]. specialize (Ha ltac:(discriminate)).
    destruct (val_of_answers mhr G Nis_iso mask _ ltac:(discriminate)
     ltac:(intros e [[_ E]|[(_ & E & _)|(_ & _ & _ & [E|(o & _ & E)])]]; discriminate) Ha) as (d & Hd & ->).
    simpl in Hd. injection Hd as <-. reflexivity.
  - intros v E. destruct (get_property_ok mhr G wf Niso_value mask _ HI ltac:(split; discriminate)) as [Ha _].
    specialize (Ha ltac:(discriminate)). rewrite E in Ha. destruct (Ha ltac:(discriminate)) as (d & Hd & Hv). cbn [den_name] in Hd. injection Hd as <-.
    cbn [pmask] in Hv. injection Hv as ->. unfold den_iso. destruct (g_iso G) eqn:Eg; (split; [reflexivity|]); [|discriminate].
    intros x i j y Hx Hy. injection Hx as Hx.
    apply iso_elem_in in Hx as (i' & j' & Hx). eapply (gw_iso _ wf Eg); eassumption.
Qed.
(** asking iso_value first never raises, whatever is asked in between *)
Theorem C06_iso_value_first (mhr : bool) (G : graph) (h : list call) (mask m0 : mask_t) :
  gwf G -> safe_hist mhr G st0 ((Niso_value, m0) :: h) ->
  fst (get_property mhr G Niso_value mask (run_history mhr G ((Niso_value, m0) :: h) st0)) = Val (PIso (den_iso G)).
Proof.
  intros wf [_ Hs]. simpl.
  assert (E0 : has (c_iso (run_call mhr G st0 (Niso_value, m0))) = true).
    unfold run_call, get_property, alias. destruct (g_dir G); cbn; unfold lift, get_iso_value, bind, get_st, ret, when, modify; cbn; destruct (g_iso G); reflexivity.
  assert (HI0 : Inv G (run_call mhr G st0 (Niso_value, m0))).
  { apply (get_property_ok mhr G wf Niso_value m0 st0 (Inv_st0 G true)). split; discriminate. }
  destruct (run_history_Inv mhr G wf h _ HI0 Hs) as [HI HE].
  assert (E1 : has (c_iso (run_history mhr G h (run_call mhr G st0 (Niso_value, m0)))) = true) by (apply HE; exact E0).
  generalize dependent (run_history mhr G h (run_call mhr G st0 (Niso_value, m0))). intros s HI HE E1.
  destruct (c_iso s) as [v|] eqn:Ev; [|discriminate]. pose proof (i_iso _ _ _ HI _ Ev) as ->.
  unfold get_property, alias. destruct (g_dir G); cbn; unfold lift, get_iso_value, bind, get_st, ret, when; cbn; rewrite Ev; cbn; rewrite Ev; reflexivity.
Qed.
Theorem C06_iso_value_raises_refuted :
  exists (G : graph) (h : list call), gwf G /\ Forall (fun c => fst c = Nis_iso) h /\
    fst (get_property false G Niso_value None (run_history false G h st0)) = Raise EKey.
Proof.
  exists g_path3, [(Nis_iso, None)]. split; [apply mkg_wf|]. split; [repeat constructor|]. vm_compute. reflexivity.
Qed.

(** ** Non-vacuity: histories that meet the hypotheses, with self-edges, masks and both kinds of graphs *)
Definition h_mixed : list call :=
  [(NL SM, None); (Nred Row RPlus SM, Some (fun i => i =? 0)); (Nself, None); (NU SP, None);
   (Nred Col RCount SM, None); (Nelement RMin SM, None); (Nnegedges SP, None)].
Example C01_example_hyps : gwf g_loop /\ g_dir g_loop = false /\ safe_hist false g_loop st0 (h_mixed ++ [(Noffdiag, None)]).
Proof.
  split; [apply mkg_wf|]. split; [reflexivity|]. apply plain_hist. repeat constructor; discriminate.
Qed.
Example C01_example_value :
  fst (get_property false g_loop (Nred Row RPlus SM) (Some (fun i => i =? 1)) (run_history false g_loop h_mixed st0))
  = Val (PVec [None; Some 1%Z]).
Proof. vm_compute. reflexivity. Qed.
Definition d_mix : graph := mkg true 4 [(0, 0, 4%Z); (0, 1, 1%Z); (1, 0, (-2)%Z); (2, 3, 3%Z)].
Example C02_example_hyps : gwf d_mix /\ g_dir d_mix = true /\
  (forall c, In c (h_mixed ++ [(Nrecip_degrees SM, None); (Nnegdiag, None); (Ntotal_recip SP, None)]) -> no_trap d_mix c).
Proof.
  split; [apply mkg_wf|]. split; [reflexivity|]. intros c H. assert (L : mget (g_A d_mix) 0 0 = Some 4%Z) by reflexivity.
  repeat (destruct H as [<-|H]; [split; [discriminate|intros K; rewrite K in L; discriminate]|]). destruct H.
Qed.
(** has_negative_diagonal answers wrongly here (C05), and the other answers are still right *)
Example C02_example_wrong_diagonal : let h := [(Nnegedges SP, None); (Nnegdiag, None)] in
  fst (get_property false d_mix Nnegdiag None (run_history false d_mix h st0)) = Val (PBool true) /\
  fst (get_property false d_mix Nself None (run_history false d_mix h st0)) = Val (PBool true) /\
  fst (get_property false d_mix (Nnegedges SM) None (run_history false d_mix h st0)) = Val (PBool true).
Proof. split; [|split]; vm_compute; reflexivity. Qed.
Example C02_example_value :
  fst (get_property false d_mix (Nrecip_degrees SM) None (run_history false d_mix h_mixed st0))
  = Val (PVec [Some 1%Z; Some 1%Z; None; None]).
Proof. vm_compute. reflexivity. Qed.
(** a safe history that does use the two delicate names *)
Example C02_example_safe : safe_hist false d_mix st0
  [(Nself, None); (Ntotal_degrees SP, None); (Nelement RMin SM, None); (Nnegedges SP, None); (Nnegdiag, None)].
Proof.
  simpl. repeat split; try discriminate; intros _.
  - intros _. right. vm_compute. reflexivity.
  - right. vm_compute. reflexivity.
Qed.
Example C04_example : Forall (regular_name false d_mix) [Nself; NU SM; Nrow_degrees SP; Nrecip_degrees SM; NAT] /\
  fst (get_properties false d_mix [Nself; Nrow_degrees SP; Nrecip_degrees SM] None st0) =
  Val [PBool true; PVec [Some 2%Z; Some 1%Z; Some 1%Z; None]; PVec [Some 1%Z; Some 1%Z; None; None]].
Proof.
  split; [|vm_compute; reflexivity].
  apply Forall_forall. intros nm H. repeat (destruct H as [<-|H]; [repeat split; try discriminate;
    try (intros e [[_ E]|[(_ & E & _)|(_ & _ & _ & [E|(o & _ & E)])]]; discriminate E)|]). destruct H.
Qed.
Example C05_example : nd_safe d_mix (run_history false d_mix [(Nelement RMin SM, None); (Nnegedges SP, None)] st0) /\
  fst (get_property false d_mix (Nnegedges SP) None st0) = Val (PBool true) /\
  fst (get_property false d_mix Nnegdiag None (run_history false d_mix [(Nelement RMin SM, None); (Nnegedges SP, None)] st0)) = Val (PBool false).
Proof. split; [|split]; [right; split; [reflexivity|]; right; right; left; vm_compute; reflexivity| |]; vm_compute; reflexivity. Qed.
Example C06_example : let G := mkg_iso true 3 [(0, 1); (1, 2)] (-1)%Z in
  gwf G /\ fst (get_property false G Niso_value None (run_history false G [(Nis_iso, None); (NU SP, None)] st0)) = Val (PIso (Some (Some (-1)%Z))).
Proof. split; [apply mkg_iso_wf|]. vm_compute. reflexivity. Qed.

Print Assumptions C01_undirected_partial.
Print Assumptions C01_undirected_values_partial.
Print Assumptions C01_count_element_refuted.
Print Assumptions C01_element_raises_refuted.
Print Assumptions C02_directed_partial.
Print Assumptions C02_directed_values_partial.
Print Assumptions C02_total_degrees_plus_partial.
Print Assumptions C02_has_self_edges_refuted.
Print Assumptions C03_mask_is_restriction.
Print Assumptions C04_get_properties_partial.
Print Assumptions C04_sequence.
Print Assumptions C04_refuted.
Print Assumptions C05_negative_edges_partial.
Print Assumptions C05_negative_diagonal_partial.
Print Assumptions C05_negative_diagonal_never_missed.
Print Assumptions C05_fresh_graph.
Print Assumptions C05_negative_diagonal_refuted.
Print Assumptions C06_iso_values_partial.
Print Assumptions C06_iso_value_first.
Print Assumptions C06_iso_value_raises_refuted.
