(** * Histories of property calls *)
From Verif Require Import Base BaseProofs Model_Graph Model_Cache Spec_Cache CacheMath CacheProofs CacheProofs2.

(** what a call may answer: the denoted value (restricted by the mask), or one of three exceptions *)
Definition raises_ok (mhr : bool) (G : graph) (nm : pname) (e : exn) : Prop :=
  (e = EKey /\ den_name G nm = None) \/
  (e = EKey /\ nm = Niso_value /\ g_iso G = false) \/
  (e = EAttr /\ mhr = false /\ den_bool G KSelf = true /\
   (nm = Nnegedges SM \/ exists o, o <> RCount /\ nm = Nelement o SM)).
Definition answers (mhr : bool) (G : graph) (nm : pname) (mask : mask_t) (r : outcome pval) : Prop :=
  match r with
  | Val v => (forall sg, nm <> Nelement RCount sg) ->
             exists d, den_name G nm = Some d /\ v = pmask mask d
  | Raise e => raises_ok mhr G nm e
  end.
(** every call of the history is made in a state where it does not trigger one of the defects *)
Fixpoint safe_hist (mhr : bool) (G : graph) (s : st) (h : list call) : Prop :=
  match h with
  | [] => True
  | c :: h' => safe_call G s c /\ safe_hist mhr G (run_call mhr G s c) h'
  end.
(** a syntactic condition that suffices *)
Definition plain_call (c : call) : Prop := fst c <> Nnegdiag /\ fst c <> Ntotal_degrees SP.

Section H.
Variable mhr : bool.
Variable G : graph.
Hypothesis wf : gwf G.
Notation self := (den_bool G KSelf).

Lemma lift_GV {X} (c : X -> pval) (m : M X) v P s (Q : outcome pval -> st -> Prop) :
  GV G true m v P -> Inv G s -> (forall s', Inv G s' -> ext s s' -> Q (Val (c v)) s') -> wp (lift c m) s Q.
Proof. intros H HI HQ. unfold lift. apply wp_bind. eapply wp_GV; [exact H|exact HI|]. intros. apply wp_ret. auto. Qed.
Lemma lift_GO {X} (c : X -> pval) (m : M X) R s (Q : outcome pval -> st -> Prop) :
  GO G true m R -> Inv G s ->
  (forall o s', Inv G s' -> ext s s' -> R o -> Q (match o with Val x => Val (c x) | Raise e => Raise e end) s') ->
  wp (lift c m) s Q.
Proof.
  intros H HI HQ. unfold lift. apply wp_bind. eapply wp_GO; [exact H|exact HI|]. intros o s' H1 H2 H3.
  specialize (HQ o s' H1 H2 H3). destruct o; [apply wp_ret|]; assumption.
Qed.

Ltac gv L := eapply lift_GV; [apply L; auto|assumption|intros ?s' ?HI' ?HE; split; [|split; assumption]].
Ltac kraise Hd := apply wp_raise; (split; [intros _; left; split; [reflexivity|simpl; rewrite Hd; reflexivity]|split; [assumption|apply ext_refl]]).
Definition alias_name (nm : pname) : Prop :=
  match nm with Ndegrees _ | Nrow_degrees _ | Ncolumn_degrees _ => True | _ => False end.
Lemma dispatch_core nm mask s : Inv G s -> safe_call G s (nm, mask) -> ~ alias_name nm ->
  wp (dispatch mhr G nm mask) s (fun o s' => (exact_call G s (nm, mask) -> answers mhr G nm mask o) /\ Inv G s' /\ ext s s').
Proof.
  intros HI [Hnd Htd] Hal. simpl in Hnd, Htd.
  assert (V : forall n' v u, den_name G n' = Some v -> u = pmask mask v -> exact_call G s (n', mask) -> answers mhr G n' mask (Val u)).
  { intros n' v u E Hu _ _. exists v. auto. }
  destruct nm as [ | | |sg|sg| |a o sg|sg|sg|sg|sg|sg|sg|o sg|o| |sg| | | ]; try (exfalso; apply Hal; exact Logic.I);
    clear Hal; cbn [dispatch].
  - (* A *) apply wp_ret. split; [eapply (V NA); reflexivity|split; [assumption|apply ext_refl]].
  - (* AT *) gv get_AT_ok. eapply (V NAT); reflexivity.
  - (* offdiag *) gv get_offdiag_ok. eapply (V Noffdiag); reflexivity.
  - (* U *) destruct sg; [gv get_Up_ok; eapply (V (NU SP))|gv get_Um_ok; eapply (V (NU SM))]; reflexivity.
  - (* L *) destruct sg; [gv get_Lp_ok; eapply (V (NL SP))|gv get_Lm_ok; eapply (V (NL SM))]; reflexivity.
  - (* diag *) gv get_diag_ok. eapply (V Ndiag); reflexivity.
  - (* red *) gv get_red_ok. eapply (V (Nred a o sg)); reflexivity.
  - (* recip *) destruct (g_dir G) eqn:Hd; [|kraise Hd]. gv get_recip_ok. eapply (V (Nrecip_degrees sg)); [simpl; rewrite Hd; reflexivity|reflexivity].
  - (* total *) destruct (g_dir G) eqn:Hd; [|kraise Hd]. destruct sg.
    + unfold lift. apply wp_bind. eapply wp_conseq.
      * apply (get_total_p_ok G wf true mask s HI). intros _ Hm Hs. destruct (Htd eq_refl Hm) as [H|H]; congruence.
      * intros o s' (-> & H1 & H2). apply wp_ret. split; [|split; assumption].
        eapply (V (Ntotal_degrees SP)); [simpl; rewrite Hd; reflexivity|reflexivity].
    + gv get_total_m_ok. eapply (V (Ntotal_degrees SM)); [simpl; rewrite Hd; reflexivity|reflexivity].
  - (* total_recip *) destruct (g_dir G) eqn:Hd; [|destruct sg; kraise Hd].
    destruct sg; [gv total_recip_plus_ok; eapply (V (Ntotal_recip SP))|gv total_recip_minus_ok; eapply (V (Ntotal_recip SM))]; (simpl; rewrite Hd; reflexivity) || reflexivity.
  - (* element *) destruct sg.
    + eapply lift_GO; [apply (elem_plus_ok G wf true)|assumption|]. intros o' s' H1 H2 (x & -> & Hx). split; [|split; assumption].
      intros _ Hc. assert (Ho : o <> RCount) by (intros ->; exact (Hc SP eq_refl)). eexists. split; [reflexivity|]. rewrite (Hx Ho). reflexivity.
    + eapply lift_GO; [apply (elem_minus_ok mhr G wf true eq_refl)|assumption|].
      intros o' s' H1 H2 [(x & -> & Hx)|(-> & Ha & Hb & Hc)]; (split; [|split; assumption]).
      * intros _ Hc. assert (Ho : o <> RCount) by (intros ->; exact (Hc SM eq_refl)). eexists. split; [reflexivity|]. rewrite (Hx Ho). reflexivity.
      * intros _. right. right. repeat split; auto. right. exists o. auto.
  - (* diagonal *) gv diag_red_ok. eapply (V (Ndiagonal o)); reflexivity.
  - (* negdiag *) unfold lift. apply wp_bind. eapply wp_conseq; [apply (has_negative_diagonal_any G wf true eq_refl s HI (Hnd eq_refl))|].
    intros o s' (v & -> & _ & Hv & H1 & H2). apply wp_ret. split; [|split; assumption]. intros Hx. specialize (Hv (Hx eq_refl)). subst v. eapply (V Nnegdiag); try reflexivity; exact Hx.
  - (* negedges *) destruct sg.
    + gv has_negative_edgesp_ok. eapply (V (Nnegedges SP)); reflexivity.
    + eapply lift_GO; [apply (has_negative_edgesm_ok mhr G wf true eq_refl)|assumption|].
      intros o' s' H1 H2 [->|(-> & Ha & Hb)]; (split; [|split; assumption]).
      * eapply (V (Nnegedges SM)); reflexivity.
      * intros _. right. right. auto.
  - (* self *) gv has_self_edges_ok. eapply (V Nself); reflexivity.
  - (* is_iso *) gv is_iso_ok. eapply (V Nis_iso); reflexivity.
  - (* iso_value *) eapply lift_GO; [apply (get_iso_value_ok G wf true)|assumption|].
    intros o' s' H1 H2 [->|[-> Hg]]; (split; [|split; assumption]).
    + eapply (V Niso_value); reflexivity.
    + intros _. right. left. auto.
Qed.
(** aliases denote the same and are resolved once *)
Lemma den_alias nm : den_name G (alias G nm) = den_name G nm.
Proof.
  unfold alias. destruct (g_dir G) eqn:Hd; destruct nm; simpl; rewrite ?Hd; try reflexivity.
  pose proof (undir_red G wf RCount s Hd) as E. simpl in E. rewrite E. reflexivity.
Qed.
Lemma alias_idem nm : alias G (alias G nm) = alias G nm.
Proof. unfold alias. destruct (g_dir G), nm; reflexivity. Qed.
Lemma alias_cases nm : (~ alias_name nm /\ alias G nm = nm) \/
  (alias_name nm /\ exists a s, alias G nm = Nred a RCount s) \/ (exists s, nm = Ndegrees s /\ g_dir G = true).
Proof.
  unfold alias. destruct (g_dir G) eqn:Hd; destruct nm; simpl; try (left; split; [intros []; fail|reflexivity]);
    try (right; left; split; [exact Logic.I|eauto; fail]); right; right; eauto.
Qed.
Lemma dispatch_ok nm mask s : Inv G s -> safe_call G s (nm, mask) ->
  wp (dispatch mhr G (alias G nm) mask) s (fun o s' => (exact_call G s (nm, mask) -> answers mhr G nm mask o) /\ Inv G s' /\ ext s s').
Proof.
  intros HI Hs. destruct (alias_cases nm) as [[Ha Ee]|[[Ha (a & sg & Ee)]|(sg & -> & Hd)]].
  - rewrite Ee. apply dispatch_core; assumption.
  - pose proof (den_alias nm) as Hden. rewrite Ee in *.
    eapply wp_conseq; [apply dispatch_core; [assumption|split; discriminate|intros []]|].
    intros o s' (H1 & H2). split; [|assumption]. intros _. specialize (H1 ltac:(discriminate)). destruct o as [v|e].
    + intros _. destruct (H1 ltac:(discriminate)) as (d & Hd & Hv). exists d. rewrite <- Hden. auto.
    + destruct H1 as [[-> H]|[(_ & H & _)|(_ & _ & _ & [H|(? & _ & H)])]]; try discriminate.
  - assert (E : alias G (Ndegrees sg) = Ndegrees sg) by (unfold alias; rewrite Hd; reflexivity). rewrite E. cbn [dispatch]. kraise Hd.
Qed.
Lemma get_property_ok nm mask s : Inv G s -> safe_call G s (nm, mask) ->
  (exact_call G s (nm, mask) -> answers mhr G nm mask (fst (get_property mhr G nm mask s))) /\ Inv G (snd (get_property mhr G nm mask s)) /\
  ext s (snd (get_property mhr G nm mask s)).
Proof. intros HI Hs. exact (dispatch_ok nm mask s HI Hs). Qed.
Lemma plain_safe s c : plain_call c -> safe_call G s c.
Proof. intros [H1 H2]. split; intros; contradiction. Qed.
Lemma run_history_Inv h s : Inv G s -> safe_hist mhr G s h -> Inv G (run_history mhr G h s) /\ ext s (run_history mhr G h s).
Proof.
  revert s. induction h as [|c h IH]; intros s HI Hs; simpl; [split; [assumption|apply ext_refl]|].
  destruct Hs as [H1 H2]. destruct c as [nm mask]. destruct (get_property_ok nm mask s HI H1) as (_ & H3 & H4).
  destruct (IH _ H3 H2) as [H5 H6]. split; [exact H5|]. eapply ext_trans; [exact H4|exact H6].
Qed.
Lemma plain_hist h : forall s, Forall plain_call h -> safe_hist mhr G s h.
Proof.
  induction h as [|c h IH]; intros s H; simpl; [exact Logic.I|]. inversion H; subst. split; [apply plain_safe; assumption|auto].
Qed.
Lemma plain_exact s c : plain_call c -> exact_call G s c.
Proof. intros [H1 _] H2. contradiction. Qed.
Lemma history_ok h nm mask : safe_hist mhr G st0 (h ++ [(nm, mask)]) -> exact_call G (run_history mhr G h st0) (nm, mask) ->
  answers mhr G nm mask (fst (get_property mhr G nm mask (run_history mhr G h st0))).
Proof.
  intros H Hx. assert (K : forall s, safe_hist mhr G s (h ++ [(nm, mask)]) -> safe_hist mhr G s h /\ safe_call G (run_history mhr G h s) (nm, mask)).
  { clear H Hx. induction h as [|c h IH]; intros s H; simpl in *; [tauto|]. destruct H as [H1 H2]. apply IH in H2. tauto. }
  apply K in H as [H1 H2]. destruct (run_history_Inv h st0 (Inv_st0 G true) H1) as [HI _].
  apply (get_property_ok nm mask _ HI H2). exact Hx.
Qed.

(** *** get_properties *)
(** the names that never raise in this graph and are never miscounted *)
Definition regular_name (nm : pname) : Prop :=
  plain_call (nm, None) /\ (forall sg, nm <> Nelement RCount sg) /\ (forall e, ~ raises_ok mhr G nm e).
Lemma regular_ok nm mask s : Inv G s -> regular_name nm ->
  exists d s', den_name G nm = Some d /\ dispatch mhr G (alias G nm) mask s = (Val (pmask mask d), s') /\ Inv G s'.
Proof.
  intros HI (Hp & Hc & Hr). pose proof (dispatch_ok nm mask s HI (plain_safe s (nm, mask) Hp)) as H.
  unfold wp in H. destruct (dispatch mhr G (alias G nm) mask s) as [[v|e] s']; simpl in H; destruct H as (H1 & H2 & H3).
  - destruct (H1 (plain_exact s (nm, mask) Hp) Hc) as (d & Hd & ->). exists d, s'. auto.
  - destruct (Hr e (H1 (plain_exact s (nm, mask) Hp))).
Qed.
Lemma pname_eqb_eq x y : pname_eqb x y = true <-> x = y.
Proof.
  split.
  - destruct x, y; simpl; try discriminate; try reflexivity;
    rewrite ?andb_true_iff; intros; repeat match goal with H : _ /\ _ |- _ => destruct H end;
    repeat match goal with
    | H : sgn_eqb ?a ?b = true |- _ => apply sgn_eqb_eq in H; subst
    | H : ax_eqb ?a ?b = true |- _ => destruct a, b; try discriminate; clear H
    | H : rop_eqb ?a ?b = true |- _ => destruct a, b; try discriminate; clear H
    end; reflexivity.
  - intros ->. destruct y; simpl; rewrite ?sgn_eqb_refl, ?rop_eqb_refl, ?ax_eqb_refl; reflexivity.
Qed.
Lemma in_pinsert n x l : In x (pinsert G n l) <-> x = n \/ In x l.
Proof.
  induction l as [|m l IH]; simpl; [intuition|]. destruct (priority G n <? priority G m); simpl; [intuition|].
  rewrite IH. intuition.
Qed.
Lemma in_psort x l : In x (psort G l) <-> In x l.
Proof.
  unfold psort. assert (K : forall acc, In x (fold_left (fun acc n => pinsert G n acc) l acc) <-> In x l \/ In x acc).
  { induction l as [|m l IH]; intros acc; simpl; [tauto|]. rewrite IH, in_pinsert. intuition. }
  rewrite K. simpl. tauto.
Qed.
Definition rok (mask : mask_t) (p : pname * pval) : Prop :=
  exists d, den_name G (fst p) = Some d /\ snd p = pmask mask d.
Lemma regular_alias nm : regular_name nm -> regular_name (alias G nm).
Proof.
  intros (H1 & H2 & H3). unfold regular_name, plain_call, raises_ok in *. rewrite den_alias. simpl in *.
  unfold alias in *. destruct (g_dir G), nm; repeat split; intros; try (apply H1); try (apply H2); try (apply H3); try discriminate;
    intros [H|[(_ & H & _)|(_ & _ & _ & [H|(o & _ & H)])]]; try discriminate; eapply (H3 e); left; exact H.
Qed.
Lemma eval_all_ok mask l : forall acc s, Inv G s -> Forall regular_name l -> (forall x, In x l -> alias G x = x) ->
  Forall (rok mask) acc ->
  exists res s', eval_all mhr G l mask acc s = (Val res, s') /\ Inv G s' /\ Forall (rok mask) res /\
    (forall x, In x l \/ In x (map fst acc) -> In x (map fst res)).
Proof.
  induction l as [|nm l IH]; intros acc s HI Hl Ha Hacc.
  - exists acc, s. repeat split; auto; try apply HI. intros x [[]|H]; assumption.
  - inversion Hl; subst. destruct (regular_ok nm mask s HI H1) as (d & s' & Hd & He & HI').
    rewrite Ha in He by (left; reflexivity).
    assert (Hrok : rok mask (nm, pmask mask d)) by (exists d; auto).
    destruct (IH ((nm, pmask mask d) :: acc) s' HI' H2 (fun x Hx => Ha x (or_intror Hx))
                (Forall_cons _ Hrok Hacc)) as (res & s'' & Hr & HI'' & Hf & Hin).
    exists res, s''. split; [|split; [exact HI''|split; [exact Hf|]]].
    + simpl. unfold bind. rewrite He. exact Hr.
    + intros x [[<-|Hx]|Hx]; apply Hin; simpl; auto.
Qed.
Lemma lookup_ok mask res nm : Forall (rok mask) res -> In nm (map fst res) ->
  exists d, den_name G nm = Some d /\ lookup_result nm res = Some (pmask mask d).
Proof.
  induction res as [|[m v] res IH]; intros Hf Hin; [destruct Hin|]. inversion Hf as [|? ? H1 H2]; subst. simpl.
  destruct (pname_eqb nm m) eqn:E.
  - apply pname_eqb_eq in E as ->. destruct H1 as (d & Hd & Hv). simpl in *. exists d. rewrite Hv. auto.
  - apply IH; [assumption|]. destruct Hin as [<-|Hin]; [|assumption]. simpl in E.
    assert (pname_eqb m m = true) by (apply pname_eqb_eq; reflexivity). congruence.
Qed.
Lemma pick_all_ok mask res l s : Forall (rok mask) res -> (forall x, In x l -> In x (map fst res)) ->
  exists vs, pick_all l res s = (Val vs, s) /\ Forall2 (fun nm v => exists d, den_name G nm = Some d /\ v = pmask mask d) l vs.
Proof.
  induction l as [|nm l IH]; intros Hf Hin.
  - exists []. split; [reflexivity|constructor].
  - destruct (lookup_ok mask res nm Hf (Hin nm (or_introl eq_refl))) as (d & Hd & Hl).
    destruct (IH Hf (fun x Hx => Hin x (or_intror Hx))) as (vs & Hv & HF).
    exists (pmask mask d :: vs). split; [|constructor; [exists d; auto|assumption]].
    simpl. rewrite Hl. unfold bind, idx, ret. rewrite Hv. reflexivity.
Qed.
Lemma get_properties_ok names mask s : Inv G s -> Forall regular_name names ->
  exists vs s', get_properties mhr G names mask s = (Val vs, s') /\ Inv G s' /\
    Forall2 (fun nm v => exists d, den_name G nm = Some d /\ v = pmask mask d) names vs.
Proof.
  intros HI Hn. unfold get_properties.
  assert (Hreg : Forall regular_name (psort G (map (alias G) names))).
  { apply Forall_forall. intros x Hx. rewrite in_psort, in_map_iff in Hx. destruct Hx as (y & <- & Hy).
    apply regular_alias. rewrite Forall_forall in Hn. auto. }
  assert (Hal : forall x, In x (psort G (map (alias G) names)) -> alias G x = x).
  { intros x Hx. rewrite in_psort, in_map_iff in Hx. destruct Hx as (y & <- & Hy). apply alias_idem. }
  destruct (eval_all_ok mask _ [] s HI Hreg Hal (Forall_nil _)) as (res & s' & He & HI' & Hf & Hin).
  destruct (pick_all_ok mask res (map (alias G) names) s' Hf) as (vs & Hp & HF).
  { intros x Hx. apply Hin. left. rewrite in_psort. exact Hx. }
  exists vs, s'. split; [|split; [exact HI'|]].
  - unfold bind. rewrite He. exact Hp.
  - clear - HF wf. revert vs HF. induction names as [|nm l IH]; intros vs HF; inversion HF; subst; constructor; auto.
    rewrite den_alias in H1. exact H1.
Qed.
End H.
