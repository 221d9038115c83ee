(** * Calls that read has_negative_diagonal: what is right in every consistent state, and which state is left *)
From Verif Require Import Base BaseProofs Model_Graph Model_Cache Spec_Cache CacheMath CacheProofs CacheProofs2 Model_Keys Spec_Run RunProofs.

(** ** Parts of the state that most getters leave alone *)
Definition kept (s s' : st) : Prop := c_bool s' (KNeg SP) = c_bool s (KNeg SP) /\ c_bool s' KNegDiag = c_bool s KNegDiag /\ c_scal s' = c_scal s.
Definition keeps {X} (m : M X) : Prop := forall s, kept s (snd (m s)).
Lemma kept_refl s : kept s s. Proof. repeat split; reflexivity. Qed.
Lemma kept_trans a b c : kept a b -> kept b c -> kept a c.
Proof. intros (H1 & H2 & H2') (H3 & H4 & H4'). repeat split; congruence. Qed.
Lemma keeps_bind {X Y} (m : M X) (f : X -> M Y) : keeps m -> (forall x, keeps (f x)) -> keeps (bind m f).
Proof.
  intros H Hf s. unfold bind. specialize (H s). destruct (m s) as [[x|e] s']; cbn [snd] in *; [|assumption].
  eapply kept_trans; [eassumption|apply Hf].
Qed.
Lemma keeps_idx {X} (o : option X) : keeps (idx o). Proof. intros s. destruct o; apply kept_refl. Qed.
Ltac kp :=
  repeat first
  [ assumption
  | lazymatch goal with
    | |- keeps (bind _ _) => apply keeps_bind; [|intros ?]
    | |- keeps (when ?b _) => destruct b; unfold when
    | |- keeps (if ?b then _ else _) => destruct b
    | |- keeps (match ?x with _ => _ end) => destruct x
    | |- keeps (let _ := _ in _) => cbv zeta
    | |- keeps (lk_mat ?k) => intros ?s; apply (keeps_idx (c_mat s k))
    | |- keeps (lk_vec ?k) => intros ?s; apply (keeps_idx (c_vec s k))
    | |- keeps (lk_int ?k) => intros ?s; apply (keeps_idx (c_int s k))
    | |- keeps (lk_bool ?k) => intros ?s; apply (keeps_idx (c_bool s k))
    | |- keeps (lk_scal ?k) => intros ?s; apply (keeps_idx (c_scal s k))
    | |- keeps _ => intros ?s; split; [|split]; reflexivity
    end ].
Lemma keeps_offdiag G : keeps (get_offdiag G). Proof. unfold get_offdiag. kp. Qed.
Lemma keeps_diag G m : keeps (get_diag G m). Proof. unfold get_diag. kp. Qed.
Lemma keeps_self G : keeps (has_self_edges G).
Proof.
  pose proof (keeps_diag G None) as Hd.
  unfold has_self_edges. destruct (g_dir G); [unfold has_self_edges_d|unfold has_self_edges_u]; kp.
Qed.
Lemma keeps_is_iso G : keeps (is_iso G). Proof. unfold is_iso. kp. Qed.
Lemma keeps_resolve G a o s : keeps (resolve G a o s).
Proof. unfold resolve. kp. Qed.
Lemma keeps_red_plus G a o m : keeps (get_red_plus G a o m).
Proof. unfold get_red_plus. apply keeps_bind; [apply keeps_resolve|]. intros a'. unfold red_plus. kp. Qed.
Lemma keeps_red G a o sg m : keeps (get_red G a o sg m).
Proof.
  destruct sg; [apply keeps_red_plus|]. unfold get_red, get_red_minus. apply keeps_bind; [apply keeps_resolve|]. intros a'.
  pose proof (keeps_self G) as Hs. pose proof (keeps_offdiag G) as Ho. pose proof (keeps_red_plus G a' o) as Hp.
  unfold red_minus. destruct m as [m|]; [pose proof (Hp (Some m))|pose proof (Hp None)]; kp.
Qed.
Lemma keeps_total G sg m : keeps (get_total G sg m).
Proof.
  pose proof (fun a => keeps_red G a RCount sg m) as Hr. pose proof (Hr Row). pose proof (Hr Col).
  unfold get_total. destruct m; kp.
Qed.

(** ** With offdiag cached no getter meets the missing [Matrix.reduce] *)
Definition na {X} (m : M X) : Prop := forall s, has (c_mat s KOff) = true ->
  fst (m s) <> Raise EAttr /\ has (c_mat (snd (m s)) KOff) = true.
Lemma na_bind {X Y} (m : M X) (f : X -> M Y) : na m -> (forall x, na (f x)) -> na (bind m f).
Proof.
  intros H Hf s Ho. specialize (H s Ho). unfold bind. destruct (m s) as [o s1]; cbn [fst snd] in *.
  destruct H as (H1 & H2). destruct o as [x|e]; [apply Hf; assumption|]. split; [cbn; intros [= ->]; apply H1; reflexivity|assumption].
Qed.
Lemma na_off {Y} (f : bool -> M Y) : na (f true) -> na (bind (in_mat KOff) f).
Proof. intros H s Ho. unfold bind, in_mat. rewrite Ho. apply H; assumption. Qed.
Lemma na_ret {X} (x : X) : na (ret x). Proof. intros s Ho. split; [discriminate|assumption]. Qed.
Lemma na_rd {X} (r : st -> X) : na (fun s => (Val (r s), s)). Proof. intros s Ho. split; [discriminate|assumption]. Qed.
Lemma na_idx {X} (o : option X) : na (idx o). Proof. intros s Ho. destruct o; (split; [discriminate|assumption]). Qed.
Ltac nn :=
  repeat first
  [ assumption
  | lazymatch goal with
    | |- na (bind (in_mat KOff) _) => apply na_off; cbn [negb andb orb]
    | |- na (bind _ _) => apply na_bind; [|intros ?]
    | |- na (when ?b _) => destruct b; unfold when
    | |- na (if ?b then _ else _) => destruct b
    | |- na (ret _) => apply na_ret
    | |- na (lk_mat ?k) => intros ?s; apply (na_idx (c_mat s k))
    | |- na (lk_vec ?k) => intros ?s; apply (na_idx (c_vec s k))
    | |- na (lk_scal ?k) => intros ?s; apply (na_idx (c_scal s k))
    | |- na (lk_bool ?k) => intros ?s; apply (na_idx (c_bool s k))
    | |- na (modify _) => intros ?s ?Ho; split; [discriminate|assumption]
    | |- na _ => intros ?s ?Ho; split; [discriminate|assumption]
    end ].
Lemma na_elem_minus G o : na (elem_minus false G o).
Proof. unfold elem_minus. cbv zeta. nn. Qed.
Lemma na_negm G : na (has_negative_edgesm false G).
Proof. pose proof (na_elem_minus G RMin). unfold has_negative_edgesm. nn. Qed.

Section P.
Variable G : graph.
Hypothesis wf : gwf G.
Notation I := (Inv G).
Notation nd_ok := (nd_ok G).
Lemma nd_safe_mono s s' : I s -> I s' -> ext s s' -> kept s s' -> nd_safe G s -> nd_safe G s'.
Proof.
  intros HI HI' He (K1 & K2 & K3) [H|[H0 H]]; [left; congruence|right]. split; [congruence|].
  destruct H as [H|[H|[H|[H|[H1 H2]]]]].
  - left. assumption.
  - right. left. assert (Hh : has (c_bool s' KSelf) = true) by (apply (ext_bool _ _ _ He); rewrite H; reflexivity).
    destruct (c_bool s' KSelf) as [b|] eqn:E; [|discriminate].
    rewrite (i_boolx _ _ _ _ _ HI' E ltac:(discriminate)), <- (i_boolx _ _ _ _ _ HI H ltac:(discriminate)). reflexivity.
  - do 2 right. left. apply (ext_scal _ _ _ He). assumption.
  - do 3 right. left. assert (Hh : has (c_bool s' (KNeg SM)) = true) by (apply (ext_bool _ _ _ He); rewrite H; reflexivity).
    destruct (c_bool s' (KNeg SM)) as [b|] eqn:E; [|discriminate].
    rewrite (i_boolx _ _ _ _ _ HI' E ltac:(discriminate)), <- (i_boolx _ _ _ _ _ HI H ltac:(discriminate)). reflexivity.
  - do 4 right. rewrite K1, K3. split; assumption.
Qed.
Lemma nd_ok_mono s s' : I s -> I s' -> ext s s' -> kept s s' -> nd_ok s -> nd_ok s'.
Proof. intros H1 H2 H3 H4 [H|[H|H]]; [left|right; left|right; right]; try assumption. exact (nd_safe_mono s s' H1 H2 H3 H4 H). Qed.
(** in a graph without self-edges whose has_self_edges is cached the answer is right *)
Lemma noself_safe s : I s -> has (c_bool s KSelf) = true -> den_bool G KSelf = false -> nd_safe G s.
Proof.
  intros HI Hk Hs. unfold nd_safe. destruct (c_bool s KNegDiag) as [v|] eqn:E.
  - left. destruct (i_bool _ _ _ HI _ _ E) as [->|(_ & _ & H & _)]; [reflexivity|congruence].
  - right. split; [reflexivity|]. right. left. destruct (c_bool s KSelf) as [b|] eqn:E1; [|discriminate].
    rewrite (i_boolx _ _ _ _ _ HI E1 ltac:(discriminate)), Hs. reflexivity.
Qed.
(** in an iso-valued graph the diagonal is negative as soon as some edge is *)
Lemma iso_neg_diag : g_iso G = true -> den_bool G KSelf = true -> den_bool G (KNeg SP) = true -> den_bool G KNegDiag = true.
Proof.
  intros H Ed Hneg. apply negdiag_true_iff; [assumption|].
  assert (Hs1 : exists i x, mget (g_A G) i i = Some x).
  { simpl in Ed. apply negb_true_iff, Nat.eqb_neq in Ed. unfold dcount in Ed.
    destruct (proj1 (cnt_pos _ _) (proj1 (Nat.neq_0_lt_0 _) Ed)) as (i & _ & Hi). destruct (mget (g_A G) i i) eqn:E; [eauto|discriminate]. }
  destruct Hs1 as (i & x & Hx). exists i, x. split; [assumption|].
  simpl in Hneg. unfold negent in Hneg. apply existsb_exists in Hneg as (a & _ & Hneg). apply existsb_exists in Hneg as (b & _ & Hneg).
  simpl in Hneg. destruct (mget (g_A G) a b) as [y|] eqn:Ey; [|discriminate]. apply Z.ltb_lt in Hneg.
  rewrite (gw_iso _ wf H _ _ _ _ _ _ Hx Ey). assumption.
Qed.
(** once has_self_edges is cached: the answer is never a wrong False, and right where [nd_ok] holds *)
Lemma negdiag_any s : I s -> has (c_bool s KSelf) = true ->
  exists v, fst (has_negative_diagonal G s) = Val v /\ (den_bool G KNegDiag = true -> v = true) /\ (nd_ok s -> v = den_bool G KNegDiag) /\
    I (snd (has_negative_diagonal G s)) /\ ext s (snd (has_negative_diagonal G s)).
Proof.
  intros HI Hself. destruct (Bool.bool_dec (den_bool G KSelf) true) as [Hs|Hs]; [|apply not_true_is_false in Hs].
  - destruct (has_negative_diagonal_any G wf true eq_refl s HI (or_intror Hs)) as (v & H1 & H2 & H3 & H4 & H5). exists v.
    split; [assumption|]. split; [assumption|]. split; [|auto]. intros [Hn|[Hn|Hn]]; [|congruence|auto].
    destruct (nd_safe_dec G s) as [Hd|Hd]; [auto|]. destruct (nd_unsafe G true s HI Hd) as (E & Hneg & _). rewrite E in H1. injection H1 as <-.
    symmetry. apply iso_neg_diag; assumption.
  - destruct (has_negative_diagonal_any G wf true eq_refl s HI (or_introl (noself_safe s HI Hself Hs))) as (v & H1 & H2 & H3 & H4 & H5). exists v.
    split; [assumption|]. split; [assumption|]. split; [|auto]. intros _. apply H3, noself_safe; assumption.
Qed.
(** with offdiag cached has_negative_edges- cannot fail *)
Lemma negm_ok s : I s -> has (c_mat s KOff) = true ->
  fst (has_negative_edgesm false G s) = Val (den_bool G (KNeg SM)) /\ I (snd (has_negative_edgesm false G s)) /\ ext s (snd (has_negative_edgesm false G s)).
Proof.
  intros HI Ho. pose proof (has_negative_edgesm_ok false G wf true eq_refl s HI) as H. unfold wp in H.
  destruct H as ([H|(H & _ & _)] & H1 & H2); [auto|exfalso].
  exact (proj1 (na_negm G s Ho) H).
Qed.
(** ** Rules *)
(** after "offdiag": has_negative_diagonal is right or a spurious True *)
Lemma nd_glue {Y} (f : mat Z -> bool -> M Y) (R : outcome Y -> Prop) :
  (forall nd s, I s -> has (c_mat s KOff) = true -> nd = true \/ den_bool G KNegDiag = false ->
     R (fst (f (den_mat G KOff) nd s)) /\ I (snd (f (den_mat G KOff) nd s))) ->
  answers G (A <- get_offdiag G ;; nd <- has_negative_diagonal G ;; f A nd) R.
Proof.
  intros Hf s HI. pose proof (get_offdiag_ok G wf true s HI) as H. unfold wp in H. unfold bind at 1. unfold bind at 2.
  destruct (get_offdiag G s) as [o s1]. cbn [fst snd] in *. destruct H as (-> & HI1 & He & Hself & Hp). unfold bind.
  destruct (negdiag_any s1 HI1 Hself) as (v & H1 & H2 & _ & H3 & H4). destruct (has_negative_diagonal G s1) as [o s2]; cbn [fst snd] in *; subst o.
  apply Hf; [assumption|apply (proj1 H4); assumption|]. destruct v; [left; reflexivity|right]. destruct (den_bool G KNegDiag); [discriminate (H2 eq_refl)|reflexivity].
Qed.
(** the same where has_negative_diagonal must be right *)
Lemma ndok_glue {Y} (f : mat Z -> bool -> M Y) (R : outcome Y -> Prop) :
  (forall s, I s -> has (c_mat s KOff) = true ->
     R (fst (f (den_mat G KOff) (den_bool G KNegDiag) s)) /\ I (snd (f (den_mat G KOff) (den_bool G KNegDiag) s))) ->
  answers_ndok G (A <- get_offdiag G ;; nd <- has_negative_diagonal G ;; f A nd) R.
Proof.
  intros Hf s HI Hnd. pose proof (get_offdiag_ok G wf true s HI) as H. unfold wp in H. unfold bind at 1. unfold bind at 2.
  pose proof (keeps_offdiag G s) as Hk. destruct (get_offdiag G s) as [o s1]. cbn [fst snd] in *. destruct H as (-> & HI1 & He & Hself & Hp). unfold bind.
  destruct (negdiag_any s1 HI1 Hself) as (v & H1 & _ & H2 & H3 & H4). destruct (has_negative_diagonal G s1) as [o s2]; cbn [fst snd] in *; subst o.
  rewrite (H2 (nd_ok_mono s s1 HI HI1 He Hk Hnd)). apply Hf; [assumption|]. apply (proj1 H4). assumption.
Qed.
Lemma ndok_answers {X} (m : M X) (R : outcome X -> Prop) : answers G m R -> answers_ndok G m R.
Proof. intros H s HI _. exact (H s HI). Qed.
Lemma ndok_bind_GV {X Y} (m : M X) (f : X -> M Y) v P (R : outcome Y -> Prop) : GV G true m v P -> keeps m -> answers_ndok G (f v) R -> answers_ndok G (bind m f) R.
Proof.
  intros H Hk Hf s HI Hn. specialize (H s HI). specialize (Hk s). unfold wp in H. unfold bind. destruct (m s) as [o s']; cbn [fst snd] in *.
  destruct H as (-> & H1 & H2 & _). apply Hf; [assumption|]. exact (nd_ok_mono s s' HI H1 H2 Hk Hn).
Qed.
End P.
