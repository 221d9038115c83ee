(** * C69: no call corrupts the cache *)
From Verif Require Import Base BaseProofs Model_Graph Model_Cache Spec_Cache CacheMath CacheProofs CacheProofs2 CacheHist Spec_Run RunProofs NdProofs
  Model_Keys Spec KeyProofs Model_Utils Model_Bfs Model_Measures Model_Weighted WeightedProofs WeightedProofs2 Props_Measures Props_Weighted
  Model_Dense Model_Cluster Model_Ego Model_Linalg Model_Rank Spec_Session Concrete.
From Coq Require Import QArith Qcanon.
Open Scope nat_scope.

Section P.
Variable G : graph.
Hypothesis wf : gwf G.

(** the call keeps the cache consistent and removes nothing from it *)
Definition kpx {X} (m : M X) : Prop := forall s, Inv G s -> Inv G (snd (m s)) /\ ext s (snd (m s)).
Lemma kpx_ret {X} (x : X) : kpx (ret x). Proof. intros s H. split; [exact H|apply ext_refl]. Qed.
Lemma kpx_raise {X} e : kpx (raise e : M X). Proof. intros s H. split; [exact H|apply ext_refl]. Qed.
Lemma kpx_lifto {X} (o : outcome X) : kpx (lifto o). Proof. intros s H. split; [exact H|apply ext_refl]. Qed.
Lemma kpx_get_st : kpx get_st. Proof. intros s H. split; [exact H|apply ext_refl]. Qed.
Lemma kpx_idx {X} (o : option X) : kpx (idx o). Proof. destruct o; [apply kpx_ret|apply kpx_raise]. Qed.
Lemma kpx_bind {X Y} (m : M X) (f : X -> M Y) : kpx m -> (forall x, kpx (f x)) -> kpx (bind m f).
Proof.
  intros Hm Hf s H. specialize (Hm s H). unfold bind. destruct (m s) as [[x|e] s']; cbn [fst snd] in *; [|exact Hm]. destruct Hm as [H1 H2].
  destruct (Hf x s' H1) as [H3 H4]. split; [exact H3|eapply ext_trans; eassumption].
Qed.
Lemma kpx_try {X} (m : M X) e h : kpx m -> kpx h -> kpx (try_except m e h).
Proof.
  intros Hm Hh s H. specialize (Hm s H). unfold try_except. destruct (m s) as [[x|e'] s']; cbn [fst snd] in *; [exact Hm|]. destruct (exn_eqb e' e); [|exact Hm].
  destruct Hm as [H1 H2]. destruct (Hh s' H1) as [H3 H4]. split; [exact H3|eapply ext_trans; eassumption].
Qed.
Lemma kpx_mapM {X Y} (f : X -> M Y) l : (forall x, kpx (f x)) -> kpx (mapM f l).
Proof. intros H. induction l as [|x l IH]; cbn [mapM]; [apply kpx_ret|]. apply kpx_bind; [apply H|]. intros y. apply kpx_bind; [exact IH|]. intros; apply kpx_ret. Qed.
Lemma kpx_GV {X} (m : M X) v Pp : GV G true m v Pp -> kpx m.
Proof. intros H s HI. destruct (H s HI) as (_ & H1 & H2 & _). split; assumption. Qed.
Lemma kpx_GO {X} (m : M X) R : GO G true m R -> kpx m.
Proof. intros H s HI. destruct (H s HI) as (_ & H1 & H2). split; assumption. Qed.

Lemma kpx_AT : kpx (get_AT G). Proof. eapply kpx_GV, get_AT_ok; auto. Qed.
Lemma kpx_diag m : kpx (get_diag G m). Proof. eapply kpx_GV, get_diag_ok; auto. Qed.
Lemma kpx_offdiag : kpx (get_offdiag G). Proof. eapply kpx_GV, get_offdiag_ok; auto. Qed.
Lemma kpx_self : kpx (has_self_edges G). Proof. eapply kpx_GV, has_self_edges_ok; auto. Qed.
Lemma kpx_Up : kpx (get_Up G). Proof. eapply kpx_GV, get_Up_ok; auto. Qed.
Lemma kpx_Lp : kpx (get_Lp G). Proof. eapply kpx_GV, get_Lp_ok; auto. Qed.
Lemma kpx_Um : kpx (get_Um G). Proof. eapply kpx_GV, get_Um_ok; auto. Qed.
Lemma kpx_Lm : kpx (get_Lm G). Proof. eapply kpx_GV, get_Lm_ok; auto. Qed.
Lemma kpx_red a o sg m : kpx (get_red G a o sg m). Proof. eapply kpx_GV, get_red_ok; auto. Qed.
Lemma kpx_recip sg m : kpx (get_recip G sg m). Proof. eapply kpx_GV, get_recip_ok; auto. Qed.
Lemma kpx_total_m m : kpx (get_total G SM m). Proof. eapply kpx_GV, get_total_m_ok; auto. Qed.
Lemma kpx_total_mask p : kpx (get_total G SP (Some p)).
Proof. intros s HI. destruct (get_total_p_ok G wf true (Some p) s HI) as (_ & H1 & H2); [discriminate|]. split; assumption. Qed.
Lemma kpx_total_recip : kpx (total_recip_plus G). Proof. eapply kpx_GV, total_recip_plus_ok; auto. Qed.
Lemma kpx_elem_plus o : kpx (elem_plus G o). Proof. eapply kpx_GO, elem_plus_ok; auto. Qed.
Lemma kpx_elem_minus mhr o : kpx (elem_minus mhr G o). Proof. eapply kpx_GO, elem_minus_ok; auto. Qed.
Lemma kpx_negp : kpx (has_negative_edgesp G). Proof. eapply kpx_GV, has_negative_edgesp_ok; auto. Qed.
Lemma kpx_negm mhr : kpx (has_negative_edgesm mhr G). Proof. eapply kpx_GO, has_negative_edgesm_ok; auto. Qed.
Lemma kpx_is_iso : kpx (is_iso G). Proof. eapply kpx_GV, is_iso_ok; auto. Qed.
Lemma kpx_iso_value : kpx (get_iso_value G). Proof. eapply kpx_GO, get_iso_value_ok; auto. Qed.

Ltac kx1 :=
  match goal with
  | |- kpx (ret _) => apply kpx_ret
  | |- kpx (raise _) => apply kpx_raise
  | |- kpx (lifto _) => apply kpx_lifto
  | |- kpx get_st => apply kpx_get_st
  | |- kpx (idx _) => apply kpx_idx
  | |- kpx (bind _ _) => apply kpx_bind; [|intros ?]
  | |- kpx (try_except _ _ _) => apply kpx_try
  | |- kpx (mapM _ _) => apply kpx_mapM; intros ?
  | |- kpx (get_AT G) => apply kpx_AT
  | |- kpx (get_diag G _) => apply kpx_diag
  | |- kpx (get_offdiag G) => apply kpx_offdiag
  | |- kpx (has_self_edges G) => apply kpx_self
  | |- kpx (get_Up G) => apply kpx_Up
  | |- kpx (get_Lp G) => apply kpx_Lp
  | |- kpx (get_Um G) => apply kpx_Um
  | |- kpx (get_Lm G) => apply kpx_Lm
  | |- kpx (get_red G _ _ _ _) => apply kpx_red
  | |- kpx (get_recip G _ _) => apply kpx_recip
  | |- kpx (get_total G SM _) => apply kpx_total_m
  | |- kpx (get_total G SP (Some _)) => apply kpx_total_mask
  | |- kpx (total_recip_plus G) => apply kpx_total_recip
  | |- kpx (elem_plus G _) => apply kpx_elem_plus
  | |- kpx (elem_minus _ G _) => apply kpx_elem_minus
  | |- kpx (has_negative_edgesp G) => apply kpx_negp
  | |- kpx (has_negative_edgesm _ G) => apply kpx_negm
  | |- kpx (is_iso G) => apply kpx_is_iso
  | |- kpx (get_iso_value G) => apply kpx_iso_value
  | |- kpx (if ?b then _ else _) => destruct b
  | |- kpx (let (_, _) := ?x in _) => destruct x
  | |- kpx (match ?x with _ => _ end) => destruct x
  end.
Ltac head_of t := match t with ?f _ => head_of f | ?f => f end.
Ltac kxu := match goal with |- kpx ?m => let f := head_of m in unfold f end.
Ltac kx := repeat first [kx1 | progress cbv zeta | progress cbv beta | kxu; cbv zeta; cbv beta].

Lemma kpx_sum_blocks f p : forall acc, kpx (sum_blocks G f p acc).
Proof. induction p as [|b p IH]; intros acc; cbn [sum_blocks]; repeat first [apply IH|kx1|kxu]. Qed.
Lemma kpx_square_chunks si ps : forall r, kpx (square_chunks G si ps r).
Proof. induction ps as [|b p IH]; intros acc; cbn [square_chunks]; cbv zeta; repeat first [apply IH|kx1|progress cbv zeta|kxu; cbv zeta]. Qed.
Lemma kpx_hits mi tol o nm wa : kpx (hits G mi tol o nm wa).
Proof. kx. Qed.
(** has_negative_diagonal, which those functions ask for after offdiag *)
Definition kps {X} (m : M X) : Prop := forall s, Inv G s -> has (c_bool s KSelf) = true -> Inv G (snd (m s)) /\ ext s (snd (m s)).
Lemma kps_kpx {X} (m : M X) : kpx m -> kps m.
Proof. intros H s HI _. exact (H s HI). Qed.
Lemma kps_bind {X Y} (m : M X) (f : X -> M Y) : kps m -> (forall x, kps (f x)) -> kps (bind m f).
Proof.
  intros Hm Hf s H Hs. specialize (Hm s H Hs). unfold bind. destruct (m s) as [[x|e] s']; cbn [fst snd] in *; [|exact Hm]. destruct Hm as [H1 H2].
  destruct (Hf x s' H1 (ext_bool _ _ _ H2 Hs)) as [H3 H4]. split; [exact H3|eapply ext_trans; eassumption].
Qed.
Lemma kps_negdiag : kps (has_negative_diagonal G).
Proof. intros s HI Hs. destruct (negdiag_any G wf s HI Hs) as (v & _ & _ & _ & H1 & H2). split; assumption. Qed.
Lemma kpx_off {X} (f : mat Z -> M X) : (forall A, kps (f A)) -> kpx (bind (get_offdiag G) f).
Proof.
  intros Hf s HI. pose proof (get_offdiag_ok G wf true s HI) as H. unfold wp in H. unfold bind. destruct (get_offdiag G s) as [o s1]; cbn [fst snd] in *.
  destruct H as (-> & H1 & H2 & Hself & _). destruct (Hf (den_mat G KOff) s1 H1 Hself) as [H3 H4]. split; [exact H3|eapply ext_trans; eassumption].
Qed.
Lemma kpx_off_nd {X} (f : mat Z -> bool -> M X) : (forall A b, kpx (f A b)) -> kpx (A <- get_offdiag G ;; nd <- has_negative_diagonal G ;; f A nd).
Proof. intros H. apply kpx_off. intros A. apply kps_bind; [apply kps_negdiag|]. intros b. apply kps_kpx, H. Qed.
Lemma kpx_bf_core src dst c : kpx (bf_core G src dst c).
Proof. unfold bf_core. apply kpx_off_nd. intros A b. kx. Qed.
Lemma kpx_bfm_core l : kpx (bfm_core G l).
Proof. unfold bfm_core. apply kpx_off_nd. intros A b. kx. Qed.
Lemma kpx_bf_path fuel u v : kpx (bf_path fuel G u v).
Proof.
  unfold bf_path. apply kpx_bind; [apply kpx_idx|]. intros src. apply kpx_bind; [apply kpx_idx|]. intros dst. cbv zeta. apply kpx_bind; [apply kpx_is_iso|].
  intros [|]; [kx|]. apply kpx_off_nd. intros A b. kx.
Qed.
Lemma kpx_nec : kpx (negative_edge_cycle G).
Proof.
  unfold negative_edge_cycle. apply kpx_off. intros A. apply kps_bind; [apply kps_kpx; kx|]. intros d. apply kps_bind; [apply kps_negdiag|]. intros b. apply kps_kpx. kx.
Qed.
Ltac kxx := repeat first [apply kpx_sum_blocks | apply kpx_bf_core | apply kpx_bfm_core | apply kpx_bf_path | apply kpx_nec | apply kpx_square_chunks | kx1 | progress cbv zeta | progress cbv beta | kxu; cbv zeta; cbv beta].
Theorem public_kpx X (m : M X) : public G X m -> kpx m.
Proof.
  intros H; destruct H. 1-65: kxx.
  all: idtac "last".
  unfold nx_hits. destruct (glen G =? 0); [apply kpx_ret|]. apply kpx_bind; [kx|]. intros o s HI. pose proof (kpx_hits mi tol o nm false s HI) as H.
  destruct (hits G mi tol o nm false s) as [[[h a]|e] s']; cbn [snd] in *; [exact H|]. destruct e; exact H.
Qed.

(** ** calls that read total_degrees+ *)
Definition ktd {X} (m : M X) : Prop := forall s, Inv G s -> td_safe G s -> Inv G (snd (m s)).
Lemma ktd_degrees {X} (f : vec Z -> M X) : (forall d, kpx (f d)) -> ktd (d <- degrees_plus G ;; f d).
Proof.
  intros Hf s HI Ht. assert (H : Inv G (snd (degrees_plus G s))).
  { unfold degrees_plus. destruct (g_dir G); [|apply (kpx_red Row RCount SP None s HI)].
    apply (get_total_p_ok G wf true None s HI). intros _ _ Hs. destruct Ht as [Ht|Ht]; [congruence|exact Ht]. }
  unfold bind. destruct (degrees_plus G s) as [[d|e] s']; cbn [snd] in *; [|exact H]. apply Hf. exact H.
Qed.
Theorem public_td_ktd X (m : M X) : public_td G X m -> ktd m.
Proof.
  intros H; destruct H; try (apply ktd_degrees; intros; kx).
  unfold nx_is_isolate. destruct (kid G u) as [i|]; cbn [idx]; [|intros s HI _; exact HI]. apply (ktd_degrees (fun d => ret (negb (has (vget d i))))). intros; apply kpx_ret.
Qed.

(** ** C69: after any session the cache is consistent *)
Theorem C69_sessions mhr s : reached mhr G s -> Inv G s.
Proof.
  induction 1 as [|s c H IH Hs|s X m H IH Hp|s X m H IH Hp Ht].
  - apply Inv_st0.
  - destruct c as [nm mask]. apply (get_property_ok mhr G wf nm mask s IH Hs).
  - apply (public_kpx X m Hp s IH).
  - apply (public_td_ktd X m Hp s IH Ht).
Qed.
(** so a later get_property call is answered correctly, *)
Theorem C69_get_property mhr s nm mask : reached mhr G s -> safe_call G s (nm, mask) -> (nm = Nnegdiag -> nd_safe G s) ->
  CacheHist.answers mhr G nm mask (fst (get_property mhr G nm mask s)).
Proof. intros H Hs Hx. exact (proj1 (get_property_ok mhr G wf nm mask s (C69_sessions mhr s H) Hs) Hx). Qed.
(** and a later algorithm call gives the answer that its theorem promises *)
Theorem C69_algorithms mhr s X (m : M X) R : reached mhr G s -> Spec_Run.answers G m R -> R (fst (m s)).
Proof. intros H Hm. apply (Hm s (C69_sessions mhr s H)). Qed.
End P.

(** ** Without that condition an algorithm does corrupt the cache: after isolates(G) the DiGraph G with a self-loop
    passes for a triad, although a fresh G does not *)
Theorem C69_refuted : exists G u, gwf G /\ edge G u u /\ fst (nx_is_triad G st0) = Val false /\ fst (nx_is_triad G (snd (nx_isolates G st0))) = Val true /\
  fst (get_property false G Nself None (snd (nx_isolates G st0))) = Val (PBool false).
Proof.
  exists (mkg true 3 [(0, 0, 1%Z); (0, 1, 1%Z); (1, 2, 1%Z)]), (KI 0). split; [apply mkg_wf|]. split; [exists 1%Z; vm_compute; reflexivity|].
  repeat split; vm_compute; reflexivity.
Qed.
(** a session with calls of every kind *)
Definition g_se : graph := mkg true 3 [(0, 0, 1%Z); (0, 1, 1%Z); (1, 2, (-1)%Z)].
Example C69_sessions_ex : gwf g_se /\ exists s, reached false g_se s /\ has (c_vec s (KTotal SP)) = true /\ c_bool s KNegDiag = Some false /\ fst (nx_is_triad g_se s) = Val false.
Proof.
  split; [apply mkg_wf|]. eexists. split.
  - eapply R_call with (m := nx_negative_edge_cycle g_se); [|constructor].
    eapply R_td with (m := nx_isolates g_se); [|constructor|].
    + eapply R_call with (m := nx_is_triad g_se); [|constructor]. eapply R_prop with (c := (Nred Row RCount SP, None)); [apply R_new|]. split; discriminate.
    + right. vm_compute. reflexivity.
  - vm_compute. auto.
Qed.
Print Assumptions C69_sessions.
Print Assumptions C69_get_property.
Print Assumptions C69_algorithms.
Print Assumptions C69_refuted.
