(** * What each call does to "is_iso" and "iso_value" in the cache *)
From Verif Require Import Base BaseProofs Model_Graph Model_Cache Spec_Cache CacheMath CacheProofs CacheProofs2 CacheHist Spec_Run RunProofs Spec_Iso IsoProofs
  Model_Keys Spec KeyProofs Model_Utils Model_Bfs Model_Measures Model_Weighted Model_Dense Model_Cluster Model_Ego Model_Linalg Model_Rank Spec_Session Spec_IsoHist Concrete.
From Coq Require Import QArith Qcanon.
Open Scope nat_scope.

(** ** what a call keeps *)
Section K.
Variable P : st -> Prop.
Hypothesis Pk : forall s s', skept s s' -> P s -> P s'.
Definition kp {X} (m : M X) : Prop := forall s, P s -> P (snd (m s)).
Lemma kp_skeeps {X} (m : M X) : skeeps m -> kp m.
Proof. intros H s. apply Pk, H. Qed.
Lemma kp_bind {X Y} (m : M X) (f : X -> M Y) : kp m -> (forall x, kp (f x)) -> kp (bind m f).
Proof. intros Hm Hf s H. specialize (Hm s H). unfold bind. destruct (m s) as [[x|e] s']; cbn [snd] in *; [apply Hf|]; exact Hm. Qed.
Lemma kp_try {X} (m : M X) e h : kp m -> kp h -> kp (try_except m e h).
Proof. intros Hm Hh s H. specialize (Hm s H). unfold try_except. destruct (m s) as [[x|e'] s']; cbn [snd] in *; [exact Hm|]. destruct (exn_eqb e' e); [apply Hh|]; exact Hm. Qed.
Lemma kp_same {X} (m : M X) : (forall s, snd (m s) = s) -> kp m.
Proof. intros H s. rewrite H. auto. Qed.
Lemma kp_ret {X} (x : X) : kp (ret x). Proof. now apply kp_same. Qed.
Lemma kp_raise {X} e : kp (raise e : M X). Proof. now apply kp_same. Qed.
Lemma kp_lifto {X} (o : outcome X) : kp (lifto o). Proof. now apply kp_same. Qed.
Lemma kp_get_st : kp get_st. Proof. now apply kp_same. Qed.
Lemma kp_idx {X} (o : option X) : kp (idx o). Proof. apply kp_same. destruct o; reflexivity. Qed.
Lemma kp_mapM {X Y} (f : X -> M Y) l : (forall x, kp (f x)) -> kp (mapM f l).
Proof. intros H. induction l as [|x l IH]; cbn [mapM]; [apply kp_ret|]. apply kp_bind; [apply H|]. intros y. apply kp_bind; [exact IH|]. intros; apply kp_ret. Qed.

Variable G : graph.
Hypothesis Pval : kp (get_iso_value G).
Ltac head_of t := match t with ?f _ => head_of f | ?f => f end.
Ltac kpu := match goal with |- kp ?m => let f := head_of m in unfold f end.
Ltac kp1 :=
  match goal with
  | H : kp ?m |- kp ?m => exact H
  | |- kp (ret _) => apply kp_ret
  | |- kp (raise _) => apply kp_raise
  | |- kp (lifto _) => apply kp_lifto
  | |- kp get_st => apply kp_get_st
  | |- kp (idx _) => apply kp_idx
  | |- kp (modify (set_mat _ _)) => apply kp_skeeps; intros ?s; split; reflexivity
  | |- kp (modify (set_vec _ _)) => apply kp_skeeps; intros ?s; split; reflexivity
  | |- kp (modify (set_scal _ _)) => apply kp_skeeps; intros ?s; split; reflexivity
  | |- kp (modify (set_int _ _)) => apply kp_skeeps; intros ?s; split; reflexivity
  | |- kp (modify (set_bool ?k _)) => apply kp_skeeps; intros ?s; split; reflexivity
  | |- kp (modify (set_reg _ _)) => apply kp_skeeps; intros ?s; split; reflexivity
  | |- kp (bind _ _) => apply kp_bind; [|intros ?]
  | |- kp (try_except _ _ _) => apply kp_try
  | |- kp (mapM _ _) => apply kp_mapM; intros ?
  | |- kp (fun _ => _) => apply kp_same; intros ?s; first [reflexivity | match goal with |- context[idx ?o] => destruct o; reflexivity end]
  | |- kp (if ?b then _ else _) => destruct b
  | |- kp (let (_, _) := ?x in _) => destruct x
  | |- kp (match ?x with _ => _ end) => destruct x
  end.
Ltac kps := repeat first [kp1 | progress cbv zeta | progress cbv beta | kpu; cbv zeta; cbv beta].
Lemma kp_AT : kp (get_AT G). Proof. kps. Qed.
Lemma kp_self : kp (has_self_edges G). Proof. kps. Qed.
Lemma kp_diag m : kp (get_diag G m). Proof. kps. Qed.
Lemma kp_offdiag : kp (get_offdiag G). Proof. kps. Qed.
Lemma kp_Up : kp (get_Up G). Proof. kps. Qed.
Lemma kp_Lp : kp (get_Lp G). Proof. kps. Qed.
Lemma kp_Um : kp (get_Um G). Proof. kps. Qed.
Lemma kp_Lm : kp (get_Lm G). Proof. kps. Qed.
Lemma kp_red a o sg m : kp (get_red G a o sg m). Proof. kps. Qed.
Lemma kp_recip sg m : kp (get_recip G sg m). Proof. kps. Qed.
Lemma kp_total sg m : kp (get_total G sg m). Proof. kps. Qed.
Lemma kp_trp : kp (total_recip_plus G). Proof. kps. Qed.
Lemma kp_trm : kp (total_recip_minus G). Proof. kps. Qed.
Lemma kp_elem mhr o sg : kp (get_elem mhr G o sg). Proof. kps. Qed.
Lemma kp_diag_red o : kp (diag_red G o). Proof. kps. Qed.
Lemma kp_negdiag : kp (has_negative_diagonal G). Proof. kps. Qed.
Lemma kp_negp : kp (has_negative_edgesp G). Proof. kps. Qed.
Lemma kp_negm mhr : kp (has_negative_edgesm mhr G). Proof. kps. Qed.
Ltac kpg :=
  match goal with
  | |- kp (get_AT G) => apply kp_AT
  | |- kp (get_diag G _) => apply kp_diag
  | |- kp (get_offdiag G) => apply kp_offdiag
  | |- kp (has_self_edges G) => apply kp_self
  | |- kp (get_Up G) => apply kp_Up
  | |- kp (get_Lp G) => apply kp_Lp
  | |- kp (get_Um G) => apply kp_Um
  | |- kp (get_Lm G) => apply kp_Lm
  | |- kp (get_red G _ _ _ _) => apply kp_red
  | |- kp (get_recip G _ _) => apply kp_recip
  | |- kp (get_total G _ _) => apply kp_total
  | |- kp (total_recip_plus G) => apply kp_trp
  | |- kp (total_recip_minus G) => apply kp_trm
  | |- kp (get_elem _ G _ _) => apply kp_elem
  | |- kp (elem_plus G ?o) => apply (kp_elem false o SP)
  | |- kp (elem_minus ?mhr G ?o) => apply (kp_elem mhr o SM)
  | |- kp (diag_red G _) => apply kp_diag_red
  | |- kp (has_negative_diagonal G) => apply kp_negdiag
  | |- kp (has_negative_edgesp G) => apply kp_negp
  | |- kp (has_negative_edgesm _ G) => apply kp_negm
  end.
Ltac kpq := repeat first [kpg | kp1 | progress cbv zeta | progress cbv beta | kpu; cbv zeta; cbv beta].
Lemma kp_sum_blocks f p : forall acc, kp (sum_blocks G f p acc).
Proof. induction p as [|b p IH]; intros acc; cbn [sum_blocks]; repeat first [apply IH|kpg|kp1|kpu]. Qed.
Lemma kp_square_chunks si ps : forall r, kp (square_chunks G si ps r).
Proof. induction ps as [|b p IH]; intros acc; cbn [square_chunks]; cbv zeta; repeat first [apply IH|kpg|kp1|progress cbv zeta|kpu; cbv zeta]. Qed.
Lemma kp_hits mi tol o nm wa : kp (hits G mi tol o nm wa).
Proof. kpq. Qed.
Ltac kpx := repeat first [apply kp_sum_blocks | apply kp_square_chunks | kpg | kp1 | progress cbv zeta | progress cbv beta | kpu; cbv zeta; cbv beta].
Lemma silent_kp X (m : M X) : silent G X m -> kp m.
Proof.
  intros H; destruct H.
  1-61: kpx.
  unfold nx_hits. destruct (glen G =? 0); [apply kp_ret|]. apply kp_bind; [kpx|]. intros o s HI. pose proof (kp_hits mi tol o nm false s HI) as H.
  destruct (hits G mi tol o nm false s) as [[[h a]|e] s']; cbn [snd] in *; [exact H|]. destruct e; exact H.
Qed.
Lemma asks_kp X (m : M X) : kp (is_iso G) -> asks G X m -> kp m.
Proof. intros Hi H; destruct H; kpx. Qed.
Lemma public_split X (m : M X) : public G X m -> silent G X m \/ asks G X m.
Proof. intros H; destruct H; try (left; constructor); try (right; constructor). destruct w; [right|left]; constructor. Qed.
Lemma public_kp X (m : M X) : public G X m -> kp (is_iso G) -> kp m.
Proof. intros H Hi. destruct (public_split X m H); [apply silent_kp|apply asks_kp]; assumption. Qed.
Lemma public_td_kp X (m : M X) : public_td G X m -> kp m.
Proof. intros H; destruct H; kpx. Qed.
Lemma prop_kp mhr nm mask : (nm = Nis_iso -> kp (is_iso G)) -> kp (get_property mhr G nm mask).
Proof.
  intros H. unfold get_property, alias.
  destruct nm; try specialize (H eq_refl); destruct (g_dir G); try (destruct s); unfold dispatch, lift; kpx.
Qed.
Lemma bind_P {X Y} (m : M X) (f : X -> M Y) s : P (snd (m s)) -> (forall x, kp (f x)) -> P (snd (bind m f s)).
Proof. intros H Hf. unfold bind. destruct (m s) as [[x|e] s']; cbn [snd] in *; [apply Hf|]; exact H. Qed.
Lemma bf_lengths_P u i t c s : kid G u = Some i -> (forall v, t = Some v -> exists j, kid G v = Some j) -> P (snd (is_iso G s)) -> P (snd (bf_lengths G u t c s)).
Proof.
  intros Hu Ht H. unfold bf_lengths. rewrite Hu. destruct t as [v|].
  - destruct (Ht v eq_refl) as [j Hv]. rewrite Hv. refine (bind_P (is_iso G) _ s H _). intros b. kpx.
  - refine (bind_P (is_iso G) _ s H _). intros b. kpx.
Qed.
Lemma single_source_bf_P u i s : kid G u = Some i -> P (snd (is_iso G s)) -> P (snd (nx_single_source_bf G u s)).
Proof. intros Hu H. unfold nx_single_source_bf. apply bind_P; [|intros x; kpx]. apply bf_lengths_P with i; [assumption|discriminate|assumption]. Qed.
Lemma bf_path_length_P u i v j s : kid G u = Some i -> kid G v = Some j -> P (snd (is_iso G s)) -> P (snd (nx_bf_path_length G u v s)).
Proof. intros Hu Hv H. unfold nx_bf_path_length, bf_path_length. apply bind_P; [|intros x; kpx]. apply bf_lengths_P with i; [assumption| |assumption]. intros ? [= <-]. eauto. Qed.
Lemma bf_path_P fuel u i v j s : kid G u = Some i -> kid G v = Some j -> P (snd (is_iso G s)) -> P (snd (nx_bf_path fuel G u v s)).
Proof. intros Hu Hv H. unfold nx_bf_path, bf_path. rewrite Hu, Hv. refine (bind_P (is_iso G) _ s H _). intros b. kpx. Qed.
End K.
