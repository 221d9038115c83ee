(** * Bellman-Ford with a cutoff, and the balls of ego_graph *)
From Verif Require Import Base BaseProofs Model_Graph Model_Cache Model_Keys Spec KeyProofs Spec_Cache CacheMath CacheProofs CacheProofs2 CacheHist
  Spec_Run RunProofs Model_Bfs Bfs BfsProofs BfsProofs2 Walks Spec_Weighted WeightedMath Model_Weighted NdProofs WeightedProofs WeightedProofs2 Model_Operators OperatorProofs Props_Operators Model_Ego.
Open Scope nat_scope.

Section E.
Variable G : graph.
Hypothesis wf : gwf G.
Notation n := (glen G).
Notation A := (den_mat G KOff).
Notation W := (mget (den_mat G KOff)).
Notation F := (mget (g_A G)).
Hypothesis nn : forall i j x, F i j = Some x -> (0 <= x)%Z.
Variable c : Z.
Hypothesis c0 : (0 <= c)%Z.
Definition cut_ok (src : nat) (o : outcome (vec Z)) : Prop :=
  exists d, o = Val d /\ vsize d = n /\ forall j, has (vget d j) = true <-> exists x, shortest F src j x /\ (x <= c)%Z.

Lemma off_nn a b v : W a b = Some v -> (0 <= v)%Z.
Proof. rewrite (off_get G wf). destruct (a =? b); [discriminate|apply nn]. Qed.
Lemma bf_core_cut src : src < n -> answers G (bf_core G src None (Some c)) (cut_ok src).
Proof.
  intros Hs. unfold bf_core.
  assert (P : forall nd s, Inv G s ->
    let m := (neg <- ret false ;; let n := nrows A in let d := vset (vempty n) src 0%Z in
      let '(completed, cutoff, d, cur) := bf_loop A None (negb neg) (n - 1) (Some c) d d in
      if completed && bf_check A None cutoff d cur then raise EUnbounded else
      if nd : bool then diag <- get_diag G None ;; if has (vdot op_any op_pairb d (negsel diag)) then raise EUnbounded else ret d
      else ret d) in
    cut_ok src (fst (m s)) /\ Inv G (snd (m s))).
  { intros nd s HI. cbv zeta. change (bind (ret false) ?f) with (f false). cbv beta. cbn [negb].
    pose proof (bf_cutoff_ok A (off_wf G) (off_sq G) src ltac:(rewrite off_rows; assumption) c off_nn c0) as H. fold (d0 A src).
    destruct (bf_loop A None true (nrows A - 1) (Some c) (d0 A src) (d0 A src)) as [[[b c'] d] cur]. destruct H as (Hd & -> & H2). rewrite off_rows in Hd.
    assert (Hv : cut_ok src (Val d)).
    { exists d. split; [reflexivity|]. split; [assumption|]. intros j.
      assert (Hb : ~ bad F W src) by (intros (z & v & _ & Hv & Hneg); apply nn in Hv; lia).
      assert (HH : forall x, vget d j = Some x <-> shortest F src j x /\ (x <= c)%Z).
      { intros x. rewrite H2. rewrite (shortest_strip F W (off_get G wf)) by assumption. reflexivity. }
      split; [destruct (vget d j) as [x|] eqn:E; [|discriminate]; intros _; exists x; apply HH; reflexivity|].
      intros (x & Hx). apply HH in Hx. rewrite Hx. reflexivity. }
    destruct nd.
    + eapply answers_bind_GV; [apply (get_diag_ok G wf true None)| |exact HI]. cbn [msk].
      destruct (has (vdot op_any op_pairb d (negsel (den_vec G KDiag)))) eqn:E; [|apply answers_ret; assumption].
      apply (dot_neg G wf) in E as (j & v & _ & Hv' & Hneg); [|assumption]. apply nn in Hv'. lia.
    + split; [assumption|exact HI]. }
  apply nd_glue; [assumption|]. intros nd s HI _ _. exact (P nd s HI).
Qed.
Hypothesis iso_nz : g_iso G = true -> exists i j x, F i j = Some x /\ x <> 0%Z.
Lemma bf_iso_cut u src : kid G u = Some src -> g_iso G = true ->
  answers G (bf_iso G u src None None (Some c)) (fun o => exists d, o = Val (Some d) /\ cut_ok src (Val d)).
Proof.
  intros Hu Hi. assert (Hs : src < n) by (eapply kid_lt; eassumption).
  destruct (iso_nz Hi) as (i0 & j0 & z0 & Hz0 & Hnz).
  destruct (iso_den G wf ltac:(eauto) Hi) as (z & Hz & Hall & Hneg). pose proof (Hall _ _ _ Hz0) as ->. pose proof (nn _ _ _ Hz0) as Hzp. unfold bf_iso.
  eapply answers_bind_GV; [apply (has_negative_edgesp_ok G wf true eq_refl)|]. rewrite Hneg.
  eapply answers_bind_v; [eapply answers_GO; [apply (get_iso_value_ok G wf true)|]; intros o [->|[_ Hf]]; [reflexivity|congruence]|].
  rewrite Hz. cbn [isoz]. destruct (Z.ltb_spec z 0) as [Hz1|_]; [lia|]. cbn [negb].
  destruct (Z.eqb_spec z 0) as [|_]; [contradiction|].
  apply answers_ret_bind. eapply answers_bind_GV; [apply (bfs_level_ok G wf true u src false (Some (c / z)%Z) Hu)|]. apply answers_ret_bind. apply answers_ret.
  set (L := level_val G false src (Some (c / z)%Z)). destruct (level_val_lev G false src (Some (c / z)%Z) Hs) as [Hsz _]. fold L in Hsz.
  eexists. split; [reflexivity|]. eexists. split; [reflexivity|]. split; [destruct (z =? 1)%Z; [|rewrite vsize_vmap]; assumption|].
  intros j. assert (E : has (vget (if (z =? 1)%Z then L else vmap (fun x => (x * z)%Z) L) j) = has (vget L j)).
  { destruct (z =? 1)%Z; [reflexivity|]. rewrite vget_vmap. destruct (vget L j); reflexivity. }
  rewrite E. pose proof (level_val_spec G wf false src (Some (c / z)%Z) Hs j) as HL. fold L in HL.
  assert (Q : forall d : nat, (Z.of_nat d * z <= c)%Z <-> within (Some (c / z)%Z) d).
  { intros d. cbn [within]. assert (0 <= c / z)%Z by (apply Z.div_pos; lia). rewrite Z.max_r by assumption. split; intros H'.
    - apply Z.div_le_lower_bound; lia.
    - pose proof (Z.mul_div_le c z ltac:(lia)). nia. }
  split.
  - destruct (vget L j) as [x|]; [|discriminate]. intros _. destruct (proj1 (HL x) eq_refl) as (d & _ & Hd & Hw).
    exists (Z.of_nat d * z)%Z. split; [|apply Q; assumption]. apply (iso_shortest G wf z); auto. exists d. auto.
  - intros (x & Hx & Hc). apply (iso_shortest G wf z) in Hx as (d & Hd & ->); auto. 
    rewrite (proj2 (HL (Z.of_nat d))); [reflexivity|]. exists d. split; [reflexivity|]. split; [exact Hd|]. apply Q. assumption.
Qed.
Lemma single_source_cut u : answers G (single_source_bf G u (Some c)) (fun o =>
  match kid G u with Some src => cut_ok src o | None => o = Raise EKey end).
Proof.
  unfold single_source_bf, bf_lengths. destruct (kid G u) as [src|] eqn:Hu; cbn [idx].
  2:{ apply answers_raise. reflexivity. }
  change (bind (ret src) ?f) with (f src). cbv beta. change (bind (ret None) ?f) with (f None). cbv beta.
  assert (Hs : src < n) by (eapply kid_lt; eassumption).
  eapply answers_bind_GV; [apply (is_iso_ok G true)|].
  simpl den_bool. destruct (Bool.bool_dec (g_iso G) true) as [Hi|Hi]; [|apply not_true_is_false in Hi]; rewrite Hi.
  - eapply answers_bind; [exact ((bf_iso_cut u src Hu Hi))| |].
    + intros r (d & Hd & HO). injection Hd as ->. apply answers_ret. exact HO.
    + intros e (d & He & _). discriminate.
  - change (bind (ret None) ?f) with (f (None : option (vec Z))). cbv beta. apply bf_core_cut. assumption.
Qed.
End E.
