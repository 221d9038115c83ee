(** * C15: what bellman_ford_path_length answers in the presence of negative cycles, exactly *)
From Verif Require Import Base BaseProofs Model_Graph Model_Cache Model_Keys Model_Utils Model_Bfs Model_Weighted Spec Spec_Cache Spec_Run Spec_Weighted
  CacheMath CacheProofs CacheProofs2 RunProofs NdProofs BfsProofs BfsProofs2 WeightedMath KeyProofs WeightedProofs WeightedProofs2 Walks Concrete
  Props_Weighted.
From Coq Require Import Permutation.
Open Scope nat_scope.

(** ** Specification *)
(** x is the least weight of a walk with at most k edges *)
Definition least {X} (W : X -> X -> option Z) (k : nat) (a b : X) (x : Z) : Prop :=
  (exists d, d <= k /\ wwalk W a d x b) /\ forall d y, d <= k -> wwalk W a d y b -> (x <= y)%Z.
(** some walk with at most k edges weighs less than every walk with fewer than k edges *)
Definition drops {X} (W : X -> X -> option Z) (k : nat) (a b : X) : Prop :=
  exists y, (exists d, d <= k /\ wwalk W a d y b) /\ forall d z, d < k -> wwalk W a d z b -> (y < z)%Z.
(** the edges that join different nodes *)
Definition noloop (W : nkey -> nkey -> option Z) (u v : nkey) : option Z := if nkey_eqb u v then None else W u v.
(** a self-loop of negative weight at z *)
Definition neg_loop (W : nkey -> nkey -> option Z) (z : nkey) : Prop := exists x, W z z = Some x /\ (x < 0)%Z.

Lemma least_unique {X} (W : X -> X -> option Z) k a b x y : least W k a b x -> least W k a b y -> x = y.
Proof. intros [(d & Hd & H) Hx] [(e & He & H') Hy]. apply Hx in H'; [|assumption]. apply Hy in H; [|assumption]. lia. Qed.

(** ** The loop *)
Section L.
Variable A : mat Z.
Hypothesis Awf : mwf A.
Hypothesis Asq : ncols A = nrows A.
Notation n := (nrows A).
Notation W := (mget A).
Variable src : nat.
Hypothesis Hsrc : src < n.
Lemma closed_least d : closed W (one0 src) None (vget d) -> (exists m cur', BI W (one0 src) None None m (vget d) cur') ->
  forall j x, vget d j = Some x <-> least W (n - 1) src j x.
Proof.
  intros Hcl (m & cur' & HB) j x. rewrite (closed_smin W (one0 src) m (vget d) cur' HB Hcl). unfold smin, least. split.
  - intros [(m' & Hm') Hmin]. split; [|intros d' y _ Hy; apply (Hmin d'), (bw_one A src); assumption].
    destruct (bw_cut n W (A_lt A Awf Asq) (one0 src) (one0_lt A src Hsrc) None m' x j Hm') as [Hn|(d' & w' & Hd & Hle & Hb)]; [destruct (closed_noneg _ _ _ Hcl Hn)|].
    exists d'. split; [lia|]. apply bw_one in Hb. replace x with w'; [assumption|]. apply (bw_one A src) in Hb. apply Hmin in Hb. lia.
  - intros [(d' & Hd' & H) Hmin]. split; [exists d'; apply bw_one; assumption|]. intros m' w Hw.
    destruct (bw_cut n W (A_lt A Awf Asq) (one0 src) (one0_lt A src Hsrc) None m' w j Hw) as [Hn|(d2 & w' & Hd & Hle & Hb)]; [destruct (closed_noneg _ _ _ Hcl Hn)|].
    apply bw_one in Hb. apply Hmin in Hb; lia.
Qed.
Lemma bf_exact t :
  let '(b, c', d, cur) := bf_loop A (Some t) false (n - 1) None (d0 A src) (d0 A src) in
  vsize d = n /\ (forall j x, vget d j = Some x <-> least W (n - 1) src j x) /\
  (b && bf_check A (Some t) c' d cur = true <-> drops W n src t) /\ (forall j, wreach W src j -> has (vget d j) = true).
Proof.
  pose proof (bf_loop_ok A Awf Asq (one0 src) (Some t) false None (n - 1) 0 None (d0 A src) (d0 A src) (d0_size A src) (d0_size A src) (BI_start A src Hsrc None) (or_introl eq_refl)) as H.
  destruct (bf_loop A (Some t) false (n - 1) None (d0 A src) (d0 A src)) as [[[b c'] d] cur]. destruct H as (Hd & Hc & HL & H1 & H2).
  assert (c' = None) by (destruct HL as [->|(C & _)]; [reflexivity|discriminate]). subst c'.
  assert (Hr : (forall j x, vget d j = Some x <-> least W (n - 1) src j x) -> forall j, wreach W src j -> has (vget d j) = true).
  { intros HE j (m & w & Hw). apply (bw_one A src) in Hw. destruct b.
    - apply (bw_reach_cut n W (A_lt A Awf Asq) (one0 src) (one0_lt A src Hsrc)) in Hw as (m' & w' & Hm' & Hw).
      destruct (b_low _ _ _ _ _ _ _ (H1 eq_refl) m' w' j ltac:(lia) Hw) as (x & Hx & _). rewrite Hx. reflexivity.
    - destruct (H2 eq_refl) as (_ & Hcl & _). destruct (closed_low _ _ _ _ Hcl _ _ _ Hw) as (x & Hx & _). rewrite Hx. reflexivity. }
  split; [assumption|]. destruct b; cbn [andb].
  - specialize (H1 eq_refl). cbn [Nat.add] in H1.
    assert (HE : forall j x, vget d j = Some x <-> least W (n - 1) src j x).
    { intros j x. split.
      - intros Hx. split.
        + destruct (b_sound _ _ _ _ _ _ _ H1 _ _ Hx) as (m & Hm & Hb). exists m. split; [assumption|]. apply bw_one. assumption.
        + intros m w Hm Hw. apply (bw_one A src) in Hw. destruct (b_low _ _ _ _ _ _ _ H1 m w j Hm Hw) as (y & Hy & Hle). congruence.
      - intros [(m & Hm & Hw) Hmin]. apply (bw_one A src) in Hw. destruct (b_low _ _ _ _ _ _ _ H1 m x j Hm Hw) as (y & Hy & Hle).
        destruct (b_sound _ _ _ _ _ _ _ H1 _ _ Hy) as (m' & Hm' & Hb). apply bw_one in Hb. apply Hmin in Hb; [|assumption]. assert (x = y) by lia. congruence. }
    split; [assumption|]. split; [|exact (Hr HE)]. rewrite (check_some A Awf Asq) by assumption. split.
    + intros Hk. destruct (cand n W None (vget cur) t) as [y|] eqn:Ey; [|discriminate]. destruct (vget d t) as [x|] eqn:Ex; [|discriminate].
      cbn [improves] in Hk. apply Z.ltb_lt in Hk. apply cand_from in Ey as (_ & i & x' & v & _ & Hx' & Hv & ->).
      apply (b_cur _ _ _ _ _ _ _ H1) in Hx'. apply HE in Hx' as [(m & Hm & Hw) _]. exists (x' + v)%Z. split.
      * exists (S m). split; [lia|]. econstructor; eassumption.
      * intros m' z Hm' Hz. apply HE in Ex as [_ Hmin]. apply Hmin in Hz; lia.
    + intros (y & (m & Hm & Hw) & Hall).
      assert (Hm' : m = S (n - 1)).
      { destruct (Nat.lt_ge_cases m n) as [Hlt|]; [|lia]. specialize (Hall m y Hlt Hw). lia. }
      subst m. inversion Hw as [|m' w' i v j Hw' Hv]; subst. apply (bw_one A src) in Hw'.
      destruct (b_low _ _ _ _ _ _ _ H1 (n - 1) w' i (le_n _) Hw') as (x' & Hx' & Hle).
      assert (Hreach : wreach W src t) by (exists (S (n - 1)), (w' + v)%Z; assumption).
      pose proof (Hr HE t Hreach) as Ht. destruct (vget d t) as [x|] eqn:Ex; [|discriminate].
      assert (Hx : (w' + v < x)%Z) by (apply HE in Ex as [(m & Hm2 & Hwx) _]; apply (Hall m x); [lia|assumption]).
      destruct (vget cur i) as [x''|] eqn:Ec.
      * pose proof (b_cur _ _ _ _ _ _ _ H1 _ _ Ec) as E. rewrite Hx' in E. injection E as <-.
        destruct (cand_le n W (A_lt A Awf Asq) None (vget cur) i t x' v Ec Hv I) as (y & -> & Hy). cbn [improves]. apply Z.ltb_lt. lia.
      * destruct (b_done _ _ _ _ _ _ _ H1 i x' t v Hx' Ec Hv I) as (y & Hy & Hle'). rewrite Ex in Hy. injection Hy as <-. lia.
  - destruct (H2 eq_refl) as (_ & Hcl & HB). pose proof (closed_least d Hcl HB) as HE. split; [exact HE|]. split; [|exact (Hr HE)].
    split; [discriminate|]. intros (y & (m & Hm & Hw) & Hall). exfalso.
    apply (bw_one A src) in Hw. destruct (closed_low _ _ _ _ Hcl _ _ _ Hw) as (x & Hx & Hle). apply HE in Hx as [(m' & Hm' & Hw') _].
    apply Hall in Hw'; lia.
Qed.
(** without negative weights: everything nearer than the target has been reached *)
Lemma bf_near t : (forall a b v, W a b = Some v -> (0 <= v)%Z) ->
  let '(b, c', d, cur) := bf_loop A (Some t) true (n - 1) None (d0 A src) (d0 A src) in
  b && bf_check A (Some t) c' d cur = false /\ (forall x, vget d t = Some x <-> shortest W src t x) /\
  (forall j, has (vget d j) = true -> wreach W src j) /\
  (forall j a, shortest W src j a -> (forall b, shortest W src t b -> (a <= b)%Z) -> has (vget d j) = true) /\
  vsize d = n /\ (wreach W src t -> has (vget d t) = true).
Proof.
  intros Hnn.
  pose proof (bf_target_ok A Awf Asq src Hsrc t true None (fun _ => Hnn)) as T.
  pose proof (bf_loop_ok A Awf Asq (one0 src) (Some t) true None (n - 1) 0 None (d0 A src) (d0 A src) (d0_size A src) (d0_size A src) (BI_start A src Hsrc None) (or_introl eq_refl)) as H.
  destruct (bf_loop A (Some t) true (n - 1) None (d0 A src) (d0 A src)) as [[[b c'] d] cur]. destruct H as (Hd & Hc & HL & H1 & H2).
  destruct T as (_ & _ & Hsnd & T1 & T2 & _ & T3 & T4).
  assert (Hno : ~ neg_cycle_from W src).
  { intros (z & _ & m' & w' & Hw' & Hneg). apply (wwalk_nonneg W) in Hw'; [lia|assumption]. }
  assert (HE : forall x, vget d t = Some x <-> shortest W src t x) by (intros x; split; [intros Hx; apply T3; auto; exact I|apply T2; auto; exact I]).
  split; [destruct (b && bf_check A (Some t) c' d cur); [destruct (Hno (T1 eq_refl))|reflexivity]|]. split; [assumption|]. split; [|split; [|split; [assumption|exact (T4 eq_refl)]]].
  - intros j Hj. destruct (vget d j) as [x|] eqn:E; [|discriminate]. destruct (Hsnd _ _ E) as (m & Hm). exists m, x. assumption.
  - intros j a [(m & Hm) _] Hle.
    assert (Hb : bw W (one0 src) c' m a j).
    { destruct HL as [->|(_ & t' & y & [= <-] & -> & Hy)]; [apply (bw_one A src); assumption|].
      apply (nonneg_bw A Asq src Hsrc); [assumption| |exact Hm]. simpl. apply Hle, HE, Hy. }
    destruct b.
    + destruct (bw_cut n W (A_lt A Awf Asq) (one0 src) (one0_lt A src Hsrc) c' m a j Hb) as [Hneg|(m' & w' & Hm' & _ & Hb')]; [destruct Hno; apply (S0neg_one A src); assumption|].
      destruct (b_low _ _ _ _ _ _ _ (H1 eq_refl) m' w' j ltac:(lia) Hb') as (x & Hx & _). rewrite Hx. reflexivity.
    + destruct (H2 eq_refl) as (_ & Hcl & _). destruct (closed_low _ _ _ _ Hcl _ _ _ Hb) as (x & Hx & _). rewrite Hx. reflexivity.
Qed.
End L.

(** ** The graph *)
Section K.
Variable G : graph.
Hypothesis wf : gwf G.
Notation n := (nrows (g_A G)).
Notation F := (mget (g_A G)).
Notation A := (den_mat G KOff).
Notation W := (mget (den_mat G KOff)).
(** a negative self-loop no farther than t (or anywhere, if t is out of reach) *)
Definition near_bad (src t : nat) : Prop :=
  exists z x a, F z z = Some x /\ (x < 0)%Z /\ shortest W src z a /\ forall b, shortest W src t b -> (a <= b)%Z.
Definition core_ex (src t : nat) (o : outcome (vec Z)) : Prop :=
  if den_bool G (KNeg SM) then
    match o with
    | Val d => ~ bad F W src /\ ~ drops W n src t /\ (forall x, vget d t = Some x <-> least W (n - 1) src t x) /\ (wreach W src t -> has (vget d t) = true)
    | Raise e => e = EUnbounded /\ (bad F W src \/ drops W n src t)
    end
  else
    match o with
    | Val d => ~ near_bad src t /\ (forall x, vget d t = Some x <-> shortest W src t x) /\ (wreach W src t -> has (vget d t) = true)
    | Raise e => e = EUnbounded /\ bad F W src
    end.
Lemma core_exact src t : src < n -> answers G (bf_core G src (Some t) None) (core_ex src t).
Proof.
  intros Hs. unfold bf_core.
  assert (P : forall nd s, Inv G s -> has (c_mat s KOff) = true -> (nd = true \/ den_bool G KNegDiag = false) ->
    let m := (neg <- has_negative_edgesm false G ;; let n := nrows A in let d := vset (vempty n) src 0%Z in
      let '(completed, cutoff, d, cur) := bf_loop A (Some t) (negb neg) (n - 1) None d d in
      if completed && bf_check A (Some t) cutoff d cur then raise EUnbounded else
      if nd : bool then diag <- get_diag G None ;; if has (vdot op_any op_pairb d (negsel diag)) then raise EUnbounded else ret d
      else ret d) in
    core_ex src t (fst (m s)) /\ Inv G (snd (m s))).
  { intros nd s HI Ho Hnd. cbv zeta. destruct (negm_ok G wf s HI Ho) as (E1 & HI' & _). unfold bind at 1. unfold bind at 2.
    destruct (has_negative_edgesm false G s) as [o s']. cbn [fst snd] in E1, HI'. subst o. clear HI Ho s.
    assert (Hs' : src < nrows A) by (rewrite off_rows; assumption). fold (d0 A src).
    assert (U : forall o, (if den_bool G (KNeg SM) then
      match o with Val d => ~ bad F W src /\ ~ drops W n src t /\ (forall x, vget d t = Some x <-> least W (n - 1) src t x) /\ (wreach W src t -> has (vget d t) = true) | Raise e => e = EUnbounded /\ (bad F W src \/ drops W n src t) end
      else match o with Val d => ~ near_bad src t /\ (forall x, vget d t = Some x <-> shortest W src t x) /\ (wreach W src t -> has (vget d t) = true) | Raise e => e = EUnbounded /\ bad F W src end) -> core_ex src t o)
      by (intros o X; exact X).
    destruct (den_bool G (KNeg SM)) eqn:EN; cbn [negb].
    - pose proof (bf_exact A (off_wf G) (off_sq G) src Hs' t) as H.
      destruct (bf_loop A (Some t) false (nrows A - 1) None (d0 A src) (d0 A src)) as [[[b c'] d] cur].
      rewrite off_rows in H. destruct H as (Hd & HE & Hk & Hr).
      destruct (b && bf_check A (Some t) c' d cur).
      + split; [|exact HI']. apply U. split; [reflexivity|right; tauto].
      + assert (Hdr : ~ drops W n src t) by (intros C; apply Hk in C; discriminate).
        assert (Hdot : has (vdot op_any op_pairb d (negsel (den_vec G KDiag))) = true <-> bad F W src).
        { rewrite (dot_neg G wf d Hd). unfold bad. split; intros (j & v & H1 & H2); exists j, v; (split; [|exact H2]).
          - destruct (vget d j) as [x|] eqn:E; [|discriminate]. apply HE in E as [(m & _ & Hm) _]. exists m, x. assumption.
          - apply Hr. assumption. }
        destruct nd.
        * eapply answers_bind_GV; [apply (get_diag_ok G wf true None)| |exact HI']. cbn [msk].
          destruct (has (vdot op_any op_pairb d (negsel (den_vec G KDiag)))) eqn:E.
          -- apply answers_raise, U. split; [reflexivity|]. left. tauto.
          -- apply answers_ret, U. split; [intros C; apply Hdot in C; discriminate|]. auto.
        * split; [|exact HI']. apply U. split; [|auto]. destruct Hnd as [Hnd|Hnd]; [discriminate|]. intros (z & v & _ & Hv & Hn).
          assert (den_bool G KNegDiag = true) by (apply (negdiag_true_iff G wf); eauto). congruence.
    - pose proof (bf_near A (off_wf G) (off_sq G) src Hs' t (nonneg_off G wf EN)) as H.
      destruct (bf_loop A (Some t) true (nrows A - 1) None (d0 A src) (d0 A src)) as [[[b c'] d] cur].
      destruct H as (-> & HE & Hsnd & Hnear & Hd & Hr). rewrite off_rows in Hd.
      destruct nd.
      + eapply answers_bind_GV; [apply (get_diag_ok G wf true None)| |exact HI']. cbn [msk].
        destruct (has (vdot op_any op_pairb d (negsel (den_vec G KDiag)))) eqn:E.
        * apply answers_raise, U. split; [reflexivity|]. apply (dot_neg G wf d Hd) in E as (j & v & H1 & H2). exists j, v. auto.
        * apply answers_ret, U. split; [|auto]. intros (z & x & a & H1 & H2 & H3 & H4).
          assert (has (vdot op_any op_pairb d (negsel (den_vec G KDiag))) = true); [|congruence].
          apply (dot_neg G wf d Hd). exists z, x. split; [|auto]. eapply Hnear; eassumption.
      + split; [|exact HI']. apply U. split; [|auto]. destruct Hnd as [Hnd|Hnd]; [discriminate|]. intros (z & v & a & Hv & Hn & _).
        assert (den_bool G KNegDiag = true) by (apply (negdiag_true_iff G wf); eauto). congruence. }
  apply nd_glue; [assumption|]. intros nd s HI Ho Hnd. exact (P nd s HI Ho Hnd).
Qed.
Lemma reach_shortest src j : src < n -> (forall a b v, W a b = Some v -> (0 <= v)%Z) -> wreach W src j -> exists a, shortest W src j a.
Proof.
  intros Hs Hnn Hr. pose proof (bf_single_ok A (off_wf G) (off_sq G) src ltac:(rewrite off_rows; assumption) false) as H.
  destruct (bf_loop A None false (nrows A - 1) None (d0 A src) (d0 A src)) as [[[b c'] d] cur]. destruct H as (_ & H1 & H2).
  destruct (b && bf_check A None c' d cur).
  - destruct (H1 eq_refl) as (z & _ & m' & w' & Hw' & Hneg). apply (wwalk_nonneg W) in Hw'; [lia|assumption].
  - destruct (H2 eq_refl) as (_ & H3 & H4). specialize (H4 j Hr). destruct (vget d j) as [a|] eqn:E; [|discriminate]. exists a. apply H3. assumption.
Qed.
(** the shortcut for iso-valued graphs: which way it goes *)
Definition turns (src : nat) : Prop := has (F src src) = true \/ (g_dir G = false /\ exists j x, F src j = Some x).
Lemma iso_struct u src v t : kid G u = Some src -> kid G v = Some t -> g_iso G = true -> (exists i j x, F i j = Some x) ->
  answers G (bf_iso G u src (Some v) (Some t) None) (fun o =>
    match o with
    | Val (Some _) => den_bool G (KNeg SP) = false
    | Val None => den_bool G (KNeg SP) = true /\ ~ turns src
    | Raise e => (e = EUnbounded /\ den_bool G (KNeg SP) = true /\ turns src) \/ (e = ENoPath /\ den_bool G (KNeg SP) = false)
    end).
Proof.
  intros Hu Hv Hi He. destruct (iso_den G wf (fun _ => He) Hi) as (z & Hz & Hall & Hneg). unfold bf_iso.
  eapply answers_bind_GV; [apply (has_negative_edgesp_ok G wf true eq_refl)|].
  eapply answers_bind_v; [eapply answers_GO; [apply (get_iso_value_ok G wf true)|]; intros o [->|[_ Hf]]; [reflexivity|congruence]|].
  rewrite Hz. cbn [isoz]. destruct (den_bool G (KNeg SP)); cbn [negb].
  - destruct (has (F src src)) eqn:E1; [apply answers_raise; left; split; [reflexivity|]; split; [reflexivity|left; assumption]|].
    destruct (negb (g_dir G) && (0 <? nvals (mrow (g_A G) src))) eqn:E2.
    + apply andb_true_iff in E2 as [E2 E3]. apply negb_true_iff in E2. apply Nat.ltb_lt, nvals_pos in E3 as (j & x & Hx).
      apply answers_raise. left. split; [reflexivity|]. split; [reflexivity|]. right. split; [assumption|]. exists j, x. exact Hx.
    + apply answers_ret. split; [reflexivity|]. intros [C|(C1 & j & x & Hx)]; [congruence|]. rewrite C1 in E2. cbn [negb andb] in E2.
      apply Nat.ltb_ge in E2. assert (0 < nvals (mrow (g_A G) src)); [|lia]. apply nvals_pos. exists j, x. exact Hx.
  - apply answers_ret_bind. eapply answers_bind; [apply (level_target G wf u src v t Hu Hv)| |intros e (d & C & _); discriminate].
    intros d _. destruct (has (vget d t)).
    + apply answers_ret_bind. apply answers_ret. reflexivity.
    + eapply answers_bind_e; [apply answers_raise; reflexivity|]. right. split; reflexivity.
Qed.
Definition iso_turn (src : nat) : Prop := g_iso G = true /\ g_dir G = false /\ exists j x, F src j = Some x.
Definition full_ex (src t : nat) (o : outcome Z) : Prop :=
  if den_bool G (KNeg SM) then
    match o with
    | Val x => ~ bad F W src /\ ~ drops W n src t /\ ~ iso_turn src /\ least W (n - 1) src t x
    | Raise e => (e = EUnbounded /\ (bad F W src \/ drops W n src t \/ iso_turn src)) \/ (e = ENoPath /\ ~ wreach W src t /\ ~ bad F W src /\ ~ iso_turn src)
    end
  else
    match o with
    | Val x => shortest W src t x /\ ~ exists z a, (exists y, F z z = Some y /\ (y < 0)%Z) /\ shortest W src z a /\ (a <= x)%Z
    | Raise e => (e = EUnbounded /\ bad F W src) \/ (e = ENoPath /\ ~ wreach W src t /\ ~ bad F W src)
    end.
Lemma full_exact u v src t : kid G u = Some src -> kid G v = Some t -> (g_iso G = true -> exists i j x, F i j = Some x) ->
  answers G (bf_path_length G u v) (full_ex src t).
Proof.
  intros Hu Hv He. assert (Hs : src < n) by (eapply kid_lt; eassumption).
  unfold bf_path_length, bf_lengths. rewrite Hu, Hv. cbn [idx].
  set (R := fun o : outcome (vec Z) => full_ex src t (match o with Val d => match vget d t with Some x => Val x | None => Raise ENoPath end | Raise e => Raise e end)).
  assert (Hnn : den_bool G (KNeg SM) = false -> forall a b v, W a b = Some v -> (0 <= v)%Z) by apply (nonneg_off G wf).
  (* the general algorithm *)
  assert (Hcore : ~ iso_turn src -> answers G (bf_core G src (Some t) None) R).
  { intros Hodd. eapply answers_conseq; [apply (core_exact src t Hs)|]. intros o Ho. unfold R, full_ex, core_ex in *.
    destruct (den_bool G (KNeg SM)) eqn:EN.
    - destruct o as [d|e]; [|left; destruct Ho as [-> [C|C]]; auto]. destruct Ho as (H1 & H2 & H3 & H4). destruct (vget d t) as [x|] eqn:E.
      + repeat (split; [assumption|]). apply H3. reflexivity.
      + right. split; [reflexivity|]. split; [intros C; apply H4 in C; discriminate|]. auto.
    - destruct o as [d|e]; [|left; assumption]. destruct Ho as (H1 & H2 & H3). destruct (vget d t) as [x|] eqn:E.
      + split; [apply H2; reflexivity|]. intros (z & a & (y & Hy & Hn) & Ha & Hle). apply H1. exists z, y, a. repeat (split; [assumption|]).
        intros b Hb. apply H2 in Hb. injection Hb as <-. assumption.
      + right. split; [reflexivity|]. split; [intros C; apply H3 in C; discriminate|]. intros (z & y & Hr & Hy & Hn). apply H1.
        destruct (reach_shortest src z Hs (Hnn eq_refl) Hr) as [a Ha]. exists z, y, a. repeat (split; [assumption|]).
        intros b Hb. apply H2 in Hb. discriminate. }
  assert (Hall : answers G (iso <- is_iso G ;; r <- (if iso : bool then bf_iso G u src (Some v) (Some t) None else ret None) ;;
                            match r with Some d => ret d | None => bf_core G src (Some t) None end) R).
  { eapply answers_bind_GV; [apply (is_iso_ok G true)|]. simpl den_bool.
    destruct (Bool.bool_dec (g_iso G) true) as [Hi|Hi]; [|apply not_true_is_false in Hi]; rewrite Hi.
    2:{ change (bind (ret None) ?f) with (f (None : option (vec Z))). cbv beta. apply Hcore. intros (C & _). congruence. }
    destruct (iso_den G wf He Hi) as (z & Hz & Hiso & Hneg).
    assert (Hj : answers G (bf_iso G u src (Some v) (Some t) None) (fun o =>
       match o with Val (Some d) => tg_ok G src t (Val d) | Val None => True | Raise e => tg_ok G src t (Raise e) end /\
       match o with
       | Val (Some _) => den_bool G (KNeg SP) = false
       | Val None => den_bool G (KNeg SP) = true /\ ~ turns src
       | Raise e => (e = EUnbounded /\ den_bool G (KNeg SP) = true /\ turns src) \/ (e = ENoPath /\ den_bool G (KNeg SP) = false)
       end)).
    { intros s HI. destruct (bf_iso_target G wf He u src v t Hu Hv Hi s HI) as [X1 X2]. destruct (iso_struct u src v t Hu Hv Hi (He Hi) s HI) as [Y1 _].
      split; [split; assumption|assumption]. }
    assert (NS : den_bool G (KNeg SP) = false -> den_bool G (KNeg SM) = false /\ ~ bad F W src).
    { intros HP. assert (Hp : forall a b x, F a b = Some x -> (0 <= x)%Z).
      { intros a b x Hx. destruct (Z.lt_ge_cases x 0) as [Hlt|]; [|assumption]. assert (den_bool G (KNeg SP) = true); [|congruence].
        apply (neg_true_iff G wf). exists a, b, x. split; [exact Hx|assumption]. }
      split; [|intros (w & x & _ & Hx & Hn); apply Hp in Hx; lia].
      apply not_true_is_false. intros C. apply (neg_true_iff G wf) in C as (a & b & x & Hx & Hn). cbn [ent] in Hx.
      destruct (a =? b); [discriminate|]. apply Hp in Hx. lia. }
    eapply answers_bind; [exact Hj| |].
    - intros [d|] [H1 H2].
      + apply answers_ret. destruct (NS H2) as [NM NB]. unfold R, full_ex. rewrite NM. cbn [tg_ok] in H1. destruct H1 as (_ & H1 & H3).
        assert (Hno : ~ neg_cycle_from F src).
        { rewrite (neg_strip F W (off_get G wf)). intros [(y & _ & m' & w' & Hw' & Hn)|C]; [|contradiction].
          apply (wwalk_nonneg W) in Hw'; [lia|exact (Hnn NM)]. }
        specialize (H1 Hno). destruct (vget d t) as [x|] eqn:E.
        * split; [apply (shortest_strip F W (off_get G wf)); [assumption|]; apply H1; reflexivity|].
          intros (w & a & (y & Hy & Hn) & [(m & Ha) _] & _). apply NB. exists w, y. split; [exists m, a; assumption|auto].
        * right. split; [reflexivity|]. split; [|assumption]. intros C. apply (wreach_strip F W (off_get G wf)) in C. apply H3 in C. discriminate.
      + apply Hcore. destruct H2 as [_ H2]. intros (_ & C1 & C2). apply H2. right. auto.
    - intros e [H1 H2]. unfold R, full_ex. destruct H2 as [(-> & HP & HT)|(-> & HP)].
      + assert (HB : has (F src src) = true -> bad F W src).
        { intros C. destruct (F src src) as [x|] eqn:E; [|discriminate]. exists src, x. split; [apply wreach_refl|]. split; [assumption|].
          rewrite (Hiso _ _ _ E). rewrite Hneg in HP. apply Z.ltb_lt. assumption. }
        destruct (den_bool G (KNeg SM)) eqn:EN; left; (split; [reflexivity|]).
        * destruct HT as [C|(C1 & C2)]; [left; auto|]. right. right. split; [assumption|]. auto.
        * destruct HT as [C|(C1 & j & x & Hx)]; [auto|]. apply HB. destruct (Nat.eq_dec src j) as [->|Hne]; [rewrite Hx; reflexivity|]. exfalso.
          assert (Hw : W src j = Some x) by (rewrite (off_get G wf); apply Nat.eqb_neq in Hne; rewrite Hne; assumption).
          apply (Hnn eq_refl) in Hw. rewrite (Hiso _ _ _ Hx) in Hw. rewrite Hneg in HP. apply Z.ltb_lt in HP. lia.
      + destruct (NS HP) as [NM NB]. rewrite NM. right. split; [reflexivity|]. split; [|assumption]. cbn [tg_ok] in H1. destruct H1 as [[C _]|[_ H1]]; [discriminate|].
        intros C. apply H1. apply (wreach_strip F W (off_get G wf)). assumption. }
  intros s HI. specialize (Hall s HI). revert Hall. unfold R, bind, ret.
  destruct (is_iso G s) as [[iso|e] s1]; cbn [fst snd]; [|exact (fun x => x)].
  match goal with |- context [let (o, s') := ?m s1 in _] => destruct (m s1) as [[r|e] s2] end; cbn [fst snd]; [|exact (fun x => x)].
  match goal with |- context [fst (?m s2)] => destruct (m s2) as [[d|e] s3] end; cbn [fst snd]; [|exact (fun x => x)].
  destruct (vget d t); exact (fun x => x).
Qed.
End K.

(** ** Keys *)
Section P.
Variable G : graph.
Hypothesis wf : gwf G.
Notation n := (nrows (g_A G)).
Notation F := (mget (g_A G)).
Notation W := (mget (den_mat G KOff)).
Lemma noloop_ids u v i j : kid G u = Some i -> kid G v = Some j -> noloop (weight G) u v = W i j.
Proof.
  intros H1 H2. unfold noloop. rewrite (off_get G wf), (weight_ids G _ _ _ _ H1 H2). destruct (nkey_eqb u v) eqn:E.
  - apply nkey_eqb_eq in E. subst v. assert (i = j) by congruence. subst. rewrite Nat.eqb_refl. reflexivity.
  - destruct (Nat.eqb_spec i j) as [->|]; [|reflexivity]. rewrite (kid_inj G wf _ _ _ H1 H2) in E. assert (nkey_eqb v v = true) by (apply nkey_eqb_eq; reflexivity). congruence.
Qed.
Lemma noloop_walk u i d w v : kid G u = Some i -> (wwalk (noloop (weight G)) u d w v <-> exists j, kid G v = Some j /\ wwalk W i d w j).
Proof.
  intros Hu. split.
  - induction 1 as [|d w y x z _ (j & Hj & IH) Hx]; [exists i; split; [assumption|constructor]|].
    assert (Hz : exists k, kid G z = Some k).
    { unfold noloop in Hx. destruct (nkey_eqb y z); [discriminate|]. unfold weight in Hx. rewrite Hj in Hx. destruct (kid G z) as [k|]; [eauto|discriminate]. }
    destruct Hz as [k Ek]. exists k. split; [assumption|]. rewrite (noloop_ids _ _ _ _ Hj Ek) in Hx. econstructor; eassumption.
  - intros (j & Hj & H). revert v Hj. induction H as [|d w y x z _ IH Hx]; intros v Hj.
    + rewrite (kid_inj G wf _ _ _ Hu Hj). constructor.
    + destruct (kid_key G wf y) as [k Hk]; [rewrite (off_get G wf) in Hx; destruct (y =? z); [discriminate|]; apply (F_lt G wf _ _ _ Hx)|].
      econstructor; [apply IH; eassumption|]. rewrite (noloop_ids _ _ _ _ Hk Hj). assumption.
Qed.
Section UV.
Variables (u v : nkey) (i j : nat).
Hypothesis Hu : kid G u = Some i.
Hypothesis Hv : kid G v = Some j.
Lemma nlw d w : wwalk (noloop (weight G)) u d w v <-> wwalk W i d w j.
Proof. rewrite (noloop_walk u i d w v Hu). split; [intros (k & Hk & H); congruence|eauto]. Qed.
Lemma least_lift k x : least (noloop (weight G)) k u v x <-> least W k i j x.
Proof.
  unfold least. split; intros [(d & Hd & H) Hm]; (split; [exists d; split; [assumption|apply nlw; assumption]|intros d' y Hd' Hy; apply (Hm d' y Hd'), nlw; assumption]).
Qed.
Lemma drops_lift k : drops (noloop (weight G)) k u v <-> drops W k i j.
Proof.
  unfold drops. split; intros (y & (d & Hd & H) & Hm); exists y; (split; [exists d; split; [assumption|apply nlw; assumption]|intros d' z Hd' Hz; apply (Hm d' z Hd'), nlw; assumption]).
Qed.
Lemma nshort_lift x : shortest (noloop (weight G)) u v x <-> shortest W i j x.
Proof.
  unfold shortest. split; intros [(d & H) Hm]; (split; [exists d; apply nlw; assumption|intros d' y Hy; apply (Hm d' y), nlw; assumption]).
Qed.
Lemma nreach_lift : wreach (noloop (weight G)) u v <-> wreach W i j.
Proof. unfold wreach. split; intros (d & w & H); exists d, w; apply nlw; assumption. Qed.
End UV.
Lemma bad_lift u i : kid G u = Some i -> (bad F W i <-> exists z, wreach (weight G) u z /\ neg_loop (weight G) z).
Proof.
  intros Hu. split.
  - intros (z & x & Hr & Hx & Hn). destruct (kid_key G wf z) as [k Hk]; [apply (F_lt G wf _ _ _ Hx)|]. exists k. split.
    + apply (wreach_lift G wf u i k Hu). exists z. split; [assumption|]. apply (wreach_strip F W (off_get G wf)). assumption.
    + exists x. rewrite (weight_ids G _ _ _ _ Hk Hk). auto.
  - intros (k & Hr & x & Hx & Hn). apply (wreach_lift G wf u i k Hu) in Hr as (z & Hk & Hr). exists z, x. split; [apply (wreach_strip F W (off_get G wf)); assumption|].
    rewrite (weight_ids G _ _ _ _ Hk Hk) in Hx. auto.
Qed.
Lemma negsm_keys : den_bool G (KNeg SM) = true <-> exists a b x, a <> b /\ weight G a b = Some x /\ (x < 0)%Z.
Proof.
  rewrite (neg_true_iff G wf). cbn [ent]. split.
  - intros (i & j & x & Hx & Hn). destruct (Nat.eqb_spec i j) as [|Hne]; [discriminate|]. destruct (F_lt G wf _ _ _ Hx) as [Hi Hj].
    destruct (kid_key G wf i Hi) as [a Ha], (kid_key G wf j Hj) as [b Hb]. exists a, b, x. split; [intros ->; congruence|]. rewrite (weight_ids G _ _ _ _ Ha Hb). auto.
  - intros (a & b & x & Hne & Hx & Hn). unfold weight in Hx. destruct (kid G a) as [i|] eqn:Ha; [|discriminate]. destruct (kid G b) as [j|] eqn:Hb; [|discriminate].
    exists i, j, x. destruct (Nat.eqb_spec i j) as [->|]; [destruct Hne; apply (kid_inj G wf _ _ _ Ha Hb)|auto].
Qed.
End P.

(** ** C15 *)
(** the answer for two nodes u and v of a graph with N nodes.  If an edge between different nodes is negative: Unbounded if
    a negative self-loop can be reached from u, or if some walk of at most N edges (self-loops apart) from u to v is
    lighter than all shorter ones, or if the graph is undirected, flagged iso-valued and u has an edge; otherwise the
    least weight of a walk of fewer than N edges; NoPath if there is none.  So other negative cycles go unnoticed. *)
Theorem C15_exact (G : graph) (u v : nkey) : gwf G -> iso_has_edge G -> node G u -> node G v ->
  (exists a b x, a <> b /\ weight G a b = Some x /\ (x < 0)%Z) ->
  let N := List.length (gnodes G) in
  let looped := exists z, wreach (weight G) u z /\ neg_loop (weight G) z in
  let odd := g_iso G = true /\ g_dir G = false /\ exists w x, weight G u w = Some x in
  answers G (nx_bf_path_length G u v) (fun o =>
    match o with
    | Val x => ~ looped /\ ~ drops (noloop (weight G)) N u v /\ ~ odd /\ least (noloop (weight G)) (N - 1) u v x
    | Raise e => (e = EUnbounded /\ (looped \/ drops (noloop (weight G)) N u v \/ odd)) \/
                 (e = ENoPath /\ ~ wreach (weight G) u v /\ ~ looped /\ ~ odd)
    end).
Proof.
  intros wf Hi Nu Nv Hneg N looped odd. apply node_kid in Nu as [i Hu]. apply node_kid in Nv as [j Hv].
  assert (EN : N = nrows (g_A G)) by (unfold N, gnodes; rewrite map_length, <- (map_length snd), (Permutation_length (gw_ids _ wf)), seq_length; reflexivity).
  assert (EO : odd <-> iso_turn G i).
  { unfold odd, iso_turn. split; intros (H1 & H2 & w & x & Hx); (split; [assumption|]); (split; [assumption|]).
    - unfold weight in Hx. rewrite Hu in Hx. destruct (kid G w) as [k|] eqn:Hw; [|discriminate]. eauto.
    - destruct (kid_key G wf w) as [k Hk]; [apply (F_lt G wf _ _ _ Hx)|]. exists k, x. rewrite (weight_ids G _ _ _ _ Hu Hk). assumption. }
  assert (EB : bad (mget (g_A G)) (mget (den_mat G KOff)) i <-> looped) by (apply (bad_lift G wf u i Hu)).
  assert (ER : wreach (mget (den_mat G KOff)) i j <-> wreach (weight G) u v).
  { rewrite (wreach_lift G wf u i v Hu), <- (wreach_strip (mget (g_A G)) _ (off_get G wf)). split; [eauto|]. intros (k & Hk & H). congruence. }
  pose proof (drops_lift G wf u v i j Hu Hv N) as ED.
  eapply answers_conseq; [apply (full_exact G wf u v i j Hu Hv (iso_has_edge_ids G wf Hi))|]. intros o Ho. unfold full_ex in Ho.
  rewrite (proj2 (negsm_keys G wf) Hneg) in Ho. rewrite <- EN in Ho. destruct o as [x|e].
  - destruct Ho as (H1 & H2 & H3 & H4). rewrite <- EB, ED, EO. repeat (split; [assumption|]). apply (least_lift G wf u v i j Hu Hv). assumption.
  - rewrite <- EB, ED, EO, <- ER. assumption.
Qed.
(** If no edge between different nodes is negative: Unbounded only if a negative self-loop can be reached; the least weight
    of a walk without self-loops (NoPath if there is none), and then no negative self-loop is at or nearer than v: one that
    is farther may go unnoticed *)
Theorem C15_loops (G : graph) (u v : nkey) : gwf G -> iso_has_edge G -> node G u -> node G v ->
  (forall a b x, a <> b -> weight G a b = Some x -> (0 <= x)%Z) ->
  let looped := exists z, wreach (weight G) u z /\ neg_loop (weight G) z in
  answers G (nx_bf_path_length G u v) (fun o =>
    match o with
    | Val x => shortest (noloop (weight G)) u v x /\
               ~ exists z a, neg_loop (weight G) z /\ shortest (noloop (weight G)) u z a /\ (a <= x)%Z
    | Raise e => (e = EUnbounded /\ looped) \/ (e = ENoPath /\ ~ wreach (weight G) u v /\ ~ looped)
    end).
Proof.
  intros wf Hi Nu Nv Hnn looped. apply node_kid in Nu as [i Hu]. apply node_kid in Nv as [j Hv].
  assert (EB : bad (mget (g_A G)) (mget (den_mat G KOff)) i <-> looped) by (apply (bad_lift G wf u i Hu)).
  assert (ER : wreach (mget (den_mat G KOff)) i j <-> wreach (weight G) u v).
  { rewrite (wreach_lift G wf u i v Hu), <- (wreach_strip (mget (g_A G)) _ (off_get G wf)). split; [eauto|]. intros (k & Hk & H). congruence. }
  eapply answers_conseq; [apply (full_exact G wf u v i j Hu Hv (iso_has_edge_ids G wf Hi))|]. intros o Ho. unfold full_ex in Ho.
  destruct (den_bool G (KNeg SM)) eqn:E.
  { apply (negsm_keys G wf) in E as (a & b & x & Hne & Hx & Hn). apply (Hnn a b x Hne) in Hx. lia. }
  destruct o as [x|e].
  - destruct Ho as (H1 & H2). split; [apply (nshort_lift G wf u v i j Hu Hv); assumption|].
    intros (z & a & (y & Hy & Hn) & Ha & Hle). apply H2.
    assert (Hz : exists k, kid G z = Some k) by (unfold weight in Hy; destruct (kid G z); [eauto|discriminate]). destruct Hz as [k Hk].
    exists k, a. split; [exists y; rewrite <- (weight_ids G _ _ _ _ Hk Hk); auto|]. split; [|assumption]. apply (nshort_lift G wf u z i k Hu Hk). assumption.
  - rewrite <- EB, <- ER. assumption.
Qed.
(** the two theorems tell the answers apart: what is left of the claim, and the two ways it fails *)
Example C15_exact_ex : gwf g_cyc /\ iso_has_edge g_cyc /\ (exists a b x, a <> b /\ weight g_cyc a b = Some x /\ (x < 0)%Z) /\
  (exists x, fst (nx_bf_path_length g_cyc (KI 0) (KI 3) st0) = Val x) /\
  fst (nx_bf_path_length (mkg true 3 [(0, 1, 1%Z); (1, 2, 1%Z); (2, 0, (-3)%Z)]) (KI 0) (KI 0) st0) = Raise EUnbounded /\
  fst (nx_bf_path_length g_cyc (KI 3) (KI 0) st0) = Raise ENoPath.
Proof.
  split; [apply mkg_wf; reflexivity|]. split; [discriminate|]. split; [exists (KI 2), (KI 0), (-3)%Z; split; [discriminate|split; [vm_compute; reflexivity|reflexivity]]|].
  split; [eexists; vm_compute; reflexivity|]. split; vm_compute; reflexivity.
Qed.
(** a negative cycle 0 -> 1 -> 2 -> 0: the walk of 3 edges back to 0 is lighter than the one without edges *)
Example C15_drops_ex : drops (noloop (weight (mkg true 3 [(0, 1, 1%Z); (1, 2, 1%Z); (2, 0, (-3)%Z)]))) 3 (KI 0) (KI 0).
Proof.
  set (W := noloop _).
  assert (E : forall y z x, W y z = Some x -> (y = KI 0 /\ z = KI 1 /\ x = 1%Z) \/ (y = KI 1 /\ z = KI 2 /\ x = 1%Z) \/ (y = KI 2 /\ z = KI 0 /\ x = (-3)%Z)).
  { intros y z x H. set (g := mkg true 3 _) in W.
    assert (Hn : forall i k, kid g k = Some i -> k = KI 0 \/ k = KI 1 \/ k = KI 2).
    { intros i k Hk. assert (X : node g k) by (apply node_kid; eauto). vm_compute in X. intuition auto. }
    assert (Hy : exists i j, kid g y = Some i /\ kid g z = Some j).
    { unfold W, noloop in H. destruct (nkey_eqb y z); [discriminate|]. unfold weight in H. destruct (kid g y); [|discriminate]. destruct (kid g z); [eauto|discriminate]. }
    destruct Hy as (i & j & Hy & Hz). apply Hn in Hy. apply Hn in Hz.
    destruct Hy as [-> | [-> | ->] ], Hz as [-> | [-> | ->] ]; vm_compute in H; try discriminate; injection H as <-; auto 10. }
  exists (-1)%Z. split; [exists 3; split; [lia|]|].
  - change (-1)%Z with (0 + 1 + 1 + -3)%Z.
    eapply ww_snoc with (y := KI 2); [eapply ww_snoc with (y := KI 1); [eapply ww_snoc with (y := KI 0); [apply ww_nil|]|]|]; vm_compute; reflexivity.
  - intros d z Hd H. inversion H as [|d1 w1 y1 v1 z1 H1 E1]; subst; [lia|]. apply E in E1 as [(_ & C & _)|[(_ & C & _)|(-> & _ & ->)]]; try discriminate.
    inversion H1 as [|d2 w2 y2 v2 z2 H2 E2]; subst. apply E in E2 as [(_ & C & _)|[(-> & _ & ->)|(_ & C & _)]]; try discriminate.
    inversion H2; subst; lia.
Qed.
Print Assumptions C15_exact.
Print Assumptions C15_loops.
