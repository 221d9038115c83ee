(** * C36-C43: boundaries, cuts, expansions, dominating sets *)
From Verif Require Import Base BaseProofs Model_Graph Model_Cache Spec_Cache CacheMath CacheProofs CacheProofs2
  Model_Keys Spec KeyProofs Spec_Run RunProofs Model_Bfs Model_Operators OperatorProofs Spec_Count Model_Measures CountProofs Concrete.
From Coq Require Import Permutation QArith.
Open Scope nat_scope.

(** ** Specification *)
(** weight of u->v, or 1 when weights are not asked for; 0 if there is no such edge *)
Definition ewt (G : graph) (w : bool) (u v : nkey) : Z :=
  if w then weight0 G u v else if has_edge G u v then 1%Z else 0%Z.
(** number (total weight) of the edges from P to Q *)
Definition crossing (G : graph) (w : bool) (P Q : nkey -> bool) : Z :=
  total (fun e => if P (fst e) && Q (snd e) then ewt G w (fst e) (snd e) else 0%Z) (pairs (gnodes G)).
(** the cut between P and Q: both directions when G is directed *)
Definition cut (G : graph) (w : bool) (P Q : nkey -> bool) : Z :=
  (crossing G w P Q + if g_dir G then crossing G w Q P else 0)%Z.
(** sum of the (weighted) out-degrees of the nodes in P *)
Definition vol (G : graph) (w : bool) (P : nkey -> bool) : Z :=
  total (fun u => total (fun v => ewt G w u v) (gnodes G)) (members G P).
(** T omitted: the algorithm looks for targets among the nodes that have successors; no loss when
    the graph is undirected or every node outside S has a successor *)
Definition default_ok (G : graph) (S : list nkey) (T : option (list nkey)) : Prop :=
  T = None -> g_dir G = false \/ forall v, node G v -> ~ In v S -> exists w, edge G v w.

Section P.
Variable G : graph.
Hypothesis wf : gwf G.
Notation n := (glen G).
Notation A := (g_A G).
Let Hsq : ncols A = n. Proof. apply (sq_nrows G wf). Qed.
Let HmA : mwf A. Proof. apply wf. Qed.

Lemma answers_set_vec {Y} l (f : vec bool -> M Y) R :
  (forall v, svec G v (fun u => mem u l) -> answers G (f v) R) -> answers G (bind (set_vec_of G l) f) R.
Proof.
  intros H. destruct (set_vec_ok G wf l) as (v & E & Hv). unfold set_vec_of. rewrite E.
  apply (answers_ret_bind G). apply H. assumption.
Qed.
Lemma answers_set_opt {Y} l (f : option (vec bool) -> M Y) R :
  (forall v, match l, v with None, None => True | Some l, Some v => svec G v (fun u => mem u l) | _, _ => False end -> answers G (f v) R) ->
  answers G (bind (set_vec_opt G l) f) R.
Proof.
  intros H. destruct l as [l|]; simpl.
  - apply answers_assoc. apply answers_set_vec. intros v Hv. apply (answers_ret_bind G). apply H. assumption.
  - apply (answers_ret_bind G). apply H. exact I.
Qed.

(** the matrix of boundary edges *)
Definition bmat (B : mat Z) (w : bool) (P Q : nkey -> bool) : Prop :=
  mwf B /\ nrows B = n /\ ncols B = n /\
  forall u v i j, kid G u = Some i -> kid G v = Some j ->
    mget B i j = if P u && Q v then omap (fun x => if w then x else 1%Z) (weight G u v) else None.
Definition eff (S : nkey -> bool) (T : option (nkey -> bool)) (k : nkey) : bool :=
  match T with Some T => T k | None => negb (S k) && (0 <? out_degree G k) end.
Lemma edge_boundary_ok v1 v2 (P : nkey -> bool) Q w : svec G v1 P ->
  match v2, Q with Some v, Some Q => svec G v Q | None, None => True | _, _ => False end ->
  answers G (edge_boundary G (Some v1) v2 w) (fun o => exists B, o = Val B /\ bmat B w P (eff P Q)).
Proof.
  intros H1 H2. unfold edge_boundary.
  assert (X : forall v, svec G v (eff P Q) -> answers G (ret (if w then mv_inter op_first (if w then vm_inter op_second v1 A else vm_inter op_pairz v1 A) v
      else mv_inter op_pairz (if w then vm_inter op_second v1 A else vm_inter op_pairz v1 A) v)) (fun o => exists B, o = Val B /\ bmat B w P (eff P Q))).
  { intros v Hv. apply answers_ret. eexists. split; [reflexivity|].
    assert (MW : mwf (if w then vm_inter op_second v1 A else vm_inter op_pairz v1 A)) by (destruct w; apply mwf_mbuild).
    split; [destruct w; apply mwf_mbuild|]. split; [destruct w; unfold mv_inter, vm_inter; rewrite !nrows_mbuild; reflexivity|].
    split; [destruct w; unfold mv_inter, vm_inter; rewrite !ncols_mbuild; exact Hsq|].
    intros u x i j Hu Hx. rewrite (weight_kid G _ _ _ _ Hu Hx).
    destruct w; rewrite mget_mv_inter by assumption; rewrite mget_vm_inter by assumption;
      rewrite (proj2 H1 u i Hu), (proj2 Hv x j Hx); destruct (P u), (mget A i j), (eff P Q x); reflexivity. }
  destruct v2 as [v|], Q as [Q|]; try contradiction.
  - apply (answers_ret_bind G). apply X. exact H2.
  - apply answers_assoc. eapply answers_bind_GV; [apply (get_red_ok G wf true eq_refl)|]. apply (answers_ret_bind G). apply X.
    unfold vstruct. split; [rewrite vsize_vmap; simpl; rewrite vsize_vrestrict; apply vsize_vbuild|].
    intros u i Hu. rewrite vget_vmap. cbn [msk]. rewrite vget_vrestrict. rewrite (den_count G). rewrite vget_vbuild.
    assert (L : i < n) by exact (kid_lt G wf _ _ Hu). apply Nat.ltb_lt in L. unfold glen in L. rewrite L. unfold mNS.
    rewrite (svec_has G _ _ _ _ H1 Hu). unfold eff. rewrite (out_degree_id G wf u i Hu).
    destruct (P u); [reflexivity|]. simpl. unfold onz. destruct (outdeg G SP i); reflexivity.
Qed.
Lemma bmat_mnvals B P Q : bmat B false P Q -> Z.of_nat (mnvals B) = crossing G false P Q.
Proof.
  intros (H1 & H2 & H3 & H4). unfold crossing, mnvals. rewrite H2, H3, nsum_zsum. symmetry.
  rewrite (total_node_pairs G wf _ (fun i j => if has (mget B i j) then 1%Z else 0%Z)).
  - apply zsum_ext. intros i _. symmetry. apply cnt_zsum.
  - intros u v i j Hu Hv. cbn [fst snd]. rewrite (H4 u v i j Hu Hv). unfold ewt, has_edge.
    destruct (P u && Q v); [|reflexivity]. rewrite has_omap. reflexivity.
Qed.
Lemma mplus_zsum (B : mat Z) : mwf B -> mplus B = zsum (nrows B) (fun i => zsum (ncols B) (fun j => oz (mget B i j))).
Proof.
  intros H. unfold mplus, mred_scalar, vreduce. rewrite oz_ored_plus. unfold mred_row at 1. rewrite vsize_vbuild.
  apply zsum_ext. intros i Hi. rewrite vget_mred_row by assumption. apply oz_ored_plus.
Qed.
Lemma bmat_mplus B P Q : bmat B true P Q -> mplus B = crossing G true P Q.
Proof.
  intros (H1 & H2 & H3 & H4). rewrite mplus_zsum by assumption. rewrite H2, H3. unfold crossing. symmetry.
  apply (total_node_pairs G wf). intros u v i j Hu Hv. cbn [fst snd]. rewrite (H4 u v i j Hu Hv). unfold ewt, weight0.
  destruct (P u && Q v); [|reflexivity]. destruct (weight G u v); reflexivity.
Qed.
Lemma eff_edge (S : list nkey) T u v : default_ok G S T -> edge G u v ->
  eff (fun k => mem k S) (omap (fun T k => mem k T) T) v = in_T S T v.
Proof.
  intros Hd He. unfold eff, in_T. destruct T as [T|]; simpl; [reflexivity|].
  destruct (mem v S) eqn:M; [reflexivity|]. simpl. apply Nat.ltb_lt. apply (count_nodes_pos G).
  destruct (Hd eq_refl) as [Hu|H].
  - exists u. split; [apply edge_iedge in He as (i & j & Hi & _); apply node_kid; eauto|].
    rewrite has_edge_sym by assumption. apply has_edge_true. assumption.
  - assert (Hn : node G v) by (destruct He as [x Hx]; apply weight_nodes in Hx; tauto).
    destruct (H v Hn) as [x Hx]; [rewrite <- mem_In; congruence|]. exists x.
    split; [destruct Hx as [y Hy]; apply weight_nodes in Hy; tauto|apply has_edge_true; assumption].
Qed.
Lemma crossing_ext w P Q P' Q' : (forall u v, edge G u v -> P u && Q v = P' u && Q' v) -> crossing G w P Q = crossing G w P' Q'.
Proof.
  intros H. apply total_ext. intros [u v] _. cbn [fst snd]. unfold ewt, has_edge, weight0. destruct (weight G u v) as [x|] eqn:E.
  - rewrite (H u v); [reflexivity|exists x; assumption].
  - destruct w; simpl; destruct (P u && Q v), (P' u && Q' v); reflexivity.
Qed.

(** ** C36 *)
Lemma NoDup_flat_map {X Y} (f : X -> list Y) l : NoDup l -> (forall x, In x l -> NoDup (f x)) ->
  (forall x x' y, In x l -> In x' l -> In y (f x) -> In y (f x') -> x = x') -> NoDup (flat_map f l).
Proof.
  induction 1 as [|x l Hx ND IH]; intros Hf Hd; simpl; [constructor|]. apply NoDup_app_intro.
  - apply Hf. left. reflexivity.
  - apply IH; [intros; apply Hf; right; assumption|]. intros a b y Ha Hb. apply Hd; right; assumption.
  - intros y Hy Hin. apply in_flat_map in Hin as (x' & Hx' & Hy'). assert (x = x').
    { eapply Hd; [left; reflexivity|right; exact Hx'|eassumption|assumption]. } subst. contradiction.
Qed.
Lemma NoDup_mcoo {V} (B : mat V) : NoDup (map fst (mcoo B)).
Proof.
  unfold mcoo. rewrite flat_map_concat_map, concat_map, map_map, <- flat_map_concat_map.
  apply NoDup_flat_map; [apply seq_NoDup| |].
  - intros i _. rewrite flat_map_concat_map, concat_map, map_map, <- flat_map_concat_map.
    apply NoDup_flat_map; [apply seq_NoDup| |].
    + intros j _. destruct (mget B i j); simpl; repeat constructor. intros [].
    + intros j j' y _ _ H1 H2. destruct (mget B i j); [|destruct H1]. destruct (mget B i j'); [|destruct H2].
      destruct H1 as [<-|[]], H2 as [[= ->]|[]]. reflexivity.
  - intros i i' y _ _ H1 H2. apply in_map_iff in H1 as (e & <- & H1), H2 as (e' & E & H2).
    apply in_flat_map in H1 as (j & _ & H1), H2 as (j' & _ & H2).
    destruct (mget B i j); [|destruct H1]. destruct (mget B i' j'); [|destruct H2].
    destruct H1 as [<-|[]], H2 as [<-|[]]. simpl in E. congruence.
Qed.

Lemma mapO_nodup {X Y I J} (f : X -> option Y) (g : X -> I) (h : Y -> J) l ys : mapO f l = Some ys -> NoDup (map g l) ->
  (forall x x' y y', f x = Some y -> f x' = Some y' -> h y = h y' -> g x = g x') -> NoDup (map h ys).
Proof.
  revert ys. induction l as [|x l IH]; simpl; intros ys H ND Hi.
  - injection H as <-. constructor.
  - destruct (f x) as [y|] eqn:E; [|discriminate]. destruct (mapO f l) as [ys'|] eqn:E'; [|discriminate].
    injection H as <-. simpl. inversion ND as [|? ? N1 N2]; subst. constructor; [|apply IH; auto].
    intros Hin. apply in_map_iff in Hin as (y' & Ey & Hy'). apply (proj1 (mapO_in _ _ _ E' y')) in Hy' as (x' & Hx' & Fx').
    apply N1. rewrite (Hi x x' y y' E Fx' ltac:(congruence)). apply in_map. assumption.
Qed.

(** what edge_boundary returns for every graph and arguments: with T omitted, only targets that have a successor of their own *)
Theorem C36_exact S T data :
  returns G (nx_edge_boundary G S T data) (fun l =>
    NoDup (map fst l) /\
    forall u v w, In (u, v, w) l <->
      In u S /\ match T with Some T' => In v T' | None => ~ In v S /\ exists x, edge G v x end /\
      exists x, weight G u v = Some x /\ w = if data then Some x else None).
Proof.
  unfold returns, nx_edge_boundary. apply answers_set_vec. intros v1 H1. apply answers_set_opt. intros v2 H2.
  assert (EF : forall v, eff (fun k => mem k S) (omap (fun T k => mem k T) T) v = true <->
     match T with Some T' => In v T' | None => ~ In v S /\ exists x, edge G v x end).
  { intros v. unfold eff. destruct T as [T|]; cbn [omap]; [apply mem_In|]. rewrite andb_true_iff, negb_true_iff, Nat.ltb_lt, <- mem_In.
    unfold out_degree. rewrite (count_nodes_pos G), not_true_iff_false. split.
    - intros (M & x & _ & Hx). split; [assumption|]. exists x. apply has_edge_true. assumption.
    - intros (M & x & Hx). split; [assumption|]. exists x. split; [|apply has_edge_true; assumption].
      destruct Hx as [y Hy]. apply weight_nodes in Hy. tauto. }
  eapply answers_bind.
  - apply (edge_boundary_ok v1 v2 (fun k => mem k S) (omap (fun T k => mem k T) T) data H1). destruct T, v2; try contradiction; auto.
  - intros B (B' & [= <-] & HB). apply answers_lifto. destruct HB as (MB & RB & CB & EB).
    set (f := fun e : nat * nat * Z => _).
    destruct (mapO_total f (mcoo B)) as [l Hl].
    { intros [[i j] w] Hin. apply in_mcoo in Hin; [|assumption]. apply mget_some_lt in Hin as [Hi Hj]; [|assumption].
      unfold f. destruct (kok_ikey _ _ (gkok G wf) i ltac:(unfold glen in *; lia)) as [u ->].
      destruct (kok_ikey _ _ (gkok G wf) j ltac:(unfold glen in *; lia)) as [v ->]. eauto. }
    exists l. rewrite Hl. split; [reflexivity|].
    assert (Hf : forall i j w u v w', f (i, j, w) = Some (u, v, w') <-> kid G u = Some i /\ kid G v = Some j /\ w' = if data then Some w else None).
    { intros i j w u v w'. unfold f. rewrite !(kid_inv G wf). destruct (ikey (g_kid G) i), (ikey (g_kid G) j); split;
        try (intros [= -> -> <-]; auto); try discriminate; intros (E1 & E2 & E3); congruence. }
    split.
    + eapply (mapO_nodup f fst fst); [exact Hl|apply NoDup_mcoo|].
      intros [[i j] w] [[i' j'] w'] [[u v] x] [[u' v'] x'] F1 F2 E. apply Hf in F1 as (K1 & K2 & _), F2 as (K3 & K4 & _).
      simpl in E. injection E as <- <-. simpl. congruence.
    + intros u v w. rewrite (mapO_in _ _ _ Hl). split.
      * intros ([[i j] x] & Hin & F). apply in_mcoo in Hin; [|assumption]. apply Hf in F as (K1 & K2 & Ew).
        rewrite (EB u v i j K1 K2) in Hin. destruct (mem u S) eqn:M; [|discriminate]. simpl in Hin.
        destruct (eff _ _ v) eqn:Ef; [|discriminate]. destruct (weight G u v) as [y|] eqn:W; [|discriminate].
        apply EF in Ef. apply mem_In in M. split; [assumption|]. split; [assumption|].
        exists y. split; [reflexivity|]. simpl in Hin. injection Hin as <-. rewrite Ew. destruct data; reflexivity.
      * intros (Hu & Hv & y & W & ->). assert (He : edge G u v) by (exists y; assumption).
        apply edge_iedge in He as (i & j & Ki & Kj & _). exists (i, j, if data then y else 1%Z). split.
        -- apply in_mcoo; [assumption|]. rewrite (EB u v i j Ki Kj). apply mem_In in Hu. rewrite Hu.
           apply EF in Hv. rewrite Hv, W. simpl. destruct data; reflexivity.
        -- apply Hf. split; [assumption|]. split; [assumption|]. destruct data; reflexivity.
  - intros e (B & [=] & _).
Qed.
Theorem C36_edge_boundary S T data : default_ok G S T ->
  returns G (nx_edge_boundary G S T data) (fun l =>
    NoDup (map fst l) /\
    forall u v w, In (u, v, w) l <->
      In u S /\ in_T S T v = true /\ exists x, weight G u v = Some x /\ w = if data then Some x else None).
Proof.
  intros Hd. eapply answers_conseq; [apply (C36_exact S T data)|]. intros o (l & -> & ND & H). exists l. split; [reflexivity|]. split; [assumption|].
  intros u v w. rewrite H.
  assert (X : (exists x, weight G u v = Some x /\ w = (if data then Some x else None)) ->
     (match T with Some T' => In v T' | None => ~ In v S /\ exists x, edge G v x end <-> in_T S T v = true)).
  { intros (x & W & _). assert (Hn : node G u /\ node G v) by (apply weight_nodes in W; tauto). unfold in_T. destruct T as [T|].
    - rewrite mem_In. reflexivity.
    - rewrite negb_true_iff, <- mem_In, not_true_iff_false. split; [tauto|]. intros M. split; [assumption|].
      destruct (Hd eq_refl) as [D|Hs].
      + exists u. apply has_edge_true. rewrite has_edge_sym by assumption. apply has_edge_true. exists x. assumption.
      + apply Hs; [tauto|]. rewrite <- mem_In. congruence. }
  split; intros (A1 & A2 & A3); (split; [assumption|]; split; [apply (X A3); assumption|assumption]).
Qed.

(** ** C37 *)
Lemma vxm_any_has (v : vec bool) (P : nkey -> bool) u j : svec G v P -> kid G u = Some j ->
  (has (vget (vxm op_any op_pairb v A) j) = true <-> exists x, P x = true /\ edge G x u).
Proof.
  intros Hv Hu. rewrite vget_vxm by assumption. rewrite has_ored_true. split.
  - intros (i & Hi & Hh). rewrite has_oboth in Hh. apply andb_true_iff in Hh as [H1 H2].
    destruct (kid_key G wf i Hi) as [x Hx]. exists x. rewrite (svec_has G _ _ _ _ Hv Hx) in H1. split; [assumption|].
    apply has_edge_true. rewrite (has_edge_kid G _ _ _ _ Hx Hu). assumption.
  - intros (x & Hx & He). apply edge_iedge in He as (i & j' & Ki & Kj & He). assert (j' = j) by congruence. subst.
    exists i. split; [exact (kid_lt G wf _ _ Ki)|]. rewrite has_oboth, (svec_has G _ _ _ _ Hv Ki), Hx. simpl. apply has_true. exact He.
Qed.
Lemma node_boundary_has v1 P m (Q : nkey -> bool) : svec G v1 P ->
  match m, Q with Some p, Q => forall u i, kid G u = Some i -> p i = Q u | None, _ => forall u, Q u = true end ->
  forall u i, kid G u = Some i -> (has (vget (node_boundary G v1 m) i) = true <-> P u = false /\ Q u = true /\ exists x, P x = true /\ edge G x u).
Proof.
  intros Hv Hm u i Hu. unfold node_boundary. rewrite vget_vrestrict. rewrite <- (vxm_any_has v1 P u i Hv Hu).
  destruct m as [p|]; unfold mNS; rewrite (svec_has G _ _ _ _ Hv Hu).
  - rewrite (Hm u i Hu). destruct (P u), (Q u); simpl; intuition congruence.
  - rewrite (Hm u). destruct (P u); simpl; intuition congruence.
Qed.
Lemma node_boundary_size v1 m : vsize (node_boundary G v1 m) = n.
Proof. unfold node_boundary. rewrite vsize_vrestrict. unfold vxm. rewrite vsize_vbuild. exact Hsq. Qed.
Lemma is_set_has (v : vec bool) (P : nkey -> Prop) : vsize v <= n ->
  (forall u i, kid G u = Some i -> (has (vget v i) = true <-> P u)) -> (forall u, P u -> node G u) -> is_set (to_nodeset G v) P.
Proof.
  intros H1 H2 H3. apply is_set_intro; [assumption|assumption|]. intros u. split.
  - intros Hu. destruct (proj1 (node_kid G u) (H3 u Hu)) as [i Hi]. exists i. split; [assumption|]. apply H2 with (u := u); assumption.
  - intros (i & Hi & Hh). apply H2 in Hi. apply Hi. assumption.
Qed.

Theorem C37_node_boundary S T :
  returns G (nx_node_boundary G S T) (fun r =>
    is_set r (fun v => ~ In v S /\ (forall T', T = Some T' -> In v T') /\ exists u, In u S /\ edge G u v)).
Proof.
  unfold returns, nx_node_boundary. apply answers_set_vec. intros v1 H1. apply answers_set_opt. intros v2 H2.
  apply answers_ret. eexists. split; [reflexivity|]. apply is_set_has; [rewrite node_boundary_size; reflexivity| |].
  - intros u i Hu. rewrite (node_boundary_has v1 (fun k => mem k S) (omap mS v2) (fun k => match T with Some T => mem k T | None => true end) H1) with (u := u); [| |assumption].
    + split.
      * intros (Hs & Ht & x & Hx & He). split; [rewrite <- mem_In; congruence|]. split; [intros T' ->; apply mem_In; assumption|].
        exists x. split; [apply mem_In; assumption|assumption].
      * intros (Hs & Ht & x & Hx & He). split; [destruct (mem u S) eqn:M; [apply mem_In in M; contradiction|reflexivity]|]. split.
        -- destruct T as [T|]; [apply mem_In, Ht; reflexivity|reflexivity].
        -- exists x. split; [apply mem_In; assumption|assumption].
    + destruct T as [T|], v2 as [v2|]; try contradiction; simpl; auto.
      intros x j Hx. unfold mS. apply (svec_has G _ _ _ _ H2 Hx).
  - intros u (_ & _ & x & _ & y & Hy). apply weight_nodes in Hy. tauto.
Qed.

(** ** C38 *)
Lemma cut_size_ok s t P Q w : svec G s P -> match t, Q with Some t, Some Q => svec G t Q | None, None => g_dir G = false | _, _ => False end ->
  answers G (cut_size G (Some s) t w) (eq (Val (crossing G w P (eff P Q) + if g_dir G then match Q with Some Q => crossing G w Q P | None => 0 end else 0)%Z)).
Proof.
  intros Hs Ht. unfold cut_size.
  assert (V : forall B P Q, bmat B w P Q -> (if w then mplus B else Z.of_nat (mnvals B)) = crossing G w P Q).
  { intros B P0 Q0 HB. destruct w; [apply bmat_mplus|apply bmat_mnvals]; assumption. }
  eapply answers_bind; [apply (edge_boundary_ok s t P Q w Hs); destruct t, Q; try contradiction; auto| |].
  - intros B (B' & [= <-] & HB). rewrite (V _ _ _ HB). destruct (g_dir G) eqn:D.
    + destruct t as [t|], Q as [Q|]; try contradiction; try discriminate.
      eapply answers_bind; [apply (edge_boundary_ok t (Some s) Q (Some P) w Ht Hs)| |].
      * intros B2 (B' & [= <-] & HB2). rewrite (V _ _ _ HB2). apply answers_ret. reflexivity.
      * intros e (? & [=] & _).
    + apply answers_ret. rewrite Z.add_0_r. reflexivity.
  - intros e (? & [=] & _).
Qed.
Theorem C38_cut_size S T w : (T = None -> g_dir G = false) ->
  returns G (nx_cut_size G S T w) (fun z => z = cut G w (fun k => mem k S) (in_T S T)).
Proof.
  intros Hd. unfold returns, nx_cut_size. apply answers_set_vec. intros s Hs. apply answers_set_opt. intros t Ht.
  eapply answers_conseq; [apply (cut_size_ok s t (fun k => mem k S) (omap (fun T k => mem k T) T) w Hs)|].
  - destruct T, t; try contradiction; simpl; auto.
  - intros o <-. eexists. split; [reflexivity|]. unfold cut. f_equal.
    + apply crossing_ext. intros u v He. f_equal. apply (eff_edge S T u v); [intros E; left; auto|assumption].
    + destruct (g_dir G) eqn:D; [|reflexivity]. destruct T as [T|]; [|discriminate Hd; reflexivity]. reflexivity.
Qed.
(** for disjoint sets of an undirected graph: every edge with one end in each is counted once *)
Theorem C38_cut_undirected w P Q : g_dir G = false -> (forall u, node G u -> P u && Q u = false) ->
  cut G w P Q = total (fun e => ewt G w (fst e) (snd e))
                  (filter (fun e => P (fst e) && Q (snd e) || P (snd e) && Q (fst e)) (edges G)).
Proof.
  intros Hd Hdis. unfold cut. rewrite Hd, Z.add_0_r. unfold crossing, edges. rewrite Hd, !total_filter.
  rewrite (total_pairs_upairs nkey_eqb (fun u v => if P u && Q v then ewt G w u v else 0%Z) (gnodes G) (gnodes_nodup G wf) (nkey_eqb_in G)).
  apply total_ext. intros [u v] Hin. cbn [fst snd]. apply in_upairs in Hin as [Hu Hv].
  assert (Z0 : has_edge G u v = false -> ewt G w u v = 0%Z).
  { unfold ewt, has_edge, weight0. destruct (weight G u v); [discriminate|]. destruct w; reflexivity. }
  assert (SY : ewt G w v u = ewt G w u v) by (unfold ewt; rewrite (has_edge_sym G wf v u Hd), (weight0_sym G wf v u Hd); reflexivity).
  rewrite SY. pose proof (Hdis u Hu) as Du. pose proof (Hdis v Hv) as Dv.
  destruct (nkey_eqb u v) eqn:E.
  - apply nkey_eqb_eq in E. subst. rewrite Du. simpl. destruct (has_edge G v v); reflexivity.
  - destruct (has_edge G u v) eqn:He; [|rewrite Z0 by reflexivity; destruct (P u && Q v), (P v && Q u); reflexivity].
    destruct (P u), (Q v), (P v), (Q u); simpl in *; try discriminate; lia.
Qed.

(** ** C39 *)
Lemma vsum_zsum (v : vec Z) : vsum v = zsum (vsize v) (fun i => oz (vget v i)).
Proof. unfold vsum, vreduce. apply oz_ored_plus. Qed.
Lemma ewt_total_false u i : kid G u = Some i -> total (fun v => ewt G false u v) (gnodes G) = Z.of_nat (out_degree G u).
Proof. intros Hu. symmetry. apply total_count. Qed.
Lemma volume_ok s P : svec G s P -> answers G (volume G s false) (eq (Val (vol G false P))).
Proof.
  intros Hs. unfold volume. eapply answers_bind_GV; [apply (get_red_ok G wf true eq_refl)|]. apply answers_ret. f_equal.
  cbn [msk]. rewrite vsum_zsum, vsize_vrestrict, (den_count G), vsize_vbuild. unfold vol, members. rewrite total_filter.
  apply (total_nodes G wf). intros u i Hu. rewrite vget_vrestrict. unfold mS. rewrite (svec_has G _ _ _ _ Hs Hu).
  destruct (P u); [|reflexivity]. rewrite vget_vbuild. assert (L : i < n) by exact (kid_lt G wf _ _ Hu).
  apply Nat.ltb_lt in L. unfold glen in L. rewrite L, onz_zsum. rewrite (ewt_total_false u i Hu), (out_degree_id G wf u i Hu). reflexivity.
Qed.
Lemma volume_weighted_ok s P : svec G s P ->
  answers G (volume G s true) (eq (Val (total (fun v => total (fun u => weight0 G u v) (gnodes G)) (members G P)))).
Proof.
  intros Hs. unfold volume. apply answers_ret. f_equal. rewrite vsum_zsum. unfold mxv at 1. rewrite vsize_vbuild.
  unfold members. rewrite total_filter. symmetry.
  rewrite (total_nodes G wf _ (fun j => zsum n (fun i => if has (vget s j) then oz (mget A i j) else 0%Z))).
  - rewrite zsum_swap. apply zsum_ext. intros i Hi. rewrite vget_mxv by assumption. rewrite oz_ored_plus, Hsq.
    apply zsum_ext. intros j Hj. destruct (vget s j), (mget A i j); reflexivity.
  - intros v j Hv. rewrite (svec_has G _ _ _ _ Hs Hv). destruct (P v); [|rewrite zsum_const; lia].
    apply (total_nodes G wf). intros u i Hu. apply weight0_kid; assumption.
Qed.
Lemma answers_list_vec {Y} l (f : vec bool -> M Y) (R : outcome Y -> Prop) :
  (forall v, svec G v (fun u => mem u l) -> (forall k, In k l -> node G k) -> answers G (f v) R) ->
  (forall k, In k l -> ~ node G k -> R (Raise EKey)) -> answers G (bind (list_vec_of G l) f) R.
Proof.
  intros H H'. unfold list_vec_of. destruct (list_vec_ok G wf l) as [(v & E & Hv & Hn)|(E & k & Hk & Hn)]; rewrite E.
  - apply (answers_ret_bind G). apply H; assumption.
  - eapply answers_bind_e; [apply answers_lifto; reflexivity|]. eapply H'; eassumption.
Qed.
Theorem C39_volume S w : (w = true -> g_dir G = false) ->
  answers G (nx_volume G S w) (fun o =>
    match o with
    | Val z => (forall k, In k S -> node G k) /\ z = vol G w (fun k => mem k S)
    | Raise e => e = EKey /\ exists k, In k S /\ ~ node G k
    end).
Proof.
  intros Hd. unfold nx_volume. apply answers_list_vec; [|intros k H1 H2; eauto]. intros v Hv Hn. destruct w.
  - eapply answers_conseq; [apply (volume_weighted_ok v _ Hv)|]. intros o <-. split; [assumption|].
    apply total_ext. intros u _. apply total_ext. intros x _. apply weight0_sym; [assumption|]. auto.
  - eapply answers_conseq; [apply (volume_ok v _ Hv)|]. intros o <-. split; [assumption|reflexivity].
Qed.
(** what it computes for a weighted directed graph: the sum of the weighted in-degrees *)
Theorem C39_volume_weighted_partial S :
  answers G (nx_volume G S true) (fun o =>
    match o with
    | Val z => (forall k, In k S -> node G k) /\ z = total (fun v => total (fun u => weight0 G u v) (gnodes G)) (members G (fun k => mem k S))
    | Raise e => e = EKey /\ exists k, In k S /\ ~ node G k
    end).
Proof.
  unfold nx_volume. apply answers_list_vec; [|intros k H1 H2; eauto]. intros v Hv Hn.
  eapply answers_conseq; [apply (volume_weighted_ok v _ Hv)|]. intros o <-. split; [assumption|reflexivity].
Qed.

(** ** C40 *)
Lemma answers_compl {Y} s S T (f : vec bool -> M Y) R : svec G s (fun u => mem u S) ->
  (forall v, svec G v (in_T S T) -> answers G (f v) R) -> answers G (bind (t_or_compl G s T) f) R.
Proof.
  intros Hs H. unfold t_or_compl. destruct T as [T|].
  - apply answers_set_vec. exact H.
  - apply (answers_ret_bind G). apply H. apply (svec_compl G wf s _ Hs).
Qed.
Lemma pdiv_ok a b : pdiv a b = if (b =? 0)%Z then Raise EZeroDiv else Val (inject_Z a / inject_Z b)%Q.
Proof. reflexivity. Qed.
Lemma cut_cut P Q : (crossing G false P (eff P (Some Q)) + if g_dir G then crossing G false Q P else 0)%Z = cut G false P Q.
Proof. reflexivity. Qed.
Theorem C40_normalized_cut_size S T w :
  let P := fun k => mem k S in let Q := in_T S T in
  answers G (nx_normalized_cut_size G S T w) (fun o =>
    match o with
    | Val x => vol G false P <> 0%Z /\ vol G false Q <> 0%Z /\
        (x == inject_Z (cut G false P Q) * (1 / inject_Z (vol G false P) + 1 / inject_Z (vol G false Q)))%Q
    | Raise e => e = EZeroDiv /\ (vol G false P = 0%Z \/ vol G false Q = 0%Z)
    end).
Proof.
  intros P Q. unfold nx_normalized_cut_size, normalized_cut_size. apply answers_set_vec. intros s Hs. apply (answers_compl s S T); [assumption|]. intros t Ht.
  eapply answers_bind_v; [apply (cut_size_ok s (Some t) P (Some Q) false Hs Ht)|]. rewrite cut_cut.
  eapply answers_bind_v; [apply (volume_ok s P Hs)|]. eapply answers_bind_v; [apply (volume_ok t Q Ht)|].
  rewrite !pdiv_ok. destruct (Z.eqb_spec (vol G false P) 0) as [E|E].
  { eapply answers_bind_e; [apply answers_lifto; reflexivity|]. auto. }
  eapply answers_bind_v; [apply answers_lifto; reflexivity|]. destruct (Z.eqb_spec (vol G false Q) 0) as [E'|E'].
  { eapply answers_bind_e; [apply answers_lifto; reflexivity|]. auto. }
  eapply answers_bind_v; [apply answers_lifto; reflexivity|]. apply answers_ret. split; [assumption|]. split; [assumption|]. reflexivity.
Qed.
Theorem C40_conductance S T w :
  let P := fun k => mem k S in let Q := in_T S T in
  answers G (nx_conductance G S T w) (fun o =>
    match o with
    | Val x => (x == inject_Z (cut G false P Q) / inject_Z (Z.min (vol G false P) (vol G false Q)))%Q /\
               Z.min (vol G false P) (vol G false Q) <> 0%Z
    | Raise e => e = EZeroDiv /\ Z.min (vol G false P) (vol G false Q) = 0%Z
    end).
Proof.
  intros P Q. unfold nx_conductance, conductance. apply answers_set_vec. intros s Hs. apply (answers_compl s S T); [assumption|]. intros t Ht.
  eapply answers_bind_v; [apply (cut_size_ok s (Some t) P (Some Q) false Hs Ht)|]. rewrite cut_cut.
  eapply answers_bind_v; [apply (volume_ok s P Hs)|]. eapply answers_bind_v; [apply (volume_ok t Q Ht)|].
  apply answers_lifto. rewrite pdiv_ok. destruct (Z.eqb_spec (Z.min (vol G false P) (vol G false Q)) 0); split; auto; reflexivity.
Qed.

(** ** C41 *)
Definition card (P : nkey -> bool) : Z := Z.of_nat (List.length (members G P)).
Lemma compl_card s P : svec G s P -> vsize s - nvals s = List.length (members G (fun k => negb (P k))).
Proof.
  intros Hs. rewrite (svec_nvals G wf s P Hs), (proj1 Hs). pose proof (svec_nvals G wf _ _ (svec_compl G wf s P Hs)) as E.
  change (List.length (members G P)) with (count P (gnodes G)). change (List.length (members G (fun k => negb (P k)))) with (count (fun k => negb (P k)) (gnodes G)).
  assert (F : count P (gnodes G) + count (fun k => negb (P k)) (gnodes G) = n); [|lia].
  replace n with (List.length (gnodes G)).
  - unfold count. generalize (gnodes G). induction l as [|a l IH]; simpl; [reflexivity|]. destruct (P a); simpl; lia.
  - unfold gnodes. rewrite map_length. apply (kok_len _ _ (gkok G wf)).
Qed.
Theorem C41_edge_expansion S T w : (T = None -> g_dir G = false) ->
  let P := fun k => mem k S in let Q := in_T S T in
  answers G (nx_edge_expansion G S T w) (fun o =>
    match o with
    | Val x => (x == inject_Z (cut G false P Q) / inject_Z (Z.min (card P) (card Q)))%Q /\ Z.min (card P) (card Q) <> 0%Z
    | Raise e => e = EZeroDiv /\ Z.min (card P) (card Q) = 0%Z
    end).
Proof.
  intros Hd P Q. unfold nx_edge_expansion, edge_expansion. apply answers_set_vec. intros s Hs. apply answers_set_opt. intros t Ht.
  eapply answers_bind_v; [apply (cut_size_ok s t P (omap (fun T k => mem k T) T) false Hs); destruct T, t; try contradiction; simpl; auto|].
  assert (EC : (crossing G false P (eff P (omap (fun T k => mem k T) T)) + (if g_dir G then match omap (fun T k => mem k T) T with Some Q => crossing G false Q P | None => 0 end else 0))%Z = cut G false P Q).
  { unfold cut. f_equal.
    - apply crossing_ext. intros u v He. f_equal. apply (eff_edge S T u v); [intros E; left; auto|assumption].
    - destruct (g_dir G) eqn:D; [|reflexivity]. destruct T as [T|]; [|discriminate Hd; reflexivity]. reflexivity. }
  rewrite EC.
  assert (ET : Z.of_nat (match t with Some t => nvals t | None => vsize s - nvals s end) = card Q).
  { unfold card. f_equal. destruct T as [T|], t as [t|]; try contradiction; [apply (svec_nvals G wf t _ Ht)|apply compl_card; assumption]. }
  rewrite ET.
  replace (Z.of_nat (nvals s)) with (card P) by (unfold card; rewrite (svec_nvals G wf s P Hs); reflexivity).
  apply answers_lifto. rewrite pdiv_ok. destruct (Z.eqb_spec (Z.min (card P) (card Q)) 0); split; auto; reflexivity.
Qed.
Theorem C41_mixing_expansion S T w : g_dir G = false -> loop_free G ->
  let P := fun k => mem k S in let Q := in_T S T in
  answers G (nx_mixing_expansion G S T w) (fun o =>
    match o with
    | Val x => edges G <> [] /\ (x == inject_Z (cut G false P Q) / inject_Z (2 * Z.of_nat (List.length (edges G))))%Q
    | Raise e => e = EZeroDiv /\ edges G = []
    end).
Proof.
  intros Hd Hl P Q. unfold nx_mixing_expansion, mixing_expansion. apply answers_set_vec. intros s Hs. apply answers_set_opt. intros t Ht.
  eapply answers_bind_v; [apply (cut_size_ok s t P (omap (fun T k => mem k T) T) false Hs); destruct T, t; try contradiction; simpl; auto|].
  assert (EC : (crossing G false P (eff P (omap (fun T k => mem k T) T)) + (if g_dir G then match omap (fun T k => mem k T) T with Some Q => crossing G false Q P | None => 0 end else 0))%Z = cut G false P Q).
  { unfold cut. rewrite Hd. f_equal. apply crossing_ext. intros u v He. f_equal. apply (eff_edge S T u v); [intros E; left; auto|assumption]. }
  rewrite EC, (edges_undirected G wf Hd Hl). apply answers_lifto. rewrite pdiv_ok, Nat2Z.inj_mul.
  destruct (Z.eqb_spec (Z.of_nat 2 * Z.of_nat (List.length (edges G))) 0) as [E|E].
  - split; [reflexivity|]. destruct (edges G); [reflexivity|]. cbn [List.length] in E. lia.
  - split; [|reflexivity]. intros E'. rewrite E' in E. apply E. reflexivity.
Qed.
(** for every graph, with the number of stored entries (directed edges, or neighbour pairs) below the line *)
Theorem C41_mixing_expansion_partial S T w : (T = None -> g_dir G = false) ->
  let P := fun k => mem k S in let Q := in_T S T in
  let m := count (fun e => has_edge G (fst e) (snd e)) (pairs (gnodes G)) in
  answers G (nx_mixing_expansion G S T w) (fun o =>
    match o with
    | Val x => m <> 0 /\ (x == inject_Z (cut G false P Q) / inject_Z (Z.of_nat m))%Q
    | Raise e => e = EZeroDiv /\ m = 0
    end).
Proof.
  intros Hd P Q m. unfold nx_mixing_expansion, mixing_expansion. apply answers_set_vec. intros s Hs. apply answers_set_opt. intros t Ht.
  eapply answers_bind_v; [apply (cut_size_ok s t P (omap (fun T k => mem k T) T) false Hs); destruct T, t; try contradiction; simpl; auto|].
  assert (EC : (crossing G false P (eff P (omap (fun T k => mem k T) T)) + (if g_dir G then match omap (fun T k => mem k T) T with Some Q => crossing G false Q P | None => 0 end else 0))%Z = cut G false P Q).
  { unfold cut. f_equal.
    - apply crossing_ext. intros u v He. f_equal. apply (eff_edge S T u v); [intros E; left; auto|assumption].
    - destruct (g_dir G) eqn:D; [|reflexivity]. destruct T as [T|]; [|discriminate Hd; reflexivity]. reflexivity. }
  rewrite EC, (mnvals_A G wf). apply answers_lifto. rewrite pdiv_ok. fold m.
  destruct (Z.eqb_spec (Z.of_nat m) 0); split; auto; try lia; reflexivity.
Qed.

(** ** C42 *)
Definition neighbour_of (S : list nkey) (v : nkey) : bool := existsb (fun u => has_edge G u v) S.
Lemma neighbour_of_iff S v : neighbour_of S v = true <-> exists u, mem u S = true /\ edge G u v.
Proof.
  unfold neighbour_of. rewrite existsb_exists. split; intros (u & H1 & H2); exists u; rewrite mem_In, has_edge_true in *; auto.
Qed.
Lemma nvals_members (v : vec bool) (P : nkey -> bool) : vsize v = n -> (forall u i, kid G u = Some i -> has (vget v i) = P u) ->
  nvals v = List.length (members G P).
Proof. intros H1 H2. unfold nvals. rewrite H1. symmetry. apply (count_nodes G wf P). intros u i Hu. symmetry. apply H2. assumption. Qed.
Theorem C42_node_expansion S :
  answers G (nx_node_expansion G S) (fun o =>
    match o with
    | Val x => (forall k, In k S -> node G k) /\ (exists k, In k S) /\
        (x == inject_Z (card (neighbour_of S)) / inject_Z (card (fun k => mem k S)))%Q
    | Raise e => (e = EKey /\ exists k, In k S /\ ~ node G k) \/ (e = EZeroDiv /\ S = [])
    end).
Proof.
  unfold nx_node_expansion, node_expansion. apply answers_list_vec; [|intros k H1 H2; eauto]. intros s Hs Hn. apply answers_lifto.
  rewrite pdiv_ok. rewrite (svec_nvals G wf s _ Hs).
  rewrite (nvals_members (vxm op_any op_pairb s A) (neighbour_of S)).
  - destruct (Z.eqb_spec (Z.of_nat (List.length (members G (fun u => mem u S)))) 0) as [E|E].
    + right. split; [reflexivity|]. destruct S as [|k S]; [reflexivity|]. exfalso.
      assert (In k (members G (fun u => mem u (k :: S)))) by (apply filter_In; split; [apply Hn; left; reflexivity|apply mem_In; left; reflexivity]).
      destruct (members G _); [contradiction|]. cbn [List.length] in E. lia.
    + split; [assumption|]. split; [|reflexivity]. destruct S as [|k S]; [|exists k; left; reflexivity]. exfalso. apply E. unfold members.
      replace (filter (fun u => mem u []) (gnodes G)) with (@nil nkey); [reflexivity|]. induction (gnodes G); simpl; auto.
  - unfold vxm. rewrite vsize_vbuild. exact Hsq.
  - intros u i Hu. apply eq_true_iff_eq. rewrite (vxm_any_has s _ u i Hs Hu), neighbour_of_iff. reflexivity.
Qed.
Theorem C42_boundary_expansion S :
  answers G (nx_boundary_expansion G S) (fun o =>
    match o with
    | Val x => card (fun k => mem k S) <> 0%Z /\
        (x == inject_Z (card (fun v => negb (mem v S) && neighbour_of S v)) / inject_Z (card (fun k => mem k S)))%Q
    | Raise e => e = EZeroDiv /\ card (fun k => mem k S) = 0%Z
    end).
Proof.
  unfold nx_boundary_expansion, boundary_expansion. apply answers_set_vec. intros s Hs. apply answers_lifto.
  rewrite pdiv_ok. rewrite (svec_nvals G wf s _ Hs).
  rewrite (nvals_members (node_boundary G s None) (fun v => negb (mem v S) && neighbour_of S v)).
  - fold (card (fun k => mem k S)). destruct (Z.eqb_spec (card (fun k => mem k S)) 0); split; auto; reflexivity.
  - apply node_boundary_size.
  - intros u i Hu. apply eq_true_iff_eq. rewrite (node_boundary_has s _ None (fun _ => true) Hs (fun _ => eq_refl) u i Hu).
    rewrite andb_true_iff, neighbour_of_iff, negb_true_iff. tauto.
Qed.

(** ** C43 *)
Theorem C43_is_dominating_set S :
  returns G (nx_is_dominating_set G S) (fun r =>
    r = true <-> forall v, node G v -> ~ In v S -> exists u, In u S /\ edge G u v).
Proof.
  unfold returns, nx_is_dominating_set. apply answers_set_vec. intros s Hs. apply answers_ret. eexists. split; [reflexivity|].
  unfold is_dominating_set. change (vrestrict (mNS s) (vxm op_any op_pairb s A)) with (node_boundary G s None).
  rewrite node_boundary_size. rewrite (svec_nvals G wf s _ Hs).
  rewrite (nvals_members (node_boundary G s None) (fun v => negb (mem v S) && neighbour_of S v)).
  - pose proof (compl_card s _ Hs) as E. rewrite (svec_nvals G wf s _ Hs), (proj1 Hs) in E.
    assert (LE : List.length (members G (fun u => mem u S)) <= n).
    { change (List.length (members G (fun u => mem u S))) with (count (fun u => mem u S) (gnodes G)).
      unfold count. replace n with (List.length (gnodes G)); [generalize (gnodes G); induction l as [|a l IH]; simpl; [lia|]; destruct (mem a S); simpl; lia|].
      unfold gnodes. rewrite map_length. apply (kok_len _ _ (gkok G wf)). }
    rewrite Z.eqb_eq. transitivity (count (fun v => negb (mem v S) && neighbour_of S v) (gnodes G) = count (fun v => negb (mem v S)) (gnodes G)).
    { unfold count, members in *. lia. }
    split.
    + intros Eq v Hv Hn. assert (F : forall x, In x (gnodes G) -> negb (mem x S) = true -> neighbour_of S x = true).
      { clear - Eq. unfold count in Eq. induction (gnodes G) as [|a l IH]; [intros x []|]. simpl in Eq.
        assert (LE : List.length (filter (fun v => negb (mem v S) && neighbour_of S v) l) <= List.length (filter (fun v => negb (mem v S)) l)).
        { clear. induction l as [|b l IH]; simpl; [lia|]. destruct (negb (mem b S)), (neighbour_of S b); simpl; lia. }
        intros x [->|Hx] Hm.
        - rewrite Hm in Eq. simpl in Eq. destruct (neighbour_of S x); [reflexivity|]. simpl in Eq. lia.
        - apply IH; [|assumption|assumption]. destruct (negb (mem a S)), (neighbour_of S a); simpl in Eq; lia. }
      apply F in Hv; [|destruct (mem v S) eqn:M; [apply mem_In in M; contradiction|reflexivity]].
      apply neighbour_of_iff in Hv as (u & Hu & He). exists u. split; [apply mem_In; assumption|assumption].
    + intros H. apply count_ext. intros v Hv. destruct (mem v S) eqn:M; [reflexivity|]. simpl. apply neighbour_of_iff.
      destruct (H v Hv) as (u & Hu & He); [rewrite <- mem_In; congruence|]. exists u. split; [apply mem_In; assumption|assumption].
  - apply node_boundary_size.
  - intros u i Hu. apply eq_true_iff_eq. rewrite (node_boundary_has s _ None (fun _ => true) Hs (fun _ => eq_refl) u i Hu).
    rewrite andb_true_iff, neighbour_of_iff, negb_true_iff. tauto.
Qed.
End P.

(** ** Where the code departs from the properties *)
Definition k0 := KI 0. Definition k1 := KI 1. Definition k2 := KI 2. Definition k3 := KI 3.
(** directed 0 -> 1: node 1 has no successor *)
Definition d01 := mkg true 2 [(0, 1, 5%Z)].
(** undirected path 0-1-2-3 with weights 5, 3, 1 *)
Definition path4 := mkg false 4 [(0, 1, 5%Z); (1, 2, 3%Z); (2, 3, 1%Z)].
(** directed cycle with a chord *)
Definition dcyc := mkg true 4 [(0, 1, 2%Z); (1, 2, 3%Z); (2, 3, 4%Z); (3, 0, 5%Z); (0, 2, 7%Z)].

Theorem C36_default_refuted : exists G S u v, gwf G /\ In u S /\ ~ In v S /\ edge G u v /\
  fst (nx_edge_boundary G S None false st0) = Val [].
Proof.
  exists d01, [k0], k0, k1. split; [apply mkg_wf|]. split; [left; reflexivity|]. split; [intros [[=]|[]]|].
  split; [exists 5%Z; reflexivity|]. vm_compute. reflexivity.
Qed.
Theorem C38_default_refuted : exists G S, gwf G /\ g_dir G = true /\
  fst (nx_cut_size G S None false st0) = Raise EType /\ fst (nx_edge_expansion G S None false st0) = Raise EType.
Proof. exists d01, [k0]. split; [apply mkg_wf|]. vm_compute. auto. Qed.
Theorem C39_weighted_refuted : exists G S z, gwf G /\ fst (nx_volume G S true st0) = Val z /\
  z <> vol G true (fun k => mem k S).
Proof. exists d01, [k0]. eexists. split; [apply mkg_wf|]. split; [vm_compute; reflexivity|]. vm_compute. discriminate. Qed.
(** naming a weight has no effect on normalized_cut_size and conductance (and the expansions) *)
Theorem C40_weight_refuted : exists G S x y, gwf G /\
  let P := fun k => mem k S in let Q := in_T S None in
  fst (nx_normalized_cut_size G S None true st0) = Val x /\
  ~ (x == inject_Z (cut G true P Q) * (1 / inject_Z (vol G true P) + 1 / inject_Z (vol G true Q)))%Q /\
  fst (nx_conductance G S None true st0) = Val y /\
  ~ (y == inject_Z (cut G true P Q) / inject_Z (Z.min (vol G true P) (vol G true Q)))%Q.
Proof.
  exists path4, [k0; k1]. do 2 eexists. split; [apply mkg_wf|]. cbv zeta.
  split; [vm_compute; reflexivity|]. split; [vm_compute; discriminate|]. split; [vm_compute; reflexivity|]. vm_compute. discriminate.
Qed.
Theorem C41_weight_refuted : exists G S x y, gwf G /\ g_dir G = false /\
  let P := fun k => mem k S in let Q := in_T S None in
  fst (nx_edge_expansion G S None true st0) = Val x /\
  ~ (x == inject_Z (cut G true P Q) / inject_Z (Z.min (card G P) (card G Q)))%Q /\
  fst (nx_mixing_expansion G S None true st0) = Val y /\
  ~ (y == inject_Z (cut G true P Q) / inject_Z (2 * Z.of_nat (List.length (edges G))))%Q.
Proof.
  exists path4, [k0; k1]. do 2 eexists. split; [apply mkg_wf|]. split; [reflexivity|]. cbv zeta.
  split; [vm_compute; reflexivity|]. split; [vm_compute; discriminate|]. split; [vm_compute; reflexivity|]. vm_compute. discriminate.
Qed.
(** mixing_expansion divides by the edge count, not twice it, for directed graphs; self-loops also spoil it *)
Theorem C41_mixing_refuted : exists G H S x y, gwf G /\ g_dir G = true /\ gwf H /\ g_dir H = false /\
  let P := fun k => mem k S in let Q := in_T S (Some [k1]) in
  fst (nx_mixing_expansion G S (Some [k1]) false st0) = Val x /\
  ~ (x == inject_Z (cut G false P Q) / inject_Z (2 * Z.of_nat (List.length (edges G))))%Q /\
  fst (nx_mixing_expansion H S (Some [k1]) false st0) = Val y /\
  ~ (y == inject_Z (cut H false P Q) / inject_Z (2 * Z.of_nat (List.length (edges H))))%Q.
Proof.
  exists d01, (mkg false 2 [(0, 0, 1%Z); (0, 1, 1%Z)]), [k0]. do 2 eexists. split; [apply mkg_wf|]. split; [reflexivity|]. split; [apply mkg_wf|]. split; [reflexivity|]. cbv zeta.
  split; [vm_compute; reflexivity|]. split; [vm_compute; discriminate|]. split; [vm_compute; reflexivity|]. vm_compute. discriminate.
Qed.

(** ** Concrete cases meeting the hypotheses *)
Example C36_ex : default_ok dcyc [k0; k1] None /\ default_ok path4 [k0; k1] None /\
  fst (nx_edge_boundary dcyc [k0; k1] None true st0) = Val [(k0, k2, Some 7%Z); (k1, k2, Some 3%Z)].
Proof.
  split; [|split].
  - intros _. right. intros v Hv _.
    unfold node in Hv. vm_compute in Hv.
    destruct Hv as [<-|[<-|[<-|[<-|[]]]]];
      [exists k1; exists 2%Z|exists k2; exists 3%Z|exists k3; exists 4%Z|exists k0; exists 5%Z]; reflexivity.
  - intros _. left. reflexivity.
  - vm_compute. reflexivity.
Qed.
Example C38_ex : fst (nx_cut_size dcyc [k0; k1] (Some [k2; k3]) true st0) = Val 15%Z /\
  fst (nx_cut_size path4 [k0; k2] None true st0) = Val 9%Z /\ fst (nx_volume path4 [k0; k1] true st0) = Val 13%Z /\
  fst (nx_is_dominating_set path4 [k1; k2] st0) = Val true /\ fst (nx_is_dominating_set path4 [k0; k1] st0) = Val false.
Proof. vm_compute. auto. Qed.
Example C41_ex : loop_free path4 /\ exists x, fst (nx_mixing_expansion path4 [k0; k1] None false st0) = Val x /\ (x == 1 # 6)%Q.
Proof.
  split.
  - apply loop_free_dcount; [apply mkg_wf|]. vm_compute. reflexivity.
  - eexists. split; [vm_compute; reflexivity|]. vm_compute. reflexivity.
Qed.

Print Assumptions C36_exact.
Print Assumptions C36_edge_boundary.
Print Assumptions C37_node_boundary.
Print Assumptions C38_cut_size.
Print Assumptions C38_cut_undirected.
Print Assumptions C39_volume.
Print Assumptions C40_normalized_cut_size.
Print Assumptions C40_conductance.
Print Assumptions C41_edge_expansion.
Print Assumptions C41_mixing_expansion.
Print Assumptions C42_node_expansion.
Print Assumptions C42_boundary_expansion.
Print Assumptions C43_is_dominating_set.
