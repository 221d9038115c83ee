(** * C18, C19: Floyd-Warshall *)
From Verif Require Import Base BaseProofs Model_Graph Model_Cache Model_Keys Model_Utils Model_Bfs Model_Weighted Model_Dense Spec Spec_Cache Spec_Run Spec_Weighted
  CacheMath CacheProofs CacheProofs2 RunProofs KeyProofs WeightedMath WeightedProofs WeightedProofs2 DenseMath DenseProofs OperatorProofs Walks Concrete Props_Bfs Props_Weighted.
From Coq Require Import Permutation.
Open Scope nat_scope.

(** the weight of an edge as floyd_warshall uses it: 1 when called with weight=None *)
Definition eweight (weighted : bool) (G : graph) (u v : nkey) : option Z :=
  if weighted then weight G u v else omap (fun _ => 1%Z) (weight G u v).
(** python's [D[u][v]] on the returned NodeNodeMap *)
Definition nn_get {V} (r : rowmap V) (u v : nkey) : outcome V :=
  match nnm_getitem r u with Val (m, _) => nm_getitem m v | Raise e => Raise e end.
(** [P[u][v]] on a NodeNodeMap with values_are_keys=True *)
Definition pred_get (r : rowmap nat) (u v : nkey) : outcome nkey :=
  match nnm_getitem r u with Val (m, _) => km_getitem m v | Raise e => Raise e end.

(** ** The graph whose weights are those used *)
Definition wgraph (weighted : bool) (G : graph) : graph :=
  if weighted then G else
  {| g_dir := g_dir G; g_A := mmap (fun _ => 1%Z) (g_A G); g_dt := DInt; g_iso := false; g_kid := g_kid G |}.
Lemma wgraph_dims w G : g_dir (wgraph w G) = g_dir G /\ nrows (g_A (wgraph w G)) = nrows (g_A G) /\ ncols (g_A (wgraph w G)) = ncols (g_A G) /\ g_kid (wgraph w G) = g_kid G.
Proof. destruct w; simpl; [auto|]. unfold mmap. rewrite nrows_mbuild. auto. Qed.
Lemma wgraph_get w G i j : gwf G -> mget (g_A (wgraph w G)) i j = if w then mget (g_A G) i j else omap (fun _ => 1%Z) (mget (g_A G) i j).
Proof. intros wf. destruct w; simpl; [reflexivity|]. apply mget_mmap. apply wf. Qed.
Lemma wgraph_wf w G : gwf G -> gwf (wgraph w G).
Proof.
  intros wf. destruct w; [assumption|]. constructor; simpl.
  - apply mwf_mbuild.
  - unfold mmap. rewrite nrows_mbuild. apply wf.
  - intros Hd i j. rewrite !mget_mmap by apply wf. rewrite (gw_sym _ wf Hd i j). reflexivity.
  - discriminate.
  - discriminate.
  - apply wf.
  - unfold glen. simpl. unfold mmap. rewrite nrows_mbuild. apply wf.
Qed.
Lemma wgraph_weight w G u v : gwf G -> weight (wgraph w G) u v = eweight w G u v.
Proof.
  intros wf. destruct w; [reflexivity|]. unfold weight, eweight, weight, kid. simpl. destruct (dget (g_kid G) u), (dget (g_kid G) v); try reflexivity. apply mget_mmap. apply wf.
Qed.
Lemma wwalk_iff {X} (W W' : X -> X -> option Z) x d w y : (forall a b, W a b = W' a b) -> wwalk W x d w y <-> wwalk W' x d w y.
Proof. intros H. split; apply wwalk_mono; intros a b v; rewrite H; auto. Qed.
Lemma shortest_iff {X} (W W' : X -> X -> option Z) x y w : (forall a b, W a b = W' a b) -> shortest W x y w <-> shortest W' x y w.
Proof.
  intros H. split; intros [[d H1] H2]; (split; [exists d; apply (wwalk_iff W W'); assumption|]); intros d' w' H'; apply (H2 d'); apply (wwalk_iff W W'); assumption.
Qed.
Lemma wreach_iff {X} (W W' : X -> X -> option Z) x y : (forall a b, W a b = W' a b) -> wreach W x y <-> wreach W' x y.
Proof. intros H. split; intros (d & w & H'); exists d, w; apply (wwalk_iff W W'); assumption. Qed.
Lemma wgraph_noneg w G : gwf G -> (w = true -> forall u, ~ neg_cycle (weight G) u) -> forall y, ~ neg_cycle (mget (g_A (wgraph w G))) y.
Proof.
  intros wf H y (d & x & Hx & Hlt). destruct w.
  - simpl in Hx. assert (Hy : y < nrows (g_A G)). { inversion Hx; subst; [lia|]. match goal with H : mget _ _ _ = Some _ |- _ => apply (F_lt G wf) in H; lia end. }
    destruct (kid_key G wf y Hy) as [u Hu]. apply (H eq_refl u). apply (negc_lift G wf u y Hu). exists d, x. auto.
  - apply wwalk_nonneg in Hx; [lia|]. intros a b v Hv. rewrite wgraph_get in Hv by assumption. destruct (mget (g_A G) a b); [|discriminate]. injection Hv as <-. lia.
Qed.

(** ** What the start matrix and the list of nodes to visit are *)
Section S.
Variable G : graph.
Hypothesis wf : gwf G.
Notation n := (nrows (g_A G)).
Definition fw_ne : vec Z := if g_dir G then vinter op_pairz (den_red G Row RCount SM) (den_red G Col RCount SM) else den_red G Row RCount SM.
Lemma fw_inputs_ok : answers G (fw_inputs G) (eq (Val (fw_d0 G, fw_ne))).
Proof.
  unfold fw_inputs, fw_d0, fw_ne. destruct (g_dir G).
  - eapply answers_bind_GV; [apply get_offdiag_ok; assumption|]. eapply answers_bind_GV; [apply (get_red_ok G wf true eq_refl)|].
    eapply answers_bind_GV; [apply (get_red_ok G wf true eq_refl)|]. apply answers_ret. reflexivity.
  - eapply answers_bind_GV; [apply (get_Um_ok G wf true eq_refl)|]. eapply answers_bind_GV; [apply (get_red_ok G wf true eq_refl)|].
    apply answers_ret. reflexivity.
Qed.
Lemma ne_size : vsize fw_ne = n.
Proof. unfold fw_ne. destruct (g_dir G); [rewrite vsize_vinter|]; apply vsize_vbuild. Qed.
Lemma ne_has k p v q x : mget (den_mat G KOff) p k = Some v -> mget (den_mat G KOff) k q = Some x -> has (vget fw_ne k) = true.
Proof.
  intros H1 H2. rewrite off_get in H1, H2 by assumption.
  assert (H1' := H1). assert (H2' := H2). destruct (p =? k) eqn:E1; [discriminate|]. destruct (k =? q) eqn:E2; [discriminate|].
  apply (F_lt G wf) in H1', H2'.
  assert (Hr : has (vget (den_red G Row RCount SM) k) = true).
  { rewrite den_count by assumption. rewrite vget_vbuild_lt by lia. rewrite has_onz. apply negb_true_iff, Nat.eqb_neq. unfold outdeg.
    apply Nat.neq_0_lt_0, cnt_pos. exists q. split; [lia|]. unfold ent. rewrite E2, H2. reflexivity. }
  assert (Hc : has (vget (den_red G Col RCount SM) k) = true).
  { rewrite den_count by assumption. rewrite vget_vbuild_lt by lia. rewrite has_onz. apply negb_true_iff, Nat.eqb_neq. unfold indeg.
    apply Nat.neq_0_lt_0, cnt_pos. exists p. split; [lia|]. unfold ent. rewrite E1, H1. reflexivity. }
  unfold fw_ne. destruct (g_dir G); [|assumption]. rewrite vget_vinter by (simpl; rewrite !vsize_vbuild; reflexivity). rewrite has_oboth, Hr, Hc. reflexivity.
Qed.
Variable w : bool.
Lemma d0_w : (if w then fw_d0 G else mmap (fun _ => 1%Z) (fw_d0 G)) = fw_d0 (wgraph w G).
Proof.
  destruct w; [reflexivity|]. unfold fw_d0. destruct (wgraph_dims false G) as (Hd & Hn & _). rewrite Hd.
  assert (E : forall k, k <> KAT -> mmap (fun _ => 1%Z) (den_mat G k) = den_mat (wgraph false G) k).
  { intros k Hk. apply mat_ext.
    - apply mwf_mbuild.
    - destruct k; apply mwf_mbuild.
    - unfold mmap. rewrite nrows_mbuild. destruct k; cbn [den_mat]; rewrite !nrows_mbuild; auto.
    - unfold mmap. rewrite ncols_mbuild. destruct k; cbn [den_mat]; rewrite !ncols_mbuild; auto.
    - intros i j. rewrite mget_mmap by (destruct k; apply mwf_mbuild).
      destruct k; try contradiction; cbn [den_mat]; rewrite !mget_mbuild, Hn; destruct ((i <? n) && (j <? n)); try reflexivity;
        (destruct (msel _ i j); [|reflexivity]); rewrite wgraph_get by assumption; reflexivity. }
  destruct (g_dir G); apply E; discriminate.
Qed.
Lemma ne_w k p v q x : mget (den_mat (wgraph w G) KOff) p k = Some v -> mget (den_mat (wgraph w G) KOff) k q = Some x -> In k (vindices fw_ne).
Proof.
  intros H1 H2. apply in_vindices. pose proof (wgraph_wf w G wf) as wfw. rewrite off_get in H1, H2 by assumption.
  rewrite wgraph_get in H1, H2 by assumption.
  assert (exists v, mget (den_mat G KOff) p k = Some v) as [v' Hv].
  { rewrite off_get by assumption. destruct (p =? k); [discriminate|]. destruct w; [eauto|]. destruct (mget (g_A G) p k); [eauto|discriminate]. }
  assert (exists x, mget (den_mat G KOff) k q = Some x) as [x' Hx].
  { rewrite off_get by assumption. destruct (k =? q); [discriminate|]. destruct w; [eauto|]. destruct (mget (g_A G) k q); [eauto|discriminate]. }
  eapply ne_has; eassumption.
Qed.
End S.
(** the distance matrix computed without a nodelist *)
Definition fw_full (pk : nat -> nat -> nat -> bool) (w : bool) (G : graph) : mat Z :=
  let l := vindices (fw_ne G) in fw_res (wgraph w G) pk (List.length l) (fw_loop_d (g_dir G) pk (nrows (g_A G)) 0 l (fw_d0 (wgraph w G))).
Lemma fw_distance_ok pk G w : gwf G -> answers G (fw_distance pk G w None) (eq (Val (fw_full pk w G))).
Proof.
  intros wf. unfold fw_distance, fw_start. apply answers_assoc. eapply answers_bind_v; [apply fw_inputs_ok; assumption|]. simpl.
  apply answers_ret_bind. rewrite d0_w by assumption. apply answers_ret.
  unfold fw_full, fw_res. destruct (wgraph_dims w G) as (-> & -> & _).
  assert (E : nrows (fw_d0 (wgraph w G)) = nrows (g_A G)).
  { unfold fw_d0. destruct (wgraph_dims w G) as (-> & Hn & _). destruct (g_dir G); cbn [den_mat]; rewrite nrows_mbuild; assumption. }
  rewrite E. reflexivity.
Qed.
Definition noneg (w : bool) (G : graph) : Prop := w = true -> forall u, ~ neg_cycle (weight G) u.
Lemma fw_full_ok pk w G a b : gwf G -> noneg w G -> a < nrows (g_A G) -> b < nrows (g_A G) ->
  (forall x, mget (fw_full pk w G) a b = Some x <-> shortest (mget (g_A (wgraph w G))) a b x) /\
  (wreach (mget (g_A (wgraph w G))) a b -> has (mget (fw_full pk w G) a b) = true).
Proof.
  intros wf Hn Ha Hb. pose proof (wgraph_wf w G wf) as wfw. destruct (wgraph_dims w G) as (Ed & En & _).
  unfold fw_full. rewrite <- Ed, <- En in *. apply fw_core; try assumption.
  - apply wgraph_noneg; assumption.
  - intros k p v q x H1 H2. eapply ne_w; eassumption.
Qed.
Lemma wgraph_kid w G u : kid (wgraph w G) u = kid G u.
Proof. unfold kid. destruct (wgraph_dims w G) as (_ & _ & _ & ->). reflexivity. Qed.
Lemma ids_shortest w G u i v j x : gwf G -> kid G u = Some i -> kid G v = Some j ->
  shortest (mget (g_A (wgraph w G))) i j x <-> shortest (eweight w G) u v x.
Proof.
  intros wf Hu Hv. rewrite <- (shortest_iff _ _ u v x (fun a b => wgraph_weight w G a b wf)).
  rewrite (shortest_lift (wgraph w G) (wgraph_wf w G wf) u i v x) by (rewrite wgraph_kid; assumption).
  split; [intros H; exists j; rewrite wgraph_kid; auto|]. intros (j' & Hj & H). rewrite wgraph_kid, Hv in Hj. injection Hj as <-. assumption.
Qed.
Lemma ids_wreach w G u i v j : gwf G -> kid G u = Some i -> kid G v = Some j ->
  wreach (mget (g_A (wgraph w G))) i j <-> wreach (eweight w G) u v.
Proof.
  intros wf Hu Hv. rewrite <- (wreach_iff _ _ u v (fun a b => wgraph_weight w G a b wf)).
  rewrite (wreach_lift (wgraph w G) (wgraph_wf w G wf) u i v) by (rewrite wgraph_kid; assumption).
  split; [intros H; exists j; rewrite wgraph_kid; auto|]. intros (j' & Hj & H). rewrite wgraph_kid, Hv in Hj. injection Hj as <-. assumption.
Qed.
Lemma eweight_kid w G u v x : eweight w G u v = Some x -> exists i j, kid G u = Some i /\ kid G v = Some j.
Proof.
  intros H. assert (Hw : has (weight G u v) = true). { unfold eweight in H. destruct w; [rewrite H; reflexivity|]. destruct (weight G u v); [reflexivity|discriminate]. }
  unfold weight in Hw. destruct (kid G u) as [i|], (kid G v) as [j|]; try discriminate. eauto.
Qed.
Lemma ewreach_kid w G u i v : kid G u = Some i -> wreach (eweight w G) u v -> exists j, kid G v = Some j.
Proof. intros Hu (d & x & H). inversion H; subst; [eauto|]. match goal with H : eweight _ _ _ _ = Some _ |- _ => apply eweight_kid in H as (? & j & _ & Hj) end. eauto. Qed.

(** ** C18 *)
Theorem C18_floyd_warshall (pk : nat -> nat -> nat -> bool) (G : graph) (weighted : bool) : gwf G ->
  (weighted = true -> forall u, ~ neg_cycle (weight G) u) ->
  returns G (nx_floyd_warshall pk G weighted) (fun D =>
    (exists l, rm_iter D = Val l /\ Permutation l (gnodes G)) /\
    (forall u m D', nnm_getitem D u = Val (m, D') -> is_map m (shortest (eweight weighted G) u)) /\
    (forall u v x, nn_get D u v = Val x <-> node G u /\ node G v /\ shortest (eweight weighted G) u v x) /\
    (forall u v, node G u -> wreach (eweight weighted G) u v -> exists x, nn_get D u v = Val x)).
Proof.
  intros wf Hn. unfold nx_floyd_warshall. eapply answers_bind_v; [apply fw_distance_ok; assumption|]. apply answers_ret.
  eexists. split; [reflexivity|]. set (R := fw_full pk weighted G).
  assert (Hdim : mwf R /\ nrows R = nrows (g_A G) /\ ncols R = nrows (g_A G)).
  { unfold R, fw_full. destruct (res_dims (wgraph weighted G) pk (List.length (vindices (fw_ne G))) (fw_loop_d (g_dir G) pk (nrows (g_A G)) 0 (vindices (fw_ne G)) (fw_d0 (wgraph weighted G)))) as (H1 & H2 & H3).
    destruct (wgraph_dims weighted G) as (_ & E & _). rewrite E in H2, H3. auto. }
  destruct Hdim as (H1 & H2 & H3).
  assert (Hdiag : forall i, i < nrows (g_A G) -> has (mget R i i) = true).
  { intros i Hi. apply (fw_full_ok pk weighted G i i wf Hn Hi Hi). apply wreach_refl. }
  assert (Hrow : forall i, i < nrows (g_A G) -> has (vget (rows_of R) i) = true).
  { intros i Hi. unfold rows_of, vmap. rewrite vget_vbuild, vsize_vbuild, H2. replace (i <? nrows (g_A G)) with true by (symmetry; apply Nat.ltb_lt; assumption).
    rewrite vget_vbuild_lt by assumption. rewrite has_omap. apply has_ored_true. exists i. split; [lia|auto]. }
  assert (Hget : forall u i, kid G u = Some i -> exists D', nnm_getitem (to_nodenodemap G R) u = Val (to_nodemap G (mrow R i), D')).
  { intros u i Hu. unfold nnm_getitem. simpl. fold (kid G u). rewrite Hu. rewrite Hrow by (eapply kid_lt; eassumption). eexists. reflexivity. }
  assert (Hmap : forall u i, kid G u = Some i -> is_map (to_nodemap G (mrow R i)) (shortest (eweight weighted G) u)).
  { intros u i Hu. assert (Hi : i < nrows (g_A G)) by (eapply kid_lt; eassumption). apply is_map_intro; [assumption|unfold vsize; rewrite mrow_length by (auto; lia); lia|].
    intros k x. split.
    - intros H. destruct (ewreach_kid weighted G u i k Hu) as [j Hj]; [destruct H as [[d H] _]; exists d, x; assumption|].
      exists j. split; [assumption|]. apply (fw_full_ok pk weighted G i j wf Hn Hi); [eapply kid_lt; eassumption|]. eapply ids_shortest; eassumption.
    - intros (j & Hj & H). apply (ids_shortest weighted G u i k j x wf Hu Hj). apply (fw_full_ok pk weighted G i j wf Hn Hi); [eapply kid_lt; eassumption|exact H]. }
  split; [|split; [|split]].
  - destruct (nnm_items_rows G wf R H2 H3 H1 Hdiag) as (L & HL & HP & _). unfold nnm_items in HL.
    destruct (rm_iter (to_nodenodemap G R)) as [l|e] eqn:El; [|discriminate]. exists l. split; [reflexivity|].
    unfold rm_iter in El. simpl in El. destruct (indices_keys G wf (rows_of R)) as (ks & Hks & ND & _ & Hin).
    { unfold rows_of, vmap. rewrite !vsize_vbuild. lia. }
    rewrite Hks in El. injection El as <-. apply NoDup_Permutation; [assumption|apply (gw_keys G wf)|]. intros k. rewrite Hin. split.
    + intros (i & Hi & _). apply node_kid. eauto.
    + intros Hk. apply node_kid in Hk as [i Hi]. exists i. split; [assumption|]. apply Hrow. eapply kid_lt; eassumption.
  - intros u m D' Hm. destruct (kid G u) as [i|] eqn:Hu; [|unfold nnm_getitem in Hm; simpl in Hm; fold (kid G u) in Hm; rewrite Hu in Hm; discriminate].
    destruct (Hget u i Hu) as [D2 E]. rewrite E in Hm. injection Hm as <- _. apply Hmap. assumption.
  - intros u v x. unfold nn_get. rewrite !node_kid. destruct (kid G u) as [i|] eqn:Hu.
    + destruct (Hget u i Hu) as [D2 ->]. destruct (Hmap u i Hu) as [HM _]. rewrite HM. split; [|tauto]. intros H. split; [eauto|]. split; [|assumption].
      eapply ewreach_kid; [eassumption|]. destruct H as [[d H] _]. exists d, x. eassumption.
    + unfold nnm_getitem. simpl. fold (kid G u). rewrite Hu. split; [discriminate|]. intros ([i Hi] & _). discriminate.
  - intros u v Hu Hr. apply node_kid in Hu as [i Hu]. destruct (ewreach_kid _ _ _ _ _ Hu Hr) as [j Hj]. apply (ids_wreach weighted G u i v j wf Hu Hj) in Hr.
    assert (Hi : i < nrows (g_A G)) by (eapply kid_lt; eassumption). assert (Hj' : j < nrows (g_A G)) by (eapply kid_lt; eassumption).
    destruct (fw_full_ok pk weighted G i j wf Hn Hi Hj') as [F1 F2]. apply F2, has_true in Hr as [x Hx].
    exists x. unfold nn_get. destruct (Hget u i Hu) as [D2 ->]. apply (Hmap u i Hu). apply (ids_shortest weighted G u i v j x wf Hu Hj). apply F1. assumption.
Qed.

(** *** floyd_warshall_numpy: rows and columns in the order of the nodelist *)
Definition pgraph (G : graph) (l : list nkey) (p : list nat) : graph :=
  {| g_dir := g_dir G; g_A := mextract (g_A G) p p; g_dt := g_dt G; g_iso := g_iso G; g_kid := combine l (seq 0 (List.length l)) |}.
Lemma extract_get {V} (m : mat V) p a b : mget (mextract m p p) a b = if (a <? List.length p) && (b <? List.length p) then mget m (nth a p 0) (nth b p 0) else None.
Proof. unfold mextract. rewrite mget_mbuild. reflexivity. Qed.
Lemma combine_seq (l : list nkey) : map fst (combine l (seq 0 (List.length l))) = l /\ map snd (combine l (seq 0 (List.length l))) = seq 0 (List.length l) :> list nat.
Proof.
  assert (F : forall s, map fst (combine l (seq s (List.length l))) = l /\ map snd (combine l (seq s (List.length l))) = seq s (List.length l) :> list nat).
  { induction l as [|k ks IH]; intros s; simpl; [auto|]. destruct (IH (S s)) as [-> ->]. auto. }
  apply F.
Qed.
Section P.
Variable G : graph.
Hypothesis wf : gwf G.
Notation n := (nrows (g_A G)).
Variable l : list nkey.
Variable p : list nat.
Hypothesis Hp : mapO (kid G) l = Some p.
Hypothesis ND : NoDup l.
Hypothesis Hlen : List.length l = n.
Lemma p_len : List.length p = n. Proof. rewrite (mapO_length _ _ _ Hp). assumption. Qed.
Lemma p_lt a : a < n -> nth a p 0 < n.
Proof.
  intros Ha. assert (Hin : In (nth a p 0) p) by (apply nth_In; rewrite p_len; assumption).
  apply (mapO_in _ _ _ Hp) in Hin as (u & _ & Hu). eapply kid_lt; eassumption.
Qed.
Lemma p_nd : NoDup p.
Proof.
  clear Hlen. revert p Hp. induction l as [|u l' IH]; intros p0 H0; simpl in H0.
  - injection H0 as <-. constructor.
  - destruct (kid G u) as [i|] eqn:Hu; [|discriminate]. destruct (mapO (kid G) l') as [p'|] eqn:E; [|discriminate]. injection H0 as <-.
    inversion ND; subst. constructor; [|apply IH; auto]. intros Hin. apply (mapO_in _ _ _ E) in Hin as (v & Hv & Hk).
    rewrite (kid_inj G wf _ _ _ Hk Hu) in Hv. contradiction.
Qed.
Lemma p_inj a b : a < n -> b < n -> nth a p 0 = nth b p 0 -> a = b.
Proof. intros Ha Hb. apply NoDup_nth; [apply p_nd|rewrite p_len; assumption|rewrite p_len; assumption]. Qed.
Lemma l_nodes u : In u l <-> node G u.
Proof.
  split.
  - intros Hu. destruct (In_nth _ _ (KI 0) Hu) as (a & Ha & <-). destruct (mapO_nth _ _ _ Hp a (nth a l (KI 0))) as (y & _ & Hk); [apply nth_error_nth'; assumption|].
    apply node_kid. eauto.
  - intros Hu. apply (NoDup_length_incl ND (l' := gnodes G)); [| |assumption].
    + unfold gnodes. rewrite map_length. pose proof (kok_len _ _ (gkok G wf)). lia.
    + intros v Hv. destruct (In_nth _ _ (KI 0) Hv) as (a & Ha & <-). destruct (mapO_nth _ _ _ Hp a (nth a l (KI 0))) as (y & _ & Hk); [apply nth_error_nth'; assumption|].
      apply node_kid. eauto.
Qed.
Lemma pgraph_wf : gwf (pgraph G l p).
Proof.
  assert (Hg : forall i j x, mget (mextract (g_A G) p p) i j = Some x -> exists i' j', mget (g_A G) i' j' = Some x).
  { intros i j x. rewrite extract_get. destruct (_ && _); [eauto|discriminate]. }
  destruct (combine_seq l) as [C1 C2]. constructor; simpl.
  - apply mwf_mbuild.
  - unfold mextract. rewrite nrows_mbuild. reflexivity.
  - intros Hd i j. rewrite !extract_get. rewrite (andb_comm (j <? _)). destruct (_ && _); [|reflexivity]. apply (gw_sym _ wf Hd).
  - intros Hd i j x Hx. apply Hg in Hx as (i' & j' & Hx). eapply (gw_nn _ wf); eassumption.
  - intros Hd i j k q x y Hx Hy. apply Hg in Hx as (i' & j' & Hx). apply Hg in Hy as (k' & q' & Hy). eapply (gw_iso _ wf); eassumption.
  - rewrite C1. assumption.
  - rewrite C2. unfold glen. simpl. unfold mextract. rewrite nrows_mbuild, p_len, Hlen. apply Permutation_refl.
Qed.
Lemma pgraph_kid a u : nth_error l a = Some u -> kid (pgraph G l p) u = Some a.
Proof.
  intros Ha. unfold kid. simpl. destruct (combine_seq l) as [C1 C2].
  apply In_dget; [rewrite C1; assumption|]. apply (nth_error_In _ a). clear -Ha.
  assert (F : forall s, nth_error (combine l (seq s (List.length l))) a = Some (u, s + a)).
  { revert a Ha. induction l as [|k ks IH]; intros [|a] Ha s; simpl in *; try discriminate; [injection Ha as ->; f_equal; f_equal; lia|].
    rewrite (IH a Ha (S s)). f_equal. f_equal. lia. }
  apply F.
Qed.
Lemma pgraph_weight u v : weight (pgraph G l p) u v = weight G u v.
Proof.
  assert (Hn : forall u, kid (pgraph G l p) u = None -> kid G u = None).
  { intros x Hx. destruct (kid G x) as [i|] eqn:E; [|reflexivity]. assert (Hi : In x l) by (apply l_nodes, node_kid; eauto).
    apply In_nth_error in Hi as [a Ha]. rewrite (pgraph_kid _ _ Ha) in Hx. discriminate. }
  assert (Hs : forall u a, kid (pgraph G l p) u = Some a -> a < n /\ kid G u = Some (nth a p 0)).
  { intros x a Hx. unfold kid in Hx. simpl in Hx. apply dget_In in Hx. apply (In_nth_error) in Hx as [b Hb].
    assert (F : forall s b, nth_error (combine l (seq s (List.length l))) b = Some (x, a) -> a = s + b /\ nth_error l b = Some x).
    { clear. induction l as [|k ks IH]; intros s [|b] H; simpl in *; try discriminate; [injection H as -> <-; split; [lia|reflexivity]|].
      apply IH in H as [-> H]. split; [lia|assumption]. }
    apply F in Hb as [-> Hb]. simpl. destruct (mapO_nth _ _ _ Hp _ _ Hb) as (y & Hy & Hk). rewrite Hk. split.
    - rewrite <- Hlen. apply nth_error_Some. congruence.
    - f_equal. symmetry. apply nth_error_nth. assumption. }
  unfold weight. destruct (kid (pgraph G l p) u) as [a|] eqn:Ea; [|rewrite (Hn _ Ea); reflexivity].
  apply Hs in Ea as [La ->]. destruct (kid (pgraph G l p) v) as [b|] eqn:Eb; [|rewrite (Hn _ Eb); reflexivity].
  apply Hs in Eb as [Lb ->]. simpl. rewrite extract_get, p_len. apply Nat.ltb_lt in La, Lb. rewrite La, Lb. reflexivity.
Qed.
Lemma pgraph_off a b : mget (den_mat (pgraph G l p) KOff) a b = if (a <? n) && (b <? n) then mget (den_mat G KOff) (nth a p 0) (nth b p 0) else None.
Proof.
  rewrite (off_get _ pgraph_wf), (off_get _ wf). simpl. rewrite extract_get, p_len.
  destruct (Nat.ltb_spec a n) as [La|La], (Nat.ltb_spec b n) as [Lb|Lb]; cbn [andb]; try (destruct (a =? b); reflexivity).
  destruct (Nat.eqb_spec a b) as [->|Hne]; [rewrite Nat.eqb_refl; reflexivity|].
  destruct (Nat.eqb_spec (nth a p 0) (nth b p 0)) as [E|E]; [apply p_inj in E; auto; contradiction|reflexivity].
Qed.
(** undirected graphs: only the graph's own order *)
Hypothesis Hord : g_dir G = false -> forall a, a < n -> nth a p 0 = a.
Lemma pgraph_d0 : mextract (fw_d0 G) p p = fw_d0 (pgraph G l p).
Proof.
  unfold fw_d0. simpl. destruct (g_dir G) eqn:Hd; (apply mat_ext; [apply mwf_mbuild|apply mwf_mbuild| | |]);
    try (unfold mextract; cbn [den_mat]; rewrite ?nrows_mbuild, ?ncols_mbuild; simpl; unfold mextract; rewrite nrows_mbuild; reflexivity).
  - intros i j. rewrite pgraph_off, extract_get, p_len. reflexivity.
  - intros i j. rewrite extract_get. cbn [den_mat]. rewrite !mget_mbuild. simpl. rewrite extract_get.
    replace (nrows (mextract (g_A G) p p)) with n by (unfold mextract; rewrite nrows_mbuild, p_len; reflexivity). rewrite p_len.
    destruct (Nat.ltb_spec i n) as [La|La], (Nat.ltb_spec j n) as [Lb|Lb]; cbn [andb]; try reflexivity.
    rewrite (Hord eq_refl i La), (Hord eq_refl j Lb). apply Nat.ltb_lt in La, Lb. rewrite La, Lb. reflexivity.
Qed.
Lemma pgraph_ne w k q v r x : mget (den_mat (wgraph w (pgraph G l p)) KOff) q k = Some v -> mget (den_mat (wgraph w (pgraph G l p)) KOff) k r = Some x ->
  In k (vindices (vextract (fw_ne G) p)).
Proof.
  intros H1 H2. pose proof pgraph_wf as wfp. pose proof (wgraph_wf w _ wfp) as wfw.
  assert (E : forall a b v, mget (den_mat (wgraph w (pgraph G l p)) KOff) a b = Some v -> has (mget (den_mat (pgraph G l p) KOff) a b) = true).
  { intros a b v0. rewrite !off_get by assumption. rewrite wgraph_get by assumption. destruct (a =? b); [discriminate|]. destruct w; [intros ->; reflexivity|].
    destruct (mget (g_A (pgraph G l p)) a b); [reflexivity|discriminate]. }
  apply E, has_true in H1 as [v' H1]. apply E, has_true in H2 as [x' H2]. rewrite pgraph_off in H1, H2.
  destruct (Nat.ltb_spec q n) as [La|La]; [|discriminate]. destruct (Nat.ltb_spec k n) as [Lb|Lb]; [|discriminate]. cbn [andb] in H1, H2.
  destruct (Nat.ltb_spec r n) as [Lc|Lc]; [|discriminate].
  apply in_vindices. unfold vextract. rewrite vget_vbuild_lt by (rewrite p_len; assumption). eapply ne_has; eassumption.
Qed.
End P.
Lemma distinct_le l : distinct l <= List.length l.
Proof. induction l as [|x l IH]; simpl; [lia|]. destruct (existsb _ _); lia. Qed.
Lemma distinct_nd l : distinct l = List.length l <-> NoDup l.
Proof.
  induction l as [|x l IH]; simpl; [split; [constructor|reflexivity]|]. pose proof (distinct_le l).
  assert (E : existsb (nkey_eqb x) l = true <-> In x l).
  { rewrite existsb_exists. split; [intros (y & Hy & E); apply nkey_eqb_eq in E; subst; assumption|intros Hx; exists x; split; [assumption|apply nkey_eqb_eq; reflexivity]]. }
  destruct (existsb (nkey_eqb x) l) eqn:Ex.
  - split; [lia|]. intros HN. inversion HN; subst. tauto.
  - split; [intros H'; constructor; [intros Hin; apply E in Hin; discriminate|apply IH; lia]|]. intros HN. inversion HN; subst. simpl. f_equal. apply IH. assumption.
Qed.
Theorem C18_numpy_partial (pk : nat -> nat -> nat -> bool) (G : graph) (l : list nkey) (weighted : bool) : gwf G ->
  (weighted = true -> forall u, ~ neg_cycle (weight G) u) ->
  (g_dir G = false -> forall a u, nth_error l a = Some u -> kid G u = Some a) ->
  answers G (nx_fw_numpy pk G (Some l) weighted) (fun o =>
    match o with
    | Val D => Permutation l (gnodes G) /\ nrows D = glen G /\ ncols D = glen G /\
        forall a b u v, nth_error l a = Some u -> nth_error l b = Some v ->
          (forall x, mget D a b = Some x <-> shortest (eweight weighted G) u v x) /\
          (wreach (eweight weighted G) u v -> exists x, mget D a b = Some x)
    | Raise e => (e = EAlg /\ ~ (NoDup l /\ List.length l = glen G)) \/ (e = EKey /\ exists u, In u l /\ ~ node G u)
    end).
Proof.
  intros wf Hn Hord. unfold nx_fw_numpy.
  destruct ((List.length l =? glen G) && (glen G =? distinct l)) eqn:Ec.
  2:{ simpl. eapply answers_bind_e; [apply answers_raise; reflexivity|]. left. split; [reflexivity|]. intros [ND HL]. apply distinct_nd in ND.
      rewrite HL in ND. rewrite ND, HL, Nat.eqb_refl in Ec. discriminate. }
  apply andb_true_iff in Ec as [E1 E2]. apply Nat.eqb_eq in E1, E2. assert (ND : NoDup l) by (apply distinct_nd; congruence).
  cbn [negb]. apply answers_assoc. unfold list_to_ids. change (mapO (dget (g_kid G)) l) with (mapO (kid G) l).
  destruct (mapO (kid G) l) as [p|] eqn:Hp.
  2:{ eapply answers_bind_e; [apply answers_raise; reflexivity|]. right. split; [reflexivity|]. apply mapO_none in Hp as (u & Hu & Hk).
      exists u. split; [assumption|]. apply not_node. assumption. }
  cbn [okey lifto]. apply answers_ret_bind. apply answers_ret_bind.
  unfold fw_distance, fw_start. apply answers_assoc. eapply answers_bind_v; [apply fw_inputs_ok; assumption|]. cbv beta iota.
  unfold glen in E1. rewrite (ne_size G), (p_len G l p Hp E1), Nat.eqb_refl. cbn [negb]. apply answers_assoc. apply answers_ret_bind. cbv beta iota. apply answers_ret_bind. cbv beta iota.
  assert (HordP : g_dir G = false -> forall a, a < nrows (g_A G) -> nth a p 0 = a).
  { intros Hd a Ha. destruct (mapO_nth _ _ _ Hp a (nth a l (KI 0))) as (y & Hy & Hk); [apply nth_error_nth'; lia|].
    rewrite (Hord Hd a (nth a l (KI 0))) in Hk by (apply nth_error_nth'; lia). injection Hk as <-. apply nth_error_nth. assumption. }
  rewrite (pgraph_d0 G wf l p Hp ND E1 HordP).
  pose proof (pgraph_wf G wf l p Hp ND E1) as wfp. rewrite (d0_w (pgraph G l p) wfp weighted).
  set (Gx := wgraph weighted (pgraph G l p)). pose proof (wgraph_wf weighted _ wfp) as wfx. fold Gx in wfx.
  destruct (wgraph_dims weighted (pgraph G l p)) as (Dd & Dn & _). fold Gx in Dd, Dn.
  assert (Dn' : nrows (g_A Gx) = nrows (g_A G)). { rewrite Dn. simpl. unfold mextract. rewrite nrows_mbuild. apply (p_len G l p Hp E1). }
  assert (En : nrows (fw_d0 Gx) = nrows (g_A Gx)). { unfold fw_d0. destruct (g_dir Gx); cbn [den_mat]; apply nrows_mbuild. }
  rewrite En. apply answers_ret. simpl in Dd. rewrite <- Dd.
  set (ll := vindices (vextract (fw_ne G) p)). change (fw_diag (nrows (g_A Gx)) (fw_sym (g_dir Gx) pk (nrows (g_A Gx)) (List.length ll) (fw_loop_d (g_dir Gx) pk (nrows (g_A Gx)) 0 ll (fw_d0 Gx))))
    with (fw_res Gx pk (List.length ll) (fw_loop_d (g_dir Gx) pk (nrows (g_A Gx)) 0 ll (fw_d0 Gx))).
  destruct (res_dims Gx pk (List.length ll) (fw_loop_d (g_dir Gx) pk (nrows (g_A Gx)) 0 ll (fw_d0 Gx))) as (R1 & R2 & R3).
  split; [|split; [|split]].
  - apply NoDup_Permutation; [assumption|apply (gw_keys G wf)|]. intros u. apply (l_nodes G wf l p Hp ND E1).
  - rewrite R2. assumption.
  - rewrite R3. assumption.
  - intros a b u v Ha Hb.
    assert (La : a < nrows (g_A Gx)). { rewrite Dn', <- E1. apply nth_error_Some. congruence. }
    assert (Lb : b < nrows (g_A Gx)). { rewrite Dn', <- E1. apply nth_error_Some. congruence. }
    assert (HW : forall u v, weight (pgraph G l p) u v = weight G u v) by (intros; apply (pgraph_weight G wf l p Hp ND E1)).
    assert (HE : forall u v, eweight weighted (pgraph G l p) u v = eweight weighted G u v) by (intros; unfold eweight; rewrite HW; reflexivity).
    assert (Hng : noneg weighted (pgraph G l p)).
    { intros Hw x (d & y & Hy & Hlt). apply (Hn Hw x). exists d, y. split; [|assumption]. apply (wwalk_iff _ _ x d y x HW). assumption. }
    destruct (fw_core Gx wfx pk (wgraph_noneg weighted _ wfp Hng) ll (fun k q v r x => pgraph_ne G wf l p Hp ND E1 weighted k q v r x) (List.length ll) 0 a b La Lb) as [F1 F2].
    pose proof (pgraph_kid G l p ND a u Ha) as Ka. pose proof (pgraph_kid G l p ND b v Hb) as Kb.
    split.
    + intros x. rewrite F1. unfold Gx. rewrite (ids_shortest weighted (pgraph G l p) u a v b x wfp Ka Kb). apply shortest_iff. assumption.
    + intros Hr. apply has_true, F2. unfold Gx. apply (ids_wreach weighted (pgraph G l p) u a v b wfp Ka Kb). apply (wreach_iff _ _ u v HE). assumption.
Qed.
Theorem C18_numpy_default (pk : nat -> nat -> nat -> bool) (G : graph) (weighted : bool) : gwf G ->
  (weighted = true -> forall u, ~ neg_cycle (weight G) u) ->
  returns G (nx_fw_numpy pk G None weighted) (fun D =>
    nrows D = glen G /\ ncols D = glen G /\
    forall a b u v, kid G u = Some a -> kid G v = Some b ->
      (forall x, mget D a b = Some x <-> shortest (eweight weighted G) u v x) /\
      (wreach (eweight weighted G) u v -> exists x, mget D a b = Some x)).
Proof.
  intros wf Hn. unfold nx_fw_numpy. apply answers_ret_bind. eapply answers_conseq; [apply fw_distance_ok; assumption|]. intros o <-.
  eexists. split; [reflexivity|]. split; [|split].
  - unfold fw_full, glen. destruct (wgraph_dims weighted G) as (_ & E & _). rewrite <- E. apply res_dims.
  - unfold fw_full, glen. destruct (wgraph_dims weighted G) as (_ & E & _). rewrite <- E. apply res_dims.
  - intros a b u v Hu Hv. destruct (fw_full_ok pk weighted G a b wf Hn) as [F1 F2]; [eapply kid_lt; eassumption|eapply kid_lt; eassumption|]. split.
    + intros x. rewrite F1. apply ids_shortest; assumption.
    + intros Hr. apply has_true, F2. eapply ids_wreach; eassumption.
Qed.

(** *** floyd_warshall_predecessor_and_distance *)
Section PD.
Variable G : graph.
Hypothesis wf : gwf G.
Variable pk : nat -> nat -> nat -> bool.
Variable w : bool.
Hypothesis Hn : noneg w G.
Notation n := (nrows (g_A G)).
Definition fw_l := vindices (fw_ne G).
Definition fw_P : mat nat := snd (fw_loop_p (g_dir G) pk n 0 fw_l (fw_d0 (wgraph w G), fw_p0 (wgraph w G))).
Lemma fw_pd_ok : answers G (fw_pred_distance pk G w) (eq (Val (fw_sym (g_dir G) pk n (List.length fw_l) fw_P, fw_full pk w G))).
Proof.
  unfold fw_pred_distance, fw_start. apply answers_assoc. eapply answers_bind_v; [apply fw_inputs_ok; assumption|]. cbv beta iota.
  apply answers_assoc. apply answers_ret_bind. cbv beta iota. apply answers_ret_bind. cbv beta iota. rewrite d0_w by assumption.
  destruct (wgraph_dims w G) as (Ed & En & _).
  assert (E : nrows (fw_d0 (wgraph w G)) = n).
  { unfold fw_d0. rewrite Ed. destruct (g_dir G); cbn [den_mat]; rewrite nrows_mbuild; assumption. }
  rewrite E. fold fw_l.
  assert (EP : mbuild n n (fun i j => omap (fun _ => i) (mget (fw_d0 (wgraph w G)) i j)) = fw_p0 (wgraph w G)) by (unfold fw_p0; rewrite En; reflexivity).
  rewrite EP. pose proof (loop_p_fst (g_dir G) pk n fw_l 0 (fw_d0 (wgraph w G)) (fw_p0 (wgraph w G))) as EF.
  unfold fw_P. destruct (fw_loop_p (g_dir G) pk n 0 fw_l (fw_d0 (wgraph w G), fw_p0 (wgraph w G))) as [D P]. cbn [fst snd] in *.
  apply answers_ret. f_equal. f_equal. unfold fw_full, fw_res. rewrite Ed, En. fold fw_l. rewrite EF; [reflexivity|].
  pose proof (d0_shaped (wgraph w G)) as H. rewrite Ed, En in H. exact H.
Qed.
End PD.
(** distances, infinite for unreachable nodes; graphs of either kind *)
Theorem C18_pred_distance (pk : nat -> nat -> nat -> bool) (G : graph) (weighted : bool) : gwf G ->
  (weighted = true -> forall u, ~ neg_cycle (weight G) u) ->
  returns G (nx_fw_pred_dist pk G weighted) (fun PD =>
    rm_iter (snd PD) = Val (gnodes G) /\
    forall u v, (forall x, nn_get (snd PD) u v = Val (Fin x) <-> node G u /\ node G v /\ shortest (eweight weighted G) u v x) /\
                (nn_get (snd PD) u v = Val Inf <-> node G u /\ node G v /\ ~ wreach (eweight weighted G) u v)).
Proof.
  intros wf Hn. unfold nx_fw_pred_dist. eapply answers_bind_v; [apply (fw_pd_ok G wf pk weighted)|]. cbv beta iota. apply answers_ret.
  eexists. split; [reflexivity|]. cbn [snd]. split; [reflexivity|]. intros u v. unfold nn_get, nnm_getitem, mkrm. cbn [rm_kid rm_fill rm_m]. fold (kid G u). pose proof (node_kid G u) as Nu. pose proof (node_kid G v) as Nv.
  destruct (kid G u) as [i|] eqn:Hu; [|split; [intros x|]; (split; [discriminate|]); intros (Hx & _); apply Nu in Hx as [k Hk]; discriminate].
  unfold nm_getitem. cbn [nm_kid nm_v nm_fill]. fold (kid G v).
  destruct (kid G v) as [j|] eqn:Hv; [|split; [intros x|]; (split; [discriminate|]); intros (_ & Hx & _); apply Nv in Hx as [k Hk]; discriminate].
  assert (Nu' : node G u) by (apply Nu; eauto). assert (Nv' : node G v) by (apply Nv; eauto).
  assert (Hi : i < nrows (g_A G)) by (eapply kid_lt; eassumption). assert (Hj : j < nrows (g_A G)) by (eapply kid_lt; eassumption).
  destruct (fw_full_ok pk weighted G i j wf Hn Hi Hj) as [F1 F2].
  fold (mget (mmap Fin (fw_full pk weighted G)) i j).
  rewrite mget_mmap by apply res_dims.
  assert (F1' : forall x, mget (fw_full pk weighted G) i j = Some x <-> shortest (eweight weighted G) u v x) by (intros x; rewrite F1; apply ids_shortest; assumption).
  rewrite (ids_wreach weighted G u i v j wf Hu Hv) in F2.
  destruct (mget (fw_full pk weighted G) i j) as [y|]; simpl.
  - split.
    + intros x. rewrite <- F1'. split; [intros [= <-]; repeat split; eauto|]. intros (_ & _ & [= ->]). reflexivity.
    + split; [discriminate|]. intros (_ & _ & Hr). destruct Hr. assert (Hs : shortest (eweight weighted G) u v y) by (apply F1'; reflexivity). destruct Hs as [[d Hd] _]. exists d, y. assumption.
  - split.
    + intros x. split; [discriminate|]. intros (_ & _ & Hs). apply F1' in Hs. discriminate.
    + split; [|reflexivity]. intros _. repeat split; eauto. intros Hr. apply F2 in Hr. discriminate.
Qed.

(** ** C19: on directed graphs the reported predecessors end shortest paths *)
Theorem C19_predecessors_partial (pk : nat -> nat -> nat -> bool) (G : graph) (weighted : bool) : gwf G -> g_dir G = true ->
  (weighted = true -> forall u, ~ neg_cycle (weight G) u) ->
  returns G (nx_fw_pred_dist pk G weighted) (fun PD =>
    (forall u v p, pred_get (fst PD) u v = Val p ->
       exists x y, eweight weighted G p v = Some x /\ shortest (eweight weighted G) u p y /\ shortest (eweight weighted G) u v (y + x)%Z) /\
    (forall u v, node G u -> u <> v -> wreach (eweight weighted G) u v -> exists p, pred_get (fst PD) u v = Val p) /\
    forall u, pred_get (fst PD) u u = Raise EKey).
Proof.
  intros wf Hd Hn. unfold nx_fw_pred_dist. eapply answers_bind_v; [apply (fw_pd_ok G wf pk weighted)|]. cbv beta iota. apply answers_ret.
  eexists. split; [reflexivity|]. cbn [fst]. rewrite Hd. cbn [fw_sym].
  set (P := fw_P G pk weighted).
  pose proof (wgraph_wf weighted G wf) as wfw. destruct (wgraph_dims weighted G) as (Ed & En & _).
  assert (Hcore : forall a b, a < nrows (g_A G) -> b < nrows (g_A G) ->
    (forall p, mget P a b = Some p -> p < nrows (g_A G) /\ exists v y, mget (g_A (wgraph weighted G)) p b = Some v /\ shortest (mget (g_A (wgraph weighted G))) a p y /\ shortest (mget (g_A (wgraph weighted G))) a b (y + v)%Z) /\
    (a <> b -> wreach (mget (g_A (wgraph weighted G))) a b -> has (mget P a b) = true) /\ (a = b -> mget P a b = None)).
  { intros a b Ha Hb. unfold P, fw_P. rewrite <- Ed, <- En in *. apply (fw_core_p (wgraph weighted G) wfw pk (wgraph_noneg weighted G wf Hn) (fw_l G)); try assumption.
    intros k p v q x H1 H2. eapply ne_w; eassumption. }
  assert (HPs : mwf P /\ nrows P = nrows (g_A G) /\ ncols P = nrows (g_A G)).
  { assert (Hs : forall l r X (H : mwf (snd X) /\ nrows (snd X) = nrows (g_A G) /\ ncols (snd X) = nrows (g_A G)), 
       mwf (snd (fw_loop_p (g_dir G) pk (nrows (g_A G)) r l X)) /\ nrows (snd (fw_loop_p (g_dir G) pk (nrows (g_A G)) r l X)) = nrows (g_A G) /\ ncols (snd (fw_loop_p (g_dir G) pk (nrows (g_A G)) r l X)) = nrows (g_A G)).
    { induction l as [|i l IH]; intros r X H; [exact H|]. simpl. apply IH. destruct X as [D0 P0]. cbn [fw_both snd] in *.
      split; [apply mwf_mbuild|]. unfold mwrite. rewrite nrows_mbuild, ncols_mbuild. tauto. }
    apply Hs. cbn [snd]. unfold fw_p0. rewrite En, nrows_mbuild, ncols_mbuild. split; [apply mwf_mbuild|auto]. }
  destruct HPs as (P1 & P2 & P3).
  assert (Hget : forall u v, pred_get (mkrm P (g_kid G) None) u v =
     match kid G u, kid G v with Some i, Some j => match mget P i j with Some q => okey (ikey (g_kid G) q) | None => Raise EKey end | _, _ => Raise EKey end).
  { intros u v. unfold pred_get, nnm_getitem, mkrm. cbn [rm_kid rm_fill rm_m]. fold (kid G u). destruct (kid G u) as [i|] eqn:Hu; [|reflexivity].
    cbn [rm_get_rows rm_rows rm_m]. assert (Hi : i < nrows (g_A G)) by (eapply kid_lt; eassumption).
    destruct (has (vget (rows_of P) i)) eqn:Er.
    - unfold km_getitem. cbn [nm_kid nm_v]. fold (kid G v). destruct (kid G v) as [j|]; reflexivity.
    - destruct (kid G v) as [j|] eqn:Hv; [|reflexivity]. assert (E : mget P i j = None); [|rewrite E; reflexivity].
      destruct (mget P i j) as [q|] eqn:Eq; [|reflexivity]. exfalso.
      assert (Er' : has (vget (rows_of P) i) = true); [|congruence].
      unfold rows_of, vmap. rewrite vget_vbuild, vsize_vbuild, P2. replace (i <? nrows (g_A G)) with true by (symmetry; apply Nat.ltb_lt; assumption).
      rewrite vget_vbuild_lt by assumption. rewrite has_omap. apply has_ored_true. exists j. split; [|rewrite Eq; reflexivity].
      rewrite P3. eapply kid_lt; eassumption. }
  split; [|split].
  - intros u v p. rewrite Hget. destruct (kid G u) as [i|] eqn:Hu; [|discriminate]. destruct (kid G v) as [j|] eqn:Hv; [|discriminate].
    destruct (mget P i j) as [q|] eqn:Eq; [|discriminate].
    destruct (Hcore i j (kid_lt G wf _ _ Hu) (kid_lt G wf _ _ Hv)) as (C1 & _). destruct (C1 q Eq) as (Hq & x & y & E1 & E2 & E3).
    destruct (kid_key G wf q Hq) as [k Hk].
    assert (Eik : ikey (g_kid G) q = Some k) by (apply In_ikey; [eapply kok_nd_snd, gkok; assumption|apply dget_In; exact Hk]).
    rewrite Eik. simpl. intros [= <-]. exists x, y.
    split; [rewrite <- wgraph_weight by assumption; rewrite (weight_ids (wgraph weighted G) k v q j) by (rewrite wgraph_kid; assumption); assumption|].
    split; [eapply ids_shortest; eassumption|eapply ids_shortest; eassumption].
  - intros u v Hu Hne Hr. apply node_kid in Hu as [i Hu]. destruct (ewreach_kid _ _ _ _ _ Hu Hr) as [j Hv]. rewrite Hget, Hu, Hv.
    destruct (Hcore i j (kid_lt G wf _ _ Hu) (kid_lt G wf _ _ Hv)) as (C1 & C2 & _).
    assert (Hij : i <> j) by (intros Hij; rewrite <- Hij in Hv; exact (Hne (kid_inj G wf u v i Hu Hv))).
    apply (ids_wreach weighted G u i v j wf Hu Hv) in Hr. apply (C2 Hij) in Hr. apply has_true in Hr as [q Eq]. rewrite Eq.
    destruct (C1 q Eq) as (Hq & _). destruct (kid_key G wf q Hq) as [k Hk]. exists k.
    assert (Eik : ikey (g_kid G) q = Some k) by (apply In_ikey; [eapply kok_nd_snd, gkok; assumption|apply dget_In; exact Hk]).
    rewrite Eik. reflexivity.
  - intros u. rewrite Hget. destruct (kid G u) as [i|] eqn:Hu; [|reflexivity].
    destruct (Hcore i i (kid_lt G wf _ _ Hu) (kid_lt G wf _ _ Hu)) as (_ & _ & C3). rewrite (C3 eq_refl). reflexivity.
Qed.

(** ** Refutations and examples *)
(** undirected: the stored upper triangle of predecessors is mirrored, so P[1][0] = 0 although 0 is not adjacent to itself *)
Definition g_pair : graph := mkg false 2 [(0, 1, 1%Z)].
Lemma g_pair_noneg : forall u, ~ neg_cycle (weight g_pair) u.
Proof.
  intros u (d & w & H & Hw). apply wwalk_nonneg in H; [lia|]. intros a b v Hv. unfold weight in Hv.
  destruct (kid g_pair a) as [i|] eqn:Ha; [|discriminate]. destruct (kid g_pair b) as [j|] eqn:Hb; [|discriminate].
  simpl in Hv. rewrite mget_mbuild in Hv. destruct (Nat.ltb_spec i 2), (Nat.ltb_spec j 2); try discriminate.
  destruct i as [|[|]], j as [|[|]]; try lia; simpl in Hv; try discriminate; injection Hv as <-; lia.
Qed.
Theorem C19_undirected_refuted : gwf g_pair /\ (forall u, ~ neg_cycle (weight g_pair) u) /\
  forall pk, exists PD, fst (nx_fw_pred_dist pk g_pair true st0) = Val PD /\
    pred_get (fst PD) (KI 1) (KI 0) = Val (KI 0) /\ eweight true g_pair (KI 0) (KI 0) = None.
Proof.
  split; [apply mkg_wf|]. split; [exact g_pair_noneg|]. intros pk. eexists. split; [vm_compute; reflexivity|]. split; vm_compute; reflexivity.
Qed.
(** undirected with a nodelist: the permuted matrix is no longer upper triangular, an outdated copy of a
    distance survives, and the result is not even symmetric - whichever operand [binary.any] takes *)
Definition g_tri : graph := mkg false 3 [(0, 1, 1%Z); (1, 2, 1%Z); (0, 2, 10%Z)].
Theorem C18_numpy_nodelist_refuted : gwf g_tri /\
  wwalk (weight g_tri) (KI 2) 2 2 (KI 0) /\ wwalk (weight g_tri) (KI 0) 2 2 (KI 2) /\
  forall b, exists D x y, fst (nx_fw_numpy (fun _ _ _ => b) g_tri (Some [KI 2; KI 1; KI 0]) true st0) = Val D /\
    mget D 0 2 = Some x /\ mget D 2 0 = Some y /\ (2 < x \/ 2 < y)%Z /\ x <> y.
Proof.
  split; [apply mkg_wf|]. split; [|split].
  - change 2%Z with (0 + 1 + 1)%Z. eapply ww_snoc; [eapply ww_snoc; [constructor|]|]; [instantiate (1 := KI 1)|]; vm_compute; reflexivity.
  - change 2%Z with (0 + 1 + 1)%Z. eapply ww_snoc; [eapply ww_snoc; [constructor|]|]; [instantiate (1 := KI 1)|]; vm_compute; reflexivity.
  - intros [|]; eexists; eexists; eexists; (split; [vm_compute; reflexivity|]); (split; [vm_compute; reflexivity|]); (split; [vm_compute; reflexivity|]); (split; [lia|discriminate]).
Qed.
(** a directed example with a negative edge and an unreachable node meets the hypotheses *)
Definition g_fw : graph := mkg true 4 [(0, 1, 5%Z); (0, 2, 2%Z); (2, 1, (-1)%Z); (1, 1, 3%Z)].
Lemma g_fw_noneg : forall u, ~ neg_cycle (weight g_fw) u.
Proof.
  set (pot := fun u : nkey => match u with KI 0 => 0%Z | KI 1 => 1%Z | KI 2 => 2%Z | _ => 0%Z end).
  assert (He : forall a b v, weight g_fw a b = Some v -> (pot b <= pot a + v)%Z).
  { intros a b v Hv. unfold weight in Hv.
    destruct (kid g_fw a) as [i|] eqn:Ha; [|discriminate]. destruct (kid g_fw b) as [j|] eqn:Hb; [|discriminate].
    assert (Ka : a = KI (Z.of_nat i) /\ i < 4).
    { unfold kid in Ha. apply dget_In in Ha. simpl in Ha. intuition (try discriminate); match goal with H : (_, _) = (_, _) |- _ => injection H as <- <- end; simpl; (reflexivity || lia). }
    assert (Kb : b = KI (Z.of_nat j) /\ j < 4).
    { unfold kid in Hb. apply dget_In in Hb. simpl in Hb. intuition (try discriminate); match goal with H : (_, _) = (_, _) |- _ => injection H as <- <- end; simpl; (reflexivity || lia). }
    destruct Ka as [-> Hi], Kb as [-> Hj].
    destruct i as [|[|[|[|]]]], j as [|[|[|[|]]]]; try lia; vm_compute in Hv; try discriminate; injection Hv as <-; vm_compute; discriminate. }
  intros u (d & w & H & Hw). assert (Hp : forall x d w y, wwalk (weight g_fw) x d w y -> (pot y <= pot x + w)%Z).
  { clear -He. intros x d w y. induction 1 as [|d w y v z _ IH Hv]; [lia|]. apply He in Hv. lia. }
  apply Hp in H. lia.
Qed.
Example C18_ex : exists D, fst (nx_floyd_warshall (fun _ _ _ => true) g_fw true st0) = Val D /\
  nn_get D (KI 0) (KI 1) = Val 1%Z /\ nn_get D (KI 0) (KI 3) = Raise EKey /\ nn_get D (KI 1) (KI 1) = Val 0%Z.
Proof. eexists. split; [vm_compute; reflexivity|]. repeat split; vm_compute; reflexivity. Qed.
Example C18_hyp_ex : gwf g_fw /\ Inv g_fw st0 /\ forall u, ~ neg_cycle (weight g_fw) u.
Proof. split; [apply mkg_wf|]. split; [apply (Inv_st0 g_fw true)|apply g_fw_noneg]. Qed.
Example C19_ex : exists PD, fst (nx_fw_pred_dist (fun _ _ _ => true) g_fw true st0) = Val PD /\
  pred_get (fst PD) (KI 0) (KI 1) = Val (KI 2) /\ nn_get (snd PD) (KI 0) (KI 3) = Val Inf.
Proof. eexists. split; [vm_compute; reflexivity|]. repeat split; vm_compute; reflexivity. Qed.
Example C18_numpy_ex : exists D, fst (nx_fw_numpy (fun _ _ _ => true) g_fw (Some [KI 3; KI 1; KI 0; KI 2]) true st0) = Val D /\
  mget D 2 1 = Some 1%Z /\ mget D 2 0 = None.
Proof. eexists. split; [vm_compute; reflexivity|]. split; vm_compute; reflexivity. Qed.
Print Assumptions C18_floyd_warshall.
Print Assumptions C18_numpy_partial.
Print Assumptions C18_numpy_default.
Print Assumptions C18_pred_distance.
Print Assumptions C18_numpy_nodelist_refuted.
Print Assumptions C19_predecessors_partial.
Print Assumptions C19_undirected_refuted.
