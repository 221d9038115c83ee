(** * C14-C17: shortest paths by weight, negative cycles *)
From Verif Require Import Base BaseProofs Model_Graph Model_Cache Model_Keys Model_Utils Model_Bfs Model_Weighted Spec Spec_Cache Spec_Run Spec_Weighted
  CacheMath CacheProofs CacheProofs2 RunProofs NdProofs BfsProofs BfsProofs2 WeightedMath KeyProofs WeightedProofs WeightedProofs2 WeightedProofs3 PathProofs Walks
  Concrete Props_Utils Props_Bfs.
From Coq Require Import QArith Permutation.
Open Scope nat_scope.

(** an iso-valued graph without edges has no common weight: [d *= iso_value] fails (C14_iso_empty_refuted).
    GraphBLAS' iso flag on an empty matrix is the only way there *)
Definition iso_has_edge (G : graph) : Prop := g_iso G = true -> exists u v, edge G u v.
Lemma iso_has_edge_ids G : gwf G -> iso_has_edge G -> g_iso G = true -> exists i j x, mget (g_A G) i j = Some x.
Proof. intros wf H Hi. destruct (H Hi) as (u & v & He). apply edge_iedge in He as (i & j & _ & _ & x & Hx); eauto. Qed.

(** the distances reported from u *)
Definition lengths_from (G : graph) (u : nkey) (m : nodemap Z) : Prop :=
  is_map m (shortest (weight G) u) /\ forall v, wreach (weight G) u v -> exists x, nm_getitem m v = Val x.
Lemma ss_map G (wf : gwf G) u src d : kid G u = Some src -> ss_ok G src (Val d) ->
  ~ neg_cycle_from (weight G) u /\ lengths_from G u (to_nodemap G d).
Proof.
  intros Hu (Hd & H1 & H2 & H3). split; [rewrite (negf_lift G wf u src Hu); assumption|].
  assert (HM : is_map (to_nodemap G d) (shortest (weight G) u)).
  { apply is_map_intro; [assumption|lia|]. intros k x. rewrite (shortest_lift G wf u src k x Hu). split; intros (j & Hj & H); exists j; (split; [assumption|]); apply H2; assumption. }
  split; [assumption|]. intros v Hv. apply (wreach_lift G wf u src v Hu) in Hv as (j & Hj & Hv). apply H3 in Hv. apply has_true in Hv as [x Hx].
  exists x. apply HM. apply (shortest_lift G wf u src v x Hu). exists j. split; [assumption|]. apply H2. assumption.
Qed.

(** ** C14 *)
Theorem C14_single_source (G : graph) (u : nkey) : gwf G -> iso_has_edge G ->
  answers G (nx_single_source_bf G u) (fun o =>
    match o with
    | Val m => node G u /\ ~ neg_cycle_from (weight G) u /\
               is_map m (shortest (weight G) u) /\
               forall v, wreach (weight G) u v -> exists x, nm_getitem m v = Val x
    | Raise e => (e = EKey /\ ~ node G u) \/ (e = EUnbounded /\ node G u /\ neg_cycle_from (weight G) u)
    end).
Proof.
  intros wf Hi. unfold nx_single_source_bf. eapply answers_bind; [apply (single_source_ok G wf (iso_has_edge_ids G wf Hi))| |].
  - intros d Hd. apply answers_ret. destruct (kid G u) as [src|] eqn:Hu; [|discriminate]. split; [apply node_kid; eauto|]. apply (ss_map G wf u src d Hu Hd).
  - intros e He. destruct (kid G u) as [src|] eqn:Hu.
    + destruct He as [-> He]. right. split; [reflexivity|]. split; [apply node_kid; eauto|]. apply (negf_lift G wf u src Hu). assumption.
    + injection He as ->. left. split; [reflexivity|]. apply not_node. assumption.
Qed.

Lemma mapM_answers G {X Y} (f : X -> M Y) (g : X -> Y -> Prop) (E : exn -> Prop) l :
  (forall x, In x l -> answers G (f x) (fun o => match o with Val y => g x y | Raise e => E e end)) ->
  answers G (mapM f l) (fun o => match o with Val ys => Forall2 g l ys | Raise e => E e end).
Proof.
  induction l as [|x l IH]; intros H; simpl.
  - apply answers_ret. constructor.
  - eapply answers_bind; [apply H; left; reflexivity| |intros e He; exact He].
    intros y Hy. eapply answers_bind; [apply IH; intros; apply H; right; assumption| |intros e He; exact He].
    intros ys Hys. apply answers_ret. constructor; assumption.
Qed.
(** a NodeNodeMap whose diagonal is full lists all nodes *)
Lemma nnm_items_rows G (wf : gwf G) (D : mat Z) : let n := nrows (g_A G) in nrows D = n -> ncols D = n -> mwf D ->
  (forall i, i < n -> has (mget D i i) = true) ->
  exists L, nnm_items (to_nodenodemap G D) = Val L /\ Permutation (map fst L) (gnodes G) /\ (ids_in_order G -> map fst L = gnodes G) /\
    forall u m, In (u, m) L -> exists i, kid G u = Some i /\ m = to_nodemap G (mrow D i).
Proof.
  intros n H1 H2 H3 Hdiag.
  assert (Hrow : forall i, i < n -> has (vget (rows_of D) i) = true).
  { intros i Hi. unfold rows_of, vmap. rewrite vget_vbuild, vsize_vbuild, H1. replace (i <? n) with true by (symmetry; apply Nat.ltb_lt; assumption).
    rewrite vget_vbuild_lt by assumption. rewrite has_omap. apply has_ored_true. exists i. split; [lia|auto]. }
  assert (Srow : vsize (rows_of D) = n) by (unfold rows_of, vmap; rewrite !vsize_vbuild; assumption).
  unfold nnm_items, rm_iter. simpl.
  destruct (indices_keys G wf (rows_of D)) as (ks & Hks & ND & _ & Hin); [unfold n in Srow; lia|]. rewrite Hks. simpl.
  destruct (mapOut_val (fun k => match nnm_getitem (RM D (g_kid G) (Some (rows_of D)) None) k with Val (m, _) => Val (k, m) | Raise e => Raise e end)
              (fun k p => fst p = k /\ exists i, kid G k = Some i /\ snd p = to_nodemap G (mrow D i)) ks) as (L & EL & F2).
  { intros k Hk. apply Hin in Hk as (i & Hi & Hr). unfold nnm_getitem. simpl. fold (kid G k). rewrite Hi, Hr.
    eexists. split; [reflexivity|]. split; [reflexivity|]. exists i. split; reflexivity. }
  exists L. split; [exact EL|].
  assert (Hf : map fst L = ks) by (clear -F2; induction F2 as [|u p l L [<- _] F2 IH]; simpl; congruence).
  split; [|split].
  + rewrite Hf. apply NoDup_Permutation; [assumption|apply (gw_keys G wf)|]. intros k. rewrite Hin. split.
    * intros (i & Hi & _). apply node_kid. eauto.
    * intros Hk. apply node_kid in Hk as [i Hi]. exists i. split; [assumption|]. apply Hrow. eapply kid_lt; eassumption.
  + intros Ho. rewrite Hf. assert (Ev : vindices (rows_of D) = map snd (g_kid G)).
    { rewrite Ho. unfold glen. rewrite vindices_filter, Srow. fold n.
      assert (forall l, (forall i, In i l -> i < n) -> filter (fun i => has (vget (rows_of D) i)) l = l) as Hfil.
      { induction l as [|a l IH]; intros Hl; simpl; [reflexivity|]. rewrite Hrow by (apply Hl; left; reflexivity). rewrite IH; [reflexivity|].
        intros i Hi. apply Hl. right. assumption. }
      apply Hfil. intros i Hi. apply in_seq in Hi. lia. }
    rewrite Ev in Hks. unfold gnodes.
    assert (NDs : NoDup (map snd (g_kid G))) by (eapply kok_nd_snd, gkok; assumption).
    assert (Hm : forall l ks, incl l (g_kid G) -> mapO (ikey (g_kid G)) (map snd l) = Some ks -> ks = map fst l).
    { induction l as [|[k i] l IH]; intros ks0 Hi; simpl; [intros [= <-]; reflexivity|].
      rewrite (In_ikey (g_kid G) i k NDs) by (apply Hi; left; reflexivity).
      destruct (mapO (ikey (g_kid G)) (map snd l)) as [ks1|] eqn:E1; [|discriminate]. intros [= <-]. f_equal. apply IH; [|reflexivity].
      intros x Hx. apply Hi. right. assumption. }
    apply Hm; [apply incl_refl|assumption].
  + intros u m Hin'. clear -F2 Hin'. induction F2 as [|u' p l L [<- Hp] F2 IH]; [destruct Hin'|]. destruct Hin' as [->|Hin']; [exact Hp|auto].
Qed.
Lemma combine_seq_nth {X} (dflt : X) (cur : list X) r u : In (r, u) (combine (seq 0 (List.length cur)) cur) -> r < List.length cur /\ nth r cur dflt = u.
Proof.
  intros Hin. apply In_nth with (d := (0, dflt)) in Hin as (q & Hq & Hin).
  rewrite combine_length, seq_length, Nat.min_id in Hq. rewrite combine_nth in Hin by apply seq_length.
  rewrite seq_nth in Hin by assumption. injection Hin as <- <-. simpl. auto.
Qed.
Lemma map_snd_combine_seq {X} (cur : list X) : forall a, map snd (combine (seq a (List.length cur)) cur) = cur.
Proof. induction cur as [|u cur IH]; intros a; simpl; [reflexivity|]. rewrite IH. reflexivity. Qed.
(** everything the generator yields; with no negative cycle anywhere it yields each node once *)
Theorem C14_all_pairs (G : graph) (pyfloat : list Ascii.ascii -> option Q) (isz : Z) (chunk : chunkarg) : gwf G -> iso_has_edge G ->
  answers G (nx_all_pairs_bf pyfloat isz G chunk) (fun o =>
    match o with
    | Val L =>
        Permutation (map fst L) (gnodes G) /\ (ids_in_order G -> map fst L = gnodes G) /\
        forall u m, In (u, m) L -> ~ neg_cycle_from (weight G) u /\ is_map m (shortest (weight G) u) /\
                                   forall v, wreach (weight G) u v -> exists x, nm_getitem m v = Val x
    | Raise e => normalize_chunksize pyfloat chunk (Z.of_nat (glen G) * isz) (Some (Z.of_nat (glen G))) = Raise e \/
                 (e = EUnbounded /\ exists u, node G u /\ neg_cycle_from (weight G) u)
    end).
Proof.
  intros wf Hi. pose proof (iso_has_edge_ids G wf Hi) as Hie. unfold nx_all_pairs_bf.
  destruct (normalize_chunksize _ _ _ _) as [cs|e] eqn:EN.
  2:{ eapply answers_bind; [apply (answers_lifto G (Raise e) (fun o => o = Raise e)); reflexivity|discriminate|]. intros e' [= ->]. left. reflexivity. }
  eapply answers_bind; [apply (answers_lifto G (Val cs) (fun o => o = Val cs)); reflexivity| |discriminate]. intros cs' [= ->].
  destruct cs as [c|].
  - destruct (Z.ltb_spec c 2) as [Hc|Hc].
    + eapply answers_conseq.
      * apply mapM_answers with (g := fun u p => fst p = u /\ ~ neg_cycle_from (weight G) u /\ lengths_from G u (snd p))
          (E := fun e => e = EUnbounded /\ exists u, node G u /\ neg_cycle_from (weight G) u). intros u Hu.
        assert (Hn : node G u) by exact Hu. pose proof (proj1 (node_kid G u) Hn) as (src & Hs).
        pose proof (single_source_ok G wf Hie u) as Hss. rewrite Hs in Hss.
        eapply answers_bind; [exact Hss| |].
        -- intros d Hd. apply answers_ret. split; [reflexivity|]. apply (ss_map G wf u src d Hs Hd).
        -- intros e [-> He]. split; [reflexivity|]. exists u. split; [assumption|]. apply (negf_lift G wf u src Hs). assumption.
      * intros [L|e]; [|intros H; right; exact H]. intros F2. assert (Hf : map fst L = gnodes G).
        { clear -F2. induction F2 as [|u p l L [<- _] F2 IH]; simpl; congruence. }
        rewrite Hf. split; [reflexivity|]. split; [reflexivity|]. intros u m Hin.
        clear -F2 Hin. induction F2 as [|u' p l L [<- Hp] F2 IH]; [destruct Hin|]. destruct Hin as [->|Hin]; [exact Hp|auto].
    + destruct (C66_partition c (gnodes G) true) as (chunks & -> & Hcat & _); [lia|].
      eapply answers_bind.
      * apply mapM_answers with (g := fun p L => match p with Elem _ => False | Chunk cur => map fst L = cur /\ forall u m, In (u, m) L -> ~ neg_cycle_from (weight G) u /\ lengths_from G u m end)
          (E := fun e => e = EUnbounded /\ exists u, node G u /\ neg_cycle_from (weight G) u).
        intros p Hp. apply in_map_iff in Hp as (cur & <- & Hcur).
        assert (Hnode : forall u, In u cur -> node G u).
        { intros u Hu. unfold node. rewrite <- Hcat. apply in_concat. eauto. }
        destruct (nodes_ids G wf cur Hnode) as (ids & Hids & Hlen & Hlt & Hnth).
        eapply answers_bind; [apply (bf_path_lengths_ok G wf ids Hlt Hie (Some cur) Hids)| |].
        -- intros D [(D1 & D2 & D3) HD]. apply answers_ret. split; [rewrite map_map; cbn [fst snd]; rewrite <- (map_snd_combine_seq cur 0) at 3; apply map_ext; reflexivity|].
           intros u m Hin. apply in_map_iff in Hin as ([r u'] & [= <- <-] & Hin). cbn [fst snd]. apply combine_seq_nth with (dflt := KI 0) in Hin as [Hr <-].
           apply (ss_map G wf _ (nth r ids 0)); [apply Hnth; assumption|]. apply HD. lia.
        -- intros e (-> & r & Hr & He). split; [reflexivity|]. exists (nth r cur (KI 0)). split; [apply Hnode, nth_In; lia|].
           apply (negf_lift G wf _ (nth r ids 0)); [apply Hnth; lia|assumption].
      * intros Ls F2. apply answers_ret.
        assert (Hcc : map fst (List.concat Ls) = List.concat chunks /\ forall u m, In (u, m) (List.concat Ls) -> ~ neg_cycle_from (weight G) u /\ lengths_from G u m).
        { clear -F2. remember (map Chunk chunks) as pl eqn:Epl. revert chunks Epl. induction F2 as [|p L pl Ls Hp F2 IH]; intros chunks Epl.
          - destruct chunks; [|discriminate]. split; [reflexivity|intros ? ? []].
          - destruct chunks as [|cur chunks]; [discriminate|]. injection Epl as -> ->. destruct Hp as [H1 H2].
            destruct (IH chunks eq_refl) as [I1 I2]. simpl. rewrite map_app, H1, I1. split; [reflexivity|].
            intros u m Hin. apply in_app_or in Hin as [Hin|Hin]; eauto. }
        destruct Hcc as [Hf Hr]. rewrite Hf, Hcat. split; [reflexivity|]. split; [reflexivity|]. exact Hr.
      * intros e He. right. exact He.
  - set (n := nrows (g_A G)). assert (Hids : forall i, In i (seq 0 n) -> i < n) by (intros i Hin; apply in_seq in Hin; lia).
    eapply answers_bind; [apply (bf_path_lengths_ok G wf (seq 0 n) Hids Hie None eq_refl)| |].
    + intros D [(D1 & D2 & D3) HD]. rewrite seq_length in D2. apply answers_lifto.
      destruct (nnm_items_rows G wf D) as (L & -> & P1 & P2 & P3); [assumption|assumption|assumption| |].
      { intros i Li. specialize (HD i ltac:(rewrite seq_length; assumption)). rewrite seq_nth in HD by assumption. cbn [Nat.add] in HD. destruct HD as (_ & _ & _ & HD).
        apply (HD i). exists 0, 0%Z. constructor. }
      split; [assumption|]. split; [assumption|]. intros u m Hin. apply P3 in Hin as (i & Hi' & ->).
      assert (Li : i < n) by (eapply kid_lt; eassumption).
      apply (ss_map G wf u i (mrow D i) Hi'). specialize (HD i ltac:(rewrite seq_length; assumption)). rewrite seq_nth in HD by assumption. exact HD.
    + intros e (-> & r & Hr & He). right. split; [reflexivity|]. rewrite seq_length in Hr. rewrite seq_nth in He by assumption.
      destruct (kid_key G wf r Hr) as [u Hu]. exists u. split; [apply node_kid; eauto|]. apply (negf_lift G wf u r Hu). assumption.
Qed.

(** algorithms-level [nodes=], with or without expand_output: one row per requested node in the order
    requested, or (when fewer nodes than there are are requested) the rows of all nodes, empty for the others *)
Theorem C14_nodes (G : graph) (nodes : list nkey) (expand : bool) : gwf G -> iso_has_edge G -> (forall u, In u nodes -> node G u) ->
  (expand = true -> List.length nodes < glen G) ->
  answers G (bf_path_lengths G (Some nodes) expand) (fun o =>
    match o with
    | Val D =>
        (forall u, In u nodes -> ~ neg_cycle_from (weight G) u) /\
        if expand
        then nrows D = glen G /\ forall u i, kid G u = Some i -> is_map (to_nodemap G (mrow D i)) (fun v x => In u nodes /\ shortest (weight G) u v x)
        else nrows D = List.length nodes /\ forall r u, nth_error nodes r = Some u -> is_map (to_nodemap G (mrow D r)) (shortest (weight G) u)
    | Raise e => e = EUnbounded /\ exists u, In u nodes /\ neg_cycle_from (weight G) u
    end).
Proof.
  intros wf Hi Hn Hl. pose proof (iso_has_edge_ids G wf Hi) as Hie.
  destruct (nodes_ids G wf nodes Hn) as (ids & Hids & Hlen & Hlt & Hnth).
  assert (Hm : answers G (D <- bf_path_lengths G (Some nodes) false ;; if expand && negb (ncols D =? nrows D) then ret (expanded D ids) else ret D) (fun o =>
    match o with
    | Val D =>
        (forall u, In u nodes -> ~ neg_cycle_from (weight G) u) /\
        if expand
        then nrows D = glen G /\ forall u i, kid G u = Some i -> is_map (to_nodemap G (mrow D i)) (fun v x => In u nodes /\ shortest (weight G) u v x)
        else nrows D = List.length nodes /\ forall r u, nth_error nodes r = Some u -> is_map (to_nodemap G (mrow D r)) (shortest (weight G) u)
    | Raise e => e = EUnbounded /\ exists u, In u nodes /\ neg_cycle_from (weight G) u
    end)).
  - eapply answers_bind; [apply (bf_path_lengths_ok G wf ids Hlt Hie (Some nodes) Hids)| |].
    + intros D [(D1 & D2 & D3) HD].
      assert (Hrow : forall r, r < List.length nodes -> ~ neg_cycle_from (weight G) (nth r nodes (KI 0)) /\ lengths_from G (nth r nodes (KI 0)) (to_nodemap G (mrow D r))).
      { intros r Hr. apply (ss_map G wf _ (nth r ids 0)); [apply Hnth; assumption|]. apply HD. lia. }
      assert (Hneg : forall u, In u nodes -> ~ neg_cycle_from (weight G) u).
      { intros u Hu. apply In_nth with (d := KI 0) in Hu as (r & Hr & <-). apply Hrow. assumption. }
      destruct expand; cbn [andb].
      * assert (E : ncols D =? nrows D = false) by (apply Nat.eqb_neq; rewrite D2, D3, Hlen; specialize (Hl eq_refl); unfold glen in Hl; lia). rewrite E. cbn [negb].
        apply answers_ret. split; [exact Hneg|]. split; [unfold expanded; rewrite nrows_mbuild; exact D3|].
        intros u i Hu. assert (Li : i < ncols D) by (rewrite D3; exact (kid_lt G wf _ _ Hu)).
        destruct (expanded_row D ids i D1 D2 Li) as [(r & Hr & Er & ->)|[Hni Hno]].
        -- assert (Hin : In u nodes) by (apply (nodes_in_ids G wf nodes ids u i Hlen Hnth Hu); rewrite <- Er; apply nth_In; assumption).
           rewrite Hlen in Hr. assert (Eu : nth r nodes (KI 0) = u) by (apply (kid_inj G wf _ _ i); [rewrite <- Er; apply Hnth; assumption|assumption]).
           destruct (Hrow r Hr) as [_ [HM _]]. rewrite Eu in HM. eapply is_map_ext; [|exact HM].
           intros v x. split; [intros K; split; assumption|intros [_ K]; exact K].
        -- assert (Hnin : ~ In u nodes) by (rewrite (nodes_in_ids G wf nodes ids u i Hlen Hnth Hu); assumption).
           apply is_map_intro; [assumption| |].
           ++ unfold expanded. rewrite mrow_mbuild by assumption. rewrite vsize_vbuild. lia.
           ++ intros v x. split; [tauto|]. intros (j & _ & K). rewrite Hno in K. discriminate.
      * apply answers_ret. split; [exact Hneg|]. split; [lia|]. intros r u Hu. assert (Hr : r < List.length nodes) by (apply nth_error_Some; congruence).
        destruct (Hrow r Hr) as [_ [HM _]]. rewrite (nth_error_nth nodes r (KI 0) Hu) in HM. exact HM.
    + intros e (-> & r & Hr & He). split; [reflexivity|]. exists (nth r nodes (KI 0)). split; [apply nth_In; lia|].
      apply (negf_lift G wf _ (nth r ids 0)); [apply Hnth; lia|assumption].
  - intros s HI. specialize (Hm s HI). revert Hm.
    match goal with |- ?P (fst (?a s)) /\ _ -> _ => replace (bf_path_lengths G (Some nodes) expand s) with (a s); [exact (fun x => x)|] end.
    unfold bf_path_lengths, bind. rewrite Hids. destruct (is_iso G s) as [[iso|e] s1]; [|reflexivity].
    destruct ((if iso then bfm_iso G (Some nodes) else ret None) s1) as [[r|e] s2]; [|reflexivity].
    destruct (match r with Some D => ret D | None => bfm_core G (Some nodes) end s2) as [[D|e] s3]; [|reflexivity].
    cbn [andb ret]. destruct (expand && negb (ncols D =? nrows D)); reflexivity.
Qed.

Example C14_nodes_ex :
  match fst (bf_path_lengths (mkg true 3 [(0, 1, 5%Z); (1, 2, (-2)%Z)]) (Some [KI 2; KI 0]) true st0) with
  | Val D => mget D 0 2 = Some 3%Z /\ mget D 1 1 = None /\ mget D 2 2 = Some 0%Z
  | Raise _ => False
  end.
Proof. vm_compute. auto. Qed.

(** ** C15 *)
(** without a target shortcut the answer would be that of C14; with it a negative cycle can go unnoticed *)
Theorem C15_path_length_partial (G : graph) (u v : nkey) : gwf G -> iso_has_edge G ->
  answers G (nx_bf_path_length G u v) (fun o =>
    match o with
    | Val x => (exists d, wwalk (weight G) u d x v) /\ (~ neg_cycle_from (weight G) u -> shortest (weight G) u v x)
    | Raise e => (e = EKey /\ ~ (node G u /\ node G v)) \/
                 (e = EUnbounded /\ neg_cycle_from (weight G) u) \/
                 (e = ENoPath /\ node G u /\ node G v /\ ~ wreach (weight G) u v)
    end).
Proof.
  intros wf Hi. unfold nx_bf_path_length. eapply answers_conseq; [apply (path_length_ok G wf (iso_has_edge_ids G wf Hi))|].
  intros o H. destruct (kid G u) as [i|] eqn:Hu.
  2:{ subst o. left. split; [reflexivity|]. apply not_node in Hu. tauto. }
  destruct (kid G v) as [j|] eqn:Hv.
  2:{ subst o. left. split; [reflexivity|]. apply not_node in Hv. tauto. }
  destruct o as [x|e].
  - destruct H as [(d & H) H']. split.
    + exists d. apply (wwalk_lift G wf u i); eauto.
    + rewrite (negf_lift G wf u i Hu). intros Hn. apply (shortest_lift G wf u i v x Hu). exists j. auto.
  - destruct H as [[-> H]|[-> H]]; right; [left|right].
    + split; [reflexivity|]. apply (negf_lift G wf u i Hu). assumption.
    + split; [reflexivity|]. split; [apply node_kid; eauto|]. split; [apply node_kid; eauto|]. rewrite (wreach_lift G wf u i v Hu).
      intros (j' & Hj' & Hr). congruence.
Qed.
(** a negative cycle reachable from the source goes unnoticed ... because the check looks at the target only ... *)
Definition g_cyc : graph := mkg true 5 [(0, 1, 1%Z); (1, 2, 1%Z); (2, 0, (-3)%Z); (0, 3, 1%Z)].
Definition g_far : graph := mkg true 4 [(0, 1, 1%Z); (0, 2, 5%Z); (2, 3, 5%Z); (3, 3, (-1)%Z)].
Lemma g_cyc_neg : neg_cycle (weight g_cyc) (KI 0).
Proof.
  exists 3, (0 + 1 + 1 + -3)%Z. split; [|reflexivity].
  eapply ww_snoc with (y := KI 2); [eapply ww_snoc with (y := KI 1); [eapply ww_snoc with (y := KI 0); [apply ww_nil|]|]|]; vm_compute; reflexivity.
Qed.
Theorem C15_unbounded_refuted : gwf g_cyc /\ neg_cycle_from (weight g_cyc) (KI 0) /\
  fst (nx_single_source_bf g_cyc (KI 0) st0) = Raise EUnbounded /\
  exists x, fst (nx_bf_path_length g_cyc (KI 0) (KI 3) st0) = Val x.
Proof.
  split; [apply mkg_wf|]. split; [exists (KI 0); split; [apply wreach_refl|apply g_cyc_neg]|].
  split; [vm_compute; reflexivity|]. eexists. vm_compute. reflexivity.
Qed.
(** ... or because the target's distance cuts the search off before a negative self-loop is met *)
Theorem C15_self_loop_refuted : gwf g_far /\ neg_cycle_from (weight g_far) (KI 0) /\
  fst (nx_single_source_bf g_far (KI 0) st0) = Raise EUnbounded /\
  fst (nx_bf_path_length g_far (KI 0) (KI 1) st0) = Val 1%Z.
Proof.
  split; [apply mkg_wf|]. split; [|split; vm_compute; reflexivity]. exists (KI 3). split.
  - exists 2, (0 + 5 + 5)%Z. eapply ww_snoc with (y := KI 2); [eapply ww_snoc with (y := KI 0); [apply ww_nil|]|]; vm_compute; reflexivity.
  - exists 1, (0 + -1)%Z. split; [|reflexivity]. eapply ww_snoc with (y := KI 3); [apply ww_nil|]. vm_compute. reflexivity.
Qed.
(** an iso-valued graph without edges: the length from a node to itself is not 0 but an exception *)
Theorem C14_iso_empty_refuted : let G := mkg_iso true 2 [] 1 in
  gwf G /\ node G (KI 0) /\ fst (nx_single_source_bf G (KI 0) st0) = Raise EValue.
Proof. split; [apply mkg_iso_wf|]. split; [left; reflexivity|]. vm_compute. reflexivity. Qed.

(** ** C17 *)
Section N.
Variable A : mat Z.
Hypothesis Awf : mwf A.
Hypothesis Asq : ncols A = nrows A.
Notation n := (nrows A).
Notation W := (mget A).
Variable S0 : nat -> option Z.
Hypothesis S0lt : forall i z, S0 i = Some z -> i < n.
Lemma nec_loop_ok k : forall m d cur, n - 1 <= m + k -> vsize d = n -> vsize cur = n -> BI W S0 None None m (vget d) (vget cur) ->
  nec_loop A k d cur = true <-> S0neg W S0.
Proof.
  induction k as [|k IH]; intros m d cur Hk Hd Hc HB.
  - cbn [nec_loop]. rewrite (check_none A Awf Asq) by assumption. split.
    + intros (j & Hj). eapply (BI_improves n W (A_lt A Awf Asq) S0 S0lt None m); [lia|exact HB|exact Hj].
    + intros Hn. destruct (existsb (fun j => improves (cand n W None (vget cur) j) (vget d j)) (seq 0 n)) eqn:E.
      * apply existsb_exists in E as (j & _ & Hj). eauto.
      * exfalso. revert Hn. apply closed_noneg with (d := vget d). eapply (BI_else n W (A_lt A Awf Asq) S0 S0lt m); [lia|exact HB|].
        intros j. apply not_true_is_false. intros Hj. assert (E' : existsb (fun j => improves (cand n W None (vget cur) j) (vget d j)) (seq 0 n) = true); [|congruence].
        apply existsb_exists. exists j. split; [|assumption]. apply in_seq. destruct (cand n W None (vget cur) j); [|discriminate].
        destruct (vget d j) eqn:Ed; [|discriminate]. apply vget_some_lt in Ed. lia.
  - cbn [nec_loop]. destruct (round_ok A Awf Asq S0 None None m d cur Hd Hc HB) as (Hs & Hs' & E1 & HB').
    set (cur' := bf_keep (bf_cand A None cur) d) in *. destruct (Nat.eqb_spec (nvals cur') 0) as [E0|E0].
    + split; [discriminate|]. intros Hn. exfalso. revert Hn. apply closed_noneg with (d := vget d).
      apply (BI_break n W (A_lt A Awf Asq) S0 None None m (vget d) (vget cur)); [assumption|]. intros j. rewrite <- E1. apply nvals_zero. assumption.
    + apply (IH (S m)); [lia|assumption|assumption|assumption].
Qed.
End N.
Section N2.
Variable G : graph.
Hypothesis wf : gwf G.
Notation n := (nrows (g_A G)).
Notation F := (mget (g_A G)).
Notation A := (den_mat G KOff).
Notation W := (mget (den_mat G KOff)).
Definition ndeg : vec Z := if g_dir G then den_vec G (KTotal SM) else den_red G Row RCount SM.
Lemma W_ent i j : W i j = ent G SM i j.
Proof. rewrite (off_get G wf). reflexivity. Qed.
Lemma ndeg_size : vsize ndeg = n.
Proof. unfold ndeg. destruct (g_dir G); apply vsize_vbuild. Qed.
Lemma ndeg_out i j v : W i j = Some v -> has (vget ndeg i) = true.
Proof.
  intros H. destruct (mget_some_lt _ _ _ _ (off_wf G) H) as [Hi Hj]. rewrite (off_sq G) in Hj. rewrite off_rows in Hi, Hj.
  rewrite W_ent in H. unfold ndeg. destruct (g_dir G); cbn [den_vec den_red]; rewrite vget_vbuild_lt by assumption.
  - unfold onz. assert (0 < outdeg G SM i) by (apply cnt_pos; exists j; rewrite H; auto). destruct (Nat.eqb_spec (outdeg G SM i + indeg G SM i) 0); [lia|reflexivity].
  - unfold rfold. apply has_ored_true. exists j. rewrite has_omap, H. auto.
Qed.
Definition nS0 (i : nat) : option Z := if has (vget ndeg i) then Some 0%Z else None.
Lemma nS0neg : S0neg W nS0 <-> exists y, neg_cycle W y.
Proof.
  split.
  - intros (i & z & _ & y & _ & Hn). eauto.
  - intros (y & d & w & Hw & Hneg). assert (Ho : exists z v, W y z = Some v).
    { clear -Hw Hneg. destruct d as [|d]; [inversion Hw; subst; lia|].
      change (S d) with (1 + d) in Hw. apply wwalk_split in Hw as (z & w1 & w2 & H1 & _).
      inversion H1 as [|? ? ? ? ? H2 H3]; subst. inversion H2; subst. eauto. }
    destruct Ho as (z & v & Hv). exists y, 0%Z. split; [unfold nS0; rewrite (ndeg_out _ _ _ Hv); reflexivity|].
    exists y. split; [apply wreach_refl|]. exists d, w. auto.
Qed.
Lemma nec_all d : d = vassign (mS ndeg) 0%Z (vempty n) -> nec_loop A (n - 1) d d = true <-> exists y, neg_cycle W y.
Proof.
  intros ->. rewrite <- nS0neg.
  assert (E : forall j, vget (vassign (mS ndeg) 0%Z (vempty n)) j = nS0 j).
  { intros j. rewrite vget_vassign, vsize_vempty, vget_vempty. unfold mS, nS0. destruct (Nat.ltb_spec j n) as [Hj|Hj]; [reflexivity|].
    rewrite (vget_out ndeg) by (rewrite ndeg_size; assumption). reflexivity. }
  apply (nec_loop_ok A (off_wf G) (off_sq G)) with (m := 0).
  - intros i z. unfold nS0. rewrite off_rows. destruct (has (vget ndeg i)) eqn:Ei; [|discriminate]. intros _. apply has_vget_lt in Ei. rewrite ndeg_size in Ei. assumption.
  - rewrite off_rows. lia.
  - rewrite vsize_vassign, vsize_vempty, off_rows. reflexivity.
  - rewrite vsize_vassign, vsize_vempty, off_rows. reflexivity.
  - eapply BI_ext; [| |apply BI0]; intros j; symmetry; apply E.
Qed.
Lemma neg_any : (exists y, neg_cycle F y) <-> den_bool G KNegDiag = true \/ exists y, neg_cycle W y.
Proof.
  split.
  - intros (y & Hy). assert (Hf : neg_cycle_from F y) by (exists y; split; [apply wreach_refl|assumption]).
    apply (neg_strip F W (off_get G wf)) in Hf as [(z & _ & Hz)|(z & v & _ & Hv & Hlt)]; [right; eauto|].
    left. apply negdiag_true_iff; eauto.
  - intros [H|(y & d & w & H & Hlt)].
    + apply negdiag_true_iff in H as (i & x & Hx & Hlt); [|assumption]. exists i, 1, x. split; [apply wwalk_one; assumption|assumption].
    + exists y, d, w. split; [|assumption]. apply (wwalk_full F W (off_get G wf)). assumption.
Qed.
Lemma neg_nonneg : den_bool G (KNeg SM) = false -> ~ exists y, neg_cycle W y.
Proof.
  intros H (y & d & w & Hw & Hneg). apply wwalk_nonneg in Hw; [lia|]. intros a b v Hv. apply (nonneg_off G wf H a b v Hv).
Qed.
Lemma negative_edge_cycle_ok s : Inv G s -> exists b, fst (negative_edge_cycle G s) = Val b /\ ((exists y, neg_cycle F y) -> b = true) /\
  (nd_ok G s -> b = true -> exists y, neg_cycle F y) /\ Inv G (snd (negative_edge_cycle G s)).
Proof.
  intros HI. unfold negative_edge_cycle.
  pose proof (get_offdiag_ok G wf true s HI) as H. unfold wp in H. unfold bind at 1. unfold bind at 4.
  pose proof (keeps_offdiag G s) as Hk. destruct (get_offdiag G s) as [o s1]. cbn [fst snd] in *. destruct H as (-> & HI1 & He & Hself & Hp).
  pose proof (nd_ok_mono G s s1 HI HI1 He Hk) as Hnd1.
  assert (Hdeg : GV G true (if g_dir G then get_total G SM None else get_red G Row RCount SM None) ndeg any).
  { unfold ndeg. destruct (g_dir G); [apply (get_total_m_ok G wf true eq_refl None)|apply (get_red_ok G wf true eq_refl Row RCount SM None)]. }
  assert (Hdk : keeps (if g_dir G then get_total G SM None else get_red G Row RCount SM None)).
  { destruct (g_dir G); [apply keeps_total|apply keeps_red]. }
  specialize (Hdeg s1 HI1). unfold wp in Hdeg. specialize (Hdk s1). unfold bind at 1. unfold bind at 3.
  destruct ((if g_dir G then get_total G SM None else get_red G Row RCount SM None) s1) as [o s2]. cbn [fst snd] in *. destruct Hdeg as (-> & HI2 & He2 & _).
  pose proof (nd_ok_mono G s1 s2 HI1 HI2 He2 Hdk) as Hnd2.
  assert (Hself2 : has (c_bool s2 KSelf) = true) by (apply (ext_bool _ _ _ He2); assumption).
  assert (Hp2 : has (c_mat s2 KOff) = true) by (apply (proj1 He2); assumption).
  unfold bind at 1. unfold bind at 2.
  destruct (negdiag_any G wf s2 HI2 Hself2) as (v & H1 & Hv1 & Hv2 & H2 & H3).
  destruct (has_negative_diagonal G s2) as [o s3]; cbn [fst snd] in *; subst o.
  assert (Hp3 : has (c_mat s3 KOff) = true) by (apply (proj1 H3); assumption).
  destruct (negm_ok G wf s3 H2 Hp3) as (H4 & H5 & _). unfold bind. destruct (has_negative_edgesm false G s3) as [o s4]; cbn [fst snd] in *; subst o.
  pose proof neg_any as Hany.
  assert (Hv3 : nd_ok G s -> v = true -> exists y, neg_cycle F y) by (intros Hn ->; apply Hany; left; rewrite <- (Hv2 (Hnd2 (Hnd1 Hn))); reflexivity).
  destruct v; [exists true; split; [reflexivity|]; split; [reflexivity|]; split; [exact Hv3|exact H5]|].
  assert (Hnd : den_bool G KNegDiag = false) by (destruct (den_bool G KNegDiag); [discriminate (Hv1 eq_refl)|reflexivity]).
  destruct (den_bool G (KNeg SM)) eqn:En; cbn [negb].
  - eexists. split; [reflexivity|]. rewrite Hany. rewrite off_rows, (nec_all _ eq_refl), Hnd. split; [intros [?|?]; [discriminate|assumption]|]. split; [auto|exact H5].
  - exists false. split; [reflexivity|]. rewrite Hany, Hnd. pose proof (neg_nonneg En). split; [intros [?|?]; [discriminate|contradiction]|]. split; [discriminate|exact H5].
Qed.
Lemma neg_cycle_ids : (exists y, neg_cycle F y) <-> exists u, neg_cycle (weight G) u.
Proof.
  split.
  - intros (y & Hy). assert (Ly : y < nrows (g_A G)).
    { destruct Hy as (d & w & Hw & Hlt). inversion Hw; subst; [lia|]. eapply F_lt; eassumption. }
    destruct (kid_key G wf y Ly) as [u Hu]. exists u. apply (negc_lift G wf u y Hu). assumption.
  - intros (u & Hu). destruct (kid G u) as [i|] eqn:Ei; [exists i; apply (negc_lift G wf u i Ei); assumption|].
    exfalso. destruct Hu as (d & w & Hw & Hlt). inversion Hw as [|? ? y v ? ? Hv]; subst; [lia|]. unfold weight in Hv. rewrite Ei in Hv. destruct (kid G y); discriminate.
Qed.
End N2.
(** right wherever has_negative_diagonal is (see C05); in particular on a fresh graph and on graphs without self-edges *)
Theorem C17_negative_edge_cycle_partial (G : graph) : gwf G ->
  answers_ndok G (nx_negative_edge_cycle G) (fun o => exists b, o = Val b /\
    (b = true <-> exists u, neg_cycle (weight G) u) /\
    (g_dir G = false -> (b = true <-> exists u v w, weight G u v = Some w /\ (w < 0)%Z))).
Proof.
  intros wf s HI Hnd. destruct (negative_edge_cycle_ok G wf s HI) as (b & Hb & H1 & H2 & HI'). specialize (H2 Hnd). split; [|assumption].
  exists b. split; [assumption|]. pose proof (neg_cycle_ids G wf) as E.
  assert (H : b = true <-> exists y, neg_cycle (mget (g_A G)) y) by (split; assumption).
  split; [rewrite H; exact E|]. intros Hd. rewrite H, E. split.
  - intros (u & d & w & Hw & Hlt). assert (P : (exists a b v, weight G a b = Some v /\ (v < 0)%Z) \/ (0 <= w)%Z); [|destruct P; [assumption|lia]].
    clear -Hw. induction Hw as [|d w y v z _ IH Hv]; [right; lia|]. destruct IH as [IH|IH]; [left; assumption|].
    destruct (Z.lt_ge_cases v 0); [left; eauto|right; lia].
  - intros (u & v & w & Hw & Hlt). assert (Hw' : weight G v u = Some w).
    { unfold weight in *. destruct (kid G u), (kid G v); try discriminate. rewrite (gw_sym _ wf Hd). assumption. }
    exists u, 2, (0 + w + w)%Z. split; [|lia]. eapply ww_snoc; [eapply ww_snoc; [apply ww_nil|eassumption]|eassumption].
Qed.

(** whatever was computed before: a negative cycle is never missed *)
Theorem C17_never_missed (G : graph) : gwf G ->
  answers G (nx_negative_edge_cycle G) (fun o => exists b, o = Val b /\ (b = false -> ~ exists u, neg_cycle (weight G) u)).
Proof.
  intros wf s HI. destruct (negative_edge_cycle_ok G wf s HI) as (b & Hb & H1 & _ & HI'). split; [|assumption].
  exists b. split; [assumption|]. intros -> Hc. apply (neg_cycle_ids G wf) in Hc. discriminate (H1 Hc).
Qed.
Lemma nd_ok_st0 G : nd_ok G st0.
Proof. right. right. right. split; [reflexivity|]. do 4 right. split; [discriminate|exact I]. Qed.
(** after a history that leaves a wrong has_negative_diagonal behind (C02_has_negative_diagonal_refuted), a graph without a negative cycle is said to have one *)
Definition g_pos : graph := mkg true 2 [(0, 1, (-1)%Z); (1, 1, 5%Z)].
Theorem C17_refuted : gwf g_pos /\ Inv g_pos (snd (has_negative_edgesp g_pos st0)) /\ 
  fst (nx_negative_edge_cycle g_pos (snd (has_negative_edgesp g_pos st0))) = Val true /\ ~ exists u, neg_cycle (weight g_pos) u.
Proof.
  split; [apply mkg_wf|]. split; [|split; [vm_compute; reflexivity|]].
  - apply (has_negative_edgesp_ok g_pos (mkg_wf _ _ _) true eq_refl st0 (Inv_st0 g_pos true)).
  - intros Hc. pose proof (C17_negative_edge_cycle_partial g_pos (mkg_wf _ _ _) st0 (Inv_st0 _ true) (nd_ok_st0 _)) as ((b & Hb & H & _) & _).
    apply H in Hc. subst b. vm_compute in Hb. discriminate.
Qed.
Example C17_ex : (exists u, neg_cycle (weight g_cyc) u) /\ fst (nx_negative_edge_cycle g_cyc st0) = Val true /\
  fst (nx_negative_edge_cycle (mkg true 3 [(0, 1, (-4)%Z); (1, 2, 1%Z); (2, 0, 3%Z)]) st0) = Val false.
Proof. split; [exists (KI 0); apply g_cyc_neg|split; vm_compute; reflexivity]. Qed.

(** ** C16 *)
(** right on graphs where no negative cycle is reachable from the source, no self-loop is negative and,
    if the graph is flagged iso-valued, the common weight is not negative; [fuel] bounds the iterations of the
    python loop that follows the parents, and any bound from the number of nodes on suffices *)
Theorem C16_path_partial (G : graph) (fuel : nat) (u v : nkey) : gwf G -> glen G <= fuel ->
  ~ neg_cycle_from (weight G) u ->
  (forall x w, weight G x x = Some w -> (0 <= w)%Z) ->
  (g_iso G = true -> forall x y w, weight G x y = Some w -> (0 <= w)%Z) ->
  answers_ndok G (nx_bf_path fuel G u v) (fun o =>
    match o with
    | Val (Some l) => node G u /\ node G v /\
        ((l = [] /\ ~ wreach (weight G) u v) \/
         exists l' w, l = u :: l' /\ List.last l u = v /\ wpath (weight G) l w /\ shortest (weight G) u v w)
    | Val None => False
    | Raise e => e = EKey /\ ~ (node G u /\ node G v)
    end).
Proof.
  intros wf Hf Hno Hdiag Hiso. unfold nx_bf_path.
  destruct (kid G u) as [i|] eqn:Hu.
  2:{ unfold bf_path. rewrite Hu. intros s HI _. split; [|exact HI]. split; [reflexivity|]. apply not_node in Hu. tauto. }
  destruct (kid G v) as [j|] eqn:Hv.
  2:{ unfold bf_path. rewrite Hu, Hv. intros s HI _. split; [|exact HI]. split; [reflexivity|]. apply not_node in Hv. tauto. }
  assert (Nu : node G u) by (apply node_kid; eauto). assert (Nv : node G v) by (apply node_kid; eauto).
  intros s HI Hs. destruct (bf_path_ok G wf fuel u v i j Hu Hv Hf) with (s := s) as [[[Ho Hr]|(l & w & Ho & Hl & Hp & Hsh)] HI']; try assumption.
  - rewrite <- (negf_lift G wf u i Hu). assumption.
  - apply not_true_is_false. rewrite (negdiag_true_iff G wf). intros (a & z & Ha & Hz).
    destruct (kid_key G wf a) as [x Hx]; [apply (F_lt G wf _ _ _ Ha)|]. specialize (Hdiag x z). rewrite (weight_ids G x x a a Hx Hx) in Hdiag. apply Hdiag in Ha. lia.
  - intros Hi a b z Ha. destruct (F_lt G wf _ _ _ Ha) as [La Lb]. destruct (kid_key G wf a La) as [x Hx]. destruct (kid_key G wf b Lb) as [y Hy].
    apply (Hiso Hi x y). rewrite (weight_ids G x y a b Hx Hy). assumption.
  - rewrite Ho. split; [|assumption]. split; [assumption|]. split; [assumption|]. left. split; [reflexivity|]. rewrite (wreach_lift G wf u i v Hu).
    intros (j' & Hj' & H). congruence.
  - rewrite Ho. split; [|assumption]. split; [assumption|]. split; [assumption|]. right. exists l, w. split; [reflexivity|]. split; [assumption|]. split; [assumption|].
    apply (shortest_lift G wf u i v w Hu). eauto.
Qed.
(** a directed iso-valued graph with a negative weight always raises, with or without a negative cycle *)
Theorem C16_iso_refuted : let G := mkg_iso true 3 [(0, 1)] (-1) in gwf G /\ ~ neg_cycle_from (weight G) (KI 0) /\
  fst (nx_single_source_bf G (KI 0) st0) <> Raise EUnbounded /\ fst (nx_bf_path 3 G (KI 0) (KI 1) st0) = Raise EUnbounded.
Proof.
  assert (wf : gwf (mkg_iso true 3 [(0, 1)] (-1))) by apply mkg_iso_wf.
  split; [exact wf|]. split; [|split; vm_compute; [discriminate|reflexivity]].
  pose proof (C14_single_source _ (KI 0) wf) as H. 
  assert (Hi : iso_has_edge (mkg_iso true 3 [(0, 1)] (-1))). { intros _. exists (KI 0), (KI 1). unfold edge. vm_compute. try reflexivity; eexists; reflexivity. }
  specialize (H Hi st0 (Inv_st0 _ true)). destruct H as [H _]. destruct (fst (nx_single_source_bf _ (KI 0) st0)) as [m|e] eqn:E; [apply H|].
  vm_compute in E. discriminate.
Qed.
(** a negative self-loop that is not even reachable makes it raise *)
Definition g_off : graph := mkg true 4 [(0, 1, 1%Z); (1, 1, 1%Z); (3, 3, (-1)%Z)].
Theorem C16_self_loop_refuted : gwf g_off /\ ~ neg_cycle_from (weight g_off) (KI 0) /\ fst (nx_bf_path 4 g_off (KI 0) (KI 1) st0) = Raise EUnbounded.
Proof.
  assert (wf : gwf g_off) by apply mkg_wf. split; [exact wf|]. split; [|vm_compute; reflexivity].
  pose proof (C14_single_source g_off (KI 0) wf ltac:(intros C; vm_compute in C; discriminate) st0 (Inv_st0 _ true)) as [H _].
  destruct (fst (nx_single_source_bf g_off (KI 0) st0)) as [m|e] eqn:E; [apply H|]. vm_compute in E. discriminate.
Qed.
(** with a negative cycle reachable the loop over the parents may never end *)
Definition g_loop : graph := mkg true 5 [(0, 1, 1%Z); (1, 2, 1%Z); (2, 1, (-3)%Z); (1, 3, 1%Z)].
Lemma recon_stuck (p : vec nat) src (C : nat -> Prop) : ~ C src -> (forall j, C j -> exists i, vget p j = Some i /\ C i) ->
  forall fuel cur acc, C cur -> recon fuel p src cur acc = None.
Proof.
  intros Hs Hp. induction fuel as [|fuel IH]; intros cur acc Hc; cbn [recon]; (destruct (Nat.eqb_spec cur src) as [->|]; [contradiction|]); [reflexivity|].
  destruct (Hp cur Hc) as (i & -> & Hi). apply IH. assumption.
Qed.
Theorem C16_diverges_refuted : gwf g_loop /\ forall fuel, fst (nx_bf_path fuel g_loop (KI 0) (KI 3) st0) = Val None.
Proof.
  split; [apply mkg_wf|]. intros fuel.
  assert (E : exists p, fst (nx_bf_path fuel g_loop (KI 0) (KI 3) st0) = 
     match recon fuel p 0 3 [] with None => Val None | Some _ => fst (nx_bf_path fuel g_loop (KI 0) (KI 3) st0) end /\
     vget p 3 = Some 1 /\ vget p 1 = Some 2 /\ vget p 2 = Some 1).
  { set (p := vbuild 5 (fun i => nth i [Some 0; Some 2; Some 1; Some 1; None] None)). exists p. split; [|repeat split].
    destruct (recon fuel p 0 3 []) as [r|] eqn:Er; [reflexivity|]. subst p. vm_compute in Er. 
    vm_compute. rewrite Er. reflexivity. }
  destruct E as (p & E & E3 & E1 & E2). rewrite E. rewrite (recon_stuck p 0 (fun j => j = 3 \/ j = 1 \/ j = 2)); [reflexivity|lia| |auto].
  intros j [->|[->| ->]]; eexists; (split; [eassumption|auto]).
Qed.
(** with a negative self-loop reachable, line 304 unpacks an array into two names: a ValueError instead of Unbounded *)
Definition g_unpack : graph := mkg true 4 [(0, 1, 1%Z); (1, 2, (-1)%Z); (2, 3, 1%Z); (3, 1, 5%Z); (3, 3, (-1)%Z)].
Theorem C16_unpack_refuted : gwf g_unpack /\ fst (nx_single_source_bf g_unpack (KI 0) st0) = Raise EUnbounded /\
  forall fuel, 2 <= fuel -> fst (nx_bf_path fuel g_unpack (KI 0) (KI 1) st0) = Raise EValue.
Proof.
  split; [apply mkg_wf|]. split; [vm_compute; reflexivity|]. intros fuel Hf.
  destruct fuel as [|[|fuel]]; [lia|lia|]. vm_compute. reflexivity.
Qed.
(** after a history that leaves a wrong has_negative_diagonal behind, a path through a node with a positive self-loop is
    refused although there is no negative cycle at all; a fresh graph answers *)
Theorem C16_history_refuted : let s := snd (has_negative_edgesp g_pos st0) in gwf g_pos /\ Inv g_pos s /\
  (~ exists u, neg_cycle (weight g_pos) u) /\ fst (nx_bf_path 2 g_pos (KI 0) (KI 1) st0) = Val (Some [KI 0; KI 1]) /\
  fst (nx_bf_path 2 g_pos (KI 0) (KI 1) s) = Raise EUnbounded.
Proof. destruct C17_refuted as (H1 & H2 & _ & H3). split; [exact H1|]. split; [exact H2|]. split; [exact H3|]. split; vm_compute; reflexivity. Qed.
Example C16_ex : let G := mkg true 5 [(0, 1, 4%Z); (0, 2, 1%Z); (2, 1, (-2)%Z); (1, 3, 1%Z)] in
  fst (nx_bf_path 5 G (KI 0) (KI 3) st0) = Val (Some [KI 0; KI 2; KI 1; KI 3]) /\ fst (nx_bf_path 5 G (KI 0) (KI 4) st0) = Val (Some []) /\
  ~ neg_cycle_from (weight G) (KI 0).
Proof.
  cbv zeta. split; [vm_compute; reflexivity|]. split; [vm_compute; reflexivity|]. set (G := mkg _ _ _).
  pose proof (C14_single_source G (KI 0) (mkg_wf _ _ _) ltac:(intros C; vm_compute in C; discriminate) st0 (Inv_st0 _ true)) as [H _].
  destruct (fst (nx_single_source_bf G (KI 0) st0)) as [m|e] eqn:E; [apply H|]. vm_compute in E. discriminate.
Qed.
(** non-vacuity of C14 and C15 *)
Example C14_ex : let G := mkg true 4 [(0, 1, 4%Z); (0, 2, 1%Z); (2, 1, (-2)%Z)] in
  (exists m, fst (nx_single_source_bf G (KI 0) st0) = Val m /\ nm_getitem m (KI 1) = Val (-1)%Z) /\
  fst (nx_bf_path_length G (KI 0) (KI 1) st0) = Val (-1)%Z /\ fst (nx_bf_path_length G (KI 0) (KI 3) st0) = Raise ENoPath /\
  fst (nx_single_source_bf g_cyc (KI 0) st0) = Raise EUnbounded.
Proof. cbv zeta. split; [eexists; split; vm_compute; reflexivity|]. repeat split; vm_compute; reflexivity. Qed.
Print Assumptions C14_single_source.
Print Assumptions C14_all_pairs.
Print Assumptions C14_nodes.
Print Assumptions C15_path_length_partial.
Print Assumptions C16_path_partial.
Print Assumptions C16_unpack_refuted.
Print Assumptions C16_history_refuted.
Print Assumptions C17_never_missed.
Print Assumptions C17_negative_edge_cycle_partial.
