(** * C93: generators, consumed step by step *)
From Verif Require Import Base BaseProofs Model_Graph Model_Cache Spec_Cache CacheMath CacheProofs CacheProofs2 CacheHist
  Model_Keys Spec KeyProofs Spec_Run RunProofs Model_Utils UtilsProofs Props_Utils Model_Bfs Bfs BfsProofs BfsProofs2 BfsProofs3 Walks Props_Bfs
  Spec_Weighted Model_Weighted WeightedProofs2 WeightedProofs3 Props_Weighted Model_Operators Model_Nx Model_Convert Props_Convert
  Spec_Session Props_Session Spec_Iso Spec_Public Model_Lazy Spec_Lazy Concrete Props_Nx.
From Coq Require Import QArith Permutation.
Open Scope nat_scope.
Local Notation answers := Spec_Run.answers.
Local Notation st := Model_Graph.st.

Lemma prefix_nil {X} (L : list X) : prefix [] L. Proof. exists L. reflexivity. Qed.
Lemma prefix_refl {X} (L : list X) : prefix L L. Proof. exists []. rewrite app_nil_r. reflexivity. Qed.
Lemma prefix_app {X} (a l L : list X) : prefix l L -> prefix (a ++ l) (a ++ L).
Proof. intros [t ->]. exists t. apply app_assoc. Qed.
Lemma prefix_l {X} (l L1 L2 : list X) : prefix l L1 -> prefix l (L1 ++ L2).
Proof. intros [t ->]. exists (t ++ L2). rewrite app_assoc. reflexivity. Qed.

(** ** rules *)
Section Sound.
Context {X : Type}.
Variable I : st -> Prop.
(** from every state in [I], whatever happens within [I] between the pulls, the items and the ending satisfy [P] *)
Fixpoint sound (g : gen st X) (P : list X -> ending -> Prop) : Prop :=
  P [] Stopped /\
  forall s, I s -> match next g s with
    | GDone s' => I s' /\ P [] Exhausted
    | GFail e s' => I s' /\ P [] (Failed e)
    | GYield x s' g' => I s' /\ sound g' (fun l f => P (x :: l) f)
    end.
Lemma sound_intro g (P : list X -> ending -> Prop) : P [] Stopped ->
    (forall s, I s -> match next g s with
      | GDone s' => I s' /\ P [] Exhausted
      | GFail e s' => I s' /\ P [] (Failed e)
      | GYield x s' g' => I s' /\ sound g' (fun l f => P (x :: l) f)
      end) -> sound g P.
Proof. intros H1 H2. destruct g as [b]. split; assumption. Qed.
Lemma sound_stop g P : sound g P -> P [] Stopped. Proof. destruct g. intros [H _]. exact H. Qed.
Lemma sound_next g P s : sound g P -> I s -> match next g s with
      | GDone s' => I s' /\ P [] Exhausted
      | GFail e s' => I s' /\ P [] (Failed e)
      | GYield x s' g' => I s' /\ sound g' (fun l f => P (x :: l) f)
      end.
Proof. destruct g. intros [_ H]. apply H. Qed.
Lemma sound_pulls (B : st -> st -> Prop) : (forall s s', I s -> B s s' -> I s') ->
  forall g s l f t, pulls B g s l f t -> forall P, sound g P -> I s -> P l f /\ I t.
Proof.
  intros HB. induction 1 as [g s|g s s' E|g s e s' E|g s x s1 g' s2 l f t E Hb Hp IH]; intros P HS HI.
  - split; [apply (sound_stop g P HS)|assumption].
  - pose proof (sound_next g P s HS HI) as H. rewrite E in H. tauto.
  - pose proof (sound_next g P s HS HI) as H. rewrite E in H. tauto.
  - pose proof (sound_next g P s HS HI) as H. rewrite E in H. destruct H as [H1 H2]. apply (IH _ H2). apply (HB s1 s2 H1 Hb).
Qed.
Lemma sound_conseq (P Q : list X -> ending -> Prop) : (forall l f, P l f -> Q l f) -> forall g, sound g P -> sound g Q.
Proof.
  intros HPQ g. revert P Q HPQ. revert g. fix IH 1. intros g. destruct g as [b]. intros P Q HPQ HS. apply sound_intro; [apply HPQ, (sound_stop _ _ HS)|].
  intros s HI. pose proof (sound_next _ _ s HS HI) as H. cbn [next] in *. destruct (b s) as [s'|e s'|x s' g']; destruct H as [H1 H2]; (split; [assumption|]); auto.
  apply (IH g' (fun l f => P (x :: l) f)); auto.
Qed.
Lemma sound_finish (P : list X -> ending -> Prop) : P [] Stopped -> P [] Exhausted -> sound finish P.
Proof. intros H1 H2. apply sound_intro; [assumption|]. intros s HI. cbn [finish next]. auto. Qed.
Lemma sound_emit l k (P : list X -> ending -> Prop) : (forall l1, prefix l1 l -> P l1 Stopped) -> sound k (fun l' f => P (l ++ l') f) -> sound (emit l k) P.
Proof.
  revert P. induction l as [|x l IH]; intros P H1 H2; cbn [emit].
  - exact H2.
  - apply sound_intro; [apply H1, prefix_nil|]. intros s HI. cbn [next]. split; [assumption|]. apply IH.
    + intros l1 Hl. apply H1. apply (prefix_app [x]). assumption.
    + exact H2.
Qed.
End Sound.
Lemma sound_run {X Y} G (m : M Y) (k : Y -> gen st X) R (P : list X -> ending -> Prop) : answers G m R -> P [] Stopped ->
  (forall y, R (Val y) -> sound (Inv G) (k y) P) -> (forall e, R (Raise e) -> P [] (Failed e)) -> sound (Inv G) (run m k) P.
Proof.
  intros Hm H1 H2 H3. apply sound_intro; [assumption|]. intros s HI. destruct (Hm s HI) as [Ho HI']. unfold run. cbn [next].
  destruct (m s) as [[y|e] s']; cbn [fst snd] in *; [|auto]. apply (sound_next (Inv G) (k y) P s' (H2 y Ho) HI').
Qed.

(** ** rows *)
Definition rows_ans {Y} (good : nkey -> Y -> Prop) (E : exn -> Prop) (ks : list nkey) (l : list (nkey * Y)) (f : ending) : Prop :=
  prefix (map fst l) ks /\ (forall u m, In (u, m) l -> good u m) /\
  match f with Stopped => True | Exhausted => map fst l = ks | Failed e => E e end.
Lemma sound_rounds {Y} G (good : nkey -> Y -> Prop) (E : exn -> Prop) (ps : list (list nkey * M (list (nkey * Y)))) :
  (forall p, In p ps -> answers G (snd p) (fun o => match o with Val rows => map fst rows = fst p /\ (forall u m, In (u, m) rows -> good u m) | Raise e => E e end)) ->
  sound (Inv G) (rounds (map snd ps)) (rows_ans good E (List.concat (map fst ps))).
Proof.
  induction ps as [|[ks m] ps IH]; intros H; cbn [map rounds List.concat].
  - apply sound_finish; (split; [apply prefix_refl|]; split; [intros ? ? []|]); [exact Logic.I|reflexivity].
  - eapply sound_run; [apply (H (ks, m)); left; reflexivity| | |].
    + split; [apply prefix_nil|]. split; [intros ? ? []|exact Logic.I].
    + intros rows [Hk Hg]. cbn [fst snd] in *. apply sound_emit.
      * intros l1 [l2 ->]. rewrite map_app in Hk. split; [|split; [|exact Logic.I]].
        -- rewrite <- Hk. apply prefix_l. exists (map fst l2). reflexivity.
        -- intros u x Hin. apply Hg. apply in_or_app. left. assumption.
      * eapply sound_conseq; [|apply IH; intros p Hp; apply H; right; assumption]. intros l f (H1 & H2 & H3). split; [|split].
        -- rewrite map_app, Hk. apply prefix_app. assumption.
        -- intros u x Hin. apply in_app_or in Hin as [Hin|Hin]; auto.
        -- destruct f; auto. rewrite map_app, Hk, H3. reflexivity.
    + intros e He. split; [apply prefix_nil|]. split; [intros ? ? []|exact He].
Qed.

(** ** the three generators on a graph *)
Section Gens.
Variable G : graph.
Hypothesis wf : gwf G.
Definition far_rows (cutoff : option Z) (u : nkey) (m : nodemap Z) : Prop :=
  is_map m (fun v x => exists d, x = Z.of_nat d /\ dist (edge G) u v d /\ within cutoff d).
Definition all_sources (ks : list nkey) : Prop := Permutation ks (gnodes G) /\ (ids_in_order G -> ks = gnodes G).
Lemma combine_fst {Y} (h : nat -> Y) (cur : list nkey) :
  map fst (map (fun iu => (snd iu, h (fst iu))) (combine (seq 0 (List.length cur)) cur)) = cur.
Proof. rewrite map_map. cbn [fst]. apply map_snd_combine_seq. Qed.
Lemma concat_nodes {Y} (h : nkey -> Y) : List.concat (map fst (map (fun u => ([u], h u)) (gnodes G))) = gnodes G.
Proof. rewrite map_map. cbn [fst]. induction (gnodes G) as [|u l IH]; [reflexivity|]. cbn [map List.concat app]. rewrite IH. reflexivity. Qed.
Lemma all_pairs_sound pyfloat isz cutoff chunk :
  sound (Inv G) (g_all_pairs_spl pyfloat isz G cutoff chunk) (fun l f => exists ks, all_sources ks /\
    rows_ans (far_rows cutoff) (fun e => l = [] /\ normalize_chunksize pyfloat chunk (Z.of_nat (glen G) * isz) (Some (Z.of_nat (glen G))) = Raise e) ks l f).
Proof.
  assert (AS : all_sources (gnodes G)) by (split; [apply Permutation_refl|reflexivity]).
  assert (S0 : forall E, exists ks, all_sources ks /\ rows_ans (far_rows cutoff) E ks [] Stopped).
  { intros E. exists (gnodes G). split; [assumption|]. split; [apply prefix_nil|]. split; [intros ? ? []|exact Logic.I]. }
  unfold g_all_pairs_spl. eapply sound_run.
  - apply (answers_lifto G _ (fun o => o = normalize_chunksize pyfloat chunk (Z.of_nat (glen G) * isz) (Some (Z.of_nat (glen G))))). reflexivity.
  - apply S0.
  - intros cs Hcs.
    destruct cs as [c|].
    + destruct (c <? 2)%Z eqn:Hc.
      * apply sound_conseq with (P := rows_ans (far_rows cutoff) (fun _ => False) (gnodes G)).
        { intros l f (H1 & H2 & H3). exists (gnodes G). split; [assumption|]. split; [assumption|]. split; [assumption|]. destruct f; auto. destruct H3. }
        set (h := fun source => d <- single_source_spl G source cutoff ;; ret [(source, to_nodemap G d)]).
        rewrite <- (concat_nodes h) at 2. replace (map h (gnodes G)) with (map snd (map (fun u => ([u], h u)) (gnodes G))) by (rewrite map_map; reflexivity).
        apply sound_rounds. intros p Hp. apply in_map_iff in Hp as (u & <- & Hu). cbn [fst snd]. unfold h.
        assert (Hn : node G u) by exact Hu. pose proof (proj1 (node_in_graph G u) Hn) as Hin.
        pose proof (level_map_ans G wf u cutoff false (fun v x => exists d, x = Z.of_nat d /\ dist (edge G) u v d /\ within cutoff d) (fun v x => iff_refl _)) as HA.
        rewrite Hin in HA. unfold single_source_spl.
        intros s HI. specialize (HA s HI). unfold bind in *. destruct (bfs_level G u None cutoff false s) as [[d|e] s']; simpl in *.
        -- destruct HA as [[_ HA] HI']. split; [|assumption]. split; [reflexivity|]. intros u' m [[= <- <-]|[]]. exact HA.
        -- destruct HA as [[_ HA] _]. tauto.
      * apply Z.ltb_ge in Hc. destruct (C66_partition c (gnodes G) true) as (chunks & -> & Hcat & _); [lia|].
        apply sound_conseq with (P := rows_ans (far_rows cutoff) (fun _ => False) (gnodes G)).
        { intros l f (H1 & H2 & H3). exists (gnodes G). split; [assumption|]. split; [assumption|]. split; [assumption|]. destruct f; auto. destruct H3. }
        rewrite <- Hcat. rewrite map_map.
        set (h := fun cur => D <- all_pairs_spl G cutoff (Some cur) false ;; ret (map (fun iu => (snd iu, to_nodemap G (mrow D (fst iu)))) (combine (seq 0 (List.length cur)) cur))).
        replace chunks with (map fst (map (fun cur => (cur, h cur)) chunks)) at 2 by (rewrite map_map; cbn [fst]; apply map_id).
        change (map (fun x => h x) chunks) with (map h chunks).
        replace (map h chunks) with (map snd (map (fun cur => (cur, h cur)) chunks)) by (rewrite map_map; reflexivity).
        apply sound_rounds. intros p Hp. apply in_map_iff in Hp as (cur & <- & Hcur). cbn [fst snd]. unfold h.
        assert (Hnode : forall u, In u cur -> node G u).
        { intros u Hu. unfold node. rewrite <- Hcat. apply in_concat. eauto. }
        eapply answers_bind; [apply (C09_nodes G cutoff cur wf Hnode)| |intros e (D & X & _); discriminate].
        intros D (D' & [= <-] & HD1 & HD2). apply answers_ret. split; [apply (combine_fst (fun i => to_nodemap G (mrow D i)))|].
        intros u m Hin. apply in_map_iff in Hin as ([r u'] & [= <- <-] & Hin). cbn [fst snd]. apply combine_seq_nth with (dflt := KI 0) in Hin as [Hr <-].
        apply HD2. apply nth_error_nth'. assumption.
    + set (m := D <- all_pairs_spl G cutoff None false ;; lifto (nnm_items (to_nodenodemap G D))).
      assert (HM : answers G m (fun o => exists L, o = Val L /\ all_sources (map fst L) /\ forall u x, In (u, x) L -> far_rows cutoff u x)).
      { pose proof (C09_all_pairs_partial G pyfloat isz cutoff CANone wf) as HA. unfold nx_all_pairs_spl in HA. cbn [normalize_chunksize] in HA.
        match type of HA with Spec_Run.answers _ _ ?R => change (answers G m R) in HA end. intros s HI. specialize (HA s HI). destruct (m s) as [[L|e] s']; cbn [fst snd] in *.
        - destruct HA as [(H1 & H2 & H3) HI']. split; [|assumption]. exists L. split; [reflexivity|]. split; [split; assumption|exact H3].
        - destruct HA as [X _]. discriminate. }
      cbn [rounds]. eapply sound_run; [exact HM|apply S0| |intros e (L & X & _); discriminate].
      intros L (L' & [= <-] & HS & HG). apply sound_emit.
      * intros l1 [l2 E]. exists (map fst L). split; [assumption|]. split; [exists (map fst l2); rewrite E, map_app; reflexivity|]. split; [|exact Logic.I].
        intros u x Hin. apply HG. rewrite E. apply in_or_app. auto.
      * apply sound_finish; exists (map fst L); rewrite app_nil_r; (split; [assumption|]); (split; [apply prefix_refl|]); split; auto.
  - intros e He. exists (gnodes G). split; [assumption|]. split; [apply prefix_nil|]. split; [intros ? ? []|]. auto.
Qed.
Definition bf_rows (u : nkey) (m : nodemap Z) : Prop :=
  ~ neg_cycle_from (weight G) u /\ is_map m (shortest (weight G) u) /\ forall v, wreach (weight G) u v -> exists x, nm_getitem m v = Val x.
Lemma all_pairs_bf_sound pyfloat isz chunk : iso_has_edge G ->
  sound (Inv G) (g_all_pairs_bf pyfloat isz G chunk) (fun l f => exists ks, all_sources ks /\
    rows_ans bf_rows (fun e => (l = [] /\ normalize_chunksize pyfloat chunk (Z.of_nat (glen G) * isz) (Some (Z.of_nat (glen G))) = Raise e) \/
       (e = EUnbounded /\ exists u, node G u /\ neg_cycle_from (weight G) u)) ks l f).
Proof.
  intros Hiso. pose proof (iso_has_edge_ids G wf Hiso) as Hie.
  assert (AS : all_sources (gnodes G)) by (split; [apply Permutation_refl|reflexivity]).
  assert (S0 : forall E, exists ks, all_sources ks /\ rows_ans bf_rows E ks [] Stopped).
  { intros E. exists (gnodes G). split; [assumption|]. split; [apply prefix_nil|]. split; [intros ? ? []|exact Logic.I]. }
  unfold g_all_pairs_bf. eapply sound_run.
  - apply (answers_lifto G _ (fun o => o = normalize_chunksize pyfloat chunk (Z.of_nat (glen G) * isz) (Some (Z.of_nat (glen G))))). reflexivity.
  - apply S0.
  - intros cs Hcs. destruct cs as [c|].
    + assert (Hin : forall l f, rows_ans bf_rows (fun e => e = EUnbounded /\ exists u, node G u /\ neg_cycle_from (weight G) u) (gnodes G) l f ->
        exists ks, all_sources ks /\ rows_ans bf_rows (fun e => (l = [] /\ normalize_chunksize pyfloat chunk (Z.of_nat (glen G) * isz) (Some (Z.of_nat (glen G))) = Raise e) \/
            (e = EUnbounded /\ exists u, node G u /\ neg_cycle_from (weight G) u)) ks l f).
      { intros l f (H1 & H2 & H3). exists (gnodes G). split; [assumption|]. split; [assumption|]. split; [assumption|]. destruct f; auto. }
      destruct (c <? 2)%Z eqn:Hc.
      * eapply sound_conseq; [exact Hin|].
        set (h := fun source => d <- single_source_bf G source None ;; ret [(source, to_nodemap G d)]).
        rewrite <- (concat_nodes h) at 2. replace (map h (gnodes G)) with (map snd (map (fun u => ([u], h u)) (gnodes G))) by (rewrite map_map; reflexivity).
        apply sound_rounds. intros p Hp. apply in_map_iff in Hp as (u & <- & Hu). cbn [fst snd]. unfold h.
        assert (Hn : node G u) by exact Hu. pose proof (proj1 (node_kid G u) Hn) as (src & Hs).
        pose proof (single_source_ok G wf Hie u) as Hss. rewrite Hs in Hss.
        eapply answers_bind; [exact Hss| |].
        -- intros d Hd. apply answers_ret. split; [reflexivity|]. intros u' m [[= <- <-]|[]]. apply (ss_map G wf u src d Hs Hd).
        -- intros e [-> He]. split; [reflexivity|]. exists u. split; [assumption|]. apply (negf_lift G wf u src Hs). assumption.
      * apply Z.ltb_ge in Hc. destruct (C66_partition c (gnodes G) true) as (chunks & -> & Hcat & _); [lia|].
        eapply sound_conseq; [exact Hin|].
        rewrite <- Hcat. rewrite map_map.
        set (h := fun cur => D <- bf_path_lengths G (Some cur) false ;; ret (map (fun iu => (snd iu, to_nodemap G (mrow D (fst iu)))) (combine (seq 0 (List.length cur)) cur))).
        replace chunks with (map fst (map (fun cur => (cur, h cur)) chunks)) at 2 by (rewrite map_map; cbn [fst]; apply map_id).
        change (map (fun x => h x) chunks) with (map h chunks).
        replace (map h chunks) with (map snd (map (fun cur => (cur, h cur)) chunks)) by (rewrite map_map; reflexivity).
        apply sound_rounds. intros p Hp. apply in_map_iff in Hp as (cur & <- & Hcur). cbn [fst snd]. unfold h.
        assert (Hnode : forall u, In u cur -> node G u).
        { intros u Hu. unfold node. rewrite <- Hcat. apply in_concat. eauto. }
        destruct (nodes_ids G wf cur Hnode) as (ids & Hids & Hlen & Hlt & Hnth).
        eapply answers_bind; [apply (bf_path_lengths_ok G wf ids Hlt Hie (Some cur) Hids)| |].
        -- intros D [(D1 & D2 & D3) HD]. apply answers_ret. split; [apply (combine_fst (fun i => to_nodemap G (mrow D i)))|].
           intros u m Hm. apply in_map_iff in Hm as ([r u'] & [= <- <-] & Hm). cbn [fst snd]. apply combine_seq_nth with (dflt := KI 0) in Hm as [Hr <-].
           apply (ss_map G wf _ (nth r ids 0)); [apply Hnth; assumption|]. apply HD. lia.
        -- intros e (-> & r & Hr & He). split; [reflexivity|]. exists (nth r cur (KI 0)). split; [apply Hnode, nth_In; lia|].
           apply (negf_lift G wf _ (nth r ids 0)); [apply Hnth; lia|assumption].
    + set (m := D <- bf_path_lengths G None false ;; lifto (nnm_items (to_nodenodemap G D))).
      assert (HM : answers G m (fun o => match o with Val L => all_sources (map fst L) /\ forall u x, In (u, x) L -> bf_rows u x
                                         | Raise e => e = EUnbounded /\ exists u, node G u /\ neg_cycle_from (weight G) u end)).
      { pose proof (C14_all_pairs G pyfloat isz CANone wf Hiso) as HA. unfold nx_all_pairs_bf in HA. cbn [normalize_chunksize] in HA.
        match type of HA with Spec_Run.answers _ _ ?R => change (answers G m R) in HA end. intros s HI. specialize (HA s HI). destruct (m s) as [[L|e] s']; cbn [fst snd] in *.
        - destruct HA as [(H1 & H2 & H3) HI']. split; [|assumption]. split; [split; assumption|exact H3].
        - destruct HA as [[X|X] HI']; [discriminate|]. auto. }
      cbn [rounds]. eapply sound_run; [exact HM|apply S0| |].
      * intros L (HS & HG). apply sound_emit.
        -- intros l1 [l2 E]. exists (map fst L). split; [assumption|]. split; [exists (map fst l2); rewrite E, map_app; reflexivity|]. split; [|exact Logic.I].
           intros u x Hin. apply HG. rewrite E. apply in_or_app. auto.
        -- apply sound_finish; exists (map fst L); rewrite app_nil_r; (split; [assumption|]); (split; [apply prefix_refl|]); split; auto.
      * intros e He. exists (gnodes G). split; [assumption|]. split; [apply prefix_nil|]. split; [intros ? ? []|]. auto.
  - intros e He. exists (gnodes G). split; [assumption|]. split; [apply prefix_nil|]. split; [intros ? ? []|]. left. auto.
Qed.

(** *** layers *)
Definition layers_answer (srcs : sources) (o : outcome (list (list nkey))) : Prop :=
    match o with
    | Val Ls =>
        (forall z, srcs = One (KI z) -> node G (KI z)) /\ (forall u, In u (slist G srcs) -> node G u) /\
        (forall d l, nth_error Ls d = Some l ->
           l <> [] /\ NoDup l /\ forall v, In v l <-> dist_from (edge G) (fun u => In u (slist G srcs)) v d) /\
        (forall d v, List.length Ls <= d -> ~ dist_from (edge G) (fun u => In u (slist G srcs)) v d)
    | Raise e => (e = EKey /\ exists u, In u (slist G srcs) /\ ~ node G u) \/ (e = EType /\ exists z, srcs = One (KI z) /\ ~ node G (KI z))
    end.
Definition consumed {X} (o : outcome (list X)) (l : list X) (f : ending) : Prop :=
  match o with
  | Val L => prefix l L /\ match f with Stopped => True | Exhausted => l = L | Failed _ => False end
  | Raise e => l = [] /\ (f = Stopped \/ f = Failed e)
  end.
Lemma consumed_stop {X} (o : outcome (list X)) : consumed o [] Stopped.
Proof. destruct o; cbn; [split; [apply prefix_nil|exact Logic.I]|auto]. Qed.
Fixpoint walk (ls : list (vec bool)) : gen st (list nkey) :=
  match ls with [] => finish | q :: ls' => g_layer G q (walk ls') end.
Lemma g_layers_walk A k : forall v q, g_layers G A k v q = walk (layers_loop A k v q).
Proof.
  induction k as [|k IH]; intros v q; cbn [g_layers layers_loop walk]; [reflexivity|]. cbv zeta.
  destruct (nvals (bfs_step A (vassign (mS q) true v) q) =? 0); [reflexivity|]. cbn [walk]. rewrite IH. reflexivity.
Qed.
Lemma walk_sound ls : forall Ls, mapOut (vector_to_list (g_kid G)) ls = Val Ls -> sound (Inv G) (walk ls) (consumed (Val Ls)).
Proof.
  induction ls as [|q ls IH]; intros Ls H; cbn [mapOut walk] in *.
  - injection H as <-. apply sound_finish; (split; [apply prefix_refl|]); auto.
  - destruct (vector_to_list (g_kid G) q) as [l|e] eqn:E; [|discriminate]. destruct (mapOut (vector_to_list (g_kid G)) ls) as [Ls'|e]; [|discriminate]. injection H as <-.
    unfold g_layer. rewrite E. eapply sound_run; [apply (answers_lifto G _ (fun o => o = Val l)); reflexivity|apply consumed_stop| |intros e He; discriminate].
    intros y [= ->]. apply sound_emit.
    + intros l1 Hl. split; [|exact Logic.I]. apply (prefix_l l1 [l] Ls'). assumption.
    + eapply sound_conseq; [|apply IH; reflexivity]. intros l1 f [H1 H2]. split; [apply (prefix_app [l]); assumption|]. destruct f; auto. rewrite H2. reflexivity.
Qed.
Lemma bfs_sound srcs : sound (Inv G) (g_bfs_layers G srcs) (fun l f => exists o, layers_answer srcs o /\ consumed o l f).
Proof.
  assert (H0 : exists o, o = fst (nx_bfs_layers G srcs st0) /\ layers_answer srcs o).
  { eexists. split; [reflexivity|]. apply (C12_bfs_layers G srcs wf st0 (Inv_st0 G true)). }
  destruct H0 as (o & Eo & Ho). eapply sound_conseq; [intros l f H; exists o; split; [exact Ho|exact H]|].
  unfold nx_bfs_layers, bfs_layers in Eo. unfold g_bfs_layers.
  set (src := match srcs with One k => if in_graph G k then Val [k] else iter_key k | Many l => Val l end).
  assert (Esrc : match srcs with One k => if in_graph G k then ret [k] else lifto (iter_key k) | Many l => ret l end = lifto src).
  { unfold src. destruct srcs as [k|l]; [destruct (in_graph G k)|]; reflexivity. }
  assert (Hsrc : match src with Val l => l = slist G srcs /\ forall z, srcs = One (KI z) -> node G (KI z) | Raise _ => True end).
  { unfold src, slist. destruct srcs as [k|l]; [|split; [reflexivity|discriminate]]. destruct (in_graph G k) eqn:Hin.
    - split; [reflexivity|]. intros z [= ->]. apply node_in_graph. assumption.
    - destruct k; cbn [iter_key]; [exact Logic.I|]. split; [reflexivity|]. intros z [=]. }
  rewrite Esrc in *. clearbody src. clear Esrc.
  eapply sound_run; [apply (answers_lifto G _ (fun x => x = src)); reflexivity|apply consumed_stop| |].
  2:{ intros e <-. rewrite Eo. cbn. auto. }
  intros l <-. destruct Hsrc as [-> Hz].
  eapply sound_run; [apply (answers_lifto G _ (fun x => x = list_to_ids (g_kid G) (slist G srcs))); reflexivity|apply consumed_stop| |].
  2:{ intros e He. rewrite Eo. unfold bind. cbn [lifto]. rewrite <- He. cbn. auto. }
  intros ids Hids.
  assert (Hnodes : forall u, In u (slist G srcs) -> node G u).
  { intros u Hu. unfold list_to_ids in Hids. destruct (mapO (dget (g_kid G)) (slist G srcs)) as [ids'|] eqn:E; [|discriminate].
    destruct (kid G u) eqn:Eu; [apply node_kid; eauto|exfalso].
    assert (mapO (dget (g_kid G)) (slist G srcs) = None) by (apply mapO_none; eauto). congruence. }
  assert (HV : exists L, o = Val L).
  { destruct o as [L|e]; [eauto|]. destruct Ho as [(_ & u & H1 & H2)|(_ & z & H1 & H2)]; [destruct (H2 (Hnodes u H1))|destruct (H2 (Hz z H1))]. }
  destruct HV as [L ->]. clear Ho.
  destruct ids as [|i0 ids0].
  { unfold bind in Eo. cbn [lifto ret fst] in Eo. rewrite <- Hids in Eo. cbn in Eo. injection Eo as ->. apply sound_finish; (split; [apply prefix_refl|]); auto. }
  eapply sound_run with (R := fun x => x = Val (den_mat G KOff)); [|apply consumed_stop| |intros e He; discriminate].
  { intros s HI. destruct (get_offdiag_ok G wf true s HI) as (H1 & H2 & _). auto. }
  intros A [= ->].
  destruct (get_offdiag_ok G wf true st0 (Inv_st0 G true)) as (H1 & _ & _).
  unfold bind in Eo. cbn [lifto ret fst] in Eo. rewrite <- Hids in Eo. cbn [ret] in Eo. destruct (get_offdiag G st0) as [oA sA]. cbn [fst] in *. subst oA. cbn [ret fst lifto] in Eo.
  cbv zeta. rewrite g_layers_walk. apply (walk_sound (_ :: _)). symmetry. exact Eo.
Qed.
End Gens.

(** ** what may happen in between keeps the cache consistent *)
Lemma generator_sound G : gwf G -> forall X g, generator G X g -> exists P, sound (Inv G) g P.
Proof.
  intros wf. induction 1 as [srcs|pf isz c ch|pf isz ch Hi|X g s x s' g' Hg [P IH] HI E].
  - eexists. apply (bfs_sound G wf).
  - eexists. apply (all_pairs_sound G wf).
  - eexists. apply (all_pairs_bf_sound G wf pf isz ch Hi).
  - pose proof (sound_next (Inv G) g P s IH HI) as H. rewrite E in H. exists (fun l f => P (x :: l) f). apply H.
Qed.
Lemma session_inv mhr G s s' : gwf G -> Inv G s -> session mhr G s s' -> Inv G s'.
Proof.
  intros wf HI. induction 1 as [|s' [nm mask] H IH Hs|s' X m H IH Hp|s' X m H IH Hp Ht|s' X g H IH Hg].
  - assumption.
  - apply (get_property_ok mhr G wf nm mask s' IH Hs).
  - apply (public_kpx G wf X m Hp s' IH).
  - apply (public_td_ktd G wf X m Hp s' IH Ht).
  - destruct (generator_sound G wf X g Hg) as [P HS]. pose proof (sound_next (Inv G) g P s' HS IH) as HN. destruct (next g s'); apply HN.
Qed.

(** ** any argument *)
Lemma pulls_next {H X} (B : H -> H -> Prop) (g1 g2 : gen H X) h l f h' : next g1 h = next g2 h -> pulls B g1 h l f h' -> pulls B g2 h l f h'.
Proof. intros E P. inversion P; subst; [apply P_stop|apply P_done|apply P_fail|eapply P_yield; [|eassumption|eassumption]]; congruence. Qed.
Lemma on_own_pulls {X} mhr (g0 : gen garg X) a l f b : pulls (meanwhile mhr) g0 a l f b -> forall g G s, g0 = on_own g -> a = AGraph G s ->
  exists s', b = AGraph G s' /\ pulls (session mhr G) g s l f s'.
Proof.
  induction 1 as [g0 a|g0 a a' E|g0 a e a' E|g0 a x a1 g' a2 l f b E HB HP IH]; intros g G s -> ->.
  - exists s. split; [reflexivity|apply P_stop].
  - destruct g as [bd]. cbn [on_own next] in E. destruct (bd s) as [s1|e1 s1|x1 s1 g1] eqn:Eb; try discriminate. injection E as <-. exists s1. split; [reflexivity|]. apply P_done. exact Eb.
  - destruct g as [bd]. cbn [on_own next] in E. destruct (bd s) as [s1|e1 s1|x1 s1 g1] eqn:Eb; try discriminate. injection E as <- <-. exists s1. split; [reflexivity|]. apply P_fail. exact Eb.
  - destruct g as [bd]. cbn [on_own next] in E. destruct (bd s) as [s1|e1 s1|x1 s1 g1] eqn:Eb; try discriminate. injection E as <- <- <-.
    destruct a2 as [G2 s2|N|A d| |]; cbn [meanwhile] in HB; try contradiction. destruct HB as [<- HB].
    destruct (IH g1 G s2 eq_refl eq_refl) as (s' & -> & HP'). exists s'. split; [reflexivity|]. eapply P_yield; [exact Eb|exact HB|exact HP'].
Qed.
Lemma on_copy_pulls {X} B (g0 : gen garg X) a l f b : pulls B g0 a l f b -> forall g s, g0 = on_copy g s -> exists s', pulls eq g s l f s'.
Proof.
  induction 1 as [g0 a|g0 a a' E|g0 a e a' E|g0 a x a1 g' a2 l f b E HB HP IH]; intros g s ->.
  - exists s. apply P_stop.
  - destruct g as [bd]. cbn [on_copy next] in E. destruct (bd s) as [s1|e1 s1|x1 s1 g1] eqn:Eb; try discriminate. exists s1. apply P_done. exact Eb.
  - destruct g as [bd]. cbn [on_copy next] in E. destruct (bd s) as [s1|e1 s1|x1 s1 g1] eqn:Eb; try discriminate. injection E as <- <-. exists s1. apply P_fail. exact Eb.
  - destruct g as [bd]. cbn [on_copy next] in E. destruct (bd s) as [s1|e1 s1|x1 s1 g1] eqn:Eb; try discriminate. injection E as <- <- <-.
    destruct (IH g1 s1 eq_refl) as (s' & HP'). exists s'. eapply P_yield; [exact Eb|reflexivity|exact HP'].
Qed.
(** a generator function that reads the attribute [w], called with [a] and consumed in any way: if the argument is refused, the first
    [next()] raises; otherwise the items and the ending satisfy [R] for the graph that the argument stood for at the first [next()], and a
    library graph is left consistent ([C]: for which graphs) *)
Definition delivers {X} (w : option nkey) (C : graph -> Prop) (g : gen garg X) (R : graph -> list X -> ending -> Prop) : Prop :=
  forall mhr a l f b, given consistent None a -> pulls (meanwhile mhr) g a l f b ->
    match refused None a with
    | Some e => l = [] /\ (f = Stopped \/ f = Failed e) /\ b = a
    | None => exists G, gwf G /\ stands_for None w a G /\ (C G -> R G l f /\
              match a with AGraph _ _ => exists s', b = AGraph G s' /\ consistent G s' | _ => True end)
    end.
Lemma delivers_intro {X} orc w (C : graph -> Prop) (g : graph -> gen st X) R : (forall G, gwf G -> C G -> sound (Inv G) (g G) (R G)) -> delivers w C (lazily orc w g) R.
Proof.
  intros HS mhr a l f b Ha HP. destruct a as [G s|N|A d| |]; cbn [given refused stands_for] in *.
  - destruct Ha as [wf HI]. exists G. split; [assumption|]. split; [reflexivity|]. intros HC.
    apply (pulls_next _ _ (on_own (g G))) in HP; [|reflexivity].
    destruct (on_own_pulls _ _ _ _ _ _ HP _ _ _ eq_refl eq_refl) as (s' & -> & HP').
    destruct (sound_pulls (Inv G) (session mhr G) (fun x y Hx => session_inv mhr G x y wf Hx) _ _ _ _ _ HP' _ (HS G wf HC) HI) as [H1 H2].
    split; [exact H1|]. exists s'. split; [reflexivity|exact H2].
  - pose proof (as_represents orc N w None (nx_dir N) Ha (or_introl eq_refl) (fun E => E)) as P. pose proof (proj1 P) as wf. eexists. split; [exact wf|]. split; [exact P|]. intros HC.
    apply (pulls_next _ _ (on_copy (g (from_networkx_as orc (nx_dir N) N w None)) st0)) in HP; [|reflexivity].
    destruct (on_copy_pulls _ _ _ _ _ _ HP _ _ eq_refl) as (s' & HP').
    destruct (sound_pulls (Inv _) eq (fun x y Hx E => eq_ind x (Inv _) Hx y E) _ _ _ _ _ HP' _ (HS _ wf HC) (Inv_st0 _ true)) as [H1 H2]. split; [exact H1|exact Logic.I].
  - destruct (Nat.eqb_spec (nrows A) (ncols A)) as [E|E].
    + pose proof (matrix_represents orc true A d (proj1 Ha) E (fun F : true = false => False_ind _ (Bool.diff_true_false F))) as P. pose proof (proj1 P) as wf.
      eexists. split; [exact wf|]. split; [exact P|]. intros HC.
      apply (pulls_next _ _ (on_copy (g (new_graph orc true A d (range_kid (nrows A)))) st0)) in HP.
      2:{ unfold lazily. cbn [next to_graph]. unfold graph_of_matrix. rewrite (proj2 (Nat.eqb_eq _ _) E). cbn [obind]. reflexivity. }
      destruct (on_copy_pulls _ _ _ _ _ _ HP _ _ eq_refl) as (s' & HP').
      destruct (sound_pulls (Inv _) eq (fun x y Hx F => eq_ind x (Inv _) Hx y F) _ _ _ _ _ HP' _ (HS _ wf HC) (Inv_st0 _ true)) as [H1 H2]. split; [exact H1|exact Logic.I].
    + assert (EN : next (lazily orc w g) (AMatrix A d) = GFail EValue (AMatrix A d)).
      { unfold lazily. cbn [next to_graph]. unfold graph_of_matrix. rewrite (proj2 (Nat.eqb_neq _ _) E). reflexivity. }
      inversion HP; subst; try (rewrite EN in *; discriminate); auto.
      match goal with H : next _ _ = _ |- _ => rewrite EN in H; injection H as <- <- end. auto.
  - assert (EN : next (lazily orc w g) AOther = GFail EType AOther) by reflexivity.
    inversion HP; subst; try (rewrite EN in *; discriminate); auto.
    match goal with H : next _ _ = _ |- _ => rewrite EN in H; injection H as <- <- end. auto.
  - pose proof (none_represents orc true) as P. pose proof (proj1 P) as wf. eexists. split; [exact wf|]. split; [exact P|]. intros HC.
    apply (pulls_next _ _ (on_copy (g (graph_of_none orc true)) st0)) in HP; [|reflexivity].
    destruct (on_copy_pulls _ _ _ _ _ _ HP _ _ eq_refl) as (s' & HP').
    destruct (sound_pulls (Inv _) eq (fun x y Hx E => eq_ind x (Inv _) Hx y E) _ _ _ _ _ HP' _ (HS _ wf HC) (Inv_st0 _ true)) as [H1 H2]. split; [exact H1|exact Logic.I].
Qed.

(** ** C93 *)
(** the rows come out in the same order for every way of consuming them, each is right whenever it is pulled, nothing is left out, and
    nothing can fail but the parsing of chunksize, at the first [next()] *)
Theorem C93_all_pairs_shortest_path_length orc pyfloat isz cutoff chunk :
  delivers None (fun _ => True) (lazily orc None (fun G => g_all_pairs_spl pyfloat isz G cutoff chunk)) (fun G l f =>
    (exists ks, Permutation ks (gnodes G) /\ (ids_in_order G -> ks = gnodes G) /\ (exists t, ks = map fst l ++ t) /\ (f = Exhausted -> map fst l = ks)) /\
    (forall u m, In (u, m) l -> is_map m (fun v x => exists d, x = Z.of_nat d /\ dist (edge G) u v d /\ within cutoff d)) /\
    (forall e, f = Failed e -> l = [] /\ normalize_chunksize pyfloat chunk (Z.of_nat (glen G) * isz) (Some (Z.of_nat (glen G))) = Raise e)).
Proof.
  apply delivers_intro. intros G wf _. eapply sound_conseq; [|apply (all_pairs_sound G wf)].
  intros l f (ks & [H1 H2] & H3 & H4 & H5). split; [exists ks|split; [exact H4|]].
  - split; [assumption|]. split; [assumption|]. split; [assumption|]. intros ->. exact H5.
  - intros e ->. exact H5.
Qed.
(** with weights: a row may also fail because a node reaches a negative cycle; the rows before it were right *)
Theorem C93_all_pairs_bellman_ford_path_length orc pyfloat isz chunk w :
  delivers w Props_Weighted.iso_has_edge (lazily orc w (fun G => g_all_pairs_bf pyfloat isz G chunk)) (fun G l f =>
    (exists ks, Permutation ks (gnodes G) /\ (ids_in_order G -> ks = gnodes G) /\ (exists t, ks = map fst l ++ t) /\ (f = Exhausted -> map fst l = ks)) /\
    (forall u m, In (u, m) l -> ~ neg_cycle_from (weight G) u /\ is_map m (shortest (weight G) u) /\
                                forall v, wreach (weight G) u v -> exists x, nm_getitem m v = Val x) /\
    (forall e, f = Failed e -> (l = [] /\ normalize_chunksize pyfloat chunk (Z.of_nat (glen G) * isz) (Some (Z.of_nat (glen G))) = Raise e) \/
       (e = EUnbounded /\ exists u, node G u /\ neg_cycle_from (weight G) u))).
Proof.
  apply delivers_intro. intros G wf HC. eapply sound_conseq; [|apply (all_pairs_bf_sound G wf pyfloat isz chunk HC)].
  intros l f (ks & [H1 H2] & H3 & H4 & H5). split; [exists ks|split; [exact H4|]].
  - split; [assumption|]. split; [assumption|]. split; [assumption|]. intros ->. exact H5.
  - intros e ->. exact H5.
Qed.
(** the d-th item is the layer of the nodes at distance d, whatever was done in between *)
Theorem C93_bfs_layers orc srcs :
  delivers None (fun _ => True) (lazily orc None (fun G => g_bfs_layers G srcs)) (fun G l f =>
    (forall d q, nth_error l d = Some q -> q <> [] /\ NoDup q /\ forall v, In v q <-> dist_from (edge G) (fun u => In u (slist G srcs)) v d) /\
    (f = Exhausted -> forall d v, List.length l <= d -> ~ dist_from (edge G) (fun u => In u (slist G srcs)) v d) /\
    (f = Exhausted \/ l <> [] -> forall u, In u (slist G srcs) -> node G u) /\
    (forall e, f = Failed e -> l = [] /\
       ((e = EKey /\ exists u, In u (slist G srcs) /\ ~ node G u) \/ (e = EType /\ exists z, srcs = One (KI z) /\ ~ node G (KI z))))).
Proof.
  apply delivers_intro. intros G wf _. eapply sound_conseq; [|apply (bfs_sound G wf)].
  intros l f ([Ls|e] & Ho & Hc); cbn [consumed layers_answer] in *.
  - destruct Ho as (H1 & H2 & H3 & H4), Hc as [[t ->] Hf]. split; [|split; [|split]].
    + intros d q Hq. apply H3. rewrite nth_error_app1; [assumption|]. apply nth_error_Some. congruence.
    + intros ->. rewrite <- Hf in H4. exact H4.
    + intros _. exact H2.
    + intros e ->. destruct Hf.
  - destruct Hc as [-> Hf]. split; [intros [|d] q; discriminate|]. split; [intros ->; destruct Hf; discriminate|]. split; [intros [->|X]; [destruct Hf; discriminate|congruence]|].
    intros e' ->. split; [reflexivity|]. destruct Hf as [Hf|Hf]; [discriminate|]. injection Hf as ->. exact Ho.
Qed.

(** ** list(generator): what C09, C12, C14 and C92 say about the whole list is about these generators *)
Definition drained {X} (g : gen st X) (m : M (list X)) : Prop := forall s, 
  match m s with
  | (Val L, s') => pulls eq g s L Exhausted s'
  | (Raise e, s') => exists l, pulls eq g s l (Failed e) s'
  end.
Lemma emit_app {X} (l : list X) (k : gen st X) s L f s' : pulls eq k s L f s' -> pulls eq (emit l k) s (l ++ L) f s'.
Proof. intros H. induction l as [|x l IH]; [exact H|]. cbn [emit app]. eapply P_yield; [reflexivity|reflexivity|exact IH]. Qed.
Lemma drained_run {X Y} (m : M Y) (k : Y -> gen st X) (h : Y -> M (list X)) : (forall y, drained (k y) (h y)) -> drained (run m k) (y <- m ;; h y).
Proof.
  intros H s. unfold bind. destruct (m s) as [[y|e] s'] eqn:E.
  - specialize (H y s'). assert (EN : next (run m k) s = next (k y) s') by (unfold run; cbn [next]; rewrite E; reflexivity).
    assert (HP : forall l f t, f <> Stopped -> pulls eq (k y) s' l f t -> pulls eq (run m k) s l f t).
    { intros l f t Hf HP. inversion HP; subst; try congruence; [apply P_done|apply P_fail|eapply P_yield; [|reflexivity|eassumption]]; congruence. }
    destruct (h y s') as [[L|e] s2]; [apply HP; [discriminate|assumption]|]. destruct H as [l H]. exists l. apply HP; [discriminate|assumption].
  - exists []. apply P_fail. unfold run. cbn [next]. rewrite E. reflexivity.
Qed.
Lemma drained_emit {X} (L : list X) k m : drained k m -> drained (emit L k) (r <- m ;; ret (L ++ r)).
Proof.
  intros H s. specialize (H s). unfold bind. destruct (m s) as [[r|e] s']; [apply emit_app; assumption|].
  destruct H as [l H]. exists (L ++ l). apply emit_app. assumption.
Qed.
Lemma drained_finish {X} : drained (@finish st X) (ret []). Proof. intros s. apply P_done. reflexivity. Qed.
Lemma drained_eq {X} (g : gen st X) m m' : (forall s, m s = m' s) -> drained g m -> drained g m'.
Proof. intros E H s. specialize (H s). rewrite E in H. exact H. Qed.
Lemma drained_rounds {X} (ps : list (M (list X))) : drained (rounds ps) (Ls <- mapM (fun p => p) ps ;; ret (List.concat Ls)).
Proof.
  induction ps as [|p ps IH]; cbn [rounds mapM].
  - apply drained_finish.
  - eapply drained_eq; [|apply (drained_run p _ (fun rows => r <- (Ls <- mapM (fun p => p) ps ;; ret (List.concat Ls)) ;; ret (rows ++ r)))].
    + intros s. unfold bind, ret. destruct (p s) as [[rows|e] s1]; [|reflexivity]. destruct (mapM (fun p0 => p0) ps s1) as [[Ls|e] s2]; reflexivity.
    + intros rows. apply drained_emit. exact IH.
Qed.
Lemma mapM_ext {X Y} (f g : X -> M Y) l : (forall x s, f x s = g x s) -> forall s, mapM f l s = mapM g l s.
Proof.
  intros H. induction l as [|x l IH]; intros s; cbn [mapM]; [reflexivity|]. unfold bind. rewrite H. destruct (g x s) as [[y|e] s']; [|reflexivity]. rewrite IH. reflexivity.
Qed.
Lemma mapM_id {X Y} (f : X -> M Y) l s : mapM (fun p => p) (map f l) s = mapM f l s.
Proof. revert s. induction l as [|x l IH]; intros s; cbn [map mapM]; [reflexivity|]. unfold bind. destruct (f x s) as [[y|e] s']; [|reflexivity]. rewrite IH. reflexivity. Qed.
Lemma mapM_single {X Y} (f : X -> M Y) l s : (Ls <- mapM (fun x => y <- f x ;; ret [y]) l ;; ret (List.concat Ls)) s = mapM f l s.
Proof.
  revert s. induction l as [|x l IH]; intros s; cbn [mapM]; [reflexivity|]. specialize IH. unfold bind, ret in *.
  destruct (f x s) as [[y|e] s']; [|reflexivity]. rewrite <- (IH s'). destruct (mapM (fun x0 s0 => match f x0 s0 with (Val x1, s'0) => (Val [x1], s'0) | (Raise e, s'0) => (Raise e, s'0) end) l s') as [[Ls|e] s2]; reflexivity.
Qed.
Theorem C93_list_all_pairs pyfloat isz G cutoff chunk : drained (g_all_pairs_spl pyfloat isz G cutoff chunk) (nx_all_pairs_spl pyfloat isz G cutoff chunk).
Proof.
  unfold g_all_pairs_spl, nx_all_pairs_spl. apply drained_run. intros [c|].
  - destruct (c <? 2)%Z; (eapply drained_eq; [|apply drained_rounds]); intros s.
    + etransitivity; [|apply mapM_single]. unfold bind at 1. rewrite mapM_id. unfold bind at 3. erewrite mapM_ext; [reflexivity|].
      intros u t. cbv beta. unfold bind, ret. destruct (single_source_spl G u cutoff t) as [[d|e] t']; reflexivity.
    + unfold bind at 1. rewrite mapM_id. reflexivity.
  - eapply drained_eq; [|apply drained_rounds]. intros s. cbn [mapM]. unfold bind, ret.
    destruct (all_pairs_spl G cutoff None false s) as [[D|e] s']; [|reflexivity]. destruct (lifto (nnm_items (to_nodenodemap G D)) s') as [[L|e] s2]; cbn [List.concat]; [rewrite app_nil_r|]; reflexivity.
Qed.
Theorem C93_list_all_pairs_bellman_ford pyfloat isz G chunk : drained (g_all_pairs_bf pyfloat isz G chunk) (nx_all_pairs_bf pyfloat isz G chunk).
Proof.
  unfold g_all_pairs_bf, nx_all_pairs_bf. apply drained_run. intros [c|].
  - destruct (c <? 2)%Z; (eapply drained_eq; [|apply drained_rounds]); intros s.
    + etransitivity; [|apply mapM_single]. unfold bind at 1. rewrite mapM_id. unfold bind at 3. erewrite mapM_ext; [reflexivity|].
      intros u t. cbv beta. unfold bind, ret. destruct (single_source_bf G u None t) as [[d|e] t']; reflexivity.
    + unfold bind at 1. rewrite mapM_id. reflexivity.
  - eapply drained_eq; [|apply drained_rounds]. intros s. cbn [mapM]. unfold bind, ret.
    destruct (bf_path_lengths G None false s) as [[D|e] s']; [|reflexivity]. destruct (lifto (nnm_items (to_nodenodemap G D)) s') as [[L|e] s2]; cbn [List.concat]; [rewrite app_nil_r|]; reflexivity.
Qed.
Lemma drained_walk G ls : drained (walk G ls) (lifto (mapOut (vector_to_list (g_kid G)) ls)).
Proof.
  induction ls as [|q ls IH]; cbn [walk mapOut]; [apply drained_finish|]. unfold g_layer.
  eapply drained_eq; [|apply (drained_run _ _ (fun l => r <- lifto (mapOut (vector_to_list (g_kid G)) ls) ;; ret ([l] ++ r)))].
  - intros s. unfold bind, lifto. destruct (vector_to_list (g_kid G) q); [|reflexivity]. destruct (mapOut (vector_to_list (g_kid G)) ls); reflexivity.
  - intros l. apply drained_emit. exact IH.
Qed.
Theorem C93_list_bfs_layers G srcs : drained (g_bfs_layers G srcs) (nx_bfs_layers G srcs).
Proof.
  unfold g_bfs_layers, nx_bfs_layers, bfs_layers.
  set (src := match srcs with One k => if in_graph G k then ret [k] else lifto (iter_key k) | Many l => ret l end). clearbody src.
  eapply drained_eq; [|apply (drained_run src _ (fun l => ids <- lifto (list_to_ids (g_kid G) l) ;;
     match ids with [] => ret [] | _ => A <- get_offdiag G ;; lifto (mapOut (vector_to_list (g_kid G)) (vscatter (nrows A) ids true :: layers_loop A (nrows A - 1) (vempty (nrows A)) (vscatter (nrows A) ids true))) end))].
  - intros s. unfold bind. destruct (src s) as [[l|e] s1]; [|reflexivity]. destruct (lifto (list_to_ids (g_kid G) l) s1) as [[[|i ids]|e] s2]; try reflexivity.
    destruct (get_offdiag G s2) as [[A|e] s3]; reflexivity.
  - intros l. apply drained_run. intros [|i ids]; [apply drained_finish|]. apply drained_run. intros A. cbv zeta. rewrite g_layers_walk. apply (drained_walk G (_ :: _)).
Qed.

(** ** the hypotheses are met *)
Definition lz_path : graph := mkg true 3 [(0, 1, 5%Z); (1, 2, 7%Z)].
Definition lz_nx (l : list (nkey * list (nkey * list (nkey * Z)))) : nxgraph := {| nx_dir := true; nx_nattr := false; nx_adj := l |}.
Definition lz_nx1 := lz_nx [(KI 0, [(KI 1, [(KS "weight", 5%Z)])]); (KI 1, [])].
Definition lz_nx2 := lz_nx [(KI 0, []); (KI 1, []); (KI 7, [])].
(** two layers of a library graph; between the two another public function and another generator use the cache; the consumer stops *)
Example C93_ex_graph : exists s', pulls (meanwhile true) (lazily (fun _ => false) None (fun G => g_bfs_layers G (One (KI 0)))) (AGraph lz_path st0)
    [[KI 0]; [KI 1]] Stopped (AGraph lz_path s').
Proof.
  eexists. eapply P_yield; [reflexivity| |].
  { instantiate (1 := AGraph lz_path _). split; [reflexivity|]. eapply SE_next; [|apply (GN_all_pairs lz_path (fun _ => None) 8 None (CANum 1))].
    eapply SE_call; [apply SE_refl|]. apply (P_descendants lz_path (KI 1)). }
  eapply P_yield; [reflexivity| |apply P_stop]. split; [reflexivity|apply SE_refl].
Qed.
(** rows of a networkx graph that is changed after the first row: the generator goes on with the graph as it was *)
Example C93_ex_nx : exists m0 m1, nm_getitem m0 (KI 1) = Val 1%Z /\
  pulls (meanwhile true) (lazily (fun _ => false) None (fun G => g_all_pairs_spl (fun _ => None) 8 G None (CANum 1))) (ANx lz_nx1)
    [(KI 0, m0); (KI 1, m1)] Exhausted (ANx lz_nx2).
Proof.
  assert (HB : forall a b, meanwhile true (ANx a) (ANx b)) by (intros; exact Logic.I).
  do 2 eexists. split; [|eapply P_yield with (h2 := ANx lz_nx2); [vm_compute; reflexivity|apply HB|
    eapply P_yield with (h2 := ANx lz_nx2); [vm_compute; reflexivity|apply HB|apply P_done; vm_compute; reflexivity]]].
  vm_compute. reflexivity.
Qed.
(** a wrong argument: nothing is noticed before the first [next()] *)
Example C93_ex_refused : let g := lazily (fun _ => false) None (fun G => g_bfs_layers G (One (KI 0))) in
  pulls (meanwhile true) g AOther [] Stopped AOther /\ pulls (meanwhile true) g AOther [] (Failed EType) AOther /\
  pulls (meanwhile true) (lazily (fun _ => false) None (fun G => g_bfs_layers G (One (KI 9)))) (ANx lz_nx1) [] (Failed EType) (ANx lz_nx1).
Proof. split; [apply P_stop|]. split; apply P_fail; vm_compute; reflexivity. Qed.
Print Assumptions C93_all_pairs_shortest_path_length.
Print Assumptions C93_all_pairs_bellman_ford_path_length.
Print Assumptions C93_bfs_layers.
Print Assumptions C93_list_all_pairs.
Print Assumptions C93_list_all_pairs_bellman_ford.
Print Assumptions C93_list_bfs_layers.
