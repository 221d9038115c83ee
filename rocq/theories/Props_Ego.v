(** * C59: ego graphs *)
From Verif Require Import Base BaseProofs Model_Graph Model_Cache Model_Keys Spec KeyProofs Spec_Cache CacheMath CacheProofs CacheProofs2 CacheHist
  Spec_Run RunProofs Model_Bfs Bfs BfsProofs BfsProofs2 BfsProofs3 Walks Spec_Weighted WeightedMath Model_Weighted NdProofs WeightedProofs WeightedProofs2
  Concrete Model_Operators OperatorProofs Props_Operators SubProofs Model_Ego EgoProofs.
Open Scope nat_scope.

(** ** Specification *)
(** [T] is the subgraph of [G] induced on the nodes satisfying [P], weights included *)
Definition induced (G : graph) (P : nkey -> Prop) (T : graph) : Prop :=
  g_dir T = g_dir G /\ (forall v, node T v <-> node G v /\ P v) /\
  forall v w x, weight T v w = Some x <-> weight G v w = Some x /\ P v /\ P w.
(** the edges along which the search goes: against their direction too when asked to *)
Definition ego_edge (G : graph) (undirected : bool) : nkey -> nkey -> Prop :=
  if undirected then sym (edge G) else edge G.
Definition ego_weight (G : graph) (undirected : bool) (v w : nkey) : option Z :=
  match weight G v w with
  | Some x => Some x
  | None => if undirected then weight G w v else None
  end.

Lemma walk_iff {X} (E F : X -> X -> Prop) x d y : (forall a b, E a b <-> F a b) -> walk E x d y <-> walk F x d y.
Proof. intros H. split; apply walk_mono; intros a b; apply H. Qed.
Lemma dist_iff {X} (E F : X -> X -> Prop) x y d : (forall a b, E a b <-> F a b) -> dist E x y d <-> dist F x y d.
Proof.
  intros H. unfold dist. rewrite (walk_iff E F x d y H). split; intros [A B]; (split; [exact A|]); intros d' Hd; apply B, (walk_iff E F x d' y H), Hd.
Qed.
Lemma shortest_iff {X} (E F : X -> X -> option Z) x y w : (forall a b, E a b = F a b) -> shortest E x y w <-> shortest F x y w.
Proof.
  intros H. assert (K : forall E F : X -> X -> option Z, (forall a b, E a b = F a b) -> forall d w, wwalk E x d w y -> wwalk F x d w y).
  { clear. intros E F H. intros d w. generalize y. clear y. intros y. induction 1; econstructor; [eassumption|]. rewrite <- H. assumption. }
  assert (L : forall d w, wwalk E x d w y <-> wwalk F x d w y) by (intros d w'; split; apply K; auto).
  unfold shortest. split; (intros [(d & A) B]; split; [exists d; apply L; assumption|intros d' w' Hw; apply (B d'), L, Hw]).
Qed.

(** what is kept of a ball *)
Lemma kept {V} (d : vec V) src center j :
  In j (vindices (if center : bool then d else vdel d src)) <-> has (vget d j) = true /\ (center = false -> j <> src).
Proof.
  rewrite in_vindices. destruct center.
  - split; [intros H; split; [exact H|discriminate]|intros [H _]; exact H].
  - rewrite vget_vdel. destruct (Nat.eqb_spec j src) as [->|N]; cbn.
    + split; [discriminate|]. intros [_ H]. destruct H; reflexivity.
    + split; [intros H; split; [exact H|auto]|intros [H _]; exact H].
Qed.
Lemma other_node H (wf : gwf H) u w i j : kid H u = Some i -> kid H w = Some j -> j <> i <-> w <> u.
Proof. intros Hu Hw. split; intros N E; apply N; [congruence|]. subst j. eapply (kid_inj H wf); eassumption. Qed.
Section P.
Variables (orc : mat Z -> bool) (pick : nat -> nat -> bool).
Variable G : graph.
Hypothesis wf : gwf G.
Notation n := (glen G).

Lemma ego_finish ids (P : nkey -> Prop) u : NoDup ids -> (forall i, In i ids -> i < n) ->
  (forall v i, kid G v = Some i -> (In i ids <-> P v)) -> node G u ->
  exists T, (d <- lifto (renumber_key_to_id (g_kid G) ids) ;; ret (new_graph orc (g_dir G) (mextract (g_A G) ids ids) (g_dt G) d)) = lifto (Val T) /\
    gwf T /\ induced G P T.
Proof.
  intros ND Hl HP Nu.
  destruct (sub_ok G wf orc (g_dir G) (g_A G) (g_dt G) ids) as (d & Ed & T1 & T2 & T3 & T4); [apply wf|apply wf|assumption|assumption|].
  rewrite Ed. eexists. split; [reflexivity|]. split; [exact T1|]. split; [reflexivity|]. split.
  - intros v. rewrite T3. split.
    + intros (i & Hv & Hi). split; [apply node_kid; eauto|]. apply (HP v i Hv). assumption.
    + intros [Nv Pv]. apply node_kid in Nv as [i Hv]. exists i. split; [assumption|]. apply (HP v i Hv). assumption.
  - intros v w x. rewrite T4. assert (HI : forall i, existsb (Nat.eqb i) ids = true <-> In i ids).
    { intros i. rewrite existsb_exists. split; [intros (j & Hj & Ej); apply Nat.eqb_eq in Ej; subst; assumption|]. intros Hi. exists i. rewrite Nat.eqb_refl. auto. }
    unfold weight at 1. destruct (kid G v) as [i|] eqn:Hv; [|split; [|intros [? _]]; discriminate]. destruct (kid G w) as [j|] eqn:Hw; [|split; [|intros [? _]]; discriminate].
    rewrite <- (HP v i Hv), <- (HP w j Hw), <- !HI. destruct (existsb (Nat.eqb i) ids), (existsb (Nat.eqb j) ids); cbn [andb]; split; try tauto; try discriminate; intros (_ & ? & ?); discriminate.
Qed.

(** ** The searched ball *)
Definition ego_out (H : graph) (u : nkey) (P : nkey -> Prop) (o : outcome (list nat)) : Prop :=
  match kid H u with
  | None => o = Raise EKey
  | Some _ => exists ids, o = Val ids /\ NoDup ids /\ (forall i, In i ids -> i < glen H) /\ forall v j, kid H v = Some j -> (In j ids <-> P v)
  end.
Lemma ego_plain H u r center : gwf H -> answers H (ego_ids H u r center false)
  (ego_out H u (fun v => (exists d, dist (edge H) u v d /\ within (Some r) d) /\ (center = false -> v <> u))).
Proof.
  clear wf G. intros wf. unfold ego_ids, bfs_plain, ego_out. destruct (kid H u) as [i|] eqn:Hu; cbn [idx].
  2:{ apply answers_raise. reflexivity. }
  assert (Li : i < glen H) by (eapply kid_lt; eassumption).
  assert (Ll : forall k, In k [i] -> k < glen H) by (intros k [<-|[]]; assumption).
  eapply answers_bind_v.
  { apply answers_ret_bind. eapply answers_GV; [apply (bfs_plain_ix_ok H wf true)|]. reflexivity. }
  set (v := plain_val H false [i] (Some r)). assert (Sv : vsize v = glen H) by (apply plain_val_size; assumption).
  assert (E : (if center then ret v else i0 <- ret i ;; ret (vdel v i0)) = ret (if center then v else vdel v i)) by (destruct center; reflexivity).
  rewrite E. apply answers_ret_bind. apply answers_ret. eexists. split; [reflexivity|]. split; [apply NoDup_vindices|].
  assert (K := kept v i center).
  split.
  - intros k Hk. apply K in Hk as [Hk _]. rewrite <- Sv. destruct (Nat.lt_ge_cases k (vsize v)); [assumption|]. rewrite vget_out in Hk by assumption. discriminate.
  - intros w j Hw. rewrite K. unfold v. rewrite (plain_val_dist1 H wf false i (Some r) Li).
    assert (X : (exists d, dist (Dr H false) i j d /\ within (Some r) d) <-> exists d, dist (edge H) u w d /\ within (Some r) d).
    { split; intros (d & D1 & D2); exists d; (split; [|exact D2]).
      - apply (dist_lift H wf _ (iedge H) u i w d (lifted_edge H wf) Hu). exists j. split; [assumption|exact D1].
      - apply (dist_lift H wf _ (iedge H) u i w d (lifted_edge H wf) Hu) in D1 as (j' & Hj' & D1). replace j with j' by congruence. exact D1. }
    rewrite X, (other_node H wf u w i j Hu Hw). reflexivity.
Qed.

Lemma ego_weighted H u r center : gwf H -> (0 <= r)%Z -> (forall v w x, weight H v w = Some x -> (0 <= x)%Z) ->
  (g_iso H = true -> exists v w x, weight H v w = Some x /\ x <> 0%Z) ->
  answers H (ego_ids H u r center true)
  (ego_out H u (fun v => (exists x, shortest (weight H) u v x /\ (x <= r)%Z) /\ (center = false -> v <> u))).
Proof.
  clear wf G. intros wf Hr Hnn Hiz. unfold ego_ids, ego_out.
  assert (Hnn' : forall i j x, mget (g_A H) i j = Some x -> (0 <= x)%Z).
  { intros i j x Hx. destruct (F_lt H wf _ _ _ Hx) as [Li Lj]. destruct (kid_key H wf i Li) as [v Hv], (kid_key H wf j Lj) as [w Hw].
    apply (Hnn v w). rewrite (weight_ids H v w i j Hv Hw). assumption. }
  assert (Hiz' : g_iso H = true -> exists i j x, mget (g_A H) i j = Some x /\ x <> 0%Z).
  { intros E. destruct (Hiz E) as (v & w & x & Hx & Hz). unfold weight in Hx. destruct (kid H v), (kid H w); try discriminate. eauto. }
  pose proof (single_source_cut H wf Hnn' r Hr Hiz' u) as HS. destruct (kid H u) as [i|] eqn:Hu.
  - assert (E : (fun v : vec Z => v0 <- (if center then ret v else i0 <- idx (Some i);; ret (vdel v i0));; ret (vindices v0)) =
                (fun v : vec Z => ret (vindices (if center then v else vdel v i)))) by (destruct center; reflexivity).
    change (answers H (bind (single_source_bf H u (Some r)) (fun v : vec Z => v0 <- (if center then ret v else i0 <- idx (Some i);; ret (vdel v i0));; ret (vindices v0)))
       (fun o => exists ids, o = Val ids /\ NoDup ids /\ (forall k, In k ids -> k < glen H) /\ forall v j, kid H v = Some j ->
          (In j ids <-> (exists x, shortest (weight H) u v x /\ (x <= r)%Z) /\ (center = false -> v <> u)))).
    rewrite E. eapply answers_bind; [exact HS| |intros e (d & He & _); discriminate He].
    intros d (d' & [= <-] & Sd & Hd). apply answers_ret. eexists. split; [reflexivity|]. split; [apply NoDup_vindices|]. split.
    + intros k Hk. apply kept in Hk as [Hk _]. rewrite <- Sd. destruct (Nat.lt_ge_cases k (vsize d)); [assumption|]. rewrite vget_out in Hk by assumption. discriminate.
    + intros w j Hw. rewrite kept, Hd, (other_node H wf u w i j Hu Hw).
      assert (X : (exists x, shortest (mget (g_A H)) i j x /\ (x <= r)%Z) <-> exists x, shortest (weight H) u w x /\ (x <= r)%Z).
      { split; intros (x & D1 & D2); exists x; (split; [|exact D2]).
        - apply (shortest_lift H wf u i w x Hu). exists j. auto.
        - apply (shortest_lift H wf u i w x Hu) in D1 as (j' & Hj' & D1). replace j with j' by congruence. exact D1. }
      rewrite X. reflexivity.
  - intros s HI. destruct (HS s HI) as [H1 H2]. unfold bind. destruct (single_source_bf H u (Some r) s) as [[x|e] s']; cbn [fst snd] in *; [discriminate|].
    split; [congruence|assumption].
Qed.
(** to_undirected as a directed graph: the searches used here do not look at the flag, and so the
    possibly unsymmetric choice of weights by [binary.any] does not matter *)
Definition undir_d : graph := new_graph orc true (g_A (to_undirected orc pick false G)) (g_dt G) (g_kid G).
Lemma undir_d_wf : gwf undir_d.
Proof.
  unfold undir_d, to_undirected. cbn [g_A new_graph]. assert (SqG := sq_nrows G wf). apply new_graph_wf; try apply wf.
  - apply mwf_mbuild.
  - rewrite nrows_mbuild, ncols_mbuild; assumption.
  - discriminate.
  - intros E i j x. rewrite !mget_mbuild; destruct (_ && _); try discriminate; rewrite !mget_mtrans by apply wf;
      pose proof (gw_nn G wf E i j) as X; pose proof (gw_nn G wf E j i) as Y;
      destruct (mget (g_A G) i j), (mget (g_A G) j i); try discriminate; simpl; intros [= <-]; try destruct (pick i j); auto.
  - rewrite nrows_mbuild; apply wf.
Qed.
Lemma undir_edge a b : edge undir_d a b <-> sym (edge G) a b.
Proof. destruct (C35_to_undirected orc G pick false a b wf) as (_ & _ & H & _). exact H. Qed.
Lemma undir_len : glen undir_d = n.
Proof. unfold glen, undir_d, to_undirected. cbn [g_A new_graph]. apply nrows_mbuild. Qed.

(** what ego_graph answers: the subgraph induced on the nodes satisfying P *)
Definition ego_ans (u : nkey) (P : nkey -> Prop) (center : bool) (o : outcome graph) : Prop :=
  match o with
  | Val T => node G u /\ gwf T /\ induced G (fun v => P v /\ (center = false -> v <> u)) T
  | Raise e => e = EKey /\ ~ node G u
  end.
Lemma ego_end u (P : nkey -> Prop) center o : 
  (match kid G u with None => o = Raise EKey | Some _ => exists ids, o = Val ids /\ NoDup ids /\ (forall i, In i ids -> i < n) /\
     forall v j, kid G v = Some j -> (In j ids <-> P v /\ (center = false -> v <> u)) end) ->
  match o with
  | Raise e => e = EKey /\ ~ node G u
  | Val ids => exists T, (d <- lifto (renumber_key_to_id (g_kid G) ids) ;; ret (new_graph orc (g_dir G) (mextract (g_A G) ids ids) (g_dt G) d)) = lifto (Val T) /\ ego_ans u P center (Val T)
  end.
Proof.
  intros H. destruct (kid G u) as [i|] eqn:Hu.
  - destruct H as (ids & -> & ND & Hl & HP). assert (Nu : node G u) by (apply node_kid; eauto).
    destruct (ego_finish ids _ u ND Hl HP Nu) as (T & E & W & I). exists T. split; [exact E|]. split; [assumption|]. split; assumption.
  - subst o. split; [reflexivity|]. rewrite node_kid. intros [i Hi]. congruence.
Qed.
Theorem C59_ego_graph u r center undirected :
  answers G (nx_ego_graph orc pick G u r center undirected false)
    (ego_ans u (fun v => exists d, dist (ego_edge G undirected) u v d /\ within (Some r) d) center).
Proof.
  unfold nx_ego_graph.
  assert (HS : answers G (if undirected && g_dir G then lifto (fst (ego_ids (to_undirected orc pick false G) u r center false st0)) else ego_ids G u r center false)
    (fun o => match kid G u with None => o = Raise EKey | Some _ => exists ids, o = Val ids /\ NoDup ids /\ (forall i, In i ids -> i < n) /\
     forall v j, kid G v = Some j -> (In j ids <-> (exists d, dist (ego_edge G undirected) u v d /\ within (Some r) d) /\ (center = false -> v <> u)) end)).
  { destruct (undirected && g_dir G) eqn:E.
    - apply andb_true_iff in E as [-> E]. apply answers_lifto.
      change (ego_ids (to_undirected orc pick false G) u r center false) with (ego_ids undir_d u r center false).
      destruct (ego_plain undir_d u r center undir_d_wf st0 (Inv_st0 undir_d true)) as [H _]. unfold ego_out in H.
      change (kid undir_d u) with (kid G u) in H. destruct (kid G u); [|exact H]. destruct H as (ids & H1 & H2 & H3 & H4).
      exists ids. split; [exact H1|]. split; [exact H2|]. rewrite undir_len in H3. split; [exact H3|]. intros v j Hv. rewrite (H4 v j Hv).
      assert (X : (exists d, dist (edge undir_d) u v d /\ within (Some r) d) <-> exists d, dist (ego_edge G true) u v d /\ within (Some r) d).
      { split; intros (d & D1 & D2); exists d; (split; [|exact D2]); apply (dist_iff _ _ u v d undir_edge); exact D1. }
      rewrite X. reflexivity.
    - eapply answers_conseq; [apply (ego_plain G u r center wf)|]. intros o. unfold ego_out. destruct (kid G u); [|auto].
      intros (ids & H1 & H2 & H3 & H4). exists ids. split; [exact H1|]. split; [exact H2|]. split; [exact H3|]. intros v j Hv. rewrite (H4 v j Hv).
      assert (Y : forall a b, edge G a b <-> ego_edge G undirected a b).
      { intros a b. unfold ego_edge. destruct undirected; [|reflexivity]. cbn [andb] in E. unfold sym.
        assert (K : edge G b a -> edge G a b) by (unfold edge; rewrite (weight_sym G a b wf E); auto). tauto. }
      assert (X : (exists d, dist (edge G) u v d /\ within (Some r) d) <-> exists d, dist (ego_edge G undirected) u v d /\ within (Some r) d).
      { split; intros (d & D1 & D2); exists d; (split; [|exact D2]); apply (dist_iff _ _ u v d Y); exact D1. }
      rewrite X. reflexivity. }
  eapply answers_bind; [exact HS| |].
  - intros ids H. destruct (ego_end u _ center _ H) as (T & E & H'). cbv beta. rewrite E. apply answers_lifto. exact H'.
  - intros e H. exact (ego_end u _ center _ H).
Qed.

(** with [distance=]: balls in terms of the least total weight.  Weights are nonnegative (with negative
    ones distances need not exist); for a directed graph searched as undirected, antiparallel edges have
    the same weight (otherwise G.to_undirected() picks one).  A matrix that the library flags as
    iso-valued must not hold the value 0: see [C59_zero_refuted]. *)
Theorem C59_ego_weighted u r center undirected : (0 <= r)%Z -> (forall v w x, weight G v w = Some x -> (0 <= x)%Z) ->
  (undirected && g_dir G = true -> forall v w x y, weight G v w = Some x -> weight G w v = Some y -> x = y) ->
  (exists v w x, weight G v w = Some x /\ x <> 0%Z) \/ (forall A, orc A = false) /\ g_iso G = false ->
  answers G (nx_ego_graph orc pick G u r center undirected true)
    (ego_ans u (fun v => exists x, shortest (ego_weight G undirected) u v x /\ (x <= r)%Z) center).
Proof.
  intros Hr Hnn Hcons Hz. unfold nx_ego_graph.
  assert (HS : answers G (if undirected && g_dir G then lifto (fst (ego_ids (to_undirected orc pick false G) u r center true st0)) else ego_ids G u r center true)
    (fun o => match kid G u with None => o = Raise EKey | Some _ => exists ids, o = Val ids /\ NoDup ids /\ (forall i, In i ids -> i < n) /\
     forall v j, kid G v = Some j -> (In j ids <-> (exists x, shortest (ego_weight G undirected) u v x /\ (x <= r)%Z) /\ (center = false -> v <> u)) end)).
  { destruct (undirected && g_dir G) eqn:E.
    - apply andb_true_iff in E as [-> E]. specialize (Hcons eq_refl). set (H := to_undirected orc pick false G).
      assert (HW : forall a b, weight H a b = ego_weight G true a b).
      { intros a b. destruct (C35_to_undirected orc G pick false a b wf) as (_ & _ & H1 & _ & H2). fold H in H1, H2. unfold ego_weight.
        destruct (weight H a b) as [x|] eqn:Ex.
        - specialize (H2 x eq_refl). destruct (weight G a b) as [y|] eqn:Ey; [|destruct H2; [discriminate|congruence]].
          destruct H2 as [H2|H2]; [congruence|]. f_equal. symmetry. apply (Hcons a b); assumption.
        - destruct (weight G a b) as [y|] eqn:Ey.
          + destruct (proj2 H1) as [z Hz']; [left; exists y; assumption|congruence].
          + destruct (weight G b a) as [y|] eqn:Ey'; [|reflexivity]. destruct (proj2 H1) as [z Hz']; [right; exists y; assumption|congruence]. }
      assert (wfH : gwf H) by (apply C35_to_undirected_wf; assumption).
      destruct (ego_weighted H u r center wfH Hr) with (s := st0) as [H0 _].
      + intros v w x Hx. rewrite HW in Hx. unfold ego_weight in Hx. destruct (weight G v w) eqn:Ex; [apply (Hnn v w); congruence|eapply Hnn; eassumption].
      + intros Hi. destruct Hz as [(v & w & x & Hx & Hz)|[Ho _]].
        * exists v, w, x. rewrite HW. unfold ego_weight. rewrite Hx. auto.
        * unfold H, to_undirected in Hi. cbn [g_iso new_graph] in Hi. rewrite Ho in Hi. discriminate.
      + apply (Inv_st0 H true).
      + intros s HI. cbn [lifto fst snd]. split; [|auto]. unfold ego_out in H0. change (kid H u) with (kid G u) in H0.
        destruct (kid G u); [|exact H0]. destruct H0 as (ids & H1 & H2 & H3 & H4).
        exists ids. split; [exact H1|]. split; [exact H2|]. change (glen H) with (glen undir_d) in H3. rewrite undir_len in H3. split; [exact H3|]. intros v j Hv. rewrite (H4 v j Hv).
        assert (X : (exists x, shortest (weight H) u v x /\ (x <= r)%Z) <-> exists x, shortest (ego_weight G true) u v x /\ (x <= r)%Z).
        { split; intros (d & D1 & D2); exists d; (split; [|exact D2]); apply (shortest_iff _ _ u v d HW); exact D1. }
        rewrite X. reflexivity.
    - intros s HI. destruct (ego_weighted G u r center wf Hr Hnn) with (s := s) as [H0 H0']; [|exact HI|].
      + intros Hi. destruct Hz as [Hz|[_ Hz]]; [exact Hz|congruence].
      + split; [|exact H0']. clear H0'. unfold ego_out in H0. destruct (kid G u); [|exact H0]. destruct H0 as (ids & H1 & H2 & H3 & H4).
        exists ids. split; [exact H1|]. split; [exact H2|]. split; [exact H3|]. intros v j Hv. rewrite (H4 v j Hv).
        assert (Y : forall a b, weight G a b = ego_weight G undirected a b).
        { intros a b. unfold ego_weight. destruct undirected; cbn [andb] in E; [|destruct (weight G a b); reflexivity].
          rewrite (weight_sym G a b wf E). destruct (weight G b a); reflexivity. }
        assert (X : (exists x, shortest (weight G) u v x /\ (x <= r)%Z) <-> exists x, shortest (ego_weight G undirected) u v x /\ (x <= r)%Z).
        { split; intros (d & D1 & D2); exists d; (split; [|exact D2]); apply (shortest_iff _ _ u v d Y); exact D1. }
        rewrite X. reflexivity. }
  intros s HI. destruct (HS s HI) as [H1 H2]. clear HS.
  assert (B : forall X Y (m : M X) (f : X -> M Y) s, bind m f s = match m s with (Val x, s') => f x s' | (Raise e, s') => (Raise e, s') end).
  { intros X Y m f s0. unfold bind. destruct (m s0) as [[x|e] s']; reflexivity. }
  rewrite B. match goal with |- context [(if ?b then ?x else ?y) s] => destruct ((if b then x else y) s) as [[ids|e] s'] end; cbn [fst snd] in *.
  - destruct (ego_end u _ center _ H1) as (T & E & H'). rewrite E. cbn. auto.
  - split; [|exact H2]. exact (ego_end u _ center _ H1).
Qed.
End P.

(** a path 0-1-2-3 of lengths 1, 2, 4 (directed), node 4 isolated *)
Definition g_ego : graph := mkg true 5 [(0, 1, 1%Z); (1, 2, 2%Z); (2, 3, 4%Z); (3, 3, 9%Z)].
Definition nof : mat Z -> bool := fun _ => false.
Definition pickl : nat -> nat -> bool := fun _ _ => true.
Example C59_ex : gwf g_ego /\
  (exists T, fst (nx_ego_graph nof pickl g_ego (KI 1) 1 true false false st0) = Val T /\ gnodes T = [KI 1; KI 2] /\ weight T (KI 1) (KI 2) = Some 2%Z) /\
  (exists T, fst (nx_ego_graph nof pickl g_ego (KI 2) 1 false true false st0) = Val T /\ gnodes T = [KI 1; KI 3] /\ weight T (KI 3) (KI 3) = Some 9%Z) /\
  (exists T, fst (nx_ego_graph nof pickl g_ego (KI 2) 3 true true true st0) = Val T /\ gnodes T = [KI 0; KI 1; KI 2]) /\
  fst (nx_ego_graph nof pickl g_ego (KI 7) 3 true true true st0) = Raise EKey.
Proof.
  split; [apply mkg_wf|]. split; [|split; [|split]]; try (eexists; split; [vm_compute; reflexivity|]; vm_compute; auto). vm_compute. reflexivity.
Qed.
Example C59_weighted_ex : (0 <= 3)%Z /\ (forall v w x, weight g_ego v w = Some x -> (0 <= x)%Z) /\
  (true && g_dir g_ego = true -> forall v w x y, weight g_ego v w = Some x -> weight g_ego w v = Some y -> x = y) /\
  ((exists v w x, weight g_ego v w = Some x /\ x <> 0%Z) \/ (forall A, nof A = false) /\ g_iso g_ego = false).
Proof.
  assert (K : forall v w x, weight g_ego v w = Some x -> (v, w, x) = (KI 0, KI 1, 1%Z) \/ (v, w, x) = (KI 1, KI 2, 2%Z) \/ (v, w, x) = (KI 2, KI 3, 4%Z) \/ (v, w, x) = (KI 3, KI 3, 9%Z)).
  { intros v w x H. assert (N := weight_nodes _ _ _ _ H). destruct N as [Nv Nw]. unfold node in Nv, Nw. vm_compute in Nv, Nw.
    destruct Nv as [<-|[<-|[<-|[<-|[<-|[]]]]]], Nw as [<-|[<-|[<-|[<-|[<-|[]]]]]]; vm_compute in H; try discriminate; injection H as <-; tauto. }
  split; [lia|]. split; [|split].
  - intros v w x H. apply K in H. decompose [or] H; repeat match goal with H : (_, _, _) = _ |- _ => injection H as -> -> -> end; lia.
  - intros _ v w x y H1 H2. apply K in H1, H2. decompose [or] H1; decompose [or] H2; congruence.
  - left. exists (KI 0), (KI 1), 1%Z. split; [vm_compute; reflexivity|discriminate].
Qed.
(** with distance=, a graph all of whose edges have weight 0 (flagged iso-valued): ZeroDivisionError *)
Definition g_zero : graph := mkg_iso true 2 [(0, 1)] 0%Z.
Theorem C59_zero_refuted : exists G u, gwf G /\ node G u /\ (forall v w x, weight G v w = Some x -> (0 <= x)%Z) /\
  fst (nx_ego_graph nof pickl G u 1 true false true st0) = Raise EZeroDiv.
Proof.
  exists g_zero, (KI 0). split; [apply mkg_iso_wf|]. split; [vm_compute; auto|]. split; [|vm_compute; reflexivity].
  intros v w x H. assert (N := weight_nodes _ _ _ _ H). destruct N as [Nv Nw]. unfold node in Nv, Nw. vm_compute in Nv, Nw.
  destruct Nv as [<-|[<-|[]]], Nw as [<-|[<-|[]]]; vm_compute in H; try discriminate; injection H as <-; lia.
Qed.
(** with distance=, a graph without edges whose (empty) matrix the library flags as iso-valued: TypeError *)
Theorem C59_edgeless_refuted : exists G u, gwf G /\ node G u /\ (forall v w, weight G v w = None) /\
  fst (nx_ego_graph nof pickl G u 1 true false true st0) = Raise EType.
Proof.
  exists (mkg_iso true 2 [] 1%Z), (KI 0). split; [apply mkg_iso_wf|]. split; [vm_compute; auto|]. split; [|vm_compute; reflexivity].
  intros v w. destruct (weight (mkg_iso true 2 [] 1%Z) v w) as [x|] eqn:H; [|reflexivity]. exfalso. assert (N := weight_nodes _ _ _ _ H). destruct N as [Nv Nw]. unfold node in Nv, Nw. vm_compute in Nv, Nw.
  destruct Nv as [<-|[<-|[]]], Nw as [<-|[<-|[]]]; vm_compute in H; discriminate.
Qed.
(** and so it is for every such graph, node, radius and option, after every history *)
Theorem C59_iso_zero (G : graph) orc pick u r center undirected : gwf G -> g_iso G = true -> undirected && g_dir G = false -> node G u ->
  (forall v w x, weight G v w = Some x -> x = 0%Z) ->
  answers G (nx_ego_graph orc pick G u r center undirected true) (fun o =>
    ((exists v w, edge G v w) -> o = Raise EZeroDiv) /\ ((forall v w, ~ edge G v w) -> o = Raise EType)).
Proof.
  intros wf Hi Hd Nu Hz. apply node_kid in Nu as [src Hu].
  assert (HF : forall i j x, mget (g_A G) i j = Some x -> x = 0%Z /\ exists v w, edge G v w).
  { intros i j x Hx. destruct (F_lt G wf _ _ _ Hx) as [La Lb]. destruct (kid_key G wf i La) as [v Hv]. destruct (kid_key G wf j Lb) as [w Hw].
    assert (E : weight G v w = Some x) by (rewrite (weight_ids G v w i j Hv Hw); exact Hx). split; [apply (Hz v w x E)|]. exists v, w, x. exact E. }
  assert (Hn : den_bool G (KNeg SP) = false).
  { apply not_true_is_false. rewrite (neg_true_iff G wf). intros (a & b & x & Hx & L). apply HF in Hx as [Hx _]. lia. }
  assert (D : exists e, match isoz (den_iso G) with None => e = EType | Some z => z = 0%Z /\ e = EZeroDiv end /\
            ((exists v w, edge G v w) -> e = EZeroDiv) /\ ((forall v w, ~ edge G v w) -> e = EType)).
  { destruct (den_scal G (KElem RAny SP)) as [z|] eqn:E.
    - destruct (iso_elem_in G z E) as (a & b & Hab). destruct (HF _ _ _ Hab) as (-> & v & w & He). exists EZeroDiv. unfold den_iso. rewrite Hi, E. cbn [isoz].
      split; [auto|]. split; [auto|]. intros H. destruct (H v w He).
    - exists EType. unfold den_iso. rewrite Hi, E. cbn [isoz]. split; [reflexivity|]. split; [|auto]. intros (v & w & x & Hx). exfalso.
      unfold weight in Hx. destruct (kid G v) as [a|]; [|discriminate]. destruct (kid G w) as [b|]; [|discriminate].
      destruct (iso_den G wf ltac:(eauto) Hi) as (z & H & _). unfold den_iso in H. rewrite Hi, E in H. discriminate. }
  destruct D as (e & De & D). eapply answers_conseq with (R := eq (Raise e)); [|intros o <-; split; intros H; f_equal; apply D; exact H].
  unfold nx_ego_graph. rewrite Hd. eapply answers_bind_e; [|reflexivity].
  unfold ego_ids. eapply answers_bind_e; [|reflexivity]. unfold single_source_bf, bf_lengths. rewrite Hu. cbn [idx].
  change (bind (ret src) ?f) with (f src). cbv beta. change (bind (ret None) ?f) with (f (None : option nat)). cbv beta.
  eapply answers_bind_GV; [apply (is_iso_ok G true)|]. simpl den_bool. rewrite Hi. eapply answers_bind_e; [|reflexivity].
  unfold bf_iso. eapply answers_bind_GV; [apply (has_negative_edgesp_ok G wf true eq_refl)|].
  eapply answers_bind_v; [eapply answers_GO; [apply (get_iso_value_ok G wf true)|]; intros o [->|[_ Hf]]; [reflexivity|congruence]|].
  rewrite Hn. cbn [negb]. eapply answers_bind_e; [|reflexivity]. destruct (isoz (den_iso G)) as [z|].
  - destruct De as [-> ->]. cbn [Z.eqb]. apply answers_raise. reflexivity.
  - rewrite De. apply answers_raise. reflexivity.
Qed.
Example C59_iso_zero_ex : gwf g_zero /\ g_iso g_zero = true /\ node g_zero (KI 1) /\ (forall v w x, weight g_zero v w = Some x -> x = 0%Z) /\ (exists v w, edge g_zero v w) /\
  (let G := mkg_iso false 2 [] 1%Z in gwf G /\ g_iso G = true /\ node G (KI 1) /\ forall v w, ~ edge G v w).
Proof.
  split; [apply mkg_iso_wf|]. split; [reflexivity|]. split; [vm_compute; auto|]. split.
  - intros v w x H. assert (N := weight_nodes _ _ _ _ H). destruct N as [Nv Nw]. unfold node in Nv, Nw. vm_compute in Nv, Nw.
    destruct Nv as [<-|[<-|[]]], Nw as [<-|[<-|[]]]; vm_compute in H; try discriminate; injection H as <-; reflexivity.
  - split; [exists (KI 0), (KI 1), 0%Z; vm_compute; reflexivity|]. cbv zeta. split; [apply mkg_iso_wf|]. split; [reflexivity|]. split; [vm_compute; auto|].
    intros v w [x H]. assert (N := weight_nodes _ _ _ _ H). destruct N as [Nv Nw]. unfold node in Nv, Nw. vm_compute in Nv, Nw.
    destruct Nv as [<-|[<-|[]]], Nw as [<-|[<-|[]]]; vm_compute in H; discriminate.
Qed.
Print Assumptions C59_ego_graph.
Print Assumptions C59_ego_weighted.
Print Assumptions C59_zero_refuted.
Print Assumptions C59_edgeless_refuted.
Print Assumptions C59_iso_zero.
