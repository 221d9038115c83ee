(** * Bidirectional length, layers, parents, lowest common ancestor *)
From Verif Require Import Base BaseProofs Model_Graph Model_Cache Spec_Cache CacheMath CacheProofs CacheProofs2
  Model_Keys Spec KeyProofs Model_Bfs Bfs BfsProofs BfsProofs2 Spec_Run RunProofs.

Lemma walk_split {X} (E : X -> X -> Prop) x z a b : walk E x (a + b) z -> exists y, walk E x a y /\ walk E y b z.
Proof.
  revert z. induction b as [|b IH]; intros z H.
  - rewrite Nat.add_0_r in H. exists z. split; [assumption|constructor].
  - rewrite Nat.add_succ_r in H. inversion H as [|? y ? Hw HE]; subst. apply IH in Hw as (y' & H1 & H2).
    exists y'. split; [assumption|]. econstructor; eassumption.
Qed.
Lemma dist_unique {X} (E : X -> X -> Prop) x y d d' : dist E x y d -> dist E x y d' -> d = d'.
Proof. intros [H1 H2] [H3 H4]. apply H2 in H3. apply H4 in H1. lia. Qed.
(** a point on a shortest walk *)
Lemma dist_mid {X} (E : X -> X -> Prop) x z a b : dist E x z (a + b) -> exists y, dist E x y a /\ dist (rev E) z y b.
Proof.
  intros [Hw Hm]. destruct (walk_split E x z a b Hw) as (y & H1 & H2). exists y. split.
  - split; [assumption|]. intros d' Hd'. specialize (Hm (d' + b) (walk_trans _ _ _ _ _ _ Hd' H2)). lia.
  - split; [apply walk_rev; assumption|]. intros d' Hd'. apply walk_rev in Hd'. 
    assert (Hd2 : walk E y d' z) by (eapply walk_iff; [|exact Hd']; reflexivity).
    specialize (Hm (a + d') (walk_trans _ _ _ _ _ _ H1 Hd2)). lia.
Qed.
Lemma dist_join {X} (E : X -> X -> Prop) x y z a b : dist E x y a -> dist (rev E) z y b -> walk E x (a + b) z.
Proof.
  intros [H1 _] [H2 _]. apply walk_rev in H2.
  eapply walk_trans; [exact H1|]. eapply walk_iff; [|exact H2]. reflexivity.
Qed.
Lemma reach_dist {X} (E : X -> X -> Prop) (dec : forall d y x, walk E x d y \/ ~ walk E x d y) x y : reach E x y -> exists d, dist E x y d.
Proof.
  intros [d Hd]. induction d as [d IH] using lt_wf_ind.
  assert (H : (exists d', d' < d /\ walk E x d' y) \/ forall d', d' < d -> ~ walk E x d' y).
  { clear IH Hd. induction d as [|d [(d' & H1 & H2)|H]].
    - right. intros d' Hd'. lia.
    - left. exists d'. split; [lia|assumption].
    - destruct (dec d y x) as [Hw|Hw]; [left; exists d; split; [lia|assumption]|].
      right. intros d' Hd'. destruct (Nat.eq_dec d' d) as [->|]; [assumption|]. apply H. lia. }
  destruct H as [(d' & H1 & H2)|H].
  - eapply IH; eassumption.
  - exists d. split; [assumption|]. intros d' Hd'. destruct (Nat.le_gt_cases d d'); [assumption|]. destruct (H d'); assumption.
Qed.

Section L.
Variable A : mat Z.
Notation n := (nrows A).
Hypothesis Aw : mwf A.
Hypothesis Asq : ncols A = n.
Notation E := (EA A).
Notation Et := (fun a b => EA A b a).
Notation fresh_s := (fun src => fresh n E (fun j => existsb (Nat.eqb j) [src])).
Notation fresh_d := (fun dst => fresh n Et (fun j => existsb (Nat.eqb j) [dst])).

Lemma E_lt' a b : E a b = true -> a < n /\ b < n. Proof. apply EA_lt; assumption. Qed.
Lemma Et_lt a b : Et a b = true -> a < n /\ b < n. Proof. intros H. apply E_lt' in H. tauto. Qed.
Lemma sb1 i : i < n -> forall a, existsb (Nat.eqb a) [i] = true -> a < n.
Proof. intros H a Ha. simpl in Ha. rewrite orb_false_r in Ha. apply Nat.eqb_eq in Ha. congruence. Qed.
Lemma fs_dist i d j : i < n -> fresh_s i d j = true <-> dist (Er E) i j d.
Proof.
  intros Hi. rewrite fresh_dist by (exact E_lt' || apply sb1; assumption). rewrite <- dist_from_single.
  apply dist_from_ext; [reflexivity|]. intros a. simpl. rewrite orb_false_r. apply Nat.eqb_eq.
Qed.
Lemma fd_dist i d j : i < n -> fresh_d i d j = true <-> dist (rev (Er E)) i j d.
Proof.
  intros Hi. rewrite fresh_dist by (exact Et_lt || apply sb1; assumption). rewrite <- dist_from_single.
  apply dist_from_ext; [intros; reflexivity|]. intros a. simpl. rewrite orb_false_r. apply Nat.eqb_eq.
Qed.
Lemma back_step (v q : vec bool) i d : i < n -> vsize q = n ->
  (forall j, has (vget v j) = seen n Et (fun j => existsb (Nat.eqb j) [i]) (S d) j) ->
  (forall j, has (vget q j) = fresh_d i d j) ->
  forall j, has (vget (vwrite (mNS v) true q (mxv op_any op_pairb A q)) j) = fresh_d i (S d) j.
Proof.
  intros Hi Hs Hv Hq j. rewrite vget_vwrite, Hs. rewrite fresh_step by (exact Et_lt || apply sb1; assumption).
  unfold mNS. rewrite Hv. destruct (Nat.ltb_spec j n) as [Hj|Hj].
  - destruct (seen _ _ _ _ j); [reflexivity|]. cbn [negb andb]. rewrite has_mxv by assumption.
    apply existsb_ext_in. intros k _. rewrite Hq. reflexivity.
  - symmetry. apply andb_false_iff. right. apply not_true_is_false. intros H.
    apply existsb_seq in H as (k & _ & H). apply andb_true_iff in H as [_ H]. apply E_lt' in H. lia.
Qed.
Lemma dot_true (u v : vec bool) : vsize u = n -> 
  has (vdot op_any op_pairb u v) = true <-> exists x, has (vget u x) = true /\ has (vget v x) = true.
Proof.
  intros Hu. unfold vdot. rewrite has_ored_true, Hu. split.
  - intros (x & _ & H). rewrite has_oboth in H. apply andb_true_iff in H. eauto.
  - intros (x & H1 & H2). exists x. split; [rewrite <- Hu; eapply has_vget_lt; eassumption|]. rewrite has_oboth, H1, H2. reflexivity.
Qed.
Lemma meet_dist src dst a b : src < n -> dst < n ->
  (exists x, fresh_s src a x = true /\ fresh_d dst b x = true) ->
  (forall d, d < a + b -> ~ dist (Er E) src dst d) -> dist (Er E) src dst (a + b).
Proof.
  intros Hs Hd (x & H1 & H2) Hno. apply fs_dist in H1; [|assumption]. apply fd_dist in H2; [|assumption].
  pose proof (dist_join _ _ _ _ _ _ H1 H2) as Hw. split; [assumption|].
  intros d' Hd'. destruct (Nat.le_gt_cases (a + b) d') as [|Hlt]; [assumption|]. exfalso.
  assert (Hb : wb n E (fun j => existsb (Nat.eqb j) [src]) d' dst = true).
  { apply wb_walk; [exact E_lt'|apply sb1; assumption|]. exists src. split; [simpl; rewrite Nat.eqb_refl; reflexivity|assumption]. }
  apply wb_fresh in Hb as (d2 & Hd2 & Hf). apply (fs_dist src) in Hf; [|assumption]. apply (Hno d2); [lia|assumption].
Qed.
Lemma no_meet src dst a b : src < n -> dst < n ->
  ~ (exists x, fresh_s src a x = true /\ fresh_d dst b x = true) -> ~ dist (Er E) src dst (a + b).
Proof.
  intros Hs Hd Hno H. apply dist_mid in H as (y & H1 & H2). apply Hno. exists y.
  split; [apply fs_dist; assumption|apply fd_dist; assumption].
Qed.
Definition spl_spec (src dst : nat) (o : outcome Z) : Prop :=
  (exists d, o = Val (Z.of_nat d) /\ dist (Er E) src dst d) \/ (o = Raise ENoPath /\ forall d, ~ dist (Er E) src dst d).
Lemma empty_no (src dst t : nat) : src < n -> (forall j, fresh_s src t j = false) ->
  (forall d, d < t -> ~ dist (Er E) src dst d) -> forall d, ~ dist (Er E) src dst d.
Proof.
  intros Hs He Hno d H. destruct (Nat.lt_ge_cases d t) as [Hlt|Hge]; [eapply Hno; eassumption|].
  apply fs_dist in H; [|assumption].
  rewrite (fresh_stop n E _ E_lt' (sb1 src Hs) t He d Hge) in H. discriminate.
Qed.
Lemma empty_no_d (src dst t : nat) : dst < n -> (forall j, fresh_d dst t j = false) ->
  (forall d, d < t -> ~ dist (Er E) src dst d) -> forall d, ~ dist (Er E) src dst d.
Proof.
  intros Hs He Hno d H. destruct (Nat.lt_ge_cases d t) as [Hlt|Hge]; [eapply Hno; eassumption|].
  replace d with ((d - t) + t) in H by lia. apply dist_mid in H as (y & _ & H). apply fd_dist in H; [|assumption].
  rewrite He in H. discriminate.
Qed.
Lemma bidir_loop_ok src dst : src < n -> dst < n -> forall k t q_src seen_src q_dst seen_dst,
  vsize q_src = n -> vsize seen_src = n -> vsize q_dst = n -> vsize seen_dst = n ->
  (forall j, has (vget q_src j) = fresh_s src t j) ->
  (forall j, has (vget seen_src j) = seen n E (fun j => existsb (Nat.eqb j) [src]) (S t) j) ->
  (forall j, has (vget q_dst j) = fresh_d dst t j) ->
  (forall j, has (vget seen_dst j) = seen n Et (fun j => existsb (Nat.eqb j) [dst]) t j) ->
  (forall d, d < S (2 * t) -> ~ dist (Er E) src dst d) ->
  n <= 2 * t + 2 * k ->
  spl_spec src dst (bidir_loop A k (Z.of_nat (2 * t + 1)) q_src seen_src q_dst seen_dst).
Proof.
  intros Hsrc Hdst. induction k as [|k IH]; intros t qs ss qd sd S1 S2 S3 S4 H1 H2 H3 H4 Hno Hk.
  - cbn [bidir_loop]. right. split; [reflexivity|]. intros d H.
    assert (d < n) by (eapply (fresh_bound n E); [exact E_lt'|exact (sb1 src Hsrc)|apply (fs_dist src d dst Hsrc); exact H]).
    apply (Hno d); [lia|assumption].
  - cbn [bidir_loop]. set (qs' := bfs_step A ss qs).
    assert (S1' : vsize qs' = n) by (unfold qs'; rewrite vsize_bfs_step; assumption).
    assert (H1' : forall j, has (vget qs' j) = fresh_s src (S t) j).
    { unfold qs'. apply step_fresh; try assumption. apply sb1. assumption. }
    destruct (nvals qs' =? 0) eqn:E0.
    { right. split; [reflexivity|]. apply (empty_no src dst (S t) Hsrc).
      - intros j. rewrite <- H1'. apply has_false. apply Nat.eqb_eq in E0. apply (proj1 (nvals_zero qs') E0).
      - intros d Hd. apply Hno. lia. }
    destruct (has (vdot op_any op_pairb qs' qd)) eqn:Ed.
    { left. exists (2 * t + 1). split; [reflexivity|]. apply (dot_true qs' qd S1') in Ed as (x & X1 & X2).
      rewrite H1' in X1. rewrite H3 in X2. replace (2 * t + 1) with (S t + t) by lia. apply meet_dist; [assumption|assumption|eauto|].
      intros d Hd. apply Hno. lia. }
    assert (Hno1 : forall d, d < S (S (2 * t)) -> ~ dist (Er E) src dst d).
    { intros d Hd. destruct (Nat.eq_dec d (S t + t)) as [->|]; [|apply Hno; lia].
      apply no_meet; [assumption|assumption|]. intros (x & X1 & X2). assert (has (vdot op_any op_pairb qs' qd) = true); [|congruence].
      apply dot_true; [assumption|]. exists x. rewrite H1', H3. auto. }
    set (sd' := vassign (mS qd) true sd).
    assert (S4' : vsize sd' = n) by (unfold sd'; rewrite vsize_vassign; assumption).
    assert (H4' : forall j, has (vget sd' j) = seen n Et (fun j => existsb (Nat.eqb j) [dst]) (S t) j).
    { intros j. unfold sd'. rewrite vget_vassign, S4, seen_S_fresh. unfold mS. rewrite H3.
      destruct (Nat.ltb_spec j n) as [Hj|Hj].
      - destruct (fresh n Et _ t j); [rewrite orb_true_r; reflexivity|rewrite orb_false_r; apply H4].
      - simpl. symmetry. apply orb_false_iff. rewrite <- H4. rewrite <- H3. rewrite (vget_out sd), (vget_out qd) by lia. auto. }
    set (qd' := vwrite (mNS sd') true qd (mxv op_any op_pairb A qd)).
    assert (S3' : vsize qd' = n) by (unfold qd'; rewrite vsize_vwrite; assumption).
    assert (H3' : forall j, has (vget qd' j) = fresh_d dst (S t) j).
    { unfold qd'. apply back_step; assumption. }
    destruct (nvals qd' =? 0) eqn:E1.
    { right. split; [reflexivity|]. apply (empty_no_d src dst (S t) Hdst).
      - intros j. rewrite <- H3'. apply has_false. apply Nat.eqb_eq in E1. apply (proj1 (nvals_zero qd') E1).
      - intros d Hd. apply Hno1. lia. }
    destruct (has (vdot op_any op_pairb qs' qd')) eqn:Ed1.
    { left. exists (S t + S t). split; [f_equal; lia|]. apply (dot_true qs' qd' S1') in Ed1 as (x & X1 & X2).
      rewrite H1' in X1. rewrite H3' in X2. apply meet_dist; [assumption|assumption|eauto|].
      intros d Hd. apply Hno1. lia. }
    replace (Z.of_nat (2 * t + 1) + 2)%Z with (Z.of_nat (2 * S t + 1)) by lia.
    apply IH; try assumption; try lia.
    + rewrite vsize_vassign. assumption.
    + apply assign_seen; try assumption. apply sb1. assumption.
    + intros d Hd. destruct (Nat.eq_dec d (S t + S t)) as [->|]; [|apply Hno1; lia].
      apply no_meet; [assumption|assumption|]. intros (x & X1 & X2). assert (has (vdot op_any op_pairb qs' qd') = true); [|congruence].
      apply dot_true; [assumption|]. exists x. rewrite H1', H3'. auto.
Qed.

(** layers *)
Variable S0 : nat -> bool.
Hypothesis Sb : forall a, S0 a = true -> a < n.
Notation fresh := (fresh n E S0).
Notation seen := (seen n E S0).
Lemma layers_loop_ok k : forall d (v q : vec bool), vsize v = n -> vsize q = n ->
  (forall j, has (vget v j) = seen d j) -> (forall j, has (vget q j) = fresh d j) -> n <= S (d + k) ->
  let L := layers_loop A k v q in
  (forall e, e < List.length L -> vsize (nth e L []) = n /\ (exists j, fresh (S d + e) j = true) /\ forall j, has (vget (nth e L []) j) = fresh (S d + e) j) /\
  (forall e j, S d + List.length L <= e -> fresh e j = false).
Proof.
  induction k as [|k IH]; intros d v q Sv Sq Hv Hq Hn; cbn [layers_loop].
  - split; [simpl; intros; lia|]. intros e j He. simpl in He. apply fresh_n; [exact E_lt'|exact Sb|lia].
  - set (v' := vassign (mS q) true v).
    assert (Sv' : vsize v' = n) by (unfold v'; rewrite vsize_vassign; assumption).
    assert (Hv' : forall j, has (vget v' j) = seen (S d) j) by (unfold v'; apply assign_seen; assumption).
    set (q' := bfs_step A v' q).
    assert (Sq' : vsize q' = n) by (unfold q'; rewrite vsize_bfs_step; assumption).
    assert (Hq' : forall j, has (vget q' j) = fresh (S d) j) by (unfold q'; apply step_fresh; assumption).
    destruct (nvals q' =? 0) eqn:E0.
    + split; [simpl; intros; lia|]. intros e j He. simpl in He. apply (fresh_stop n E S0 E_lt' Sb (S d)); [|lia].
      intros j'. rewrite <- Hq'. apply has_false. apply Nat.eqb_eq in E0. apply (proj1 (nvals_zero q') E0).
    + destruct (IH (S d) v' q' Sv' Sq' Hv' Hq') as [I1 I2]; [lia|]. split.
      * intros [|e] He; simpl nth.
        -- split; [assumption|]. rewrite Nat.add_0_r. split; [|assumption].
           assert (0 < nvals q') by (apply Nat.eqb_neq in E0; lia). apply nvals_pos in H as (j & x & Hj). exists j. rewrite <- Hq', Hj. reflexivity.
        -- simpl in He. destruct (I1 e) as (J1 & J2 & J3); [lia|]. replace (S d + S e) with (S (S d) + e) by lia. auto.
      * intros e j He. apply I2. simpl in He. lia.
Qed.
Lemma dad_loop_ok k : forall d (v q : vec bool), vsize v = n -> vsize q = n ->
  (forall j, has (vget v j) = seen d j) -> (forall j, has (vget q j) = fresh d j) ->
  vsize (dad_loop A k v q) = n /\ forall j, has (vget (dad_loop A k v q) j) = fresh (d + k) j.
Proof.
  induction k as [|k IH]; intros d v q Sv Sq Hv Hq; cbn [dad_loop].
  - rewrite Nat.add_0_r. auto.
  - set (v' := vassign (mS q) true v).
    assert (Sv' : vsize v' = n) by (unfold v'; rewrite vsize_vassign; assumption).
    assert (Hv' : forall j, has (vget v' j) = seen (S d) j) by (unfold v'; apply assign_seen; assumption).
    set (q' := bfs_step A v' q).
    assert (Sq' : vsize q' = n) by (unfold q'; rewrite vsize_bfs_step; assumption).
    assert (Hq' : forall j, has (vget q' j) = fresh (S d) j) by (unfold q'; apply step_fresh; assumption).
    destruct (nvals q' =? 0) eqn:E0.
    + split; [assumption|]. intros j. rewrite Hq'.
      assert (Z0 : forall j, fresh (S d) j = false).
      { intros j'. rewrite <- Hq'. apply has_false. apply Nat.eqb_eq in E0. apply (proj1 (nvals_zero q') E0). }
      rewrite Z0. symmetry. apply (fresh_stop n E S0 E_lt' Sb (S d)); [assumption|lia].
    + replace (d + S k) with (S d + k) by lia. apply IH; assumption.
Qed.
(** parents *)
Record pinv (d : nat) (v : vec nat) : Prop := {
  pi_size : vsize v = n;
  pi_seen : forall j, has (vget v j) = seen (S d) j;
  pi_par : forall j p, vget v j = Some p -> (p = j /\ S0 j = true) \/ exists e, e <= d /\ fresh (S e) j = true /\ fresh e p = true /\ E p j = true }.
Lemma ored_min_nat m f x : ored Nat.min m f = Some x -> exists k, k < m /\ f k = Some x.
Proof.
  revert x. induction m as [|m IH]; intros x; simpl; [discriminate|].
  destruct (ored Nat.min m f) as [y|] eqn:Ey; destruct (f m) as [z|] eqn:Ez; simpl; intros H; try discriminate.
  - injection H as <-. destruct (Nat.min_dec y z) as [E0|E0]; rewrite E0.
    + destruct (IH y eq_refl) as (k & Hk & Hf). exists k. split; [lia|assumption].
    + exists m. split; [lia|assumption].
  - injection H as <-. destruct (IH y eq_refl) as (k & Hk & Hf). exists k. split; [lia|assumption].
  - injection H as <-. exists m. split; [lia|assumption].
Qed.
Lemma bfs_parent_loop_ok dst k : forall d (v q : vec nat), pinv d v -> vsize q = n ->
  (forall j, vget q j = if fresh d j then Some j else None) ->
  let r := bfs_parent_loop A dst k v q in
  exists m, m <= k /\ pinv (d + m) r /\
    (dst = None -> forall j, has (vget r j) = seen (S d + k) j) /\
    (forall t, dst = Some t -> has (vget r t) = seen (S d + k) t).
Proof.
  induction k as [|k IH]; intros d v q Hp Sq Hq; cbn [bfs_parent_loop].
  - exists 0. split; [lia|]. rewrite !Nat.add_0_r. split; [assumption|]. split; intros; apply Hp.
  - set (q' := vwrite (mNS v) true q (vxm Nat.min op_first q A)).
    assert (Sq' : vsize q' = n) by (unfold q'; rewrite vsize_vwrite; assumption).
    assert (Hf : forall j, has (vget q j) = fresh d j) by (intros j; rewrite Hq; destruct (fresh d j); reflexivity).
    assert (Hq' : forall j, has (vget q' j) = fresh (S d) j).
    { intros j. unfold q'. rewrite vget_vwrite, Sq. rewrite fresh_step by (exact E_lt' || exact Sb). unfold mNS. rewrite (pi_seen d v Hp).
      destruct (Nat.ltb_spec j n) as [Hj|Hj].
      - destruct (seen (S d) j); [reflexivity|]. cbn [negb andb]. rewrite has_vxm by assumption.
        apply existsb_ext_in. intros x _. rewrite Hf. reflexivity.
      - symmetry. apply andb_false_iff. right. apply not_true_is_false. intros H.
        apply existsb_seq in H as (x & _ & H). apply andb_true_iff in H as [_ H]. apply E_lt' in H. lia. }
    assert (Hpar : forall j p, vget q' j = Some p -> fresh d p = true /\ E p j = true).
    { intros j p. unfold q'. rewrite vget_vwrite, Sq. destruct (j <? n); [|discriminate].
      destruct (mNS v j); [|discriminate]. rewrite vget_vxm by assumption. intros H. apply ored_min_nat in H as (x & Hx & H).
      rewrite Hq in H. destruct (fresh d x) eqn:Ef; [|discriminate]. unfold EA.
      destruct (mget A x j) eqn:Em; [|discriminate]. simpl in H. injection H as <-. unfold op_first. rewrite Em. auto. }
    destruct (nvals q' =? 0) eqn:E0.
    + assert (Z0 : forall j, fresh (S d) j = false).
      { intros j'. rewrite <- Hq'. apply has_false. apply Nat.eqb_eq in E0. apply (proj1 (nvals_zero q') E0). }
      assert (Es : forall j, seen (S d + S k) j = seen (S d) j) by (apply seen_stop; [exact E_lt'|exact Sb|exact Z0|lia]).
      exists 0. split; [lia|]. rewrite Nat.add_0_r. split; [assumption|]. split; intros; rewrite Es; apply Hp.
    + set (v' := vwrite (mS q') false v q').
      assert (Hp' : pinv (S d) v').
      { destruct Hp as [P1 P2 P3]. constructor.
        - unfold v'. rewrite vsize_vwrite. assumption.
        - intros j. unfold v'. rewrite vget_vwrite, P1, (seen_S_fresh _ _ _ (S d)), <- Hq'. unfold mS.
          destruct (Nat.ltb_spec j n) as [Hj|Hj].
          + destruct (has (vget q' j)) eqn:Ej; [rewrite orb_true_r; assumption|]. rewrite orb_false_r. apply P2.
          + rewrite <- P2, (vget_out v), (vget_out q') by lia. reflexivity.
        - intros j p. unfold v'. rewrite vget_vwrite, P1. destruct (j <? n); [|discriminate]. unfold mS.
          destruct (has (vget q' j)) eqn:Ej; intros H.
          + right. exists d. split; [lia|]. rewrite <- Hq'. split; [assumption|]. apply Hpar. assumption.
          + destruct (P3 j p H) as [?|(e & He & H')]; [auto|]. right. exists e. split; [lia|assumption]. }
      assert (HIH : exists m, m <= k /\ pinv (S d + m) (bfs_parent_loop A dst k v' (vbuild (vsize q') (fun i => omap (fun _ => i) (vget q' i)))) /\
         (dst = None -> forall j, has (vget (bfs_parent_loop A dst k v' (vbuild (vsize q') (fun i => omap (fun _ => i) (vget q' i)))) j) = seen (S (S d) + k) j) /\
         (forall t, dst = Some t -> has (vget (bfs_parent_loop A dst k v' (vbuild (vsize q') (fun i => omap (fun _ => i) (vget q' i)))) t) = seen (S (S d) + k) t)).
      { apply IH; [assumption|rewrite vsize_vbuild; assumption|]. intros j. rewrite vget_vbuild, Sq', <- Hq'.
        destruct (Nat.ltb_spec j n) as [Hj|Hj].
        - destruct (vget q' j); reflexivity.
        - rewrite (vget_out q') by lia. reflexivity. }
      assert (HIH' : exists m, m <= S k /\ pinv (d + m) (bfs_parent_loop A dst k v' (vbuild (vsize q') (fun i => omap (fun _ => i) (vget q' i)))) /\
         (dst = None -> forall j, has (vget (bfs_parent_loop A dst k v' (vbuild (vsize q') (fun i => omap (fun _ => i) (vget q' i)))) j) = seen (S d + S k) j) /\
         (forall t, dst = Some t -> has (vget (bfs_parent_loop A dst k v' (vbuild (vsize q') (fun i => omap (fun _ => i) (vget q' i)))) t) = seen (S d + S k) t)).
      { destruct HIH as (m & M1 & M2 & M3 & M4). exists (S m). split; [lia|]. replace (d + S m) with (S d + m) by lia.
        replace (S d + S k) with (S (S d) + k) by lia. auto. }
      unfold in_q. destruct dst as [t|]; [|exact HIH'].
      destruct (has (vget q' t)) eqn:Et'; [|exact HIH'].
      exists 1. split; [lia|]. rewrite Nat.add_1_r. split; [assumption|]. split; [discriminate|].
      intros t' [= <-]. rewrite (pi_seen _ _ Hp'), seen_S_fresh, <- (Hq' t), Et', orb_true_r. symmetry.
      apply seen_fresh. exists (S d). split; [lia|]. rewrite <- Hq'. assumption.
Qed.
End L.
