(** * C84: coefficients lie between 0 and 1 *)
From Verif Require Import Base BaseProofs Model_Graph Model_Cache Spec_Cache Spec_Run Spec_Session Spec_Laws Model_Keys Spec Spec_Count Spec_Cluster
  Model_Bfs Model_Measures Model_Cluster KeyProofs CountProofs OperatorProofs LawProofs RankMath ClusterMath ClusterProofs Concrete
  Props_Bfs Props_Operators Props_Cuts Props_Measures Props_Cluster Props_Square Props_Counting Props_Session.
From Coq Require Import QArith Qcanon Permutation.
Open Scope nat_scope.

Definition in01 (q : Qc) : Prop := (0 <= q /\ q <= 1)%Qc.
Definition qin01 (q : Q) : Prop := (0 <= q /\ q <= 1)%Q.
(** every value an answer holds *)
Definition values (r : cres Qc (nodemap Qc)) (q : Qc) : Prop :=
  match r with REmpty => False | ROne x => q = x | RMap m => exists k, nm_getitem m k = Val q end.

Lemma q_frac a b : (0 <= a <= b)%Z -> qin01 (inject_Z a / inject_Z b)%Q.
Proof.
  intros [A B]. destruct (Z.eq_dec b 0) as [->|Ne].
  - assert (a = 0%Z) by lia. subst. split; vm_compute; discriminate.
  - assert (Pb : (0 < inject_Z b)%Q) by (change 0%Q with (inject_Z 0); rewrite <- Zlt_Qlt; lia). split.
    + apply Qle_shift_div_l; [exact Pb|]. rewrite Qmult_0_l. change 0%Q with (inject_Z 0). rewrite <- Zle_Qle. exact A.
    + apply Qle_shift_div_r; [exact Pb|]. rewrite Qmult_1_l, <- Zle_Qle. exact B.
Qed.
Lemma qin01_eq x y : (x == y)%Q -> qin01 y -> qin01 x.
Proof. intros E [A B]. split; rewrite E; assumption. Qed.
Lemma Qc_mul_mono a b c d : (0 <= a -> a <= b -> 0 <= c -> c <= d -> a * c <= b * d)%Qc.
Proof.
  intros A B C D. apply Qcle_trans with (a * d)%Qc; [apply Qc_mul_le; assumption|]. rewrite (Qcmult_comm a d), (Qcmult_comm b d).
  apply Qc_mul_le; [|assumption]. apply Qcle_trans with c; assumption.
Qed.
Lemma qc_div_bound x (a b : Z) : (0 <= x)%Qc -> (x <= qz a)%Qc -> (0 <= a <= b)%Z -> in01 (x / qz b)%Qc.
Proof.
  intros P L R. assert (A := qc_frac a b R). destruct A as [A1 A2]. split.
  - apply Qc_div_nonneg; [assumption|]. apply qz_nonneg. lia.
  - apply Qcle_trans with (qz a / qz b)%Qc; [|assumption]. unfold Qcdiv. rewrite (Qcmult_comm x), (Qcmult_comm (qz a)). apply Qc_mul_le; [|assumption].
    apply Qc_inv_nonneg, qz_nonneg. lia.
Qed.

Section R.
Variable G : graph.
Hypothesis wf : gwf G.
Notation b01 b := (if b then 1%Z else 0%Z).

(** edge contributions between 0 and 1, 0 off the edges *)
Definition small (c : nkey -> nkey -> Qc) : Prop := forall u v, (0 <= c u v)%Qc /\ (c u v <= qz (b01 (nbr G u v)))%Qc.
Lemma cc_num c v : small c ->
  (0 <= qtotal (fun p => c v (fst p) * c v (snd p) * c (fst p) (snd p)) (pairs (gnodes G)))%Qc /\
  (qtotal (fun p => c v (fst p) * c v (snd p) * c (fst p) (snd p)) (pairs (gnodes G)) <= qz (Z.of_nat (closed_pairs G v)))%Qc.
Proof.
  intros S. split.
  - apply qtotal_nonneg. intros p _. repeat apply Qc_mul_nonneg; apply S.
  - unfold closed_pairs. rewrite total_count, <- qtotal_qz. apply qtotal_le. intros [x y] _. cbn [fst snd].
    replace (qz (b01 (nbr G v x && nbr G v y && nbr G x y))) with (qz (b01 (nbr G v x)) * qz (b01 (nbr G v y)) * qz (b01 (nbr G x y)))%Qc
      by (destruct (nbr G v x), (nbr G v y), (nbr G x y); apply Qc_is_canon; vm_compute; reflexivity).
    assert (S1 := S v x). assert (S2 := S v y). assert (S3 := S x y). repeat (apply Qc_mul_mono; try tauto); try (apply Qc_mul_nonneg; tauto).
Qed.
Lemma cc_range c v : small c -> in01 (cc G c v).
Proof.
  intros S. unfold cc. destruct (Nat.leb_spec (deg0 G v) 1) as [_|L]; [split; vm_compute; discriminate|].
  destruct (cc_num c v S) as [A B]. eapply qc_div_bound; [exact A|exact B|]. split; [lia|]. exact (closed_le G wf v).
Qed.
Lemma ccd_num c v : small c ->
  (0 <= qtotal (fun p => (c v (fst p) + c (fst p) v) * (c v (snd p) + c (snd p) v) * (c (fst p) (snd p) + c (snd p) (fst p))) (pairs (gnodes G)))%Qc /\
  (qtotal (fun p => (c v (fst p) + c (fst p) v) * (c v (snd p) + c (snd p) v) * (c (fst p) (snd p) + c (snd p) (fst p))) (pairs (gnodes G))
   <= qz (2 * (Z.of_nat (deg0 G v + indeg0 G v) * (Z.of_nat (deg0 G v + indeg0 G v) - 1) - 2 * Z.of_nat (recip0 G v))))%Qc.
Proof.
  intros S. assert (S2 : forall a b, (0 <= c a b + c b a)%Qc /\ (c a b + c b a <= qz (b01 (nbr G a b) + b01 (nbr G b a)))%Qc).
  { intros a b. destruct (S a b) as [A B], (S b a) as [A' B']. split.
    - replace 0%Qc with (0 + 0)%Qc by (apply Qc_is_canon; reflexivity). apply Qcplus_le_compat; assumption.
    - rewrite zq_add. apply Qcplus_le_compat; assumption. }
  split.
  - apply qtotal_nonneg. intros p _. repeat apply Qc_mul_nonneg; apply S2.
  - set (a := fun x => (b01 (nbr G v x) + b01 (nbr G x v))%Z). assert (ND := gnodes_nodup G wf).
    assert (P : forall x, (0 <= a x)%Z) by (intros x; unfold a; destruct (nbr G v x), (nbr G x v); lia).
    assert (E : (2 * (Z.of_nat (deg0 G v + indeg0 G v) * (Z.of_nat (deg0 G v + indeg0 G v) - 1) - 2 * Z.of_nat (recip0 G v)))%Z =
      total (fun p => if nkey_eqb (fst p) (snd p) then 0 else 2 * (a (fst p) * a (snd p)))%Z (pairs (gnodes G))).
    { unfold pairs. rewrite total_prod. cbn [fst snd].
      rewrite (total_ext _ (fun x => 2 * total (fun y => if nkey_eqb x y then 0 else a x * a y)%Z (gnodes G))%Z).
      - rewrite total_scale, (offdiag a _ ND). f_equal.
        assert (E1 : total a (gnodes G) = Z.of_nat (deg0 G v + indeg0 G v)) by (unfold deg0, indeg0; rewrite Nat2Z.inj_add, !total_count, <- total_add; reflexivity).
        assert (E2 : total (fun x => a x * a x)%Z (gnodes G) = (Z.of_nat (deg0 G v + indeg0 G v) + 2 * Z.of_nat (recip0 G v))%Z).
        { rewrite <- E1. unfold recip0. rewrite total_count, <- total_scale, <- total_add. apply total_ext. intros x _. unfold a. destruct (nbr G v x), (nbr G x v); reflexivity. }
        rewrite E1, E2. lia.
      - intros x _. rewrite <- total_scale. apply total_ext. intros y _. destruct (nkey_eqb x y); lia. }
    rewrite E, <- qtotal_qz. apply qtotal_le. intros [x y] _. cbn [fst snd].
    apply Qcle_trans with (qz (a x) * qz (a y) * qz (if nkey_eqb x y then 0 else 2))%Qc.
    + apply Qc_mul_mono; [apply Qc_mul_nonneg; apply S2| |apply S2|].
      * apply Qc_mul_mono; apply S2.
      * eapply Qcle_trans; [apply S2|]. destruct (nkey_eqb x y) eqn:Q.
        -- apply nkey_eqb_eq in Q. subst. rewrite nbr_irr. apply Qcle_refl.
        -- destruct (nbr G x y), (nbr G y x); vm_compute; discriminate.
    + rewrite <- !zq_mul. destruct (nkey_eqb x y); [rewrite Z.mul_0_r; apply Qcle_refl|]. rewrite (Z.mul_comm _ 2). apply Qcle_refl.
Qed.
Lemma ccd_range c v : small c -> in01 (ccd G c v).
Proof.
  intros S. unfold ccd. destruct (ccd_num c v S) as [A B]. eapply qc_div_bound; [exact A|exact B|]. split; [|lia].
  assert (X := Qcle_trans _ _ _ A B). revert X. set (z := (2 * _)%Z). intros X. destruct (Z.lt_ge_cases z 0) as [L|L]; [|assumption].
  exfalso. assert (Y : (0 < qz (- z))%Qc) by (apply qz_pos; lia). apply (Qcle_not_lt _ _ X).
  replace (qz z) with (- qz (- z))%Qc.
  - replace 0%Qc with (- 0)%Qc by (apply Qc_is_canon; reflexivity). revert Y. unfold Qclt, Qcopp, Q2Qc. cbn [this]. rewrite !Qred_correct. intros Y. apply Qopp_lt_compat. exact Y.
  - apply Qc_is_canon. unfold qz, Qcopp, Q2Qc. cbn [this]. rewrite !Qred_correct. rewrite <- inject_Z_opp. rewrite Z.opp_involutive. reflexivity.
Qed.
Lemma clustering_range c v : small c -> in01 (clustering_at G c v).
Proof. intros S. unfold clustering_at. destruct (g_dir G); [apply ccd_range|apply cc_range]; assumption. Qed.
(** the cube root maps [0,1] into itself; weights are not negative *)
Definition root01 (cbrt : Qc -> Qc) : Prop := forall q, in01 q -> in01 (cbrt q).
Lemma coef_small cbrt weighted mx : scale G weighted mx -> mx <> Some 0%Z -> root01 cbrt ->
  (weighted = true -> forall u v x, weight G u v = Some x -> (0 <= x)%Z) -> small (coef G cbrt mx).
Proof.
  intros SC M0 RT NN u v. unfold coef. destruct (nbr G u v) eqn:E; [|split; apply Qcle_refl]. destruct mx as [m|]; [|split; vm_compute; discriminate].
  destruct SC as [-> [(a & b & Hab & Hm) Hmax]]. assert (Pm := NN eq_refl a b m Hm). assert (X := Hmax u v E).
  assert (Y : (0 <= weight0 G u v)%Z) by (unfold weight0; destruct (weight G u v) as [x|] eqn:Ex; [apply (NN eq_refl u v x Ex)|cbn; lia]).
  apply RT. apply qc_frac. lia.
Qed.
(** ** clustering *)
Theorem C84_clustering mhr cbrt weighted mx a r q : (g_dir G = true -> loop_free G) -> (forall k, a = OneNode k -> node G k) ->
  scale G weighted mx -> mx <> Some 0%Z -> root01 cbrt -> (weighted = true -> forall u v x, weight G u v = Some x -> (0 <= x)%Z) ->
  seen G (nx_clustering mhr cbrt G a weighted) (Val r) -> values r q -> in01 q.
Proof.
  intros LF NO SC M0 RT NN H V. assert (S := coef_small cbrt weighted mx SC M0 RT NN).
  assert (X := seen_ans G wf _ _ _ _ H (C21_clustering G wf mhr cbrt weighted mx a LF NO SC M0)). destruct r as [|x|m]; cbn in V; [destruct V|subst|].
  - destruct X as (k & _ & ->). apply clustering_range. assumption.
  - destruct V as (k & V), X as (_ & [M _]). apply M in V. destruct V as [_ ->]. apply clustering_range. assumption.
Qed.
Lemma in_triangle_false v x y : in_triangle G v = false -> node G x -> node G y -> adj G v x && adj G v y && adj G x y = false.
Proof.
  intros H Nx Ny. destruct (adj G v x && adj G v y && adj G x y) eqn:E; [|reflexivity]. unfold in_triangle in H. apply not_true_iff_false in H. destruct H.
  apply existsb_exists. exists (x, y). split; [|exact E]. unfold pairs. apply in_prod; assumption.
Qed.
Lemma clustering_no_triangle c v : small c -> in_triangle G v = false -> clustering_at G c v = 0%Qc.
Proof.
  intros S H. assert (Z0 : forall x y, nbr G x y = false -> c x y = 0%Qc).
  { intros x y E. destruct (S x y) as [A B]. rewrite E in B. apply Qcle_antisym; [|assumption]. exact B. }
  assert (Q0 : forall q, (0 / q)%Qc = 0%Qc) by (intros; unfold Qcdiv; ring).
  unfold clustering_at. destruct (g_dir G).
  - unfold ccd. rewrite (qtotal_eq _ (fun _ => 0%Qc)); [rewrite qtotal_zero; apply Q0|]. intros [x y] Hp. apply in_prod_iff in Hp as [Hx Hy]. cbn [fst snd].
    assert (T := in_triangle_false v x y H Hx Hy). unfold adj in T.
    destruct (nbr G v x || nbr G x v) eqn:E1; cbn [andb] in T; [|apply orb_false_iff in E1 as [E1 E1']; rewrite (Z0 _ _ E1), (Z0 _ _ E1'); ring].
    destruct (nbr G v y || nbr G y v) eqn:E2; cbn [andb] in T; [|apply orb_false_iff in E2 as [E2 E2']; rewrite (Z0 _ _ E2), (Z0 _ _ E2'); ring].
    apply orb_false_iff in T as [E3 E3']. rewrite (Z0 _ _ E3), (Z0 _ _ E3'). ring.
  - unfold cc. destruct (deg0 G v <=? 1); [reflexivity|]. rewrite (qtotal_eq _ (fun _ => 0%Qc)); [rewrite qtotal_zero; apply Q0|]. intros [x y] Hp. apply in_prod_iff in Hp as [Hx Hy]. cbn [fst snd].
    assert (T := in_triangle_false v x y H Hx Hy). unfold adj in T.
    destruct (nbr G v x) eqn:E1; [|rewrite (Z0 _ _ E1); ring]. destruct (nbr G v y) eqn:E2; [|rewrite (Z0 _ _ E2); ring].
    cbn [orb andb] in T. apply orb_false_iff in T as [E3 _]. rewrite (Z0 _ _ E3). ring.
Qed.
Theorem C84_average_clustering mhr cbrt weighted cz mx a x q x' :
  (g_dir G = true -> loop_free G) -> scale G weighted mx -> mx <> Some 0%Z -> avg_cached G cbrt mx x -> (forall k, a <> OneNode k) ->
  root01 cbrt -> (weighted = true -> forall u v x, weight G u v = Some x -> (0 <= x)%Z) ->
  seen G (nx_average_clustering mhr cbrt G a weighted cz x) (Val (q, x')) -> in01 q.
Proof.
  intros LF SC M0 AC NO RT NN H. assert (S := coef_small cbrt weighted mx SC M0 RT NN).
  destruct (seen_ans G wf _ _ _ _ H (C21_average_clustering_partial G wf mhr cbrt weighted cz mx a x LF SC M0 AC NO)) as (Nz & -> & _).
  set (l := match a with Nodes l => _ | _ => _ end). set (c := coef G cbrt mx). unfold mean. apply qc_div_bound with (a := Z.of_nat (mean_count G cz l)); [| |lia].
  - apply qtotal_nonneg. intros v _. apply (clustering_range c v S).
  - unfold mean_count. destruct cz.
    + rewrite total_length, <- qtotal_qz. apply qtotal_le. intros v _. apply (clustering_range c v S).
    + rewrite total_count, <- qtotal_qz. apply qtotal_le. intros v _. destruct (in_triangle G v) eqn:E; [apply (clustering_range c v S)|].
      rewrite (clustering_no_triangle c v S E). apply Qcle_refl.
Qed.
Theorem C84_transitivity x q x' : trans_cached G x -> seen G (nx_transitivity G x) (Val (q, x')) -> in01 q.
Proof.
  intros Hx H. destruct (seen_ans G wf _ _ _ _ H (C20_transitivity G wf x Hx)) as (x'' & [= -> _] & _). unfold transitivity_of.
  destruct (_ =? 0)%Z; [split; vm_compute; discriminate|]. apply qc_frac. split.
  - rewrite <- (total_zero (fun _ : nkey => 0%Z) (gnodes G)) by reflexivity. apply (total_le G wf). intros; lia.
  - apply (total_le G wf). intros v _. apply (closed_le G wf).
Qed.
(** ** squares *)
Lemma square_range v : g_dir G = false -> loop_free G -> in01 (square_at G (nbr G) v).
Proof.
  intros D LF. unfold square_at. destruct (Z.eqb_spec (possible_at G (nbr G) v) 0) as [_|Ne]; [split; vm_compute; discriminate|].
  apply qc_frac. destruct (in_graph G v) eqn:E.
  - apply C23_ratio; try assumption. apply node_in_graph. assumption.
  - destruct Ne. unfold possible_at, over_pairs. apply total_zero. intros p _.
    enough (X : nbr G v (fst p) = false) by (rewrite X, andb_false_r; reflexivity). unfold nbr. replace (has_edge G v (fst p)) with false; [apply andb_false_r|].
    symmetry. apply not_true_iff_false. intros X. apply has_edge_true in X. destruct X as [w X]. assert (Y := weight_nodes G _ _ _ X). assert (Z0 := proj1 (node_in_graph G v) (proj1 Y)). congruence.
Qed.
Theorem C84_square_clustering a si cs r : g_dir G = false -> loop_free G -> unit_weights G -> cs <> Some 1%Z \/ si = true -> (forall k, a = OneNode k -> node G k) ->
  seen G (nx_square_clustering G a si (Val cs)) (Val r) ->
  match r with REmpty => True | ROne q => in01 q | RMap None => True | RMap (Some m) => forall k q, nm_getitem m k = Val q -> in01 q end.
Proof.
  intros D LF UW HC NO H. assert (X := seen_ans G wf _ _ _ _ H (C23_square_clustering_partial G wf D LF UW a si cs HC NO)).
  destruct r as [|q|[m|]]; [exact I| | |exact I].
  - destruct X as (k & _ & ->). apply square_range; assumption.
  - intros k q Hk. destruct a as [| |l]; [|destruct X|]; destruct X as [M _]; apply M in Hk.
    + destruct Hk as [_ ->]. apply square_range; assumption.
    + destruct Hk as (_ & _ & ->). apply square_range; assumption.
Qed.
(** ** reciprocity *)
Lemma count_impl {X} (p q : X -> bool) l : (forall x, p x = true -> q x = true) -> count p l <= count q l.
Proof.
  intros H. induction l as [|a l IH]; [apply Nat.le_refl|]. unfold count in *. cbn [filter]. assert (Ha := H a).
  destruct (p a); [rewrite Ha by reflexivity; cbn [List.length]; lia|]. destruct (q a); cbn [List.length]; lia.
Qed.
Lemma recip_range u : g_dir G = true -> qin01 (recip_of G u).
Proof.
  intros D. apply q_frac. unfold degree. rewrite D.
  assert (recip_degree G u <= out_degree G u) by (apply count_impl; intros v; rewrite andb_true_iff; tauto).
  assert (recip_degree G u <= in_degree G u) by (apply count_impl; intros v; rewrite andb_true_iff; tauto). lia.
Qed.
Theorem C84_reciprocity_node u x : seen G (nx_reciprocity_node G u) (Val x) -> qin01 x.
Proof. intros H. destruct (seen_ans G wf _ _ _ _ H (C49_reciprocity_node G wf u)) as (D & _ & _ & ->). apply recip_range. assumption. Qed.
Theorem C84_reciprocity_nodes l r u x : seen G (nx_reciprocity_nodes G l) (Val r) -> nm_getitem r u = Val x -> qin01 x.
Proof.
  intros H E. destruct (seen_ans G wf _ _ _ _ H (C49_reciprocity_nodes G wf l)) as (D & _ & M & _). apply M in E. destruct E as (_ & _ & ->). apply recip_range. assumption.
Qed.
Theorem C84_overall_reciprocity x : seen G (nx_overall_reciprocity G) (Val x) -> qin01 x.
Proof.
  intros H. destruct (seen_ans G wf _ _ _ _ H (C49_overall_reciprocity G wf)) as (_ & _ & E). eapply qin01_eq; [exact E|]. apply q_frac.
  split; [lia|]. apply inj_le. unfold count. clear. induction (edges G) as [|e l IH]; [apply Nat.le_refl|]. cbn [filter]. destruct (_ && _); cbn [List.length]; lia.
Qed.
(** ** efficiency *)
Theorem C84_efficiency u v x : g_dir G = false -> seen G (nx_efficiency G u v) (Val x) -> qin01 x.
Proof.
  intros D H. destruct (seen_ans G wf _ _ _ _ H (C10_efficiency G u v wf D)) as (_ & _ & _ & [(d & _ & E)|[_ E]]).
  - eapply qin01_eq; [exact E|]. apply (q_frac 1). lia.
  - eapply qin01_eq; [exact E|]. split; vm_compute; discriminate.
Qed.
(** ** degree centralities *)
Lemma centrality_range F r u x : centrality G F r -> (forall v, node G v -> F v <= List.length (gnodes G) - 1) -> nm_getitem r u = Val x -> qin01 x.
Proof.
  intros (c & [M _] & H) B E. apply M in E. destruct E as [Nu ->]. destruct (H u Nu) as [H0 H1].
  destruct (Nat.le_gt_cases (List.length (gnodes G)) 1) as [L|L]; [rewrite (H0 L); split; vm_compute; discriminate|].
  eapply qin01_eq; [exact (H1 L)|]. apply q_frac. assert (X := B u Nu). lia.
Qed.
Lemma count_not_self (p : nkey -> bool) u : node G u -> p u = false -> count p (gnodes G) <= List.length (gnodes G) - 1.
Proof.
  intros Nu E. assert (X : (Z.of_nat (count p (gnodes G)) + Z.of_nat (count (nkey_eqb u) (gnodes G)) <= Z.of_nat (List.length (gnodes G)))%Z).
  { rewrite !total_count, total_length, <- total_add. apply (total_le G wf). intros v _. destruct (nkey_eqb u v) eqn:Q; [apply nkey_eqb_eq in Q; subst; rewrite E; lia|]. destruct (p v); lia. }
  rewrite (count_one u _ (gnodes_nodup G wf) Nu) in X. lia.
Qed.
Lemma no_loop u : loop_free G -> has_edge G u u = false.
Proof. intros LF. apply not_true_iff_false. intros E. apply has_edge_true in E. exact (LF u E). Qed.
Theorem C84_in_degree_centrality r u x : loop_free G -> seen G (nx_in_degree_centrality G) (Val r) -> nm_getitem r u = Val x -> qin01 x.
Proof.
  intros LF H. destruct (seen_ans G wf _ _ _ _ H (C53_in_degree_centrality G wf)) as [_ C]. apply (centrality_range _ _ _ _ C). intros v Nv. apply count_not_self with v; [assumption|apply no_loop; assumption].
Qed.
Theorem C84_out_degree_centrality r u x : loop_free G -> seen G (nx_out_degree_centrality G) (Val r) -> nm_getitem r u = Val x -> qin01 x.
Proof.
  intros LF H. destruct (seen_ans G wf _ _ _ _ H (C53_out_degree_centrality G wf)) as [_ C]. apply (centrality_range _ _ _ _ C). intros v Nv. apply count_not_self with v; [assumption|apply no_loop; assumption].
Qed.
Theorem C84_degree_centrality r u x : g_dir G = false -> loop_free G -> seen G (nx_degree_centrality G) (Val r) -> nm_getitem r u = Val x -> qin01 x.
Proof.
  intros D LF H. destruct (seen_td_ans G wf _ _ _ _ H (C53_degree_centrality G wf (fun _ => LF))) as (r' & [= <-] & C). apply (centrality_range _ _ _ _ C). intros v Nv.
  unfold degree. rewrite D, (no_loop v LF), Nat.add_0_r. apply count_not_self with v; [assumption|apply no_loop; assumption].
Qed.
(** ** conductance, mixing expansion *)
Lemma total_nn {X} (f : X -> Z) l : (forall x, In x l -> (0 <= f x)%Z) -> (0 <= total f l)%Z.
Proof. intros H. rewrite <- (total_zero (fun _ : X => 0%Z) l) by reflexivity. apply (total_le G wf). assumption. Qed.
Lemma crossing_vol P Q : (0 <= crossing G false P Q <= vol G false P)%Z.
Proof.
  unfold crossing, vol, pairs, members. rewrite total_prod. cbn [fst snd]. split.
  - apply total_nn. intros u _. apply total_nn. intros v _. unfold ewt. destruct (P u && Q v); [destruct (has_edge G u v); lia|lia].
  - rewrite total_filter. apply (total_le G wf). intros u _. destruct (P u); cbn [andb].
    + apply (total_le G wf). intros v _. unfold ewt. destruct (Q v), (has_edge G u v); lia.
    + apply Z.eq_le_incl. apply total_zero. reflexivity.
Qed.
Lemma crossing_sym w P Q : g_dir G = false -> crossing G w P Q = crossing G w Q P.
Proof.
  intros D. unfold crossing, pairs. rewrite !total_prod. cbn [fst snd]. rewrite total_exchange. apply total_ext. intros v _. apply total_ext. intros u _.
  rewrite (andb_comm (P u)). unfold ewt, weight0. rewrite (weight_sym G u v wf D), (has_edge_sym G wf u v D). reflexivity.
Qed.
Theorem C84_conductance S T w x : g_dir G = false -> seen G (nx_conductance G S T w) (Val x) -> qin01 x.
Proof.
  intros D H. destruct (seen_ans G wf _ _ _ _ H (C40_conductance G wf S T w)) as (E & _). eapply qin01_eq; [exact E|]. apply q_frac.
  unfold cut. rewrite D, Z.add_0_r. assert (A := crossing_vol (fun k => mem k S) (in_T S T)). assert (B := crossing_vol (in_T S T) (fun k => mem k S)).
  rewrite (crossing_sym false _ _ D) in B. lia.
Qed.
End R.

(** ** Concrete cases *)
Local Ltac run := eapply seen_after; [apply P_is_connected|vm_compute; reflexivity].
Lemma g_w_nonneg u v x : weight g_w u v = Some x -> (0 <= x)%Z.
Proof.
  intros E. unfold weight in E. destruct (kid g_w u) as [i|] eqn:Ei; [|discriminate]. destruct (kid g_w v) as [j|] eqn:Ej; [|discriminate].
  apply (kid_lt g_w (mkg_wf _ _ _)) in Ei, Ej. change (nrows (g_A g_w)) with 4 in *.
  do 4 (destruct i as [|i]; [do 4 (destruct j as [|j]; [vm_compute in E; try discriminate; injection E; lia|]); lia|]). lia.
Qed.
Lemma root01_cb : root01 (fun q => q). Proof. intros q H. exact H. Qed.
Local Ltac qpos := split; [unfold Qcle, Qle; vm_compute; discriminate|]; unfold Qcle, Qle; vm_compute; discriminate.
Example C84_ex : gwf g_w /\ loop_free g_w /\ scale g_w true (Some 8%Z) /\ (forall u v x, weight g_w u v = Some x -> (0 <= x)%Z) /\
  exists m q q' x' r c, seen g_w (nx_clustering false (fun q => q) g_w AllNodes true) (Val (RMap m)) /\ nm_getitem m (KI 2) = Val q /\ (0 < q /\ q < 1)%Qc /\
    seen g_w (nx_transitivity g_w x0) (Val (q', x')) /\ (0 < q' /\ q' < 1)%Qc /\
    seen g_w (nx_degree_centrality g_w) (Val r) /\ (exists x, nm_getitem r (KI 0) = Val x /\ (0 < x /\ x < 1)%Q) /\
    seen g_w (nx_conductance g_w [KI 0; KI 1] None false) (Val c) /\ (0 < c /\ c < 1)%Q.
Proof.
  split; [apply mkg_wf|]. split; [apply loop_free_mkg; vm_compute; reflexivity|]. split; [apply g_w_scale|]. split.
  { intros u v x E. apply (g_w_nonneg u v x E). }
  do 6 eexists. split; [run|]. split; [vm_compute; reflexivity|]. split; [split; vm_compute; reflexivity|]. split; [run|]. split; [split; vm_compute; reflexivity|].
  split; [run|]. split; [eexists; split; [vm_compute; reflexivity|]; split; vm_compute; reflexivity|]. split; [run|]. split; vm_compute; reflexivity.
Qed.
Example C84_dir_ex : gwf g_dt3 /\ loop_free g_dt3 /\ exists m q x r,
  seen g_dt3 (nx_clustering true (fun q => q) g_dt3 AllNodes false) (Val (RMap m)) /\ nm_getitem m (KI 0) = Val q /\ (0 < q /\ q < 1)%Qc /\
  seen g_dt3 (nx_overall_reciprocity g_dt3) (Val x) /\ (0 < x /\ x < 1)%Q /\
  seen g_dt3 (nx_out_degree_centrality g_dt3) (Val r) /\ exists y, nm_getitem r (KI 0) = Val y /\ (0 < y /\ y < 1)%Q.
Proof.
  split; [apply mkg_wf|]. split; [apply loop_free_mkg; vm_compute; reflexivity|]. do 4 eexists. split; [eapply seen_val; vm_compute; reflexivity|]. split; [vm_compute; reflexivity|].
  split; [split; vm_compute; reflexivity|]. split; [eapply seen_val; vm_compute; reflexivity|]. split; [split; vm_compute; reflexivity|]. split; [eapply seen_val; vm_compute; reflexivity|]. eexists. split; [vm_compute; reflexivity|]. split; vm_compute; reflexivity.
Qed.
Print Assumptions C84_clustering.
Print Assumptions C84_average_clustering.
Print Assumptions C84_transitivity.
Print Assumptions C84_square_clustering.
Print Assumptions C84_reciprocity_node.
Print Assumptions C84_reciprocity_nodes.
Print Assumptions C84_overall_reciprocity.
Print Assumptions C84_efficiency.
Print Assumptions C84_in_degree_centrality.
Print Assumptions C84_out_degree_centrality.
Print Assumptions C84_degree_centrality.
Print Assumptions C84_conductance.
