(** * C54: could_be_isomorphic *)
From Verif Require Import Base BaseProofs Model_Graph Model_Cache Spec_Cache CacheMath CacheProofs CacheProofs2
  Model_Keys Spec KeyProofs Spec_Run RunProofs Model_Bfs Model_Operators OperatorProofs Spec_Count Model_Measures CountProofs Props_Cuts Props_Measures
  Model_Cluster ClusterMath ClusterMath2 Spec_Cluster ClusterProofs Concrete Spec_Numbering Props_Numbering Model_Iso.
From Coq Require Import Permutation Sorted.
Open Scope nat_scope.

(** ** the pair sort *)
Lemma pleb_trans a b c : pleb a b = true -> pleb b c = true -> pleb a c = true.
Proof.
  unfold pleb. destruct a, b, c. cbn [fst snd]. rewrite !orb_true_iff, !andb_true_iff, !Z.ltb_lt, !Z.eqb_eq, !Z.leb_le. lia.
Qed.
Lemma pleb_total a b : pleb a b = false -> pleb b a = true.
Proof.
  unfold pleb. destruct a, b. cbn [fst snd]. rewrite orb_false_iff, andb_false_iff, orb_true_iff, andb_true_iff, !Z.ltb_lt, Z.ltb_ge, !Z.eqb_eq, Z.eqb_neq, Z.leb_le, Z.leb_gt. lia.
Qed.
Lemma pleb_anti a b : pleb a b = true -> pleb b a = true -> a = b.
Proof.
  unfold pleb. destruct a, b. cbn [fst snd]. rewrite !orb_true_iff, !andb_true_iff, !Z.ltb_lt, !Z.eqb_eq, !Z.leb_le. intros H1 H2. f_equal; lia.
Qed.
Lemma pinsert_perm x l : Permutation (pinsert x l) (x :: l).
Proof. induction l as [|y l IH]; simpl; [reflexivity|]. destruct (pleb x y); [reflexivity|]. rewrite IH. apply perm_swap. Qed.
Lemma psort_perm l : Permutation (psort l) l.
Proof. induction l as [|x l IH]; simpl; [reflexivity|]. rewrite pinsert_perm. constructor. exact IH. Qed.
Notation ple := (fun a b => pleb a b = true).
Lemma pinsert_sorted x l : StronglySorted ple l -> StronglySorted ple (pinsert x l).
Proof.
  induction l as [|y l IH]; simpl; intros H; [constructor; constructor|].
  inversion H as [|? ? H1 H2]; subst. destruct (pleb x y) eqn:E.
  - constructor; [assumption|]. constructor; [assumption|]. rewrite Forall_forall in *. intros z Hz. eapply pleb_trans; [exact E|auto].
  - constructor; [auto|]. rewrite Forall_forall in *. intros z Hz. apply (Permutation_in _ (pinsert_perm x l)) in Hz.
    destruct Hz as [<-|Hz]; [apply pleb_total; assumption|auto].
Qed.
Lemma psort_sorted l : StronglySorted ple (psort l).
Proof. induction l as [|x l IH]; simpl; [constructor|]. apply pinsert_sorted. assumption. Qed.
Lemma psorted_perm_eq a b : StronglySorted ple a -> StronglySorted ple b -> Permutation a b -> a = b.
Proof.
  revert b. induction a as [|x a IH]; intros b Ha Hb P.
  - apply Permutation_nil in P. congruence.
  - destruct b as [|y b]; [symmetry in P; apply Permutation_nil in P; discriminate|].
    inversion Ha as [|? ? H1 H2]; inversion Hb as [|? ? H3 H4]; subst.
    assert (x = y).
    { assert (In x (y :: b)) by (eapply Permutation_in; [exact P|left; reflexivity]).
      assert (In y (x :: a)) by (eapply Permutation_in; [symmetry; exact P|left; reflexivity]).
      rewrite Forall_forall in H2, H4. destruct H as [->|H]; [reflexivity|]. destruct H0 as [->|H0]; [reflexivity|].
      apply pleb_anti; auto. }
    subst. apply Permutation_cons_inv in P. f_equal. auto.
Qed.
Lemma psort_eq a b : psort a = psort b <-> Permutation a b.
Proof.
  split.
  - intros E. rewrite <- (psort_perm a), E. apply psort_perm.
  - intros P. apply psorted_perm_eq; [apply psort_sorted|apply psort_sorted|]. rewrite !psort_perm. exact P.
Qed.
Lemma zsort_eq_iff a b : zsort a = zsort b <-> Permutation a b.
Proof. split; [|apply zsort_eq]. intros E. rewrite <- (zsort_perm a), E. apply zsort_perm. Qed.
Lemma zlist_eqb_eq a b : zlist_eqb a b = true <-> a = b.
Proof.
  split; [|intros ->; apply zlist_eqb_refl]. unfold zlist_eqb. rewrite andb_true_iff. intros [H1 H2]. apply Nat.eqb_eq in H1.
  revert b H1 H2. induction a as [|x a IH]; intros [|y b] H1 H2; try discriminate; [reflexivity|]. cbn [combine forallb fst snd] in H2.
  apply andb_true_iff in H2 as [E H2]. apply Z.eqb_eq in E. subst. f_equal. apply IH; [simpl in H1; lia|assumption].
Qed.
Lemma pair_lists {X Y} (a b : list (X * Y)) : map fst a = map fst b -> map snd a = map snd b -> a = b.
Proof.
  revert b. induction a as [|[x y] a IH]; intros [|[x' y'] b] H1 H2; try discriminate; [reflexivity|]. cbn [map fst snd] in *.
  injection H1 as -> H1. injection H2 as -> H2. f_equal. auto.
Qed.

(** ** what the two vectors contain *)
Section V.
Variable G : graph.
Hypothesis wf : gwf G.
Notation n := (glen G).
Lemma deg_ok : g_dir G = false -> exists d, dvec G d (out_degree G) /\ answers G (degrees_plus G) (eq (Val d)).
Proof.
  intros D. exists (msk None (den_red G Row RCount SP)). split; [apply dvec_out; auto|].
  unfold degrees_plus. rewrite D. intros s HI. split; [symmetry|]; apply (get_red_plus_ok G wf true Row RCount None s HI).
Qed.
Lemma tri_ok : g_dir G = false -> exists t, dvec G t (triangles_at G) /\ answers G (triangles G None) (eq (Val t)).
Proof.
  intros D. destruct (triangles_ok G wf None D) as (r & [Hs Hr] & Ha). exists r. split; [|exact Ha]. split; [exact Hs|].
  intros u i Hu. destruct (Hr i) as [E1 E2]. cbn [inm] in E2. rewrite <- (triangles_at_id G wf u i D Hu) in E2.
  assert (X : tri_exists G i <-> triangles_at G u <> 0).
  { pose proof (closed_pairs_tri G wf u D) as C.
    transitivity (closed_pairs G u <> 0); [|rewrite C; lia]. unfold closed_pairs.
    split.
    - intros (j & k & Hij & Hik & Hjk) Z. rewrite count_zero in Z.
      destruct (ee_lt G wf _ _ Hij) as [_ Lj]. destruct (ee_lt G wf _ _ Hik) as [_ Lk].
      destruct (kid_key G wf j Lj) as [x Hx]. destruct (kid_key G wf k Lk) as [y Hy].
      specialize (Z (x, y)). cbn [fst snd] in Z. rewrite (nbr_kid G wf u x i j Hu Hx), (nbr_kid G wf u y i k Hu Hy), (nbr_kid G wf x y j k Hx Hy) in Z.
      unfold ee in *. rewrite Hij, Hik, Hjk in Z. discriminate Z. apply in_prod; apply node_kid; eauto.
    - intros N. destruct (Nat.eq_dec (count (fun p => nbr G u (fst p) && nbr G u (snd p) && nbr G (fst p) (snd p)) (pairs (gnodes G))) 0) as [Z|_]; [contradiction|].
      destruct (existsb (fun p => nbr G u (fst p) && nbr G u (snd p) && nbr G (fst p) (snd p)) (pairs (gnodes G))) eqn:Ex.
      + apply existsb_exists in Ex as ([x y] & Hin & Hp). cbn [fst snd] in Hp. apply in_prod_iff in Hin as [Hx Hy].
        apply node_kid in Hx as [j Hj]. apply node_kid in Hy as [k Hk].
        rewrite (nbr_kid G wf u x i j Hu Hj), (nbr_kid G wf u y i k Hu Hk), (nbr_kid G wf x y j k Hj Hk) in Hp.
        apply andb_true_iff in Hp as [Hp H3]. apply andb_true_iff in Hp as [H1 H2]. exists j, k. auto.
      + exfalso. apply N. apply count_zero. intros p Hp. destruct (nbr G u (fst p) && nbr G u (snd p) && nbr G (fst p) (snd p)) eqn:Y; [|reflexivity].
        assert (existsb (fun p => nbr G u (fst p) && nbr G u (snd p) && nbr G (fst p) (snd p)) (pairs (gnodes G)) = true) by (apply existsb_exists; eauto). congruence. }
  unfold onz. destruct (Nat.eqb_spec (triangles_at G u) 0) as [Z|N].
  - destruct (vget r i); [|reflexivity]. exfalso. apply X; [|exact Z]. apply E1. reflexivity.
  - destruct (vget r i); [cbn in E2; unfold id in E2; rewrite E2; reflexivity|]. exfalso. assert (Q : @has Z None = true) by (apply E1; split; [reflexivity|]; apply X; assumption). discriminate Q.
Qed.
Lemma tri_deg u : g_dir G = false -> node G u -> out_degree G u = 0 -> triangles_at G u = 0.
Proof.
  intros D Hn H. unfold out_degree in H. rewrite count_zero in H. unfold triangles_at. apply count_zero. intros [x y] Hp. cbn [fst snd].
  assert (E : nbr G u x = false); [|rewrite E; reflexivity]. unfold nbr.
  destruct (has_edge G u x) eqn:E; [|rewrite andb_false_r; reflexivity]. assert (node G x) by (apply has_edge_true in E as [w Hw]; apply weight_nodes in Hw; tauto).
  rewrite (H x) in E; [discriminate|assumption].
Qed.
Lemma vvalues_flat (v : vec Z) : vvalues v = flat_map (fun i => match vget v i with Some x => [x] | None => [] end) (seq 0 (vsize v)).
Proof.
  unfold vvalues, vcoo. induction (seq 0 (vsize v)) as [|i l IH]; [reflexivity|]. cbn [flat_map]. rewrite map_app, IH. destruct (vget v i); reflexivity.
Qed.
Lemma combine_values (t d : vec Z) : vsize t = vsize d -> (forall i, has (vget t i) = has (vget d i)) ->
  List.length (vvalues t) = List.length (vvalues d) /\
  combine (vvalues t) (vvalues d) = flat_map (fun i => match vget d i with Some y => [(oz (vget t i), y)] | None => [] end) (seq 0 (vsize d)).
Proof.
  intros Hs Hh. rewrite !vvalues_flat, Hs. induction (seq 0 (vsize d)) as [|i l [IH1 IH2]]; [split; reflexivity|]. cbn [flat_map].
  specialize (Hh i). destruct (vget t i), (vget d i); try discriminate; cbn [app List.length combine oz]; rewrite ?IH1, ?IH2; auto.
Qed.
(** the filled triangle vector has exactly the structure of the degree vector *)
Lemma fill_ok d t : g_dir G = false -> dvec G d (out_degree G) -> dvec G t (triangles_at G) ->
  vsize (fill_tri t d) = vsize d /\ (forall i, has (vget (fill_tri t d) i) = has (vget d i)) /\
  forall u i, kid G u = Some i -> oz (vget (fill_tri t d) i) = Z.of_nat (triangles_at G u).
Proof.
  intros D Hd Ht.
  assert (SUB : forall i, i < n -> has (vget t i) = true -> has (vget d i) = true).
  { intros i Hi. destruct (kid_key G wf i Hi) as [u Hu]. rewrite (dvec_has G t _ u i Ht Hu), (dvec_has G d _ u i Hd Hu), !Nat.ltb_lt.
    intros H. destruct (Nat.eq_dec (out_degree G u) 0) as [Z|]; [|lia]. rewrite (tri_deg u D) in H; [lia| |assumption]. apply node_kid. eauto. }
  assert (OUT : forall (v : vec Z) i, vsize v = n -> n <= i -> vget v i = None).
  { intros v i Hv Hi. destruct (vget v i) eqn:E; [|reflexivity]. apply vget_some_lt in E. rewrite Hv in E. lia. }
  destruct Hd as [Sd Hd]. destruct Ht as [St Ht]. unfold fill_tri. destruct (Nat.eqb_spec (nvals t) (nvals d)) as [E|E].
  - split; [congruence|]. split.
    + intros i. destruct (Nat.lt_ge_cases i n) as [L|L]; [|rewrite !OUT by (assumption || lia); reflexivity].
      unfold nvals in E. rewrite St, Sd in E.
      assert (P : forall m, m <= n -> cnt m (fun i => has (vget t i)) <= cnt m (fun i => has (vget d i)) /\
        (cnt m (fun i => has (vget t i)) = cnt m (fun i => has (vget d i)) -> forall i, i < m -> has (vget t i) = has (vget d i))).
      { induction m as [|m IH]; intros Hm; [split; [apply Nat.le_refl|intros; lia]|]. destruct (IH ltac:(lia)) as [IH1 IH2]. rewrite !cnt_S. specialize (SUB m ltac:(lia)).
        destruct (has (vget t m)) eqn:Em.
        - rewrite (SUB eq_refl). split; [lia|]. intros Hq j Hj. destruct (Nat.eq_dec j m) as [->|]; [rewrite Em, SUB; reflexivity|apply IH2; lia].
        - destruct (has (vget d m)) eqn:Fm; split; try lia. intros Hq j Hj. destruct (Nat.eq_dec j m) as [->|]; [congruence|apply IH2; lia]. }
      apply (P n (Nat.le_refl n)); assumption.
    + intros u i Hu. rewrite (Ht u i Hu). unfold onz. destruct (Nat.eqb_spec (triangles_at G u) 0) as [Z|]; [rewrite Z|]; reflexivity.
  - rewrite vsize_vbuild. split; [congruence|]. split.
    + intros i. rewrite vget_vbuild. rewrite St. destruct (Nat.ltb_spec i n) as [L|L]; [|rewrite OUT by (assumption || lia); reflexivity].
      specialize (SUB i L). destruct (vget t i); [rewrite (SUB eq_refl)|]; [reflexivity|]. destruct (vget d i); reflexivity.
    + intros u i Hu. rewrite vget_vbuild_lt by (rewrite St; exact (kid_lt G wf _ _ Hu)). rewrite (Ht u i Hu). unfold onz.
      destruct (Nat.eqb_spec (triangles_at G u) 0) as [Z|]; [rewrite Z; destruct (vget d i)|]; reflexivity.
Qed.
Definition profile : list (Z * Z) := map (fun u => (Z.of_nat (triangles_at G u), Z.of_nat (out_degree G u))) (gnodes G).
Lemma pairs_perm d t : g_dir G = false -> dvec G d (out_degree G) -> dvec G t (triangles_at G) ->
  lexsorted (vvalues (fill_tri t d)) (vvalues d) = Val (psort (combine (vvalues (fill_tri t d)) (vvalues d))) /\
  Permutation (repeat (0, 0)%Z (n - nvals d) ++ combine (vvalues (fill_tri t d)) (vvalues d)) profile.
Proof.
  intros D Hd Ht. destruct (fill_ok d t D Hd Ht) as (Hs & Hh & Hv). destruct (combine_values _ _ Hs Hh) as [HL HC].
  split; [unfold lexsorted; rewrite HL, Nat.eqb_refl; reflexivity|]. rewrite HC. set (w := fill_tri t d) in *.
  assert (E : profile = map (fun i => (oz (vget w i), oz (vget d i))) (map snd (g_kid G))).
  { unfold profile. rewrite <- (gnodes_kid G wf), map_map. apply map_ext_in. intros u Hu. apply node_kid in Hu as [i Hi]. rewrite Hi. cbn [oget].
    rewrite (Hv u i Hi), (proj2 Hd u i Hi). unfold onz. destruct (Nat.eqb_spec (out_degree G u) 0) as [Z|]; [rewrite Z|]; reflexivity. }
  rewrite E. transitivity (map (fun i => (oz (vget w i), oz (vget d i))) (seq 0 n)).
  - unfold nvals. rewrite (proj1 Hd). rewrite <- (seq_length n 0) at 1.
    replace (cnt n (fun i => has (vget d i))) with (List.length (filter (fun i => has (vget d i)) (seq 0 n))) by reflexivity.
    assert (Z0 : forall i, vget d i = None -> oz (vget w i) = 0%Z) by (intros i Hi; specialize (Hh i); rewrite Hi in Hh; destruct (vget w i); [discriminate|reflexivity]).
    clear - Z0. induction (seq 0 n) as [|i l IH]; [reflexivity|]. cbn [List.length filter map flat_map].
    destruct (vget d i) as [x|] eqn:Ei; cbn [has oz].
    + cbn [List.length map app]. rewrite Nat.sub_succ. rewrite <- IH. symmetry. apply Permutation_middle.
    + rewrite Nat.sub_succ_l by (clear; induction l as [|y l IH]; simpl; [lia|]; destruct (has (vget d y)); simpl; lia). rewrite (Z0 i Ei). simpl. constructor. exact IH.
  - apply Permutation_map. symmetry. apply wf.
Qed.
Lemma nvals_le (d : vec Z) : vsize d = n -> nvals d <= n.
Proof. intros H. unfold nvals. rewrite H. clear. induction n; [apply Nat.le_0_l|]. rewrite cnt_S. destruct (has _); lia. Qed.
End V.

(** ** C54: the two tests, exactly *)
(** a node's number of neighbours (itself included, if it has a loop; successors plus predecessors in a DiGraph) *)
Definition degree_list (G : graph) : list nat := map (ndeg G) (gnodes G).
(** a node's number of neighbours and of triangles *)
Definition degree_triangle_list (G : graph) : list (nat * nat) := map (fun u => (out_degree G u, triangles_at G u)) (gnodes G).

Lemma perm_map_inj {X Y} (f : X -> Y) : (forall x y, f x = f y -> x = y) -> forall a b, Permutation (map f a) (map f b) <-> Permutation a b.
Proof.
  intros I a b. split; [|apply Permutation_map]. intros P. apply Permutation_map_inv in P as (l & E & P). 
  assert (a = l); [|subst; symmetry; exact P]. clear P. revert l E. induction a as [|x a IH]; intros [|y l] E; try discriminate; [reflexivity|]. injection E as E1 E2. f_equal; auto.
Qed.
Lemma profile_perm G1 G2 : Permutation (profile G1) (profile G2) <-> Permutation (degree_triangle_list G1) (degree_triangle_list G2).
Proof.
  assert (E : forall G, profile G = map (fun p => (Z.of_nat (snd p), Z.of_nat (fst p))) (degree_triangle_list G)) by (intros G; unfold profile, degree_triangle_list; rewrite map_map; reflexivity).
  rewrite !E. apply perm_map_inj. intros [a b] [c d] X. cbn [fst snd] in X. injection X as X1 X2. f_equal; lia.
Qed.
Lemma perm_count2 {X X' Y} (f : X -> Y) (g : X' -> Y) (p : Y -> bool) a b : Permutation (map f a) (map g b) -> count (fun x => p (f x)) a = count (fun x => p (g x)) b.
Proof. intros P. rewrite <- (count_map p f), <- (count_map p g). apply count_perm. exact P. Qed.

(** fast_could_be_isomorphic(G1, G2) of two undirected graphs says True exactly when the nodes have the same
    (degree, number of triangles) pairs, with multiplicity *)
Theorem C54_fast_could_be_isomorphic G1 G2 s1 s2 : gwf G1 -> gwf G2 -> g_dir G1 = false -> g_dir G2 = false -> Inv G1 s1 -> Inv G2 s2 ->
  match nx_fast_could_be_isomorphic G1 G2 s1 s2 with (o, s1', s2') =>
    (exists b, o = Val b /\ (b = true <-> Permutation (degree_triangle_list G1) (degree_triangle_list G2))) /\ Inv G1 s1' /\ Inv G2 s2' end.
Proof.
  intros wf1 wf2 D1 D2 I1 I2. unfold nx_fast_could_be_isomorphic.
  destruct (deg_ok G1 wf1 D1) as (d1 & Hd1 & A1). destruct (deg_ok G2 wf2 D2) as (d2 & Hd2 & A2).
  destruct (tri_ok G1 wf1 D1) as (t1 & Ht1 & B1). destruct (tri_ok G2 wf2 D2) as (t2 & Ht2 & B2).
  assert (LEN : Permutation (degree_triangle_list G1) (degree_triangle_list G2) -> glen G1 = glen G2).
  { intros P. apply Permutation_length in P. unfold degree_triangle_list in P. rewrite !map_length in P. rewrite <- (len_nodes G1 wf1), <- (len_nodes G2 wf2). assumption. }
  destruct (Nat.eqb_spec (glen G1) (glen G2)) as [EL|NL]; cbn [negb].
  2:{ split; [|auto]. exists false. split; [reflexivity|]. split; [discriminate|]. intros P. apply LEN in P. contradiction. }
  destruct (A1 s1 I1) as [E1 J1]. destruct (A2 s2 I2) as [E2 J2].
  destruct (degrees_plus G1 s1) as [o1 s1']. destruct (degrees_plus G2 s2) as [o2 s2']. cbn [fst snd] in *. subst o1 o2.
  destruct (Nat.eqb_spec (nvals d1) (nvals d2)) as [EN|NN]; cbn [negb].
  2:{ split; [|auto]. exists false. split; [reflexivity|]. split; [discriminate|]. intros P. exfalso. apply NN.
      rewrite (dvec_nvals G1 wf1 d1 _ Hd1), (dvec_nvals G2 wf2 d2 _ Hd2). exact (perm_count2 _ _ (fun p => 0 <? fst p) _ _ P). }
  destruct (B1 s1' J1) as [F1 K1]. destruct (B2 s2' J2) as [F2 K2].
  destruct (triangles G1 None s1') as [o1 s1'']. destruct (triangles G2 None s2') as [o2 s2'']. cbn [fst snd] in *. subst o1 o2.
  destruct (Nat.eqb_spec (nvals t1) (nvals t2)) as [ET|NT]; cbn [negb].
  2:{ split; [|auto]. exists false. split; [reflexivity|]. split; [discriminate|]. intros P. exfalso. apply NT.
      rewrite (dvec_nvals G1 wf1 t1 _ Ht1), (dvec_nvals G2 wf2 t2 _ Ht2). exact (perm_count2 _ _ (fun p => 0 <? snd p) _ _ P). }
  split; [|auto]. unfold fast_core. destruct (pairs_perm G1 wf1 d1 t1 D1 Hd1 Ht1) as [-> P1]. destruct (pairs_perm G2 wf2 d2 t2 D2 Hd2 Ht2) as [-> P2].
  set (c1 := combine _ _) in *. set (c2 := combine (vvalues (fill_tri t2 d2)) _) in *.
  assert (Q : psort c1 = psort c2 <-> Permutation (degree_triangle_list G1) (degree_triangle_list G2)).
  { rewrite psort_eq, <- profile_perm. rewrite <- P1, <- P2, EN, EL. split; [intros P; apply Permutation_app_head; exact P|apply Permutation_app_inv_l]. }
  eexists. split; [reflexivity|]. rewrite <- Q.
  destruct (zlist_eqb (map snd (psort c1)) (map snd (psort c2))) eqn:X; cbn [negb].
  - apply zlist_eqb_eq in X. destruct (zlist_eqb (map fst (psort c1)) (map fst (psort c2))) eqn:Y; cbn [negb].
    + apply zlist_eqb_eq in Y. split; [|reflexivity]. intros _. apply pair_lists; assumption.
    + split; [discriminate|]. intros E. rewrite E, zlist_eqb_refl in Y. discriminate.
  - split; [discriminate|]. intros E. rewrite E, zlist_eqb_refl in X. discriminate.
Qed.
(** faster_could_be_isomorphic(G1, G2), of any two graphs: the same degrees *)
Theorem C54_faster_exact G1 G2 s1 s2 : gwf G1 -> gwf G2 -> InvF G1 false s1 -> InvF G2 false s2 ->
  match nx_faster_could_be_isomorphic G1 G2 s1 s2 with (o, s1', s2') =>
    (exists b, o = Val b /\ (b = true <-> Permutation (degree_list G1) (degree_list G2))) /\ InvF G1 false s1' /\ InvF G2 false s2' end.
Proof.
  intros wf1 wf2 I1 I2. unfold nx_faster_could_be_isomorphic.
  assert (LEN : Permutation (degree_list G1) (degree_list G2) -> glen G1 = glen G2).
  { intros P. apply Permutation_length in P. unfold degree_list in P. rewrite !map_length in P. rewrite <- (len_nodes G1 wf1), <- (len_nodes G2 wf2). assumption. }
  destruct (Nat.eqb_spec (glen G1) (glen G2)) as [EL|NL]; cbn [negb].
  2:{ split; [|auto]. exists false. split; [reflexivity|]. split; [discriminate|]. intros P. apply LEN in P. contradiction. }
  destruct (degrees_plus_ok G1 wf1) as (d1 & H1 & A1). destruct (degrees_plus_ok G2 wf2) as (d2 & H2 & A2).
  destruct (A1 s1 I1) as (E1 & J1 & _). destruct (A2 s2 I2) as (E2 & J2 & _).
  destruct (degrees_plus G1 s1) as [o1 s1']. cbn [fst snd] in *. subst o1.
  destruct (degrees_plus G2 s2) as [o2 s2']. cbn [fst snd] in *. subst o2.
  split; [|auto]. eexists. split; [reflexivity|]. unfold faster_core.
  destruct (Nat.eqb_spec (nvals d1) (nvals d2)) as [EN|NN]; cbn [negb].
  2:{ split; [discriminate|]. intros P. exfalso. apply NN. rewrite (dvec_nvals G1 wf1 d1 _ H1), (dvec_nvals G2 wf2 d2 _ H2).
      exact (perm_count2 _ _ (fun p => 0 <? p) _ _ P). }
  rewrite zlist_eqb_eq, zsort_eq_iff.
  pose proof (repeat_app_perm G1 wf1 d1 _ H1) as P1. pose proof (repeat_app_perm G2 wf2 d2 _ H2) as P2.
  rewrite (proj1 H1) in P1. rewrite (proj1 H2) in P2. rewrite <- EL, <- EN in P2.
  assert (E : forall G, map (fun u => Z.of_nat (ndeg G u)) (gnodes G) = map Z.of_nat (degree_list G)) by (intros G; unfold degree_list; rewrite map_map; reflexivity).
  rewrite E in P1, P2. rewrite <- (perm_map_inj Z.of_nat) by (intros; lia). rewrite <- P1, <- P2.
  split; [intros P; apply Permutation_app_head; exact P|apply Permutation_app_inv_l].
Qed.

(** ** isomorphic graphs pass the tests *)
Section Iso.
Variables G1 G2 : graph.
Hypothesis wf1 : gwf G1.
Hypothesis wf2 : gwf G2.
Variable f : nkey -> nkey.
Hypothesis Hf : isomorphism G1 G2 f.
Lemma iso_nbr u v : node G1 u -> node G1 v -> nbr G1 u v = nbr G2 (f u) (f v).
Proof.
  intros Hu Hv. unfold nbr. rewrite (iso_has_edge G1 G2 f Hf u v Hu Hv). f_equal. f_equal.
  destruct (nkey_eqb u v) eqn:E; symmetry.
  - apply nkey_eqb_eq in E as ->. apply nkey_eqb_eq. reflexivity.
  - destruct (nkey_eqb (f u) (f v)) eqn:E'; [|reflexivity]. apply nkey_eqb_eq in E'. destruct Hf as (_ & _ & Hi & _). apply Hi in E'; try assumption.
    subst. rewrite (proj2 (nkey_eqb_eq v v) eq_refl) in E. discriminate.
Qed.
Lemma upairs_map {X Y} (g : X -> Y) l : upairs (map g l) = map (fun p => (g (fst p), g (snd p))) (upairs l).
Proof.
  induction l as [|x l IH]; [reflexivity|]. cbn [map upairs]. rewrite IH, map_app. f_equal. cbn [map fst snd]. f_equal. rewrite !map_map. reflexivity.
Qed.
Lemma upairs_in {X} (l : list X) p : In p (upairs l) -> In (fst p) l /\ In (snd p) l.
Proof.
  induction l as [|x l IH]; [intros []|]. cbn [upairs]. rewrite in_app_iff. intros [H|H].
  - cbn [map] in H. destruct H as [<-|H]; [cbn; auto|]. apply in_map_iff in H as (y & <- & Hy). cbn [fst snd]. split; [left; reflexivity|right; assumption].
  - destruct (IH H). split; right; assumption.
Qed.
Lemma iso_tri u : g_dir G1 = false -> node G1 u -> triangles_at G1 u = triangles_at G2 (f u).
Proof.
  intros D Hu. assert (D2 : g_dir G2 = false) by (rewrite <- (proj1 Hf); assumption). unfold triangles_at.
  rewrite <- (upairs_perm (fun p => nbr G2 (f u) (fst p) && nbr G2 (f u) (snd p) && nbr G2 (fst p) (snd p)) (map f (gnodes G1)) (gnodes G2)).
  - rewrite upairs_map, count_map. apply count_ext. intros p Hp. destruct (upairs_in _ _ Hp) as [H1 H2]. cbn [fst snd].
    rewrite <- !iso_nbr by assumption. reflexivity.
  - intros x y. cbn [fst snd]. rewrite (nbr_sym G2 wf2 x y D2). destruct (nbr G2 (f u) x), (nbr G2 (f u) y); reflexivity.
  - apply (iso_nodes G1 G2 wf1 wf2 f Hf).
Qed.
Lemma iso_out u : node G1 u -> out_degree G1 u = out_degree G2 (f u).
Proof.
  intros Hu. unfold out_degree. rewrite <- (count_perm _ _ _ (iso_nodes G1 G2 wf1 wf2 f Hf)), count_map. apply count_ext.
  intros v Hv. apply (iso_has_edge G1 G2 f Hf); assumption.
Qed.
Lemma iso_dtl : g_dir G1 = false -> Permutation (degree_triangle_list G1) (degree_triangle_list G2).
Proof.
  intros D. unfold degree_triangle_list. rewrite <- (Permutation_map _ (iso_nodes G1 G2 wf1 wf2 f Hf)), map_map.
  rewrite (map_ext_in _ (fun u => (out_degree G2 (f u), triangles_at G2 (f u)))); [reflexivity|]. intros u Hu. rewrite (iso_out u Hu), (iso_tri u D Hu). reflexivity.
Qed.
End Iso.
Theorem C54_fast_isomorphic G1 G2 s1 s2 : gwf G1 -> gwf G2 -> g_dir G1 = false -> Inv G1 s1 -> Inv G2 s2 -> isomorphic G1 G2 ->
  fst (fst (nx_fast_could_be_isomorphic G1 G2 s1 s2)) = Val true.
Proof.
  intros wf1 wf2 D1 I1 I2 [f Hf]. assert (D2 : g_dir G2 = false) by (rewrite <- (proj1 Hf); assumption).
  pose proof (C54_fast_could_be_isomorphic G1 G2 s1 s2 wf1 wf2 D1 D2 I1 I2) as H.
  destruct (nx_fast_could_be_isomorphic G1 G2 s1 s2) as [[o s1'] s2']. destruct H as ((b & -> & Hb) & _). cbn [fst]. f_equal. apply Hb.
  apply (iso_dtl G1 G2 wf1 wf2 f Hf D1).
Qed.
(** the full statement - isomorphic graphs are never rejected - fails for DiGraphs: their triangles are
    counted from the entries below and above the diagonal, which depend on how the nodes are numbered *)
Theorem C54_fast_directed_refuted : exists G1 G2, gwf G1 /\ gwf G2 /\ g_dir G1 = true /\ isomorphic G1 G2 /\
  fst (fst (nx_fast_could_be_isomorphic G1 G2 st0 st0)) = Val false.
Proof.
  exists (mkg true 3 [(2, 1, 1%Z); (1, 0, 1%Z); (2, 0, 1%Z)]), (mkg true 3 [(0, 1, 1%Z); (1, 2, 1%Z); (0, 2, 1%Z)]).
  split; [apply mkg_wf|]. split; [apply mkg_wf|]. split; [reflexivity|]. split; [|vm_compute; reflexivity].
  exists (fun k => match k with KI i => KI (2 - i) | _ => k end). split; [reflexivity|].
  assert (T : forall (u : nkey), node (mkg true 3 [(2, 1, 1%Z); (1, 0, 1%Z); (2, 0, 1%Z)]) u -> u = KI 0 \/ u = KI 1 \/ u = KI 2).
  { intros u Hu. unfold node in Hu. vm_compute in Hu. destruct Hu as [<-|[<-|[<-|[]]]]; auto. }
  split. { intros u Hu. destruct (T u Hu) as [->|[->| ->]]; unfold node; vm_compute; auto. }
  split. { intros u v Hu Hv. destruct (T u Hu) as [->|[->| ->]], (T v Hv) as [->|[->| ->]]; vm_compute; congruence. }
  split. { intros w Hw. unfold node in Hw. vm_compute in Hw. destruct Hw as [<-|[<-|[<-|[]]]]; [exists (KI 2)|exists (KI 1)|exists (KI 0)]; (split; [unfold node; vm_compute; auto|reflexivity]). }
  intros u v Hu Hv. rewrite <- !has_edge_true. destruct (T u Hu) as [->|[->| ->]], (T v Hv) as [->|[->| ->]]; vm_compute; tauto.
Qed.
(** the tests do tell graphs apart: two triangles and a hexagon have the same degrees, but only one has triangles *)
Example C54_fast_ex : let H := mkg false 6 [(0, 1, 1%Z); (1, 2, 1%Z); (2, 3, 1%Z); (3, 4, 1%Z); (4, 5, 1%Z); (0, 5, 1%Z)] in
  let T := mkg false 6 [(0, 1, 1%Z); (1, 2, 1%Z); (0, 2, 1%Z); (3, 4, 1%Z); (4, 5, 1%Z); (3, 5, 1%Z)] in
  fst (fst (nx_fast_could_be_isomorphic H T st0 st0)) = Val false /\ fst (fst (nx_faster_could_be_isomorphic H T st0 st0)) = Val true.
Proof. vm_compute. auto. Qed.
(** a path and a triangle with isolated node: the fill is exercised *)
Example C54_fill_ex : let G := mkg false 5 [(0, 1, 1%Z); (1, 2, 1%Z); (0, 2, 1%Z); (2, 3, 1%Z)] in
  let H := mkg false 5 [(3, 4, 1%Z); (2, 3, 1%Z); (2, 4, 1%Z); (0, 2, 1%Z)] in
  fst (fst (nx_fast_could_be_isomorphic G H st0 st0)) = Val true.
Proof. vm_compute. auto. Qed.
Print Assumptions C54_fast_could_be_isomorphic.
Print Assumptions C54_faster_exact.
Print Assumptions C54_fast_isomorphic.
Print Assumptions C54_fast_directed_refuted.
