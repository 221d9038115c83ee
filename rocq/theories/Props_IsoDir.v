(** * C54: fast_could_be_isomorphic of two DiGraphs, exactly *)
From Verif Require Import Base BaseProofs Model_Graph Model_Cache Spec_Cache CacheMath CacheProofs CacheProofs2
  Model_Keys Spec KeyProofs Spec_Run RunProofs Model_Bfs Model_Operators OperatorProofs Spec_Count Model_Measures CountProofs Props_Cuts Props_Measures
  Model_Cluster ClusterMath ClusterMath2 Spec_Cluster ClusterProofs Concrete Spec_Numbering Props_Numbering Model_Iso Props_Iso.
From Coq Require Import Permutation.
Open Scope nat_scope.

(** ** what is counted as a triangle of a DiGraph *)
(** [u] comes before [v] in the numbering of the nodes *)
Definition before (G : graph) (u v : nkey) : bool :=
  match kid G u, kid G v with Some i, Some j => i <? j | _, _ => false end.
(** the three ways in which [u] gets a triangle: with two earlier nodes, as the middle one, with two later nodes;
    each asks for one particular orientation of the three edges *)
Definition seen_triangles (G : graph) (u : nkey) : nat :=
  count (fun p => before G (snd p) (fst p) && before G (fst p) u &&
                  has_edge G u (fst p) && has_edge G u (snd p) && has_edge G (fst p) (snd p)) (pairs (gnodes G)) +
  count (fun p => before G (snd p) u && before G u (fst p) &&
                  has_edge G (fst p) u && has_edge G (fst p) (snd p) && has_edge G u (snd p)) (pairs (gnodes G)) +
  count (fun p => before G u (snd p) && before G (snd p) (fst p) &&
                  has_edge G u (fst p) && has_edge G u (snd p) && has_edge G (fst p) (snd p)) (pairs (gnodes G)).
(** a node's number of edges (in and out; a self-loop counts twice) and of such triangles *)
Definition degree_seen_list (G : graph) : list (nat * nat) := map (fun u => (ndeg G u, seen_triangles G u)) (gnodes G).

(** ** the triangle vector *)
Lemma ored_onz k (f : nat -> nat) : ored Z.add k (fun i => onz (f i)) = onz (nsum k f).
Proof. induction k as [|k IH]; [reflexivity|]. cbn [ored]. rewrite IH, omerge_onz, nsum_S. reflexivity. Qed.
Section T.
Variable G : graph.
Hypothesis wf : gwf G.
Notation n := (glen G).
Notation a i j := (has (mget (g_A G) i j)).

(** plus_pair(X @ Y.T).new(mask=X.S), two triangles of the matrix given by their selections *)
Lemma pair_masked (p q : nat -> nat -> bool) i k : i < n -> k < n ->
  mget (mrestrict (msS (mbuild n n (fun i j => if p i j then mget (g_A G) i j else None)))
        (mxm Z.add op_pairz (mbuild n n (fun i j => if p i j then mget (g_A G) i j else None))
                            (mtrans (mbuild n n (fun i j => if q i j then mget (g_A G) i j else None))))) i k =
  onz (if p i k && a i k then cnt n (fun j => (p i j && a i j) && (q k j && a k j)) else 0).
Proof.
  intros Hi Hk. unfold mrestrict, mselect. rewrite mget_mbuild_lt.
  2:{ unfold mxm. rewrite nrows_mbuild, nrows_mbuild. exact Hi. }
  2:{ unfold mxm. rewrite ncols_mbuild. unfold mtrans. rewrite ncols_mbuild, nrows_mbuild. exact Hk. }
  unfold msS. rewrite mget_mbuild_lt by assumption.
  assert (E : has (if p i k then mget (g_A G) i k else None) = p i k && a i k) by (destruct (p i k); reflexivity).
  rewrite E. destruct (p i k && a i k); [|reflexivity].
  unfold mxm. rewrite mget_mbuild_lt; [|rewrite nrows_mbuild; exact Hi|unfold mtrans; rewrite ncols_mbuild, nrows_mbuild; exact Hk].
  rewrite ncols_mbuild. unfold onz. rewrite <- ored_plus_ones. apply ored_ext. intros j Hj.
  rewrite mget_mbuild_lt by assumption. unfold mtrans. rewrite mget_mbuild_lt by (rewrite ?ncols_mbuild, ?nrows_mbuild; assumption).
  rewrite mget_mbuild_lt by assumption.
  destruct (p i j), (q k j), (mget (g_A G) i j), (mget (g_A G) k j); reflexivity.
Qed.
Definition lower (i j : nat) := j <? i.
Definition upper (i j : nat) := i <? j.
Definition tri_id (i : nat) : nat :=
  nsum n (fun k => if lower i k && a i k then cnt n (fun j => (lower i j && a i j) && (lower k j && a k j)) else 0) +
  nsum n (fun k => if lower k i && a k i then cnt n (fun j => (lower k j && a k j) && (lower i j && a i j)) else 0) +
  nsum n (fun k => if upper i k && a i k then cnt n (fun j => (upper i j && a i j) && (lower k j && a k j)) else 0).
Lemma triangles_vec i : i < n ->
  vget (triangles_gen Z.add op_pairz (fun C _ => C) (den_mat G (KL SM)) (den_mat G (KU SM)) None) i = onz (tri_id i).
Proof.
  intros Hi. unfold triangles_gen. cbn [omask den_mat msel].
  change (nrows (g_A G)) with (glen G). change (fun i j : nat => if i <? j then mget (g_A G) i j else None) with (fun i j : nat => if upper i j then mget (g_A G) i j else None).
  change (fun i j : nat => if j <? i then mget (g_A G) i j else None) with (fun i j : nat => if lower i j then mget (g_A G) i j else None).
  set (L := mbuild n n (fun i j : nat => if lower i j then mget (g_A G) i j else None)).
  set (U := mbuild n n (fun i j : nat => if upper i j then mget (g_A G) i j else None)).
  assert (SZ : forall X Y : mat Z, nrows X = n -> ncols X = n -> nrows Y = n ->
    nrows (mrestrict (msS X) (mxm Z.add op_pairz X (mtrans Y))) = n /\ ncols (mrestrict (msS X) (mxm Z.add op_pairz X (mtrans Y))) = n).
  { intros X Y H1 H2 H3. unfold mrestrict, mselect, mxm, mtrans. rewrite ?nrows_mbuild, ?ncols_mbuild. auto. }
  assert (WF : forall X Y : mat Z, mwf (mrestrict (msS X) (mxm Z.add op_pairz X (mtrans Y)))) by (intros; apply mwf_mbuild).
  destruct (SZ L L) as [R1 R2]; try (unfold L; rewrite ?nrows_mbuild, ?ncols_mbuild; reflexivity).
  destruct (SZ U L) as [R3 R4]; try (unfold L, U; rewrite ?nrows_mbuild, ?ncols_mbuild; reflexivity).
  assert (V1 : vsize (mred_row Z.add (mrestrict (msS L) (mxm Z.add op_pairz L (mtrans L)))) = n) by (unfold mred_row; rewrite vsize_vbuild; exact R1).
  assert (V2 : vsize (mred_col Z.add (mrestrict (msS L) (mxm Z.add op_pairz L (mtrans L)))) = n) by (unfold mred_col; rewrite vsize_vbuild; exact R2).
  assert (V3 : vsize (mred_row Z.add (mrestrict (msS U) (mxm Z.add op_pairz U (mtrans L)))) = n) by (unfold mred_row; rewrite vsize_vbuild; exact R3).
  rewrite vget_vunion by (unfold vunion; rewrite vsize_vbuild; congruence). rewrite vget_vunion by congruence.
  rewrite !vget_mred_row, vget_mred_col by apply WF. rewrite R1, R2, R4.
  rewrite (ored_ext _ _ (fun j => mget (mrestrict (msS L) (mxm Z.add op_pairz L (mtrans L))) i j) _ (fun k Hk => pair_masked lower lower i k Hi Hk)).
  rewrite (ored_ext _ _ (fun j => mget (mrestrict (msS L) (mxm Z.add op_pairz L (mtrans L))) j i) _ (fun k Hk => pair_masked lower lower k i Hk Hi)).
  rewrite (ored_ext _ _ (fun j => mget (mrestrict (msS U) (mxm Z.add op_pairz U (mtrans L))) i j) _ (fun k Hk => pair_masked upper lower i k Hi Hk)).
  rewrite !ored_onz, !omerge_onz. reflexivity.
Qed.
Lemma before_kid u v i j : kid G u = Some i -> kid G v = Some j -> before G u v = (i <? j).
Proof. intros Hu Hv. unfold before. rewrite Hu, Hv. reflexivity. Qed.
Lemma if_cnt (c : bool) p : (if c then cnt n p else 0) = cnt n (fun j => c && p j).
Proof. destruct c; [reflexivity|]. symmetry. apply cnt_false. Qed.
Lemma seen_id u i : kid G u = Some i -> seen_triangles G u = tri_id i.
Proof.
  intros Hu. unfold seen_triangles, tri_id.
  f_equal; [f_equal|]; (rewrite (nsum_ext _ _ _ (fun k _ => if_cnt _ _)); apply (count_node_pairs G wf); intros v w k j Hv Hw; cbn [fst snd];
    rewrite ?(before_kid _ _ _ _ Hu Hv), ?(before_kid _ _ _ _ Hv Hu), ?(before_kid _ _ _ _ Hu Hw), ?(before_kid _ _ _ _ Hw Hu), ?(before_kid _ _ _ _ Hw Hv), ?(before_kid _ _ _ _ Hv Hw),
      ?(has_edge_kid G _ _ _ _ Hu Hv), ?(has_edge_kid G _ _ _ _ Hv Hu), ?(has_edge_kid G _ _ _ _ Hu Hw), ?(has_edge_kid G _ _ _ _ Hv Hw)).

  all: unfold lower, upper; destruct (Nat.ltb_spec j k), (Nat.ltb_spec k i), (Nat.ltb_spec j i), (Nat.ltb_spec i k), (Nat.ltb_spec i j); cbn [andb]; try lia; try reflexivity; try ring.
  all: repeat match goal with |- context [has ?x] => destruct (has x) end; reflexivity.
Qed.
End T.

(** ** the sorted pairs *)
Section P.
Variable G : graph.
Hypothesis wf : gwf G.
Notation n := (glen G).
Variables F T : nkey -> nat.
Hypothesis FT : forall u, node G u -> F u = 0 -> T u = 0.
Lemma fill_any d t : dvec G d F -> dvec G t T ->
  vsize (fill_tri t d) = vsize d /\ (forall i, has (vget (fill_tri t d) i) = has (vget d i)) /\
  forall u i, kid G u = Some i -> oz (vget (fill_tri t d) i) = Z.of_nat (T u).
Proof.
  intros Hd Ht.
  assert (SUB : forall i, i < n -> has (vget t i) = true -> has (vget d i) = true).
  { intros i Hi. destruct (kid_key G wf i Hi) as [u Hu]. rewrite (dvec_has G t _ u i Ht Hu), (dvec_has G d _ u i Hd Hu), !Nat.ltb_lt.
    intros H. destruct (Nat.eq_dec (F u) 0) as [Z|]; [|lia]. rewrite FT in H; [lia| |assumption]. apply node_kid. eauto. }
  assert (OUT : forall (v : vec Z) i, vsize v = n -> n <= i -> vget v i = None).
  { intros v i Hv Hi. destruct (vget v i) eqn:E; [|reflexivity]. apply vget_some_lt in E. rewrite Hv in E. lia. }
  destruct Hd as [Sd Hd]. destruct Ht as [St Ht]. unfold fill_tri. destruct (Nat.eqb_spec (nvals t) (nvals d)) as [E|E].
  - split; [congruence|]. split.
    + intros i. destruct (Nat.lt_ge_cases i n) as [L|L]; [|rewrite !OUT by (assumption || lia); reflexivity].
      unfold nvals in E. rewrite St, Sd in E.
      assert (P : forall m, m <= n -> cnt m (fun i => has (vget t i)) <= cnt m (fun i => has (vget d i)) /\
        (cnt m (fun i => has (vget t i)) = cnt m (fun i => has (vget d i)) -> forall i, i < m -> has (vget t i) = has (vget d i))).
      { induction m as [|m IH]; intros Hm; [split; [apply Nat.le_refl|intros; lia]|]. destruct (IH ltac:(lia)) as [IH1 IH2]. rewrite !cnt_S. specialize (SUB m ltac:(lia)).
        destruct (has (vget t m)) eqn:Em.
        - rewrite (SUB eq_refl). split; [lia|]. intros Hq j Hj. destruct (Nat.eq_dec j m) as [->|]; [rewrite Em, SUB; reflexivity|apply IH2; lia].
        - destruct (has (vget d m)) eqn:Fm; split; try lia. intros Hq j Hj. destruct (Nat.eq_dec j m) as [->|]; [congruence|apply IH2; lia]. }
      apply (P n (Nat.le_refl n)); assumption.
    + intros u i Hu. rewrite (Ht u i Hu). unfold onz. destruct (Nat.eqb_spec (T u) 0) as [Z|]; [rewrite Z|]; reflexivity.
  - rewrite vsize_vbuild. split; [congruence|]. split.
    + intros i. rewrite vget_vbuild. rewrite St. destruct (Nat.ltb_spec i n) as [L|L]; [|rewrite OUT by (assumption || lia); reflexivity].
      specialize (SUB i L). destruct (vget t i); [rewrite (SUB eq_refl)|]; [reflexivity|]. destruct (vget d i); reflexivity.
    + intros u i Hu. rewrite vget_vbuild_lt by (rewrite St; exact (kid_lt G wf _ _ Hu)). rewrite (Ht u i Hu). unfold onz.
      destruct (Nat.eqb_spec (T u) 0) as [Z|]; [rewrite Z; destruct (vget d i)|]; reflexivity.
Qed.
Definition profile_of : list (Z * Z) := map (fun u => (Z.of_nat (T u), Z.of_nat (F u))) (gnodes G).
Lemma pairs_any d t : dvec G d F -> dvec G t T ->
  lexsorted (vvalues (fill_tri t d)) (vvalues d) = Val (psort (combine (vvalues (fill_tri t d)) (vvalues d))) /\
  Permutation (repeat (0, 0)%Z (n - nvals d) ++ combine (vvalues (fill_tri t d)) (vvalues d)) profile_of.
Proof.
  intros Hd Ht. destruct (fill_any d t Hd Ht) as (Hs & Hh & Hv). destruct (combine_values _ _ Hs Hh) as [HL HC].
  split; [unfold lexsorted; rewrite HL, Nat.eqb_refl; reflexivity|]. rewrite HC. set (w := fill_tri t d) in *.
  assert (E : profile_of = map (fun i => (oz (vget w i), oz (vget d i))) (map snd (g_kid G))).
  { unfold profile_of. rewrite <- (gnodes_kid G wf), map_map. apply map_ext_in. intros u Hu. apply node_kid in Hu as [i Hi]. rewrite Hi. cbn [oget].
    rewrite (Hv u i Hi), (proj2 Hd u i Hi). unfold onz. destruct (Nat.eqb_spec (F u) 0) as [Z|]; [rewrite Z|]; reflexivity. }
  rewrite E. transitivity (map (fun i => (oz (vget w i), oz (vget d i))) (seq 0 n)).
  - unfold nvals. rewrite (proj1 Hd). rewrite <- (seq_length n 0) at 1.
    replace (cnt n (fun i => has (vget d i))) with (List.length (filter (fun i => has (vget d i)) (seq 0 n))) by reflexivity.
    assert (Z0 : forall i, vget d i = None -> oz (vget w i) = 0%Z) by (intros i Hi; specialize (Hh i); rewrite Hi in Hh; destruct (vget w i); [discriminate|reflexivity]).
    clear - Z0. induction (seq 0 n) as [|i l IH]; [reflexivity|]. cbn [List.length filter map flat_map].
    destruct (vget d i) as [x|] eqn:Ei; cbn [has oz].
    + cbn [List.length map app]. rewrite Nat.sub_succ. rewrite <- IH. symmetry. apply Permutation_middle.
    + rewrite Nat.sub_succ_l by (clear; induction l as [|y l IH]; simpl; [lia|]; destruct (has (vget d y)); simpl; lia). rewrite (Z0 i Ei). simpl. constructor. exact IH.
  - apply Permutation_map. symmetry. apply wf.
Qed.
End P.

(** ** the call *)
Section Run.
Variable G : graph.
Hypothesis wf : gwf G.
Hypothesis D : g_dir G = true.
Lemma seen_vec : dvec G (triangles_gen Z.add op_pairz (fun C _ => C) (den_mat G (KL SM)) (den_mat G (KU SM)) None) (seen_triangles G).
Proof.
  split; [unfold triangles_gen, vunion, mred_row, mrestrict, mselect, mxm; cbn [omask den_mat]; rewrite ?vsize_vbuild, ?nrows_mbuild; reflexivity|].
  intros u i Hu. rewrite (seen_id G wf u i Hu). apply triangles_vec. exact (kid_lt G wf _ _ Hu).
Qed.
Lemma seen_deg u : node G u -> ndeg G u = 0 -> seen_triangles G u = 0.
Proof.
  intros Hn H. unfold ndeg in H. rewrite D in H.
  assert (E1 : forall v, node G v -> has_edge G u v = false).
  { assert (H0 : out_degree G u = 0) by lia. unfold out_degree in H0. rewrite count_zero in H0. exact H0. }
  unfold seen_triangles.
  assert (C : forall p : nkey * nkey -> bool, (forall q, node G (fst q) -> node G (snd q) -> p q = false) -> count p (pairs (gnodes G)) = 0).
  { intros p Hp. apply count_zero. intros [v w] Hq. apply in_prod_iff in Hq as [Hv Hw]. apply (Hp (v, w)); assumption. }
  rewrite !C; [reflexivity| | |]; intros [v w] Hv Hw; cbn [fst snd] in *; rewrite ?(E1 v Hv), ?(E1 w Hw), ?andb_false_r; reflexivity.
Qed.
Lemma triangles_dir b s : InvF G b s ->
  fst (triangles G None s) = Val (triangles_gen Z.add op_pairz (fun C _ => C) (den_mat G (KL SM)) (den_mat G (KU SM)) None) /\
  InvF G b (snd (triangles G None s)).
Proof.
  intros HI. unfold triangles, get_LU.
  assert (HU : GV G b (get_Um G) (den_mat G (KU SM)) any).
  { unfold get_Um. rewrite D. eapply get_minus_d_ok; eauto using triK_U, triK_L, KU_KL. }
  assert (HL : GV G b (get_Lm G) (den_mat G (KL SM)) any).
  { unfold get_Lm. rewrite D. eapply get_minus_d_ok; eauto using triK_U, triK_L. intros E. symmetry in E. exact (KU_KL E). }
  pose proof (HU s HI) as H1. unfold wp in H1. unfold bind. destruct (get_Um G s) as [o s1]. cbn [fst snd] in H1. destruct H1 as (-> & I1 & _).
  pose proof (HL s1 I1) as H2. unfold wp in H2. destruct (get_Lm G s1) as [o s2]. cbn [fst snd] in H2. destruct H2 as (-> & I2 & _).
  split; [reflexivity|exact I2].
Qed.
End Run.

Lemma profile_of_perm G1 G2 F1 T1 F2 T2 :
  Permutation (profile_of G1 F1 T1) (profile_of G2 F2 T2) <->
  Permutation (map (fun u => (F1 u, T1 u)) (gnodes G1)) (map (fun u => (F2 u, T2 u)) (gnodes G2)).
Proof.
  assert (E : forall G F T, profile_of G F T = map (fun p => (Z.of_nat (snd p), Z.of_nat (fst p))) (map (fun u => (F u, T u)) (gnodes G))) by (intros; unfold profile_of; rewrite map_map; reflexivity).
  rewrite !E. apply perm_map_inj. intros [a b] [c d] X. cbn [fst snd] in X. injection X as X1 X2. f_equal; lia.
Qed.


(** what counts as a node's triangles, and what consistency the cache needs, by kind of graph *)
Definition triangles_of (G : graph) (u : nkey) : nat := if g_dir G then seen_triangles G u else triangles_at G u.
Definition consistent (G : graph) (s : st) : Prop := if g_dir G then InvF G false s else Inv G s.
Definition degree_triangles (G : graph) : list (nat * nat) := map (fun u => (ndeg G u, triangles_of G u)) (gnodes G).
Lemma ndeg_undirected G u : g_dir G = false -> ndeg G u = out_degree G u.
Proof. unfold ndeg. intros ->. reflexivity. Qed.
Lemma both_vectors G : gwf G -> exists d t, dvec G d (ndeg G) /\ dvec G t (triangles_of G) /\
  (forall u, node G u -> ndeg G u = 0 -> triangles_of G u = 0) /\
  (forall s, consistent G s -> fst (degrees_plus G s) = Val d /\ consistent G (snd (degrees_plus G s))) /\
  (forall s, consistent G s -> fst (triangles G None s) = Val t /\ consistent G (snd (triangles G None s))).
Proof.
  intros wf. unfold consistent. destruct (g_dir G) eqn:D.
  - destruct (degrees_plus_ok G wf) as (d & Hd & A). exists d. eexists. split; [exact Hd|].
    assert (E : triangles_of G = seen_triangles G) by (unfold triangles_of; rewrite D; reflexivity).
    split; [|split; [|split]].
    + rewrite E. apply seen_vec. exact wf.
    + intros u Hu H. rewrite E. apply seen_deg; assumption.
    + intros s HI. destruct (A s HI) as (H1 & H2 & _). split; [symmetry; exact H1|exact H2].
    + intros s HI. apply triangles_dir; assumption.
  - destruct (deg_ok G wf D) as (d & Hd & A). destruct (tri_ok G wf D) as (t & Ht & B). exists d, t.
    assert (E : triangles_of G = triangles_at G) by (unfold triangles_of; rewrite D; reflexivity).
    split; [split; [exact (proj1 Hd)|intros u i Hu; rewrite (ndeg_undirected G u D); exact (proj2 Hd u i Hu)]|].
    split; [rewrite E; exact Ht|]. split; [|split].
    + intros u Hu H. rewrite E. rewrite (ndeg_undirected G u D) in H. apply tri_deg; assumption.
    + intros s HI. destruct (A s HI) as [H1 H2]. split; [symmetry; exact H1|exact H2].
    + intros s HI. destruct (B s HI) as [H1 H2]. split; [symmetry; exact H1|exact H2].
Qed.
(** fast_could_be_isomorphic(G1, G2), of any two graphs (one of them may be directed and the other not), says True exactly
    when the nodes have the same (degree, number of triangles) pairs, with multiplicity; the triangles of a DiGraph are the
    [seen_triangles].  For DiGraphs in every state, also after the history that confuses has_self_edges (C02). *)
Theorem C54_fast_exact G1 G2 s1 s2 : gwf G1 -> gwf G2 -> consistent G1 s1 -> consistent G2 s2 ->
  match nx_fast_could_be_isomorphic G1 G2 s1 s2 with (o, s1', s2') =>
    (exists b, o = Val b /\ (b = true <-> Permutation (degree_triangles G1) (degree_triangles G2))) /\ consistent G1 s1' /\ consistent G2 s2' end.
Proof.
  intros wf1 wf2 I1 I2. unfold nx_fast_could_be_isomorphic.
  destruct (both_vectors G1 wf1) as (d1 & t1 & Hd1 & Ht1 & Z1 & A1 & B1).
  destruct (both_vectors G2 wf2) as (d2 & t2 & Hd2 & Ht2 & Z2 & A2 & B2).
  assert (LEN : Permutation (degree_triangles G1) (degree_triangles G2) -> glen G1 = glen G2).
  { intros P. apply Permutation.Permutation_length in P. unfold degree_triangles in P. rewrite !map_length in P. rewrite <- (len_nodes G1 wf1), <- (len_nodes G2 wf2). assumption. }
  destruct (Nat.eqb_spec (glen G1) (glen G2)) as [EL|NL]; cbn [negb].
  2:{ split; [|auto]. exists false. split; [reflexivity|]. split; [discriminate|]. intros P. apply LEN in P. contradiction. }
  destruct (A1 s1 I1) as (E1 & J1). destruct (A2 s2 I2) as (E2 & J2).
  destruct (degrees_plus G1 s1) as [o1 s1']. destruct (degrees_plus G2 s2) as [o2 s2']. cbn [fst snd] in *. subst o1 o2.
  destruct (Nat.eqb_spec (nvals d1) (nvals d2)) as [EN|NN]; cbn [negb].
  2:{ split; [|auto]. exists false. split; [reflexivity|]. split; [discriminate|]. intros P. exfalso. apply NN.
      rewrite (dvec_nvals G1 wf1 d1 _ Hd1), (dvec_nvals G2 wf2 d2 _ Hd2). exact (perm_count2 _ _ (fun p => 0 <? fst p) _ _ P). }
  destruct (B1 s1' J1) as [F1 K1]. destruct (B2 s2' J2) as [F2 K2].
  destruct (triangles G1 None s1') as [o1 s1'']. destruct (triangles G2 None s2') as [o2 s2'']. cbn [fst snd] in *. subst o1 o2.
  destruct (Nat.eqb_spec (nvals t1) (nvals t2)) as [ET|NT]; cbn [negb].
  2:{ split; [|auto]. exists false. split; [reflexivity|]. split; [discriminate|]. intros P. exfalso. apply NT.
      rewrite (dvec_nvals G1 wf1 t1 _ Ht1), (dvec_nvals G2 wf2 t2 _ Ht2). exact (perm_count2 _ _ (fun p => 0 <? snd p) _ _ P). }
  split; [|auto]. unfold fast_core.
  destruct (pairs_any G1 wf1 _ _ Z1 d1 t1 Hd1 Ht1) as [-> P1].
  destruct (pairs_any G2 wf2 _ _ Z2 d2 t2 Hd2 Ht2) as [-> P2].
  set (c1 := combine _ _) in *. set (c2 := combine (vvalues (fill_tri t2 d2)) _) in *.
  assert (Q : psort c1 = psort c2 <-> Permutation (degree_triangles G1) (degree_triangles G2)).
  { unfold degree_triangles. rewrite psort_eq, <- profile_of_perm. rewrite <- P1, <- P2, EN, EL. split; [intros P; apply Permutation_app_head; exact P|apply Permutation_app_inv_l]. }
  eexists. split; [reflexivity|]. rewrite <- Q.
  destruct (zlist_eqb (map snd (psort c1)) (map snd (psort c2))) eqn:X; cbn [negb].
  - apply zlist_eqb_eq in X. destruct (zlist_eqb (map fst (psort c1)) (map fst (psort c2))) eqn:Y; cbn [negb].
    + apply zlist_eqb_eq in Y. split; [|reflexivity]. intros _. apply pair_lists; assumption.
    + split; [discriminate|]. intros E. rewrite E, zlist_eqb_refl in Y. discriminate.
  - split; [discriminate|]. intros E. rewrite E, zlist_eqb_refl in X. discriminate.
Qed.


(** two DiGraphs *)
Theorem C54_fast_directed_exact G1 G2 s1 s2 : gwf G1 -> gwf G2 -> g_dir G1 = true -> g_dir G2 = true -> InvF G1 false s1 -> InvF G2 false s2 ->
  match nx_fast_could_be_isomorphic G1 G2 s1 s2 with (o, s1', s2') =>
    (exists b, o = Val b /\ (b = true <-> Permutation (degree_seen_list G1) (degree_seen_list G2))) /\ InvF G1 false s1' /\ InvF G2 false s2' end.
Proof.
  intros wf1 wf2 D1 D2. pose proof (C54_fast_exact G1 G2 s1 s2 wf1 wf2) as H. revert H.
  unfold consistent, degree_triangles, degree_seen_list, triangles_of. rewrite D1, D2. intros H I1 I2. exact (H I1 I2).
Qed.

(** ** Non-vacuity: the two numberings of the transitive triangle *)
Definition g_up : graph := mkg true 3 [(0, 1, 1%Z); (1, 2, 1%Z); (0, 2, 1%Z)].
Definition g_down : graph := mkg true 3 [(2, 1, 1%Z); (1, 0, 1%Z); (2, 0, 1%Z)].
Example C54_fast_directed_case :
  gwf g_up /\ gwf g_down /\ degree_seen_list g_up = [(2, 0); (2, 0); (2, 0)] /\ degree_seen_list g_down = [(2, 0); (2, 1); (2, 1)] /\
  fst (fst (nx_fast_could_be_isomorphic g_up g_down st0 st0)) = Val false /\
  fst (fst (nx_fast_could_be_isomorphic g_down g_down st0 st0)) = Val true.
Proof. split; [apply mkg_wf|]. split; [apply mkg_wf|]. repeat split; vm_compute; reflexivity. Qed.
Example C54_fast_mixed_case :
  consistent (mkg true 2 [(0, 1, 1%Z)]) st0 /\ consistent (mkg false 2 [(0, 1, 1%Z)]) st0 /\
  fst (fst (nx_fast_could_be_isomorphic (mkg true 2 [(0, 1, 1%Z)]) (mkg false 2 [(0, 1, 1%Z)]) st0 st0)) = Val true.
Proof. split; [exact (Inv_st0 _ false)|]. split; [exact (Inv_st0 _ true)|]. vm_compute. reflexivity. Qed.
Print Assumptions C54_fast_directed_exact.
Print Assumptions C54_fast_exact.
