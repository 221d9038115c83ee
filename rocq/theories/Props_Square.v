(** * C23: square clustering *)
From Verif Require Import Base BaseProofs Model_Graph Model_Cache Spec_Cache CacheMath CacheProofs CacheProofs2
  Model_Keys Spec KeyProofs Spec_Run RunProofs Model_Utils UtilsProofs Props_Utils Model_Operators OperatorProofs Spec_Count Model_Measures CountProofs Props_Cuts
  Model_Cluster ClusterMath ClusterMath2 Spec_Cluster ClusterProofs Props_Cluster SquareMath SquareProofs Concrete.
From Coq Require Import QArith Qcanon.
Open Scope nat_scope.

(** every edge weighs 1, as in a graph converted from networkx without [weight] *)
Definition unit_weights (G : graph) : Prop := forall u v x, weight G u v = Some x -> x = 1%Z.

Section C.
Variable G : graph.
Hypothesis wf : gwf G.
Hypothesis D : g_dir G = false.
Hypothesis LF : loop_free G.
Hypothesis UW : unit_weights G.
Notation n := (glen G).

Lemma unit_weights_ids : unit_ids G.
Proof.
  intros i j x H. destruct (mget_some_lt _ _ _ _ (HmA G wf) H) as [Hi Hj]. rewrite (Hsq G wf) in Hj.
  destruct (kid_key G wf i Hi) as [u Hu], (kid_key G wf j Hj) as [v Hv]. apply (UW u v). unfold weight. rewrite Hu, Hv. assumption.
Qed.
Notation UI := unit_weights_ids.
Notation val := (square_at G (nbr G)).

Lemma chunks_of si c (ids : list nat) : c <> 1%Z \/ si = true ->
  exists ls, map (chunk_ids si) (partition c ids true) = map Val ls /\ List.concat ls = ids /\ (ls = [] <-> ids = []).
Proof.
  intros H. destruct (Z.eq_dec c 1) as [->|Nc].
  - destruct H as [H|Hsi]; [contradiction|]. unfold partition. destruct (Nat.eqb_spec (List.length ids) 0) as [E|E].
    { exists []. destruct ids; [|discriminate]. split; [reflexivity|]. split; [reflexivity|]. split; reflexivity. }
    destruct ((1 <=? 0) || (1 >=? Z.of_nat (List.length ids)))%Z.
    { exists [ids]. cbn. rewrite app_nil_r. repeat split; try discriminate. intros ->. destruct E. reflexivity. }
    rewrite Z.eqb_refl. exists (map (fun i => [i]) ids). split; [rewrite !map_map; apply map_ext; intros; cbn; rewrite Hsi; reflexivity|].
    split; [clear; induction ids; cbn; [reflexivity|f_equal; assumption]|]. destruct ids; [split; reflexivity|split; discriminate].
  - destruct (C66_partition c ids true Nc) as (ls & E & Ec & Hl). exists ls. split; [rewrite E, !map_map; reflexivity|]. split; [assumption|].
    split; [intros ->; symmetry; exact Ec|]. intros ->. destruct ls as [|l ls]; [reflexivity|]. destruct (Hl l (or_introl eq_refl)) as [Hll _].
    destruct l; [cbn in Hll; lia|discriminate].
Qed.
Lemma split_ok si c ids : c <> 1%Z \/ si = true ->
  let l := match ids with Some l => l | None => vindices (red_row RAny (g_A G)) end in
  answers G (square_clustering_split G si ids c) (fun o =>
    match l with [] => o = Val None | _ => exists r, o = Val (Some r) /\ sqvec G (fun i => existsb (Nat.eqb i) l) r end).
Proof.
  intros H l. unfold square_clustering_split. fold l. destruct (chunks_of si c l H) as (ls & E1 & E2 & E3).
  eapply answers_conseq; [apply (square_chunks_ok G wf D LF UI si _ ls (fun _ => false) None E1 I)|]. cbv beta. intros o Ho.
  destruct ls as [|a ls].
  - rewrite (proj1 E3 eq_refl). exact Ho.
  - destruct l as [|b l']; [discriminate (proj2 E3 eq_refl)|]. rewrite <- E2. exact Ho.
Qed.
Lemma any_row i : existsb (Nat.eqb i) (vindices (red_row RAny (g_A G))) = has (vget (red_row RAny (g_A G)) i).
Proof.
  apply eq_true_iff_eq. rewrite existsb_exists. split.
  - intros (j & Hj & E). apply Nat.eqb_eq in E. subst j. apply in_vindices. assumption.
  - intros H. exists i. split; [apply in_vindices; assumption|apply Nat.eqb_refl].
Qed.
Lemma any_row_ee i : has (vget (red_row RAny (g_A G)) i) = true <-> exists j, j < n /\ ee G i j.
Proof.
  unfold red_row. rewrite vget_mred_row by apply mwf_mbuild. unfold mmap at 1. rewrite ncols_mbuild, (Hsq G wf). rewrite has_ored_true.
  assert (E : forall j, has (mget (mmap (rmap RAny) (g_A G)) i j) = has (ent G SM i j)).
  { intros j. rewrite mget_mmap by apply (HmA G wf). rewrite (noself_ent G wf i j (lf_self G wf LF)). destruct (mget (g_A G) i j); reflexivity. }
  split; intros (j & Hj & H); exists j; (split; [assumption|]); unfold ee in *; rewrite E in *; assumption.
Qed.
(** all nodes *)
Lemma all_map r R : (forall i, i < n -> sqz G i <> 0%Z -> R i = true) -> sqvec G R r ->
  is_map (to_nodemap_fill G 0%Qc r) (fun k x => node G k /\ x = val k).
Proof.
  intros HR Hr. apply (is_map_fill G wf). intros k i Hk. rewrite (square_at_id G wf D LF k i Hk).
  rewrite <- (proj1 (VX_entry G 0%Qc r _ _ i Hr)). pose proof (kid_lt G wf _ _ Hk) as Li. destruct (Nat.ltb_spec i n) as [_|]; [|unfold glen in *; lia]. cbn [andb].
  destruct (R i) eqn:E; [reflexivity|]. apply sqv_0. destruct (Z.eq_dec (sqz G i) 0) as [|N]; [assumption|]. rewrite (HR i Li N) in E. discriminate.
Qed.
(** listed nodes *)
Lemma some_map r l ids : mapO (kid G) l = Some ids -> sqvec G (fun i => existsb (Nat.eqb i) ids) r ->
  is_map (to_nodemap G r) (fun k x => In k l /\ squares_at G (nbr G) k <> 0%Z /\ x = val k).
Proof.
  intros Hl Hr. apply (is_map_intro G wf); [destruct Hr as [-> _]; reflexivity|]. intros k x.
  assert (Hex : forall i, kid G k = Some i -> (existsb (Nat.eqb i) ids = true <-> In k l)).
  { intros i Hk. rewrite existsb_exists. split.
    - intros (j & Hj & E). apply Nat.eqb_eq in E. subst j. destruct (mapO_in _ _ _ Hl i) as [X _]. destruct (X Hj) as (k' & Hk' & Hi). rewrite (kid_inj G wf k k' i Hk Hi). assumption.
    - intros Hin. exists i. split; [|apply Nat.eqb_refl]. apply (mapO_in _ _ _ Hl). eauto. }
  destruct Hr as [Hs Hr]. split.
  - intros (Hin & Hsq & ->). assert (Hk : exists i, kid G k = Some i).
    { destruct (kid G k) as [i|] eqn:E; [eauto|]. assert (mapO (kid G) l = None) by (apply mapO_none; eauto). congruence. }
    destruct Hk as [i Hk]. exists i. split; [assumption|]. destruct (Hr i) as [H1 H2]. pose proof (kid_lt G wf _ _ Hk) as Li.
    rewrite (squares_at_id G wf k i Hk) in Hsq. rewrite (square_at_id G wf D LF k i Hk).
    assert (Hh : has (vget r i) = true) by (apply H1; split; [exact Li|]; split; [apply Hex; assumption|assumption]).
    destruct (vget r i) as [q|]; [|discriminate]. f_equal. unfold eval, id in H2. rewrite H2. destruct (Nat.ltb_spec i n); [|unfold glen in *; lia].
    rewrite (proj2 (Hex i Hk) Hin). reflexivity.
  - intros (i & Hk & Hx). destruct (Hr i) as [H1 H2]. rewrite Hx in H1, H2. destruct (proj1 H1 eq_refl) as (Li & Hi & Hsq). split; [apply (Hex i Hk); assumption|].
    rewrite (squares_at_id G wf k i Hk). split; [assumption|]. rewrite (square_at_id G wf D LF k i Hk). unfold eval, id in H2. rewrite H2.
    destruct (Nat.ltb_spec i n); [|lia]. rewrite Hi. reflexivity.
Qed.
(** [cs] is the normalised chunk size (C67); chunks of one node are bare ids (C66_partition_unit_refuted) *)
Theorem C23_square_clustering_partial a si cs : cs <> Some 1%Z \/ si = true -> (forall k, a = OneNode k -> node G k) ->
  answers G (nx_square_clustering G a si (Val cs)) (fun o =>
    match o with
    | Val REmpty => gnodes G = []
    | Val (ROne q) => exists k, a = OneNode k /\ q = val k
    | Val (RMap (Some m)) =>
        match a with
        | AllNodes => is_map m (fun k x => node G k /\ x = val k)
        | Nodes l => is_map m (fun k x => In k l /\ squares_at G (nbr G) k <> 0%Z /\ x = val k)
        | OneNode _ => False
        end
    | Val (RMap None) => cs <> None /\ (a = Nodes [] \/ (a = AllNodes /\ forall u v, ~ edge G u v))
    | Raise e => e = EKey /\ exists l u, a = Nodes l /\ In u l /\ ~ node G u
    end).
Proof.
  intros Hc Ha. unfold nx_square_clustering. destruct (Nat.eqb_spec n 0) as [E|E].
  { apply answers_ret. apply (no_nodes G wf). assumption. }
  eapply answers_bind_v; [apply answers_lifto; reflexivity|].
  assert (Hc' : forall c, cs = Some c -> c <> 1%Z \/ si = true) by (intros c ->; destruct Hc as [Hc|]; [left; congruence|right; assumption]).
  destruct a as [|k|l].
  - destruct cs as [c|].
    + eapply (answers_bind G _ _ _); [apply (split_ok si c None (Hc' c eq_refl))| |].
      * cbv zeta beta iota. intros r Hr. apply answers_ret. destruct (vindices (red_row RAny (g_A G))) as [|x l] eqn:Ei.
        -- injection Hr as ->. cbn [omap]. split; [discriminate|]. right. split; [reflexivity|]. intros u v [w Hw].
           unfold weight in Hw. destruct (kid G u) as [i|] eqn:Hi; [|discriminate]. destruct (kid G v) as [j|] eqn:Hj; [|discriminate]. rename Hw into Hm.
           assert (has (vget (red_row RAny (g_A G)) i) = true).
           { apply any_row_ee. exists j. split; [exact (kid_lt G wf _ _ Hj)|]. unfold ee. rewrite (noself_ent G wf i j (lf_self G wf LF)), Hm. reflexivity. }
           apply in_vindices in H. rewrite Ei in H. destruct H.
        -- destruct Hr as (r' & [= ->] & Hr). cbn [omap]. apply (all_map r' _) with (2 := Hr). intros i Li Hs. rewrite <- Ei, any_row. apply any_row_ee.
           assert (Hd : (2 <= dg n (cf G 0%Z (fun _ => 1%Z)) i)%Z) by (apply (sq2_deg G wf LF); rewrite (sqz2 G i); lia).
           destruct (find_below n (fun j => has (ent G SM i j))) as [(j & Hj & He)|Hn]; [exists j; auto|]. exfalso.
           assert (dg n (cf G 0%Z (fun _ => 1%Z)) i = 0%Z); [|lia]. apply zs_zero. intros j Hj. unfold cf. specialize (Hn j Hj). destruct (ent G SM i j); [discriminate|reflexivity].
      * cbv zeta beta iota. intros e. destruct (vindices _); [discriminate|intros (r & H & _); discriminate].
    + destruct (square_clustering_ok G wf D LF UI None) as (r & H1 & H2). eapply answers_bind_v; [eapply answers_bind_v; [exact H1|apply answers_ret; reflexivity]|].
      apply answers_ret. cbn [omap]. apply (all_map r (fun _ => true)); [auto|]. exact H2.
  - cbn [arg_node]. pose proof (Ha k eq_refl) as Hk. apply node_kid in Hk as [i Hi]. rewrite Hi.
    eapply answers_bind_v; [apply (single_square_ok G wf D LF UI i (kid_lt G wf _ _ Hi))|]. apply answers_ret. exists k. split; [reflexivity|].
    symmetry. apply (square_at_id G wf D LF). assumption.
  - cbn [arg_node]. eapply answers_bind_v; [apply answers_ret; reflexivity|]. unfold list_to_ids.
    change (mapO (dget (g_kid G)) l) with (mapO (kid G) l). destruct (mapO (kid G) l) as [ids|] eqn:El; cbn [okey].
    + eapply answers_bind_v; [apply answers_lifto; reflexivity|]. destruct cs as [c|].
      * eapply (answers_bind G _ _ _); [apply (split_ok si c (Some ids) (Hc' c eq_refl))| |].
        -- cbv zeta beta iota. intros r Hr. apply answers_ret. destruct ids as [|x ids'].
           ++ injection Hr as ->. cbn [omap]. split; [discriminate|]. left. apply mapO_length in El. destruct l; [reflexivity|discriminate].
           ++ destruct Hr as (r' & [= ->] & Hr). cbn [omap]. apply (some_map r' l _ El). exact Hr.
        -- cbv zeta beta iota. intros e. destruct ids; [discriminate|intros (r & H & _); discriminate].
      * destruct (square_clustering_ok G wf D LF UI (Some ids)) as (r & H1 & H2). eapply answers_bind_v; [eapply answers_bind_v; [exact H1|apply answers_ret; reflexivity]|].
        apply answers_ret. cbn [omap]. apply (some_map r l ids El). exact H2.
    + eapply answers_bind_e; [apply answers_lifto; reflexivity|]. split; [reflexivity|]. apply mapO_none in El as (u & Hu & Nu). exists l, u.
      split; [reflexivity|]. split; [assumption|]. intros H. apply node_kid in H as [i Hi]. congruence.
Qed.
End C.

(** existing squares never outnumber the possible ones, and the value is a ratio of non-negative integers *)
Theorem C23_ratio G v : gwf G -> g_dir G = false -> loop_free G -> node G v ->
  (0 <= squares_at G (nbr G) v <= possible_at G (nbr G) v)%Z.
Proof.
  intros wf D LF Hv. apply node_kid in Hv as [i Hi]. rewrite (squares_at_id G wf v i Hi), (possible_at_id G wf D LF v i Hi).
  split; [apply sqz_nonneg|]. apply (poz_ge G wf D). exact (kid_lt G wf _ _ Hi).
Qed.

(** a DiGraph is not refused: it fails with KeyError for every set of nodes there is something to compute for *)
Theorem C23_directed G k si : g_dir G = true -> node G k -> 0 < glen G -> raises G (nx_square_clustering G (OneNode k) si (Val None)) EKey /\ raises G (nx_square_clustering G AllNodes si (Val None)) EKey.
Proof.
  intros D Hk Hl. apply node_kid in Hk as [i Hi]. unfold nx_square_clustering. destruct (Nat.eqb_spec (glen G) 0) as [E|E]; [lia|].
  split; (eapply answers_bind_v; [apply answers_lifto; reflexivity|]).
  - cbn [arg_node]. rewrite Hi. eapply answers_bind_e; [|reflexivity]. unfold single_square_clustering, get_degrees_A. rewrite D.
    eapply answers_bind_e; [apply answers_raise; reflexivity|reflexivity].
  - eapply answers_bind_e; [|reflexivity]. unfold square_clustering, get_degrees_A. rewrite D.
    eapply answers_bind_e; [apply answers_raise; reflexivity|reflexivity].
Qed.
(** ** Defects *)
(** [nodes=[...]]: a requested node that is in no square gets no value at all, although asking for it alone
    gives 0 *)
Definition g_sq : graph := mkg false 5 [(0, 1, 1%Z); (1, 2, 1%Z); (2, 3, 1%Z); (0, 3, 1%Z); (3, 4, 1%Z)].
Lemma g_sq_wf : gwf g_sq. Proof. apply mkg_wf. Qed.
Lemma g_sq_lf : loop_free g_sq. Proof. apply loop_free_mkg. vm_compute. reflexivity. Qed.
Lemma unit_weights_all G : gwf G -> forallb (fun i => forallb (fun j => match mget (g_A G) i j with Some x => (x =? 1)%Z | None => true end) (seq 0 (glen G))) (seq 0 (glen G)) = true -> unit_weights G.
Proof.
  intros wf H u v x. unfold weight. destruct (kid G u) as [i|] eqn:Ei; [|discriminate]. destruct (kid G v) as [j|] eqn:Ej; [|discriminate].
  pose proof (kid_lt G wf _ _ Ei). pose proof (kid_lt G wf _ _ Ej). rewrite forallb_forall in H.
  specialize (H i ltac:(apply in_seq; unfold glen; lia)). rewrite forallb_forall in H. specialize (H j ltac:(apply in_seq; unfold glen; lia)).
  intros E. rewrite E in H. apply Z.eqb_eq. exact H.
Qed.
Lemma g_sq_unit : unit_weights g_sq. Proof. apply unit_weights_all; [apply mkg_wf|vm_compute; reflexivity]. Qed.
Theorem C23_nodes_refuted : node g_sq (KI 4) /\
  exists m, fst (nx_square_clustering g_sq (Nodes [KI 0; KI 4]) true (Val None) st0) = Val (RMap (Some m)) /\ nm_getitem m (KI 4) = Raise EKey /\
  fst (nx_square_clustering g_sq (OneNode (KI 4)) true (Val None) st0) = Val (ROne 0%Qc).
Proof.
  split; [unfold node; vm_compute; auto 10|]. eexists. split; [vm_compute; reflexivity|]. split; vm_compute; reflexivity.
Qed.
(** a Graph that carries weights: the number of possible squares is computed from them *)
Definition g_sqw : graph := mkg false 4 [(0, 1, 3%Z); (1, 2, 3%Z); (2, 3, 3%Z); (0, 3, 3%Z)].
Theorem C23_weights_refuted : gwf g_sqw /\ loop_free g_sqw /\ square_at g_sqw (nbr g_sqw) (KI 0) = 1%Qc /\
  exists q, fst (nx_square_clustering g_sqw (OneNode (KI 0)) true (Val None) st0) = Val (ROne q) /\ q = Q2Qc (1 # 9).
Proof.
  split; [apply mkg_wf|]. split; [apply loop_free_mkg; vm_compute; reflexivity|]. split; [apply Qc_is_canon; vm_compute; reflexivity|].
  eexists. split; [vm_compute; reflexivity|]. apply Qc_is_canon. vm_compute. reflexivity.
Qed.
(** with a self-loop the value is neither the one that ignores self-loops nor the one that counts a node
    with a self-loop among its own neighbours *)
Definition g_sql : graph := mkg false 4 [(0, 1, 1%Z); (1, 2, 1%Z); (2, 3, 1%Z); (0, 3, 1%Z); (0, 0, 1%Z)].
Theorem C23_self_loop_refuted : gwf g_sql /\ unit_weights g_sql /\
  square_at g_sql (nbr g_sql) (KI 0) = 1%Qc /\ square_at g_sql (has_edge g_sql) (KI 0) = Q2Qc (1 # 3) /\
  exists q, fst (nx_square_clustering g_sql (OneNode (KI 0)) true (Val None) st0) = Val (ROne q) /\ q = Q2Qc (1 # 5).
Proof.
  split; [apply mkg_wf|]. split; [apply unit_weights_all; [apply mkg_wf|vm_compute; reflexivity]|]. split; [apply Qc_is_canon; vm_compute; reflexivity|].
  split; [apply Qc_is_canon; vm_compute; reflexivity|]. eexists. split; [vm_compute; reflexivity|]. apply Qc_is_canon. vm_compute. reflexivity.
Qed.
(** chunks on a graph without edges: the answer wraps python's None; one node per chunk: a bare id goes
    where an index array is expected *)
Theorem C23_chunks_refuted :
  (exists G, gwf G /\ loop_free G /\ unit_weights G /\ glen G = 3 /\
     fst (nx_square_clustering G AllNodes true (Val (Some 2%Z)) st0) = Val (RMap None)) /\
  fst (nx_square_clustering g_sq AllNodes false (Val (Some 1%Z)) st0) = Raise EType.
Proof.
  split; [|vm_compute; reflexivity]. exists (mkg false 3 []). split; [apply mkg_wf|]. split; [apply loop_free_mkg; vm_compute; reflexivity|].
  split; [apply unit_weights_all; [apply mkg_wf|vm_compute; reflexivity]|]. split; vm_compute; reflexivity.
Qed.
(** the hypotheses are met, and the chunked answer is the unchunked one *)
Example C23_ex : gwf g_sq /\ g_dir g_sq = false /\ loop_free g_sq /\ unit_weights g_sq /\
  square_at g_sq (nbr g_sq) (KI 0) = Q2Qc (1 # 2) /\ square_at g_sq (nbr g_sq) (KI 3) = Q2Qc (1 # 3) /\
  exists m m' q q', fst (nx_square_clustering g_sq AllNodes false (Val (Some 2%Z)) st0) = Val (RMap (Some m)) /\ nm_getitem m (KI 3) = Val q /\ q = Q2Qc (1 # 3) /\
    nm_getitem m (KI 4) = Val 0%Qc /\
    fst (nx_square_clustering g_sq AllNodes false (Val None) st0) = Val (RMap (Some m')) /\ nm_getitem m' (KI 3) = Val q' /\ q' = q.
Proof.
  split; [apply mkg_wf|]. split; [reflexivity|]. split; [apply g_sq_lf|]. split; [apply g_sq_unit|].
  split; [apply Qc_is_canon; vm_compute; reflexivity|]. split; [apply Qc_is_canon; vm_compute; reflexivity|].
  do 4 eexists. split; [vm_compute; reflexivity|]. split; [vm_compute; reflexivity|]. split; [apply Qc_is_canon; vm_compute; reflexivity|].
  split; [vm_compute; reflexivity|]. split; [vm_compute; reflexivity|]. split; [vm_compute; reflexivity|]. apply Qc_is_canon; vm_compute; reflexivity.
Qed.
Print Assumptions C23_square_clustering_partial.
Print Assumptions C23_ratio.
Print Assumptions C23_nodes_refuted.
Print Assumptions C23_weights_refuted.
Print Assumptions C23_self_loop_refuted.
Print Assumptions C23_chunks_refuted.
