(** * C20-C22: triangles, transitivity, clustering *)
From Verif Require Import Base BaseProofs Model_Graph Model_Cache Spec_Cache CacheMath CacheProofs CacheProofs2
  Model_Keys Spec KeyProofs Spec_Run RunProofs Model_Operators OperatorProofs Spec_Count Model_Measures CountProofs Props_Cuts
  Model_Cluster ClusterMath ClusterMath2 Spec_Cluster ClusterProofs Concrete.
From Coq Require Import QArith Qcanon.
Open Scope nat_scope.

Section C.
Variable G : graph.
Hypothesis wf : gwf G.
Notation n := (glen G).

Lemma no_nodes : glen G = 0 -> gnodes G = [].
Proof. intros H. assert (L : List.length (gnodes G) = 0) by (unfold gnodes; rewrite map_length; rewrite (kok_len _ _ (gkok G wf)); assumption). destruct (gnodes G); [reflexivity|discriminate]. Qed.
Lemma arg_none a : (forall k, a = OneNode k -> node G k) -> arg_node G a = None -> forall k, a <> OneNode k.
Proof. intros H E k ->. cbn [arg_node] in E. specialize (H k eq_refl). apply node_kid in H as [i Hi]. congruence. Qed.

(** ** C20 *)
(** one node, several, or all; a node is given by a key of the graph *)
Theorem C20_triangles a : g_dir G = false -> (forall k, a = OneNode k -> node G k) ->
  answers G (nx_triangles G a) (fun o =>
    match o with
    | Val REmpty => gnodes G = []
    | Val (ROne t) => exists k, a = OneNode k /\ t = Z.of_nat (triangles_at G k)
    | Val (RMap m) => (forall k, a <> OneNode k) /\ is_map m (fun k x => wanted G a k /\ x = Z.of_nat (triangles_at G k))
    | Raise e => e = EKey /\ exists l u, a = Nodes l /\ In u l /\ ~ node G u
    end).
Proof.
  intros D Ha. unfold nx_triangles, only_undirected. rewrite D. destruct (Nat.eqb_spec n 0) as [E|E].
  { apply answers_ret. apply no_nodes. assumption. }
  destruct (arg_node G a) as [i|] eqn:Ei.
  - destruct a as [|k|l]; try discriminate. cbn [arg_node] in Ei. eapply answers_bind_v; [apply (single_triangle_ok G wf i D (kid_lt G wf _ _ Ei))|].
    apply answers_ret. exists k. split; [reflexivity|]. symmetry. apply triangles_at_id; assumption.
  - pose proof (arg_none a Ha Ei) as Hn.
    eapply (arg_map G wf 0%Z a _ (fun _ => False) (fun mask => triangles G mask) (tris G) (fun k => Z.of_nat (triangles_at G k)) (tri_exists G)).
    + intros u j Hu. apply triangles_at_id; assumption.
    + assumption.
    + intros mask. destruct (triangles_ok G wf mask D) as (r & Hr & Hs). eapply answers_conseq; [exact Hs|]. intros o <-. exact Hr.
    + contradiction.
    + intros l -> (u & Hu & Nu). split; [reflexivity|]. exists l, u. auto.
    + intros nm Hm. split; assumption.
Qed.
(** a key that is not in the graph: an int is not iterable, a str is read as its characters *)
Theorem C20_triangles_int z : g_dir G = false -> 0 < glen G -> ~ node G (KI z) -> raises G (nx_triangles G (OneNode (KI z))) EType.
Proof.
  intros D L Hz. unfold nx_triangles, only_undirected. rewrite D. destruct (Nat.eqb_spec n 0); [lia|]. cbn [arg_node].
  destruct (kid G (KI z)) as [i|] eqn:E; [destruct Hz; apply node_kid; eauto|]. eapply answers_bind_e; [|reflexivity].
  cbn [arg_vec iter_key]. eapply answers_bind_e; [apply answers_lifto; reflexivity|reflexivity].
Qed.
Definition chars (s : string) : list nkey := map (fun c => KS (String c EmptyString)) (list_ascii_of_string s).
Theorem C20_triangles_str s : ~ node G (KS s) -> nx_triangles G (OneNode (KS s)) = nx_triangles G (Nodes (chars s)).
Proof.
  intros H. unfold nx_triangles. cbn [arg_node]. destruct (kid G (KS s)) as [i|] eqn:E; [destruct H; apply node_kid; eauto|]. reflexivity.
Qed.
Theorem C20_triangles_directed a : g_dir G = true -> raises G (nx_triangles G a) ENotImpl.
Proof. intros D. unfold nx_triangles, only_undirected. rewrite D. apply answers_raise. reflexivity. Qed.
(** the value of an earlier call is kept under "transitivity" *)
Definition trans_cached (x : xcache) : Prop := forall q, x_trans x = Some q -> q = transitivity_of G.
Theorem C20_transitivity x : trans_cached x ->
  answers G (nx_transitivity G x) (fun o => exists x', o = Val (transitivity_of G, x') /\ trans_cached x' /\ x_avg x' = x_avg x).
Proof.
  intros Hx. unfold nx_transitivity. destruct (Nat.eqb_spec n 0) as [E|E].
  { apply answers_ret. exists x. split; [|auto]. f_equal. f_equal. unfold transitivity_of. rewrite (no_nodes E). reflexivity. }
  destruct (x_trans x) as [q|] eqn:Eq.
  - apply answers_ret. exists x. rewrite <- (Hx q Eq). auto.
  - eapply answers_bind_v; [apply (trans_ok G wf)|]. apply answers_ret. eexists. split; [reflexivity|]. split; [|reflexivity]. intros q [= <-]. reflexivity.
Qed.
(** on an undirected graph: 3 * triangles / triads, every triangle being counted at its three corners *)
Theorem C20_transitivity_undirected : g_dir G = false ->
  total (fun v => Z.of_nat (closed_pairs G v)) (gnodes G) = total (fun v => 2 * Z.of_nat (triangles_at G v))%Z (gnodes G).
Proof. intros D. apply total_ext. intros v _. rewrite (closed_pairs_tri G wf v D). lia. Qed.

(** ** C21, C22 *)
Variable mhr : bool.
Variable cbrt : Qc -> Qc.
(** undirected graphs, and directed ones without self-loops *)
Theorem C21_clustering weighted mx a : (g_dir G = true -> loop_free G) -> (forall k, a = OneNode k -> node G k) ->
  scale G weighted mx -> mx <> Some 0%Z ->
  answers G (nx_clustering mhr cbrt G a weighted) (fun o =>
    match o with
    | Val REmpty => gnodes G = []
    | Val (ROne t) => exists k, a = OneNode k /\ t = clustering_at G (coef G cbrt mx) k
    | Val (RMap m) => (forall k, a <> OneNode k) /\ is_map m (fun k x => wanted G a k /\ x = clustering_at G (coef G cbrt mx) k)
    | Raise e => (e = EKey /\ exists l u, a = Nodes l /\ In u l /\ ~ node G u) \/
                 (e = EAttr /\ weighted = true /\ mhr = false /\ ~ loop_free G)
    end).
Proof.
  intros LF Ha Hs _. assert (HE : forall e, weighted = true /\ weigh_fail G mhr e -> e = EAttr /\ weighted = true /\ mhr = false /\ ~ loop_free G).
  { intros e [-> [[-> H]|(-> & H & H')]]; [|auto]. exfalso. destruct mx as [m|]; [|discriminate]. destruct Hs as [_ [(u & v & H1 & _) _]]. rewrite H in H1. discriminate. }
  unfold nx_clustering. destruct (Nat.eqb_spec n 0) as [E|E].
  { apply answers_ret. apply no_nodes. assumption. }
  destruct (arg_node G a) as [i|] eqn:Ei.
  - destruct a as [|k|l]; try discriminate. cbn [arg_node] in Ei.
    eapply (answers_bind G _ _ (fun o => match o with Val q => exists mx, scale G weighted mx /\ q = clv G cbrt mx i | Raise e => weighted = true /\ weigh_fail G mhr e end)).
    + unfold clv. destruct (g_dir G) eqn:D.
      * apply (single_directed_ok G wf mhr cbrt weighted i D (kid_lt G wf _ _ Ei)).
      * apply (single_clustering_ok G wf mhr cbrt weighted i D (kid_lt G wf _ _ Ei)).
    + cbv beta iota. intros q (mx' & Hs' & ->). rewrite (wok_fun G _ _ _ Hs' Hs). apply answers_ret. exists k. split; [reflexivity|].
      symmetry. apply (clv_kid G wf). assumption.
    + cbv beta iota. intros e He. right. apply HE. assumption.
  - pose proof (arg_none a Ha Ei) as Hn.
    eapply (arg_map G wf 0%Qc a _ (fun e => weighted = true /\ weigh_fail G mhr e) (fun mask => clustering_any mhr cbrt G weighted mask) (clv G cbrt mx) (fun k => clustering_at G (coef G cbrt mx) k) (intri G)).
    + intros u j Hu. apply (clv_kid G wf). assumption.
    + assumption.
    + intros mask. eapply answers_conseq; [apply (clustering_any_ok G wf mhr cbrt weighted mask LF)|]. intros [r|e]; [|auto].
      intros (mx' & Hs' & Hr). rewrite (wok_fun G _ _ _ Hs' Hs) in Hr. exact Hr.
    + intros e He. right. apply HE. assumption.
    + intros l -> (u & Hu & Nu). left. split; [reflexivity|]. exists l, u. auto.
    + intros nm Hm. split; assumption.
Qed.
(** one node of a directed graph: self-loops do no harm *)
Theorem C22_clustering_one weighted mx k : g_dir G = true -> node G k -> scale G weighted mx -> mx <> Some 0%Z ->
  answers G (nx_clustering mhr cbrt G (OneNode k) weighted) (fun o =>
    o = Val (ROne (ccd G (coef G cbrt mx) k)) \/ (o = Raise EAttr /\ weighted = true /\ mhr = false /\ ~ loop_free G)).
Proof.
  intros D Hk Hs _. unfold nx_clustering. apply node_kid in Hk as [i Hi]. cbn [arg_node]. rewrite Hi.
  destruct (Nat.eqb_spec n 0) as [E|E]; [pose proof (kid_lt G wf _ _ Hi); unfold glen in *; lia|]. rewrite D.
  eapply answers_bind; [apply (single_directed_ok G wf mhr cbrt weighted i D (kid_lt G wf _ _ Hi))| |].
  - cbv beta iota. intros q (mx' & Hs' & ->). rewrite (wok_fun G _ _ _ Hs' Hs). apply answers_ret. left. rewrite (ccd_kid G wf cbrt k i mx Hi). reflexivity.
  - cbv beta iota. intros e [-> [[-> H]|(-> & H & H')]]; [|auto]. exfalso. destruct mx as [m|]; [|discriminate]. destruct Hs as [_ [(u & v & H1 & _) _]]. rewrite H in H1. discriminate.
Qed.
(** without a weighted edge between different nodes there is nothing to normalise by *)
Theorem C21_clustering_no_edges a : (g_dir G = true -> loop_free G) -> 0 < glen G -> (forall u v, nbr G u v = false) ->
  a = AllNodes -> answers G (nx_clustering mhr cbrt G a true) (fun o => o = Raise EValue \/ (o = Raise EAttr /\ mhr = false /\ ~ loop_free G)).
Proof.
  intros LF Hn H ->. unfold nx_clustering. destruct (Nat.eqb_spec n 0) as [E|E]; [lia|]. cbn [arg_node arg_vec].
  eapply answers_bind_v; [apply answers_ret; reflexivity|]. cbn [omap].
  eapply answers_bind; [apply (clustering_any_ok G wf mhr cbrt true None LF)| |].
  - cbv beta iota. intros r (mx & Hs & _). exfalso. destruct mx as [m|]; [|discriminate]. destruct Hs as [_ [(u & v & H1 & _) _]]. rewrite H in H1. discriminate.
  - cbv beta iota. intros e [_ [[-> _]|(-> & H1 & H2)]]; auto.
Qed.
(** the unweighted coefficient of an undirected graph is 2T / d(d-1) *)
Theorem C21_unit v : g_dir G = false -> node G v ->
  clustering_at G (coef G cbrt None) v =
  if deg0 G v <=? 1 then 0%Qc else (qz (2 * Z.of_nat (triangles_at G v)) / qz (Z.of_nat (deg0 G v) * (Z.of_nat (deg0 G v) - 1)))%Qc.
Proof.
  intros D Hv. apply node_kid in Hv as [i Hi]. unfold clustering_at. rewrite D. rewrite (cc_kid G wf cbrt v i None D Hi). unfold ccv.
  rewrite (deg0_id G wf v i Hi). destruct (_ <=? 1); [reflexivity|]. f_equal. rewrite (triangles_at_id G wf v i D Hi). change qz with zq. rewrite zq_mul.
  rewrite (trisq_none G cbrt i). reflexivity.
Qed.
(** the mean over all nodes or over a list (every node once); whole-graph answers are kept per
    [count_zeros], so the cached ones must come from calls with the same [weighted] *)
Definition avg_cached (mx : option Z) (x : xcache) : Prop :=
  forall cz q, x_avg x cz = Some q -> mean_count G cz (gnodes G) <> 0 /\ q = mean G cz (clustering_at G (coef G cbrt mx)) (gnodes G).
Theorem C21_average_clustering_partial weighted count_zeros mx a x :
  (g_dir G = true -> loop_free G) -> scale G weighted mx -> mx <> Some 0%Z -> avg_cached mx x -> (forall k, a <> OneNode k) ->
  answers G (nx_average_clustering mhr cbrt G a weighted count_zeros x) (fun o =>
    let l := match a with Nodes l => members G (fun u => mem u l) | _ => gnodes G end in
    match o with
    | Val (q, x') => mean_count G count_zeros l <> 0 /\ q = mean G count_zeros (clustering_at G (coef G cbrt mx)) l /\
                     avg_cached mx x' /\ x_trans x' = x_trans x
    | Raise e => (e = EZeroDiv /\ mean_count G count_zeros l = 0) \/
                 (e = EKey /\ exists l u, a = Nodes l /\ In u l /\ ~ node G u) \/
                 (e = EAttr /\ weighted = true /\ mhr = false /\ ~ loop_free G)
    end).
Proof.
  intros LF Hs _ Hx Ha. assert (HE : forall e, weighted = true /\ weigh_fail G mhr e -> e = EAttr /\ weighted = true /\ mhr = false /\ ~ loop_free G).
  { intros e [-> [[-> H]|(-> & H & H')]]; [|auto]. exfalso. destruct mx as [m|]; [|discriminate]. destruct Hs as [_ [(u & v & H1 & _) _]]. rewrite H in H1. discriminate. }
  assert (Hav : forall v (P : nkey -> bool) nm, (nm = None /\ (forall u, node G u -> P u = true) \/ nm = Some (List.length (members G P))) ->
     (forall u i, kid G u = Some i -> inm (omap mS v) i = P u) -> nm = omap nvals v ->
     answers G (average_clustering mhr cbrt G count_zeros weighted v) (fun o => match o with
       | Val q => mean_count G count_zeros (members G P) <> 0 /\ q = mean G count_zeros (clustering_at G (coef G cbrt mx)) (members G P)
       | Raise e => (e = EZeroDiv /\ mean_count G count_zeros (members G P) = 0) \/ (e = EAttr /\ weighted = true /\ mhr = false /\ ~ loop_free G) end)).
  { intros v P nm Hnm HP ->. unfold average_clustering. eapply answers_bind; [apply (clustering_any_ok G wf mhr cbrt weighted _ LF)| |].
    - cbv beta iota. intros c (mx' & Hs' & Hc). rewrite (wok_fun G _ _ _ Hs' Hs) in Hc. apply answers_lifto.
      rewrite (average_eq G wf cbrt c _ P _ mx count_zeros Hc HP Hnm). cbv zeta. destruct (Nat.eqb_spec (mean_count G count_zeros (members G P)) 0); auto.
    - cbv beta iota. intros e He. right. apply HE. assumption. }
  assert (Hall : members G (fun _ => true) = gnodes G) by (unfold members; clear; induction (gnodes G); [reflexivity|]; cbn [filter]; f_equal; assumption).
  unfold nx_average_clustering. cbv zeta. destruct (Nat.eqb_spec n 0) as [E|E].
  { apply answers_raise. left. split; [reflexivity|]. pose proof (no_nodes E) as E0. destruct a as [|k|l]; unfold mean_count, members; rewrite E0; destruct count_zeros; reflexivity. }
  destruct a as [|k|l]; [|destruct (Ha k eq_refl)|].
  - cbn [arg_vec]. eapply answers_bind_v; [apply answers_ret; reflexivity|]. cbv beta iota.
    destruct (x_avg x count_zeros) as [q|] eqn:Eq.
    + apply answers_ret. destruct (Hx _ _ Eq) as [H1 H2]. auto.
    + eapply answers_bind; [apply (Hav None (fun _ => true) None); auto| |].
      * cbv beta iota. rewrite Hall. intros q [H1 H2]. apply answers_ret. split; [assumption|]. split; [assumption|]. split; [|reflexivity].
        intros cz q'. cbn [x_avg]. destruct (Bool.eqb cz count_zeros) eqn:Ec; [|apply Hx]. apply Bool.eqb_prop in Ec as ->. intros [= <-]. split; assumption.
      * cbv beta iota. rewrite Hall. intros e [He|He]; [left; assumption|right; right; assumption].
  - cbn [arg_vec]. unfold list_vec_of. destruct (list_vec_ok G wf l) as [(v & E1 & Hv & Hn)|(E1 & u & Hu & Nu)]; rewrite E1.
    + eapply answers_bind_v; [eapply answers_bind_v; [apply answers_lifto; reflexivity|apply answers_ret; reflexivity]|]. cbv beta iota.
      eapply answers_bind; [apply (Hav (Some v) (fun u => mem u l) (Some (nvals v)))| |].
      * right. f_equal. apply (svec_nvals G wf). assumption.
      * intros u i Hu. cbn [omap inm]. unfold mS. apply (svec_has G _ _ _ _ Hv Hu).
      * reflexivity.
      * cbv beta iota. intros q [H1 H2]. apply answers_ret. auto.
      * cbv beta iota. intros e [He|He]; [left; assumption|right; right; assumption].
    + eapply answers_bind_e; [eapply answers_bind_e; [apply answers_lifto; reflexivity|reflexivity]|]. right. left. split; [reflexivity|]. exists l, u. auto.
Qed.
End C.

(** ** Defects *)
Lemma weight0_all G m : gwf G -> (0 <= m)%Z -> forallb (fun i => forallb (fun j => oget 0%Z (mget (g_A G) i j) <=? m)%Z (seq 0 (glen G))) (seq 0 (glen G)) = true ->
  forall u v, (weight0 G u v <= m)%Z.
Proof.
  intros wf Hm H u v. unfold weight0, weight. destruct (kid G u) as [i|] eqn:Ei; [|exact Hm]. destruct (kid G v) as [j|] eqn:Ej; [|exact Hm].
  pose proof (kid_lt G wf _ _ Ei). pose proof (kid_lt G wf _ _ Ej). rewrite forallb_forall in H.
  specialize (H i ltac:(apply in_seq; unfold glen; lia)). rewrite forallb_forall in H. specialize (H j ltac:(apply in_seq; unfold glen; lia)).
  apply Z.leb_le in H. exact H.
Qed.
(** exact cube roots of the two values that occur below *)
Definition cb (q : Qc) : Qc := if Qc_eq_bool q (Q2Qc (1 # 8)) then Q2Qc (1 # 2) else q.
Example cb_ex : cb 1%Qc = 1%Qc /\ (cb (Q2Qc (1 # 8)) * cb (Q2Qc (1 # 8)) * cb (Q2Qc (1 # 8)))%Qc = Q2Qc (1 # 8).
Proof. split; apply Qc_is_canon; vm_compute; reflexivity. Qed.
(** the cache key of average_clustering does not mention [weight]: after an unweighted call, the weighted
    one returns the unweighted mean *)
Definition g_881 : graph := mkg false 3 [(0, 1, 8%Z); (0, 2, 8%Z); (1, 2, 1%Z)].
Theorem C21_average_history_refuted : gwf g_881 /\ max_weight g_881 8 /\
  mean g_881 true (clustering_at g_881 (coef g_881 cb (Some 8%Z))) (gnodes g_881) = Q2Qc (1 # 2) /\
  exists x s, fst (nx_average_clustering true cb g_881 AllNodes false true x0 st0) = Val (1%Qc, x) /\
              snd (nx_average_clustering true cb g_881 AllNodes false true x0 st0) = s /\ Inv g_881 s /\
              fst (nx_average_clustering true cb g_881 AllNodes true true x s) = Val (1%Qc, x).
Proof.
  split; [apply mkg_wf|]. split; [|split].
  - split.
    + exists (KI 0), (KI 1). split; vm_compute; reflexivity.
    + intros u v _. apply weight0_all; [apply mkg_wf|lia|vm_compute; reflexivity].
  - apply Qc_is_canon. vm_compute. reflexivity.
  - assert (H : exists q x, fst (nx_average_clustering true cb g_881 AllNodes false true x0 st0) = Val (q, x) /\ q = 1%Qc /\ x_avg x true = Some q).
    { eexists. eexists. split; [vm_compute; reflexivity|]. split; [apply Qc_is_canon; vm_compute; reflexivity|reflexivity]. }
    destruct H as (q & x & H1 & -> & H3). exists x, (snd (nx_average_clustering true cb g_881 AllNodes false true x0 st0)).
    split; [exact H1|]. split; [reflexivity|]. split.
    + eapply (C21_average_clustering_partial g_881 (mkg_wf _ _ _) true cb false true None AllNodes x0); try reflexivity; try discriminate. apply (Inv_st0 _ true).
    + unfold nx_average_clustering. rewrite H3. reflexivity.
Qed.
(** an undirected graph with a self-loop has no weighted clustering coefficients: "max_element-" raises an
    AttributeError in a python-graphblas whose Matrix has no [reduce] *)
Definition g_tl : graph := mkg false 3 [(0, 1, 2%Z); (0, 2, 2%Z); (1, 2, 2%Z); (0, 0, 1%Z)].
Theorem C21_weighted_self_loop_refuted : gwf g_tl /\ scale g_tl true (Some 2%Z) /\
  forall cbrt, fst (nx_clustering false cbrt g_tl AllNodes true st0) = Raise EAttr.
Proof.
  split; [apply mkg_wf|]. split.
  - split; [reflexivity|]. split.
    + exists (KI 0), (KI 1). split; vm_compute; reflexivity.
    + intros u v _. apply weight0_all; [apply mkg_wf|lia|vm_compute; reflexivity].
  - intros cbrt. vm_compute. reflexivity.
Qed.
(** directed graphs with a self-loop: the coefficients of all nodes differ from the one-node answer, which
    is the right one *)
Definition g_dl : graph := mkg true 3 [(0, 1, 1%Z); (1, 2, 1%Z); (0, 2, 1%Z); (0, 0, 1%Z)].
Theorem C22_self_loop_refuted : gwf g_dl /\
  clustering_at g_dl (coef g_dl cb None) (KI 1) = Q2Qc (1 # 2) /\
  (exists q, fst (nx_clustering true cb g_dl (OneNode (KI 1)) false st0) = Val (ROne q) /\ q = Q2Qc (1 # 2)) /\
  exists m q, fst (nx_clustering true cb g_dl AllNodes false st0) = Val (RMap m) /\
    nm_getitem m (KI 1) = Val q /\ q <> Q2Qc (1 # 2).
Proof.
  split; [apply mkg_wf|]. split; [apply Qc_is_canon; vm_compute; reflexivity|]. split.
  - eexists. split; [vm_compute; reflexivity|]. apply Qc_is_canon. vm_compute. reflexivity.
  - eexists. eexists. split; [vm_compute; reflexivity|]. split; [vm_compute; reflexivity|]. intros H. apply (f_equal this) in H. vm_compute in H. discriminate H.
Qed.

(** ** Non-vacuity *)
(** a triangle with a pendant node and a self-loop *)
Definition g_tp : graph := mkg false 4 [(0, 1, 8%Z); (0, 2, 8%Z); (1, 2, 1%Z); (2, 3, 8%Z); (3, 3, 2%Z)].
Example C20_triangles_ex : g_dir g_tp = false /\ gwf g_tp /\ (forall k, OneNode (KI 2) = OneNode k -> node g_tp k) /\
  triangles_at g_tp (KI 2) = 1 /\ fst (nx_triangles g_tp (OneNode (KI 2)) st0) = Val (ROne 1%Z) /\
  exists m, fst (nx_triangles g_tp (Nodes [KI 3; KI 1]) st0) = Val (RMap m) /\ nm_getitem m (KI 3) = Val 0%Z /\ nm_getitem m (KI 1) = Val 1%Z /\
    nm_getitem m (KI 0) = Raise EKey.
Proof.
  split; [reflexivity|]. split; [apply mkg_wf|]. split; [intros k [= <-]; unfold node; vm_compute; auto|]. split; [vm_compute; reflexivity|].
  split; [vm_compute; reflexivity|]. eexists. split; [vm_compute; reflexivity|]. repeat split; vm_compute; reflexivity.
Qed.
Example C20_transitivity_ex : trans_cached g_tp x0 /\ transitivity_of g_tp = Q2Qc (3 # 5).
Proof. split; [discriminate|]. apply Qc_is_canon. vm_compute. reflexivity. Qed.
Definition g_w : graph := mkg false 4 [(0, 1, 8%Z); (0, 2, 8%Z); (1, 2, 1%Z); (2, 3, 8%Z)].
Lemma g_w_scale : scale g_w true (Some 8%Z).
Proof.
  split; [reflexivity|]. split; [exists (KI 0), (KI 1); split; vm_compute; reflexivity|].
  intros u v _. apply weight0_all; [apply mkg_wf|lia|vm_compute; reflexivity].
Qed.
Example C21_clustering_ex : gwf g_w /\ scale g_w true (Some 8%Z) /\ clustering_at g_w (coef g_w cb (Some 8%Z)) (KI 2) = Q2Qc (1 # 6) /\
  exists m q, fst (nx_clustering false cb g_w AllNodes true st0) = Val (RMap m) /\ nm_getitem m (KI 2) = Val q /\ q = Q2Qc (1 # 6).
Proof.
  split; [apply mkg_wf|]. split; [apply g_w_scale|]. split; [apply Qc_is_canon; vm_compute; reflexivity|]. eexists. eexists.
  split; [vm_compute; reflexivity|]. split; [vm_compute; reflexivity|]. apply Qc_is_canon. vm_compute. reflexivity.
Qed.
Definition g_dt3 : graph := mkg true 4 [(0, 1, 1%Z); (1, 0, 1%Z); (1, 2, 8%Z); (0, 2, 8%Z); (3, 0, 8%Z)].
Lemma loop_free_mkg dir n l : forallb (fun i => negb (has (eget dir l i i))) (seq 0 n) = true -> loop_free (mkg dir n l).
Proof.
  intros H u [w He]. unfold weight in He. destruct (kid (mkg dir n l) u) as [i|] eqn:Ei; [|discriminate].
  pose proof (kid_lt _ (mkg_wf dir n l) _ _ Ei) as Hi. simpl in Hi. rewrite nrows_mbuild in Hi. rewrite forallb_forall in H. specialize (H i ltac:(apply in_seq; lia)).
  simpl in He. rewrite mget_mbuild in He. destruct (Nat.ltb_spec i n); [|lia]. cbn [andb] in He. rewrite He in H. discriminate H.
Qed.
Example C22_ex : gwf g_dt3 /\ loop_free g_dt3 /\ clustering_at g_dt3 (coef g_dt3 cb None) (KI 1) = Q2Qc (1 # 2) /\
  clustering_at g_dt3 (coef g_dt3 cb None) (KI 0) = Q2Qc (1 # 5) /\
  exists m q, fst (nx_clustering true cb g_dt3 AllNodes false st0) = Val (RMap m) /\ nm_getitem m (KI 0) = Val q /\ q = Q2Qc (1 # 5).
Proof.
  split; [apply mkg_wf|]. split; [apply loop_free_mkg; vm_compute; reflexivity|]. split; [apply Qc_is_canon; vm_compute; reflexivity|].
  split; [apply Qc_is_canon; vm_compute; reflexivity|]. eexists. eexists.
  split; [vm_compute; reflexivity|]. split; [vm_compute; reflexivity|]. apply Qc_is_canon. vm_compute. reflexivity.
Qed.
Example C21_average_ex : avg_cached g_w cb (Some 8%Z) x0 /\ mean_count g_w false (gnodes g_w) = 3 /\
  mean g_w false (clustering_at g_w (coef g_w cb (Some 8%Z))) (gnodes g_w) = Q2Qc (7 # 18).
Proof. split; [discriminate|]. split; [vm_compute; reflexivity|]. apply Qc_is_canon. vm_compute. reflexivity. Qed.
Print Assumptions C20_triangles.
Print Assumptions C20_triangles_int.
Print Assumptions C20_triangles_str.
Print Assumptions C20_triangles_directed.
Print Assumptions C20_transitivity.
Print Assumptions C20_transitivity_undirected.
Print Assumptions C21_clustering.
Print Assumptions C21_clustering_no_edges.
Print Assumptions C21_unit.
Print Assumptions C21_average_clustering_partial.
Print Assumptions C22_clustering_one.
Print Assumptions C21_average_history_refuted.
Print Assumptions C21_weighted_self_loop_refuted.
Print Assumptions C22_self_loop_refuted.
