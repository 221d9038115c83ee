(** * C22 for every DiGraph: what the clustering of many nodes of a DiGraph with self-loops is *)
From Verif Require Import Base BaseProofs Model_Graph Model_Cache Spec_Cache CacheMath CacheProofs CacheProofs2
  Model_Keys Spec KeyProofs Spec_Run RunProofs Model_Operators OperatorProofs Spec_Count Model_Measures CountProofs Props_Cuts
  Model_Cluster ClusterMath ClusterMath2 Spec_Cluster ClusterProofs Props_Cluster Concrete.
From Coq Require Import QArith Qcanon Ring.
Open Scope nat_scope.

Section SR.
Context {V : Type} (zero one : V) (add mul : V -> V -> V).
Hypothesis SRth : semi_ring_theory zero one add mul (@eq V).
Add Ring VRing9 : SRth.
Notation "0" := zero.
Notation "1" := one.
Infix "+" := add.
Infix "*" := mul.
Notation sum := (gsum zero add).
Context {U : Type} (xv : U -> V) (m : U -> U -> V).
Hypothesis Hm : forall u v, m u v = xv u * xv v.
Variable n : nat.
Notation MX := (ClusterMath2.MX zero n).
Notation VX := (ClusterMath2.VX zero n).
Variable e : nat -> nat -> Prop.
Variable w : nat -> nat -> V.
Variable se : nat -> Prop.
Variable sl : nat -> V.
Hypothesis w_irr : forall i, w i i = 0.
Variables (A AT : mat U) (post : mat V -> mat U -> mat V).
Hypothesis HA : MX xv A e w.
Definition ew (i j : nat) : Prop := if i =? j then se i else e i j.
Definition ww (i j : nat) : V := if i =? j then sl i else w i j.
Hypothesis HAT : MX xv AT (fun i j => ew j i) (fun i j => ww j i).
Hypothesis Hpost : post_ok zero mul xv n post.
Definition dextra (v : nat) : V :=
  sum n (fun j => sl v * (w v j * w j v)) + sum n (fun j => sl v * (w v j * w j v)) + sum n (fun j => w j v * w j v * sl j).
Lemma gsum_pick (f : nat -> V) (x : V) (v k : nat) : (v < k)%nat -> sum k (fun i => (if i =? v then x else 0) * f i) = x * f v.
Proof.
  intros Hv. induction k as [|k IH]; [lia|]. rewrite (gsum_S _ _ _ _ SRth).
  destruct (Nat.eqb_spec k v) as [->|N].
  - rewrite (gsum_zero _ _ _ _ SRth); [ring|]. intros i Hi. destruct (Nat.eqb_spec i v); [lia|ring].
  - rewrite IH by lia. ring.
Qed.
Lemma ww_split i j : ww i j = w i j + (if i =? j then sl j else 0).
Proof. unfold ww. destruct (Nat.eqb_spec i j) as [->|]; [rewrite w_irr|]; ring. Qed.
Definition dpres (v : nat) : Prop := (((exists j, (j < n)%nat /\ e v j /\ exists k, (k < n)%nat /\ e v k /\ e j k) \/
    (exists i, (i < n)%nat /\ e i v /\ exists k, (k < n)%nat /\ e i k /\ e v k)) \/
    (exists j, (j < n)%nat /\ e v j /\ exists k, (k < n)%nat /\ ew k v /\ e j k)) \/
    exists i, (i < n)%nat /\ e i v /\ exists k, (k < n)%nat /\ ew k i /\ ew k v.
Lemma dtri_loops mask : (forall v, dpres v -> exists j, e v j \/ e j v) /\
  VX id (dtri_gen add m post A AT mask) (fun v => inm mask v = true /\ dpres v)
    (fun v => if inm mask v then dsum zero add mul n w v + dextra v else 0).
Proof.
  unfold dtri_gen.
  pose proof (Hpost _ _ _ _ _ _ (MX_mxm _ _ _ _ SRth _ _ Hm _ _ _ _ _ _ _ HA (MX_trans _ _ _ _ _ _ HA)) HA) as HC.
  pose proof (Hpost _ _ _ _ _ _ (MX_mxm _ _ _ _ SRth _ _ Hm _ _ _ _ _ _ _ HAT (MX_trans _ _ _ _ _ _ HA)) HA) as HD.
  pose proof (Hpost _ _ _ _ _ _ (MX_mxm _ _ _ _ SRth _ _ Hm _ _ _ _ _ _ _ HAT (MX_trans _ _ _ _ _ _ HAT)) HA) as HE.
  cbv beta in HC, HD, HE.
  split; cycle 1.
  - eapply VX_conv; [apply (VX_union _ _ _ _ SRth); [apply (VX_union _ _ _ _ SRth); [apply (VX_union _ _ _ _ SRth)|]|]; apply VX_omask;
      [apply (MX_row _ _ _ _ SRth)|apply (MX_col _ _ _ _ SRth)|apply (MX_row _ _ _ _ SRth)|apply (MX_col _ _ _ _ SRth)]; eassumption| |].
    + intros v. cbn beta. unfold dpres. tauto.
    + intros v. cbn beta. destruct (inm mask v); [|ring].
      destruct (Nat.lt_ge_cases v n) as [Hv|Hv]; cycle 1.
      { assert (O1 : forall j, w v j = 0) by (intros j; apply (MX_out _ _ _ _ _ _ _ _ HA); intros E; apply (MX_lt _ _ _ _ _ _ _ _ HA) in E; lia).
        assert (O2 : forall j, w j v = 0) by (intros j; apply (MX_out _ _ _ _ _ _ _ _ HA); intros E; apply (MX_lt _ _ _ _ _ _ _ _ HA) in E; lia).
        unfold dsum, dextra. rewrite !(gsum_zero zero one add mul SRth n); try ring; intros j _; rewrite ?O1, ?O2; try ring.
        apply (gsum_zero _ _ _ _ SRth). intros k _. rewrite O1, O2. ring. }
      rewrite (gsum_ext zero one add mul SRth n (fun j => w v j * sum n (fun k => w v k * w j k)) (fun j => sum n (fun k => w v j * w v k * w j k)))
        by (intros j _; rewrite <- (gsum_scale _ _ _ _ SRth); apply (gsum_ext _ _ _ _ SRth); intros; ring).
      rewrite (gsum_ext zero one add mul SRth n (fun i => w i v * sum n (fun k => w i k * w v k)) (fun j => sum n (fun k => w j v * w v k * w j k)))
        by (intros j _; rewrite <- (gsum_scale _ _ _ _ SRth); apply (gsum_ext _ _ _ _ SRth); intros; ring).
      rewrite (gsum_ext zero one add mul SRth n (fun j => w v j * sum n (fun k => ww k v * w j k)) (fun j => sum n (fun k => w v j * w k v * w j k) + sl v * (w v j * w j v))).
      2:{ intros j _. rewrite <- (gsum_scale _ _ _ _ SRth).
          rewrite (gsum_ext zero one add mul SRth n _ (fun k => w v j * w k v * w j k + (if k =? v then sl v else 0) * (w v j * w j k)))
            by (intros k _; rewrite ww_split; destruct (k =? v); ring).
          rewrite (gsum_add _ _ _ _ SRth), (gsum_pick _ _ _ _ Hv). ring. }
      rewrite (gsum_ext zero one add mul SRth n (fun i => w i v * sum n (fun k => ww k i * ww k v))
        (fun i => sum n (fun k => w i v * w k v * w k i) + (w i v * w i v * sl i + sl v * (w v i * w i v)))).
      2:{ intros i Hi. rewrite <- (gsum_scale _ _ _ _ SRth).
          rewrite (gsum_ext zero one add mul SRth n _ (fun k => w i v * w k v * w k i + ((if k =? i then sl i else 0) * (w i v * w k v) + (if k =? v then sl v else 0) * (w i v * ww k i)))).
          2:{ intros k _. rewrite !ww_split. destruct (Nat.eqb_spec k i), (Nat.eqb_spec k v); ring. }
          rewrite !(gsum_add _ _ _ _ SRth), (gsum_pick _ _ _ _ Hv), (gsum_pick _ _ _ _ Hi). rewrite ww_split.
          destruct (Nat.eqb_spec v i) as [->|]; rewrite ?w_irr; ring. }
      rewrite !(gsum_add _ _ _ _ SRth). unfold dextra.
      rewrite (gsum_swap _ _ _ _ SRth n n (fun i k => w i v * w k v * w k i)).
      assert (E : sum n (fun j => sum n (fun k => w v j * w v k * w j k)) + sum n (fun j => sum n (fun k => w j v * w v k * w j k))
        + sum n (fun j => sum n (fun k => w v j * w k v * w j k)) + sum n (fun j => sum n (fun i => w i v * w j v * w j i)) = dsum zero add mul n w v).
      { unfold dsum. rewrite <- !(gsum2_add _ _ _ _ SRth). apply (gsum2_ext _ _ _ _ SRth). intros j k _ _. ring. }
      rewrite <- E. ring.
  - intros v. unfold dpres. intros [[[(j & _ & E & _)|(j & _ & E & _)]|(j & _ & E & _)]|(j & _ & E & _)]; exists j; auto.
Qed.
End SR.

(** ** Specification *)
(** the weight of the self-loop of v, normalised like every other weight; 0 without one *)
Definition loop_coef (G : graph) (cbrt : Qc -> Qc) (mx : option Z) (v : nkey) : Qc :=
  if has_edge G v v then match mx with None => 1%Qc | Some m => cbrt (qz (weight0 G v v) / qz m)%Qc end else 0%Qc.
(** the pairs of edges at v that could be closed: the denominator of the directed coefficient *)
Definition edge_pairs (G : graph) (v : nkey) : Z :=
  let td := Z.of_nat (deg0 G v + indeg0 G v) in (td * (td - 1) - 2 * Z.of_nat (recip0 G v))%Z.
(** what the self-loops of v and of its predecessors add to the numerator at v *)
Definition loop_surplus (G : graph) (cbrt : Qc -> Qc) (mx : option Z) (v : nkey) : Qc :=
  let c := coef G cbrt mx in
  (qz 2 * (loop_coef G cbrt mx v * qtotal (fun j => c v j * c j v) (gnodes G))
   + qtotal (fun j => c j v * c j v * loop_coef G cbrt mx j) (gnodes G))%Qc.

Section G.
Variable G : graph.
Hypothesis wf : gwf G.
Notation n := (glen G).
Notation A := (g_A G).
Variable mhr : bool.
Variable cbrt : Qc -> Qc.
Notation cq mx := (cf G 0%Qc (fco cbrt mx)).
Notation one1 := (fun _ : Z => 1%Z).

Definition sf {V} (zero : V) (f : Z -> V) (i : nat) : V := eval zero f (mget A i i).
Lemma MX_AT_loops {V} (zero : V) f : MX zero n f (den_mat G KAT)
  (fun i j => ew (ee G) (fun i => has (mget A i i) = true) j i) (fun i j => ww (cf G zero f) (sf zero f) j i).
Proof.
  split; [apply mwf_mbuild|]. split; [apply nrows_mbuild|]. split; [apply ncols_mbuild|].
  intros i j. cbn [den_mat]. rewrite mget_mbuild.
  assert (E : (if (i <? nrows A) && (j <? nrows A) then mget A j i else None) = mget A j i).
  { destruct ((i <? nrows A) && (j <? nrows A)) eqn:B; [reflexivity|]. symmetry. apply mget_out; [apply (HmA G wf)|].
    rewrite (Hsq G wf). apply andb_false_iff in B. rewrite !Nat.ltb_ge in B. unfold glen in *. tauto. }
  rewrite E. unfold ew, ww, sf, cf, ee, ent. destruct (Nat.eqb_spec j i) as [->|]; split; reflexivity.
Qed.
Definition dextras (mx : option Z) (i : nat) : Qc := dextra 0%Qc Qcplus Qcmult n (cq mx) (sf 0%Qc (fco cbrt mx)) i.
Lemma dextras_none i : zq (dextra 0%Z Z.add Z.mul n (cf G 0%Z one1) (sf 0%Z one1) i) = dextras None i.
Proof.
  assert (S : forall i, zq (sf 0%Z one1 i) = sf 0%Qc (fco cbrt None) i) by (intros j; unfold sf; destruct (mget A j j); reflexivity).
  unfold dextras, dextra. rewrite !zq_add. rewrite !(gsum_hom 0%Z Z.add 0%Qc Qcplus zq) by (reflexivity || apply zq_add).
  f_equal; [f_equal|]; apply (gsum_ext _ _ _ _ Qcsr); intros j _; rewrite !zq_mul, !S, !(zq_cf G cbrt); reflexivity.
Qed.
Definition ccdl (mx : option Z) (i : nat) : Qc := ((dtris G cbrt mx i + dextras mx i) / zq (dden G i))%Qc.
Lemma td_pos i : (exists j, ee G i j \/ ee G j i) -> 0 < outdeg G SM i + indeg G SM i.
Proof.
  intros (j & H). assert (L : i < n /\ j < n) by (destruct H as [H|H]; apply (ee_lt G wf) in H; tauto).
  destruct (outdeg G SM i + indeg G SM i) eqn:E; [|lia]. exfalso.
  assert (E1 : outdeg G SM i = 0) by lia. assert (E2 : indeg G SM i = 0) by lia. unfold outdeg, indeg in E1, E2. rewrite cnt_zero in E1, E2.
  unfold glen in *. destruct H as [H|H]; unfold ee in H; [rewrite E1 in H by apply L|rewrite E2 in H by apply L]; discriminate.
Qed.
Definition dpr : nat -> Prop := dpres n (ee G) (fun i => has (mget A i i) = true).
Lemma clustering_directed_loops weighted mask : g_dir G = true -> answers G (clustering_directed mhr cbrt G weighted mask) (fun o =>
  match o with
  | Val r => exists mx, scale G weighted mx /\ (VX 0%Qc n id r (fun i => inm mask i = true /\ dpr i) (fun i => if inm mask i then ccdl mx i else 0%Qc))
  | Raise e => weighted = true /\ weigh_fail G mhr e end).
Proof.
  intros D. unfold clustering_directed.
  eapply answers_bind_GV; [apply (get_AT_ok G wf true)|]. eapply answers_bind_GV; [apply (get_offdiag_ok G wf true)|].
  eapply (answers_bind G _ _ (fun o => match o with
    | Val r => exists mx, scale G weighted mx /\ (forall v, dpr v -> exists j, ee G v j \/ ee G j v) /\
        VX 0%Qc n id r (fun i => inm mask i = true /\ dpr i) (fun i => if inm mask i then dtris G cbrt mx i + dextras mx i else 0%Qc)%Qc
    | Raise e => weighted = true /\ weigh_fail G mhr e end)).
  - destruct weighted.
    + eapply answers_bind; [apply (get_maxval_ok G wf)| |auto]. cbv beta iota. intros q (m & Hm & ->). apply answers_ret.
      destruct (dtri_loops 0%Qc 1%Qc Qcplus Qcmult Qcsr id Qcmult ltac:(reflexivity) n (ee G) (cq (Some m)) (fun i => has (mget A i i) = true) (sf 0%Qc (fco cbrt (Some m)))
        ltac:(intros; apply cf_irr) (mmap (normv cbrt (qz m)) (den_mat G KOff)) (mmap (normv cbrt (qz m)) (den_mat G KAT)) (minter Qcmult)) with (mask := mask) as (Hp & HV).
      * apply (MX_mmap 0%Qc (normv cbrt (qz m)) id). apply (MX_off G wf).
      * apply (MX_mmap 0%Qc (normv cbrt (qz m)) id). apply MX_AT_loops.
      * apply post_mul.
      * exists (Some m). split; [split; [reflexivity|assumption]|]. split; assumption.
    + apply answers_ret.
      destruct (dtri_loops 0%Z 1%Z Z.add Z.mul Zsr one1 op_pairz ltac:(reflexivity) n (ee G) (cf G 0%Z one1) (fun i => has (mget A i i) = true) (sf 0%Z one1)
        ltac:(intros; apply cf_irr) (den_mat G KOff) (den_mat G KAT) (fun C _ => C)) with (mask := mask) as (Hp & HV).
      * apply (MX_off G wf).
      * apply MX_AT_loops.
      * apply (post_id 0%Z 1%Z Z.add Z.mul Zsr). reflexivity.
      * exists None. split; [reflexivity|]. split; [assumption|].
        eapply VX_conv; [apply (VX_hom 0%Z 0%Qc zq n); [reflexivity|exact HV]|reflexivity|].
        intros i. cbn beta. destruct (inm mask i); [|reflexivity]. rewrite zq_add, (dtris_none G cbrt), dextras_none. reflexivity.
  - cbv beta iota. intros tri (mx & Hmx & Hp & Hs & Ht).
    eapply answers_bind_GV; [apply (get_recip_ok G wf true eq_refl)|]. eapply answers_bind_GV; [apply (get_total_m_ok G wf true eq_refl)|].
    apply answers_ret. exists mx. split; [assumption|]. set (rd := msk mask (den_vec G (KRecip SM))). set (td := msk mask (den_vec G (KTotal SM))).
    assert (S1 : vsize td = n) by (unfold td; rewrite vsize_msk; apply vsize_vbuild).
    assert (S2 : vsize (ddenom rd td) = n) by (unfold ddenom; rewrite vsize_vbuild; assumption).
    split; [rewrite vsize_vinter; assumption|]. intros i. rewrite vget_vinter by congruence.
    destruct (Ht i) as [T1 T2]. destruct (vget tri i) as [t|] eqn:Et.
    + assert (Hex : inm mask i = true /\ dpr i) by (apply T1; reflexivity). destruct Hex as [Hin Hex]. apply Hp in Hex.
      assert (Li : i < n) by (destruct Hex as (j & [He|He]); apply (ee_lt G wf _ _ He)).
      assert (Hd : vget (ddenom rd td) i = Some (dden G i)).
      { pose proof (td_pos i Hex) as Hq. unfold ddenom. rewrite vget_vbuild_lt by (rewrite S1; assumption). unfold dd1. rewrite vget_vinter by (rewrite vsize_vmap; reflexivity). rewrite vget_vmap.
        unfold rd, td. rewrite !vget_msk, Hin. cbn [den_vec]. rewrite !vget_vbuild_lt by assumption. unfold dden. cbv zeta in *. unfold onz.
        destruct (Nat.eqb_spec (outdeg G SM i + indeg G SM i) 0) as [Z0|Z0]; [lia|].
        destruct (Nat.eqb_spec (recipdeg G SM i) 0) as [R0|R0]; cbn [omap oboth ounion]; f_equal; lia. }
      rewrite Hd. cbn [oboth]. split; [cbn [has]; tauto|]. rewrite Hin in *. cbn [eval] in *. unfold id in *. rewrite T2. reflexivity.
    + cbn [oboth]. split; [exact T1|]. destruct (inm mask i) eqn:Em; [|reflexivity].
      cbn [eval] in *. unfold ccdl. rewrite <- T2. unfold Qcdiv. ring.
  - auto.
Qed.
Lemma loop_coef_kid mx u i : kid G u = Some i -> loop_coef G cbrt mx u = sf 0%Qc (fco cbrt mx) i.
Proof.
  intros Hu. unfold loop_coef, sf. rewrite (has_edge_kid G u u i i Hu Hu), (weight0_kid G u u i i Hu Hu).
  destruct (mget A i i); reflexivity.
Qed.
Lemma surplus_kid mx u i : kid G u = Some i -> loop_surplus G cbrt mx u = dextras mx i.
Proof.
  intros Hu. unfold loop_surplus, dextras, dextra. cbv zeta. change (@qtotal nkey) with (@gtotal Qc nkey 0%Qc Qcplus).
  rewrite (gtotal_nodes G wf 0%Qc 1%Qc Qcplus Qcmult Qcsr _ (fun j => cq mx i j * cq mx j i)%Qc).
  2:{ intros x j Hx. rewrite (coef_kid G wf cbrt mx u x i j Hu Hx), (coef_kid G wf cbrt mx x u j i Hx Hu). reflexivity. }
  rewrite (gtotal_nodes G wf 0%Qc 1%Qc Qcplus Qcmult Qcsr _ (fun j => cq mx j i * cq mx j i * sf 0%Qc (fco cbrt mx) j)%Qc).
  2:{ intros x j Hx. rewrite (coef_kid G wf cbrt mx x u j i Hx Hu), (loop_coef_kid mx x j Hx). reflexivity. }
  rewrite (loop_coef_kid mx u i Hu). rewrite !(gsum_scale _ _ _ _ Qcsr). change (qz 2) with (zq (1 + 1)). rewrite zq_add, zq_1. ring.
Qed.
Lemma ccdl_kid mx u i : kid G u = Some i -> (ccd G (coef G cbrt mx) u + loop_surplus G cbrt mx u / qz (edge_pairs G u))%Qc = ccdl mx i.
Proof.
  intros Hu. rewrite (ccd_kid G wf cbrt u i mx Hu), (surplus_kid mx u i Hu). unfold ccdl, ccdv, edge_pairs, dden.
  rewrite (deg0_id G wf u i Hu), (indeg0_id G wf u i Hu), (recip0_id G wf u i Hu). cbv zeta. change qz with zq. unfold Qcdiv. ring.
Qed.
(** ** every DiGraph, with or without self-loops: the nodes of a collection, or all of them.  (Where there are no pairs of edges, the
    self-loops of the predecessors are divided by zero: the code answers inf or nan there, and the theorem says nothing.) *)
Theorem C22_clustering_exact weighted mx a : g_dir G = true -> (forall k, a <> OneNode k) -> scale G weighted mx ->
  answers G (nx_clustering mhr cbrt G a weighted) (fun o =>
    match o with
    | Val REmpty => gnodes G = []
    | Val (ROne t) => False
    | Val (RMap m) => exists val, is_map m (fun k x => wanted G a k /\ x = val k) /\ forall k, node G k ->
        (edge_pairs G k <> 0%Z -> val k = ccd G (coef G cbrt mx) k + loop_surplus G cbrt mx k / qz (edge_pairs G k))%Qc /\
        (* no self-loop at k or at a predecessor of k: the directed clustering coefficient *)
        (has_edge G k k = false -> (forall j, nbr G j k = true -> has_edge G j j = false) -> val k = ccd G (coef G cbrt mx) k)
    | Raise e => (e = EKey /\ exists l u, a = Nodes l /\ In u l /\ ~ node G u) \/
                 (e = EAttr /\ weighted = true /\ mhr = false /\ ~ loop_free G)
    end).
Proof.
  intros D Ha Hs. assert (HE : forall e, weighted = true /\ weigh_fail G mhr e -> e = EAttr /\ weighted = true /\ mhr = false /\ ~ loop_free G).
  { intros e [-> [[-> H]|(-> & H & H')]]; [|auto]. exfalso. destruct mx as [m|]; [|discriminate]. destruct Hs as [_ [(u & v & H1 & _) _]]. rewrite H in H1. discriminate. }
  unfold nx_clustering. destruct (Nat.eqb_spec n 0) as [E|E].
  { apply answers_ret. apply (no_nodes G wf). assumption. }
  destruct (arg_node G a) as [i|] eqn:Ei; [destruct a as [|k|l]; try discriminate; destruct (Ha k eq_refl)|]. rewrite ?D.
  eapply (arg_map G wf 0%Qc a _ (fun e => weighted = true /\ weigh_fail G mhr e) (fun mask => clustering_any mhr cbrt G weighted mask) (ccdl mx)
    (fun k => ccd G (coef G cbrt mx) k + loop_surplus G cbrt mx k / qz (edge_pairs G k))%Qc dpr).
  - intros u j Hu. apply ccdl_kid. assumption.
  - assumption.
  - intros mask. unfold clustering_any. rewrite D. eapply answers_conseq; [apply (clustering_directed_loops weighted mask D)|]. intros [r|e]; [|auto].
    intros (mx' & Hs' & Hr). rewrite (wok_fun G _ _ _ Hs' Hs) in Hr. exact Hr.
  - intros e He. right. apply HE. assumption.
  - intros l -> (u & Hu & Nu). left. split; [reflexivity|]. exists l, u. auto.
  - intros nm Hm. eexists. split; [exact Hm|]. intros k Hk. split; [reflexivity|]. intros H1 H2.
    assert (Z0 : loop_surplus G cbrt mx k = 0%Qc).
    { unfold loop_surplus. cbv zeta. unfold loop_coef at 1. rewrite H1.
      assert (E0 : qtotal (fun j => (coef G cbrt mx j k * coef G cbrt mx j k * loop_coef G cbrt mx j)%Qc) (gnodes G) = 0%Qc).
      { unfold qtotal. induction (gnodes G) as [|j l IH]; [reflexivity|]. cbn [map fold_right]. rewrite IH.
        unfold coef, loop_coef. destruct (nbr G j k) eqn:Ej; [rewrite (H2 j Ej)|]; ring. }
      rewrite E0. ring. }
    rewrite Z0. unfold Qcdiv. ring.
Qed.
End G.

(** ** Non-vacuity: g_dl has a self-loop; a two-node graph where the surplus is divided by zero *)
Example C22_exact_ex : gwf g_dl /\ g_dir g_dl = true /\ ~ loop_free g_dl /\ edge_pairs g_dl (KI 1) <> 0%Z /\
  loop_surplus g_dl cb None (KI 1) <> 0%Qc /\ scale g_dl false None /\
  exists m q, fst (nx_clustering true cb g_dl AllNodes false st0) = Val (RMap m) /\ nm_getitem m (KI 1) = Val q /\
    q = (ccd g_dl (coef g_dl cb None) (KI 1) + loop_surplus g_dl cb None (KI 1) / qz (edge_pairs g_dl (KI 1)))%Qc.
Proof.
  split; [apply mkg_wf|]. split; [reflexivity|]. split.
  { intros H. apply (H (KI 0)). apply has_edge_true. vm_compute. reflexivity. }
  split; [vm_compute; discriminate|]. split; [intros H; apply (f_equal this) in H; vm_compute in H; discriminate H|]. split; [reflexivity|].
  eexists. eexists. split; [vm_compute; reflexivity|]. split; [vm_compute; reflexivity|]. apply Qc_is_canon. vm_compute. reflexivity.
Qed.
Print Assumptions C22_clustering_exact.
