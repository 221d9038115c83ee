(** * C23 for every undirected graph: what square_clustering computes with self-loops and with weights *)
From Verif Require Import Base BaseProofs Model_Graph Model_Cache Spec_Cache CacheMath CacheProofs CacheProofs2
  Model_Keys Spec KeyProofs Spec_Run RunProofs Model_Utils UtilsProofs Props_Utils Model_Bfs Model_Operators OperatorProofs Spec_Count Model_Measures CountProofs Props_Cuts
  Model_Cluster ClusterMath ClusterMath2 Spec_Cluster ClusterProofs Props_Cluster SquareMath SquareProofs Props_Square Concrete.
From Coq Require Import Permutation QArith Qcanon Ring.
Open Scope nat_scope.

(** ** Specification *)
(** the number of neighbours, a self-loop counted once *)
Definition nbrs (G : graph) (v : nkey) : Z := Z.of_nat (count (has_edge G v) (gnodes G)).
(** the nodes adjacent to both *)
Definition common (G : graph) (u v : nkey) : Z := Z.of_nat (count (fun x => has_edge G u x && has_edge G x v) (gnodes G)).
(** pairs of common neighbours of v and another node *)
Definition squares_counted (G : graph) (v : nkey) : Z :=
  (total (fun x => if nkey_eqb x v then 0 else common G v x * (common G v x - 1)) (gnodes G) / 2)%Z.
(** the common neighbours of v with each of its other neighbours: each triangle twice *)
Definition triangles_counted (G : graph) (v : nkey) : Z :=
  total (fun x => if nkey_eqb x v then 0%Z else if has_edge G v x then common G v x else 0%Z) (gnodes G).
(** the denominator: the weights of the edges of v enter here *)
Definition squares_counted_of (G : graph) (v : nkey) : Z :=
  ((nbrs G v - 1) * total (fun x => weight0 G v x * nbrs G x) (gnodes G)
   - triangles_counted G v - nbrs G v * (nbrs G v - 1) - squares_counted G v)%Z.
Definition square_code (G : graph) (v : nkey) : Qc :=
  if (squares_counted G v =? 0)%Z then 0%Qc else (qz (squares_counted G v) / qz (squares_counted_of G v))%Qc.

Section P.
Variable G : graph.
Hypothesis wf : gwf G.
Hypothesis D : g_dir G = false.
Notation n := (glen G).
Notation A := (g_A G).
Notation one1 := (fun _ : Z => 1%Z).
Notation c := (fun i j => eval 0%Z one1 (mget A i j)).
Notation cw := (fun i j => eval 0%Z id (mget A i j)).
Definition el (i j : nat) : Prop := has (mget A i j) = true.
Lemma el_lt i j : el i j -> i < n /\ j < n.
Proof. unfold el. intros H. apply has_true in H as [x Hx]. apply mget_some_lt in Hx; [|apply (HmA G wf)]. rewrite (Hsq G wf) in Hx. exact Hx. Qed.
Lemma msym i j : mget A i j = mget A j i. Proof. apply (gw_sym G wf D). Qed.
Lemma el_sym i j : el i j -> el j i. Proof. unfold el. rewrite (msym i j). auto. Qed.
Lemma l01 i j : c i j = 0%Z \/ c i j = 1%Z.
Proof. cbv beta. destruct (mget A i j); cbn; auto. Qed.
Lemma lsym i j : c i j = c j i. Proof. cbv beta. rewrite (msym i j). reflexivity. Qed.
Lemma l_el i j : c i j = 1%Z <-> el i j.
Proof. cbv beta. unfold el. destruct (mget A i j); cbn; split; congruence. Qed.
Lemma MX_Al {V} (zero : V) f : MX zero n f A el (fun i j => eval zero f (mget A i j)).
Proof. split; [apply (HmA G wf)|]. split; [reflexivity|]. split; [apply (Hsq G wf)|]. intros i j. apply eis_refl. Qed.
Notation dg := (dg n c). Notation pp := (pp n c). Notation np := (np n c).
Lemma outdeg_dgl i : Z.of_nat (outdeg G SP i) = dg i.
Proof.
  unfold outdeg, SquareMath.dg. rewrite cnt_zsum. change (zs n (fun j => c i j)) with (zsum (nrows A) (fun j => c i j)). apply zsum_ext. intros j _. cbn [ent]. destruct (mget A i j); reflexivity.
Qed.
Notation deg := (deg G).
Lemma vget_degl i : i < n -> vget deg i = if (dg i =? 0)%Z then None else Some (dg i).
Proof.
  intros Hi. unfold SquareProofs.deg. rewrite (den_count G), vget_vbuild_lt by assumption. rewrite <- outdeg_dgl. unfold onz.
  destruct (Nat.eqb_spec (outdeg G SP i) 0) as [->|N]; [reflexivity|]. destruct (Z.eqb_spec (Z.of_nat (outdeg G SP i)) 0); [lia|reflexivity].
Qed.
Lemma dgl_nonneg i : (0 <= dg i)%Z. Proof. rewrite <- outdeg_dgl. lia. Qed.
Lemma dgl_pos i j : el i j -> (1 <= dg i)%Z.
Proof.
  intros H. destruct (el_lt i j H) as [_ Lj]. pose proof (dgl_nonneg i). destruct (Z.eq_dec (dg i) 0) as [E|]; [|lia].
  apply (zs_pos n (fun j => c i j)) with (i := j) in E; [|intros k _; destruct (l01 i k) as [-> | ->]; lia|assumption].
  apply l_el in H. congruence.
Qed.
Lemma VX_degl : VX 0%Z n id deg (fun i => i < n /\ dg i <> 0%Z) (fun i => if i <? n then dg i else 0%Z).
Proof.
  split; [apply vsize_deg|]. intros i. destruct (Nat.ltb_spec i n).
  - rewrite vget_degl by assumption. destruct (Z.eqb_spec (dg i) 0) as [E|E]; split; cbn; try tauto; [split; [discriminate|tauto]|]; auto.
  - rewrite vget_out by (rewrite vsize_deg; assumption). split; cbn; [split; [discriminate|lia]|reflexivity].
Qed.
Definition sl2 (i : nat) : Z := zs n (fun j => np i j * (np i j - 1))%Z.
Definition slz (i : nat) : Z := (sl2 i / 2)%Z.
Definition trl (i : nat) : Z := zs n (fun x => c i x * np i x)%Z.
Definition dnl (i : nat) : Z := ((dg i - 1) * zs n (fun x => cw i x * dg x) - trl i - dg i * (dg i - 1) - slz i)%Z.
Definition slv (i : nat) : Qc := if (slz i =? 0)%Z then 0%Qc else (zq (slz i) / zq (dnl i))%Qc.
Lemma slz2 i : (sl2 i = 2 * slz i)%Z.
Proof.
  assert (E : exists k, sl2 i = (2 * k)%Z).
  { unfold sl2. assert (Ev : forall (f : nat -> Z) b, exists k, zs b (fun j => f j * (f j - 1))%Z = (2 * k)%Z); [|apply Ev].
    intros f. induction b as [|b [k IH]]; [exists 0%Z; reflexivity|].
    rewrite zs_S, IH. destruct (Z.Even_or_Odd (f b)) as [[t Ht]|[t Ht]]; rewrite Ht.
    - exists (k + t * (2 * t - 1))%Z. ring.
    - exists (k + (2 * t + 1) * t)%Z. ring. }
  destruct E as [k Hk]. unfold slz. rewrite Hk. replace (2 * k / 2)%Z with k; [reflexivity|]. symmetry. rewrite Z.mul_comm. apply Z.div_mul. lia.
Qed.
Lemma npl_range i j : (0 <= np i j <= dg i)%Z.
Proof.
  unfold SquareMath.np. pose proof (dgl_nonneg i). destruct (j =? i); [lia|]. unfold SquareMath.pp. split.
  - apply zs_nonneg. intros k _. destruct (l01 i k) as [-> | ->], (l01 k j) as [-> | ->]; lia.
  - apply zs_le. intros k _. destruct (l01 i k) as [-> | ->], (l01 k j) as [-> | ->]; lia.
Qed.
Lemma sl2_deg i : sl2 i <> 0%Z -> (2 <= dg i)%Z.
Proof.
  intros H. destruct (Z_lt_le_dec (dg i) 2) as [L|]; [|assumption]. exfalso. apply H.
  apply zs_zero. intros u Hu. pose proof (npl_range i u). assert (E : (np i u = 0 \/ np i u = 1)%Z) by lia. destruct E as [-> | ->]; reflexivity.
Qed.
Lemma p2_rowl i : i < n -> VX 0%Z n id (vdel (vxm Z.add op_pairz (mrow A i) A) i)
  (fun j => j <> i /\ exists k, k < n /\ el i k /\ el k j) (fun j => np i j).
Proof.
  intros Hi. assert (Hs : vsize (vxm Z.add op_pairz (mrow A i) A) = n) by (unfold vxm; rewrite vsize_vbuild; apply (Hsq G wf)).
  split; [unfold vdel; rewrite vsize_vbuild; assumption|]. intros j. unfold vdel. rewrite vget_vbuild, Hs, vget_vxm by apply (HmA G wf).
  assert (X : eis 0%Z id (ored Z.add (nrows A) (fun k => oboth op_pairz (vget (mrow A i) k) (mget A k j))) (exists k, k < n /\ el i k /\ el k j) (pp i j)).
  { apply (eis_ored _ _ _ _ Zsr0 n). intros k Hk. apply (eis_oboth _ _ _ _ Zsr0 one1); [reflexivity| |].
    - apply (MX_Al 0%Z one1).
    - apply (MX_Al 0%Z one1). }
  unfold SquareMath.np. destruct (Nat.eqb_spec j i) as [->|N].
  - destruct (i <? n); split; cbn; try reflexivity; split; try discriminate; tauto.
  - destruct (Nat.ltb_spec j n) as [L|L].
    + eapply eis_conv; [exact X|tauto|reflexivity].
    + split; cbn.
      * split; [discriminate|]. intros (_ & k & _ & _ & H). apply el_lt in H. lia.
      * symmetry. apply zs_zero. intros k _. replace (c k j) with 0%Z; [ring|]. destruct (l01 k j) as [-> | H]; [reflexivity|].
        apply l_el in H. apply el_lt in H. lia.
Qed.
Lemma tri_dotl i (p2 : vec Z) P : i < n -> VX 0%Z n id p2 P (fun j => np i j) ->
  oz (vdot Z.add op_first p2 (mrow A i)) = trl i.
Proof.
  intros Hi [H1 H2]. unfold vdot. rewrite H1.
  assert (X : eis 0%Z id (ored Z.add n (fun k => oboth op_first (vget p2 k) (vget (mrow A i) k))) (exists k, k < n /\ (P k /\ el i k)) (zs n (fun x => c i x * np i x)%Z)); [|exact (proj2 X)].
  apply (eis_ored _ _ _ _ Zsr0). intros k Hk. destruct (H2 k) as [E1 E2].
  change (vget (mrow A i) k) with (mget A i k). split; [rewrite has_oboth, andb_true_iff, E1; reflexivity|].
  rewrite <- E2. destruct (mget A i k) as [x|] eqn:Em; destruct (vget p2 k) as [y|]; unfold eval, op_first, id, oboth; lia.
Qed.
Lemma deg_dotl i : i < n -> oz (vdot Z.add Z.mul (mrow A i) deg) = zs n (fun x => cw i x * dg x)%Z.
Proof.
  intros Hi. unfold vdot. replace (vsize (mrow A i)) with n by (unfold vsize; rewrite mrow_length; [symmetry; apply (Hsq G wf)|apply (HmA G wf)|assumption]).
  assert (X : eis 0%Z id (ored Z.add n (fun k => oboth Z.mul (vget (mrow A i) k) (vget deg k))) (exists k, k < n /\ (el i k /\ (k < n /\ dg k <> 0%Z))) (zs n (fun x => cw i x * (if (x <? n)%nat then dg x else 0))%Z)).
  { apply (eis_ored _ _ _ _ Zsr0). intros k Hk. apply (eis_oboth _ _ _ _ Zsr0 id); [reflexivity| |].
    - apply (MX_Al 0%Z id).
    - apply VX_degl. }
  etransitivity; [exact (proj2 X)|]. apply zs_ext. intros x Hx. destruct (Nat.ltb_spec x n); [reflexivity|lia].
Qed.
(** ** one node: python's division raises when the denominator is 0 *)
Lemma single_square_exact i : i < n -> answers G (single_square_clustering G i) (fun o =>
  o = if (slz i =? 0)%Z then Val 0%Qc else if (dnl i =? 0)%Z then Raise EZeroDiv else Val (slv i)).
Proof.
  intros Hi. unfold single_square_clustering, get_degrees_A. rewrite D. cbv zeta. eapply answers_bind_GV; [apply (get_red_ok G wf true eq_refl)|]. cbn [msk]. fold deg.
  assert (Ed : oz (vget deg i) = dg i) by (rewrite vget_degl by assumption; destruct (Z.eqb_spec (dg i) 0) as [->|]; reflexivity).
  rewrite Ed. destruct (Z.leb_spec (dg i) 1) as [L|L].
  { apply answers_ret. destruct (Z.eqb_spec (slz i) 0) as [|E]; [reflexivity|]. exfalso. assert (sl2 i <> 0)%Z by (rewrite slz2; lia). apply sl2_deg in H. lia. }
  set (p2 := vdel _ _). pose proof (p2_rowl i Hi) as Hp. fold p2 in Hp. pose proof (tri_dotl i p2 _ Hi Hp) as Et.
  assert (Es : vsum (vunion Z.mul p2 (vmap (fun x => x - 1)%Z p2)) = sl2 i).
  { unfold vsum.
    assert (X : VX 0%Z n id (vunion Z.mul p2 (vmap (fun x => x - 1)%Z p2)) (fun j => j <> i /\ exists k, k < n /\ el i k /\ el k j) (fun j => np i j * (np i j - 1))%Z).
    { destruct Hp as [Hs Hp]. split; [rewrite vsize_vunion; assumption|]. intros j. rewrite vget_vunion by (rewrite vsize_vmap; reflexivity). rewrite vget_vmap. apply pm1, Hp. }
    exact (proj2 (VX_reduce _ _ _ _ Zsr0 _ _ _ _ X)). }
  rewrite Es. fold (slz i). destruct (Z.eqb_spec (slz i) 0) as [E0|E0]; [apply answers_ret; reflexivity|].
  rewrite Et, (deg_dotl i Hi).
  replace (- trl i - dg i * (dg i - 1) + zs n (fun x => cw i x * dg x) * (dg i - 1) - slz i)%Z with (dnl i) by (unfold dnl; ring).
  apply answers_lifto. unfold slv. destruct (Z.eqb_spec (slz i) 0); [contradiction|]. destruct (Z.eqb_spec (dnl i) 0) as [->|E1].
  - reflexivity.
  - rewrite (qdiv_ok _ (dnl i)) by assumption. reflexivity.
Qed.
(** ** several nodes *)
Lemma zs_ifl (b : bool) f : zs n (fun j => if b then f j else 0%Z) = if b then zs n f else 0%Z.
Proof. destruct b; [reflexivity|]. apply zs_zero. reflexivity. Qed.
Lemma slv_0 i : slz i = 0%Z -> slv i = 0%Qc.
Proof. intros H. unfold slv. rewrite H. reflexivity. Qed.
Lemma square_clustering_exact ids : exists r, answers G (square_clustering G ids) (eq (Val r)) /\
  VX 0%Qc n id r (fun i => i < n /\ inr ids i = true /\ slz i <> 0%Z) (fun i => if (i <? n) && inr ids i then slv i else 0%Qc).
Proof.
  eexists. split.
  { unfold square_clustering, get_degrees_A. rewrite D. eapply answers_bind_GV; [apply (get_red_ok G wf true eq_refl)|]. cbn [msk]. fold deg. apply answers_ret. reflexivity. }
  cbv zeta. rewrite vsize_deg.
  set (Asub := match ids with Some l => vm_inter op_second (vscatter n l true) A | None => A end).
  set (A' := match ids with Some _ => A | None => mtrans A end).
  assert (HAs : forall f : Z -> Z, MX 0%Z n f Asub (fun i j => inr ids i = true /\ el i j) (fun i j => if inr ids i then eval 0%Z f (mget A i j) else 0%Z)).
  { intros f. pose proof (MX_Al 0%Z f) as HAf.
    unfold Asub, inr. destruct ids as [l|]; [|eapply MX_conv; [exact HAf|tauto|reflexivity]].
    destruct HAf as (M1 & M2 & M3 & M4). split; [apply mwf_mbuild|]. split; [apply nrows_mbuild|]. split; [unfold vm_inter; rewrite ncols_mbuild; assumption|].
    intros i j. rewrite mget_vm_inter by assumption. rewrite vget_vscatter. destruct (M4 i j) as [E1 E2].
    destruct (Nat.ltb_spec i n) as [Li|Li]; cbn [andb].
    - destruct (existsb (Nat.eqb i) l); [|split; cbn; [split; [discriminate|intros [? _]; discriminate]|reflexivity]].
      unfold op_second. destruct (mget A i j); split; cbn [oboth has] in *; tauto.
    - cbn [oboth]. assert (N : ~ el i j) by (intros H; apply (el_lt) in H; lia). split; [split; [discriminate|tauto]|].
      destruct (existsb (Nat.eqb i) l); [|reflexivity]. unfold el in N. destruct (mget A i j); [destruct N|]; reflexivity. }
  assert (HA' : MX 0%Z n one1 A' el c).
  { unfold A'. destruct ids; [apply (MX_Al 0%Z one1)|]. eapply MX_conv; [apply MX_trans, (MX_Al 0%Z one1)| |].
    - intros i j. split; apply el_sym.
    - intros i j. apply lsym. }
  set (P2 := mrestrict _ _).
  assert (HP : MX 0%Z n id P2 (fun i j => inr ids i = true /\ j <> i /\ exists k, k < n /\ el i k /\ el k j) (fun i j => if inr ids i then np i j else 0%Z)).
  { pose proof (MX_mxm 0%Z 1%Z Z.add Z.mul Zsr0 one1 op_pairz ltac:(reflexivity) n _ _ _ _ _ _ (HAs one1) HA') as (M1 & M2 & M3 & M4).
    split; [apply mwf_mselect|]. split; [unfold P2, mrestrict; rewrite nrows_mselect; assumption|]. split; [unfold P2, mrestrict; rewrite ncols_mselect; assumption|].
    intros i j. unfold P2, mrestrict. rewrite mget_mselect by assumption. destruct (M4 i j) as [E1 E2].
    assert (Ex : has (mget (mxm Z.add op_pairz Asub A') i j) = true <-> inr ids i = true /\ exists k, k < n /\ el i k /\ el k j).
    { rewrite E1. split; [intros (k & Hk & [H1 H2] & H3); split; [assumption|exists k; auto]|intros [H1 (k & Hk & H2 & H3)]; exists k; auto]. }
    assert (Ev : eval 0%Z id (mget (mxm Z.add op_pairz Asub A') i j) = if inr ids i then pp i j else 0%Z).
    { rewrite E2. rewrite (zs_ext n _ (fun k => if inr ids i then (c i k * c k j)%Z else 0%Z)) by (intros; apply if_mul). apply zs_ifl. }
    clear E1 E2. unfold msNS, vdiag. rewrite mget_mbuild, vsize_deg.
    destruct (Nat.eqb_spec j i) as [->|N].
    - rewrite Nat.eqb_refl. unfold SquareMath.np. rewrite Nat.eqb_refl.
      assert (X : (if negb (has (if (i <? n) && (i <? n) then vget deg i else None)) then mget (mxm Z.add op_pairz Asub A') i i else None) = None).
      { destruct (Nat.ltb_spec i n) as [Li|Li]; cbn [andb has negb].
        - rewrite vget_degl by assumption. destruct (Z.eqb_spec (dg i) 0) as [E|E]; [|reflexivity]. cbn [has negb].
          destruct (mget _ i i) as [x|]; [|reflexivity]. exfalso. assert (H : has (Some x) = true) by reflexivity. apply Ex in H as (_ & k & _ & H & _). apply dgl_pos in H. lia.
        - destruct (mget _ i i) as [x|]; [|reflexivity]. exfalso. assert (H : has (Some x) = true) by reflexivity. apply Ex in H as (_ & k & _ & H & _). apply el_lt in H. lia. }
      rewrite X. split; cbn; [split; [discriminate|tauto]|destruct (inr ids i); reflexivity].
    - destruct (Nat.eqb_spec i j) as [|N']; [congruence|]. replace (if (i <? n) && (j <? n) then None else None) with (@None Z) by (destruct (_ && _); reflexivity). cbn [has negb].
      unfold SquareMath.np. destruct (Nat.eqb_spec j i); [contradiction|]. split; [rewrite Ex; tauto|assumption]. }
  set (neg0 := mred_row Z.add (minter op_first P2 Asub)).
  assert (Hn0 : exists p, VX 0%Z n id neg0 p (fun i => if inr ids i then trl i else 0%Z)).
  { eexists. eapply VX_conv; [apply (MX_row 0%Z 1%Z Z.add Z.mul Zsr0 n _ (fun i j => (inr ids i = true /\ j <> i /\ exists k, k < n /\ el i k /\ el k j) /\ (inr ids i = true /\ el i j)) (fun i j => if inr ids i then (c i j * np i j)%Z else 0%Z))|reflexivity|intros i; apply zs_if].
    destruct HP as (M1 & M2 & M3 & M4). destruct (HAs one1) as (N1 & N2 & N3 & N4).
    split; [apply mwf_mbuild|]. split; [unfold minter; rewrite nrows_mbuild; assumption|]. split; [unfold minter; rewrite ncols_mbuild; assumption|].
    intros i j. rewrite mget_minter by assumption. destruct (M4 i j) as [E1 E2], (N4 i j) as [F1 F2]. split; [rewrite has_oboth, andb_true_iff, E1, F1; reflexivity|].
    destruct (inr ids i) eqn:Ei.
    - rewrite <- E2. unfold op_first. destruct (mget Asub i j) as [x|] eqn:Ea.
      + assert (Hc : c i j = 1%Z) by (apply l_el; apply F1; reflexivity). rewrite Hc. destruct (mget P2 i j) as [y|]; unfold eval, oboth, id; lia.
      + assert (Hc : c i j = 0%Z) by (symmetry; exact F2). rewrite Hc. destruct (mget P2 i j) as [y|]; unfold eval, oboth, id; lia.
    - destruct (mget P2 i j) as [y|]; [|reflexivity]. assert (false = true) by (apply E1; reflexivity). discriminate. }
  set (P2' := munion Z.mul P2 (mmap (fun x => x - 1)%Z P2)).
  assert (HP' : MX 0%Z n id P2' (fun i j => inr ids i = true /\ j <> i /\ exists k, k < n /\ el i k /\ el k j) (fun i j => if inr ids i then (np i j * (np i j - 1))%Z else 0%Z)).
  { destruct HP as (M1 & M2 & M3 & M4). split; [apply mwf_mbuild|]. split; [unfold P2', munion; rewrite nrows_mbuild; assumption|]. split; [unfold P2', munion; rewrite ncols_mbuild; assumption|].
    intros i j. unfold P2'. rewrite mget_munion; [|assumption|apply mwf_mbuild|unfold mmap; rewrite nrows_mbuild; reflexivity|unfold mmap; rewrite ncols_mbuild; reflexivity].
    rewrite mget_mmap by assumption. eapply eis_conv; [apply pm1; apply M4|reflexivity|]. cbv beta. destruct (inr ids i); [reflexivity|ring]. }
  set (sq0 := mred_row Z.add P2').
  assert (Hq0 : exists p, VX 0%Z n id sq0 p (fun i => if inr ids i then sl2 i else 0%Z)).
  { eexists. eapply VX_conv; [apply (MX_row 0%Z 1%Z Z.add Z.mul Zsr0 n _ _ _ HP')|reflexivity|]. intros i. cbv beta. rewrite zs_ifl. reflexivity. }
  destruct Hq0 as (pq & Hq1 & Hq2), Hn0 as (pn & Hn1 & Hn2).
  set (squares := vwrite (mV sq0) true sq0 (vmap (fun x => x / 2)%Z sq0)).
  assert (Hqs : vsize squares = n) by (unfold squares; rewrite vsize_vwrite; assumption).
  assert (Hqg : forall i, i < n -> vget squares i = if inr ids i && negb (slz i =? 0)%Z then Some (slz i) else None).
  { intros i Hi. unfold squares. rewrite vget_vwrite, Hq1. destruct (Nat.ltb_spec i n); [|lia]. rewrite vget_vmap. unfold mV. destruct (Hq2 i) as [E1 E2]. clear E1.
    unfold id in E2. destruct (inr ids i); cbn [andb].
    - destruct (Z.eqb_spec (slz i) 0) as [E|E]; cbn [negb].
      + rewrite slz2, E in E2. destruct (vget sq0 i) as [x|]; [|reflexivity]. cbn in E2. rewrite E2. reflexivity.
      + rewrite slz2 in E2. destruct (vget sq0 i) as [x|]; cbn [eval] in E2; [|lia]. destruct (Z.eqb_spec x 0); [lia|]. cbn [negb omap]. f_equal.
        rewrite E2, Z.mul_comm. apply Z.div_mul. lia.
    - destruct (vget sq0 i) as [x|]; [|reflexivity]. cbn in E2. rewrite E2. reflexivity. }
  set (den0 := vrestrict (mS squares) (vmap (fun x => x - 1)%Z deg)).
  assert (Hds : vsize den0 = n) by (unfold den0; rewrite vsize_vrestrict, vsize_vmap; apply vsize_deg).
  set (neg1 := vunion Z.add neg0 (vinter Z.mul deg den0)).
  assert (Hns : vsize neg1 = n) by (unfold neg1; rewrite vsize_vunion; assumption).
  set (T := mxv Z.add Z.mul Asub deg).
  set (den1 := vbuild (vsize den0) _).
  assert (Hd1 : vsize den1 = n) by (unfold den1; rewrite vsize_vbuild; assumption).
  set (den2 := vunion Z.sub den1 (vinter Z.add neg1 squares)).
  assert (Hd2 : vsize den2 = n) by (unfold den2; rewrite vsize_vunion; assumption).
  split; [rewrite vsize_vinter; assumption|]. intros i. rewrite vget_vinter by congruence.
  destruct (Nat.ltb_spec i n) as [Li|Li].
  2: { rewrite (vget_out squares) by (rewrite Hqs; assumption). cbn. split; [split; [discriminate|lia]|reflexivity]. }
  cbn [andb]. rewrite (Hqg i Li). destruct (inr ids i) eqn:Ei; cbn [andb].
  2: { cbn. split; [split; [discriminate|intros (_ & ? & _); discriminate]|reflexivity]. }
  destruct (Z.eqb_spec (slz i) 0) as [E0|E0]; cbn [negb].
  { cbn. rewrite slv_0 by assumption. split; [split; [discriminate|tauto]|reflexivity]. }
  assert (Hdg : (2 <= dg i)%Z) by (apply sl2_deg; rewrite slz2; lia).
  assert (Hdeg : vget deg i = Some (dg i)) by (rewrite vget_degl by assumption; destruct (Z.eqb_spec (dg i) 0); [lia|reflexivity]).
  assert (Hden0 : vget den0 i = Some (dg i - 1)%Z).
  { unfold den0. rewrite vget_vrestrict, vget_vmap, Hdeg. unfold mS. rewrite (Hqg i Li), Ei. destruct (Z.eqb_spec (slz i) 0); [contradiction|]. reflexivity. }
  assert (Hneg1 : vget neg1 i = Some (trl i + dg i * (dg i - 1))%Z).
  { unfold neg1. rewrite vget_vunion by (rewrite vsize_vinter, vsize_deg; assumption). rewrite vget_vinter by (rewrite vsize_deg; congruence). rewrite Hdeg, Hden0.
    destruct (Hn2 i) as [_ E2]. rewrite Ei in E2. rewrite <- E2. unfold id. destruct (vget neg0 i); cbn [omerge oboth eval]; f_equal; ring. }
  assert (HT : vget T i = Some (zs n (fun x => cw i x * dg x)%Z)).
  { pose proof (VX_mxv 0%Z 1%Z Z.add Z.mul Zsr0 id Z.mul ltac:(reflexivity) n Asub deg _ _ _ _ (HAs id) VX_degl) as [_ X]. destruct (X i) as [E1 E2]. fold T in E1, E2.
    assert (Ex : exists j, j < n /\ el i j).
    { assert (E : ~ forall j, j < n -> c i j = 0%Z) by (intros H; assert (dg i = 0)%Z by (apply zs_zero; assumption); lia).
      destruct (find_below n (fun j => negb (c i j =? 0)%Z)) as [(j & Hj & Hc)|Hn].
      - exists j. split; [assumption|]. apply l_el. destruct (l01 i j) as [E'|]; [rewrite E' in Hc; discriminate|assumption].
      - exfalso. apply E. intros j Hj. specialize (Hn j Hj). apply negb_false_iff, Z.eqb_eq in Hn. assumption. }
    destruct Ex as (j & Lj & Hj). assert (has (vget T i) = true).
    { apply E1. exists j. split; [assumption|]. split; [auto|]. split; [assumption|]. apply el_sym in Hj. apply dgl_pos in Hj. lia. }
    destruct (vget T i) as [t|]; [|discriminate]. f_equal. cbn [eval] in E2. unfold id in E2. rewrite E2. apply zs_ext. intros x Hx. destruct (Nat.ltb_spec x n); [|lia]. rewrite Ei. reflexivity. }
  assert (Hden1 : vget den1 i = Some ((dg i - 1) * zs n (fun x => cw i x * dg x))%Z).
  { unfold den1. rewrite vget_vbuild_lt by (rewrite Hds; assumption). unfold mS. rewrite Hden0, HT. reflexivity. }
  assert (Hden2 : vget den2 i = Some (dnl i)).
  { unfold den2. rewrite vget_vunion by (rewrite vsize_vinter; congruence). rewrite vget_vinter by congruence. rewrite Hden1, Hneg1, (Hqg i Li), Ei.
    destruct (Z.eqb_spec (slz i) 0); [contradiction|]. cbn [andb negb oboth omerge]. f_equal. unfold dnl. ring. }
  rewrite Hden2. cbn [oboth]. split; [cbn; tauto|]. cbn [eval]. unfold id, slv. destruct (Z.eqb_spec (slz i) 0); [contradiction|reflexivity].
Qed.
Lemma mem_appl {X} (f : X -> bool) a b : existsb f (a ++ b) = existsb f a || existsb f b.
Proof. induction a; cbn; [reflexivity|]. rewrite IHa. destruct (f a); reflexivity. Qed.
Definition slvec (R : nat -> bool) (r : vec Qc) : Prop :=
  VX 0%Qc n id r (fun i => i < n /\ R i = true /\ slz i <> 0%Z) (fun i => if (i <? n) && R i then slv i else 0%Qc).
Lemma square_chunks_exact si : forall ps ls R o, map (chunk_ids si) ps = map Val ls ->
  match o with None => True | Some r => slvec R r end ->
  answers G (square_chunks G si ps o) (fun res => match o, ls with
    | None, [] => res = Val None
    | _, _ => exists r, res = Val (Some r) /\ slvec (fun i => (match o with None => false | Some _ => R i end) || existsb (Nat.eqb i) (List.concat ls)) r end).
Proof.
  induction ps as [|p ps IH]; intros [|l ls] R o E Ho; cbn [map] in E; try discriminate; cbn [square_chunks].
  - destruct o as [r|]; apply answers_ret; [|reflexivity]. exists r. split; [reflexivity|]. cbn [List.concat existsb]. destruct Ho as [H1 H2]. split; [assumption|]. intros i. rewrite orb_false_r. apply H2.
  - injection E as E1 E2. rewrite E1. eapply answers_bind_v; [apply answers_lifto; reflexivity|]. destruct (square_clustering_exact (Some l)) as (r & Hr & Hv).
    eapply answers_bind_v; [exact Hr|]. set (o' := match o with None => r | Some x => vunion op_any x r end).
    set (R' := fun i => (match o with None => false | Some _ => R i end) || existsb (Nat.eqb i) l).
    assert (Ho' : slvec R' o').
    { unfold o', R'. destruct o as [x|]; [|exact Hv]. destruct Ho as [A1 A2], Hv as [B1 B2]. split; [rewrite vsize_vunion; assumption|]. intros i.
      rewrite vget_vunion by congruence. destruct (A2 i) as [E3 E4], (B2 i) as [F3 F4]. cbn [inr] in *. split.
      - rewrite has_omerge, !orb_true_iff, E3, F3. tauto.
      - destruct (vget x i) as [q|]; cbn [omerge].
        + destruct (proj1 E3 eq_refl) as (L1 & L2 & _). rewrite L2 in *. cbn [orb]. destruct (vget r i); exact E4.
        + assert (E5 : (if (i <? n) && R i then slv i else 0%Qc) = 0%Qc) by (rewrite <- E4; reflexivity).
          replace (match vget r i with Some y => Some y | None => None end) with (vget r i) by (destruct (vget r i); reflexivity).
          rewrite F4. destruct (i <? n); cbn [andb] in *; [|reflexivity]. destruct (R i); cbn [orb]; [|reflexivity]. rewrite E5. destruct (existsb (Nat.eqb i) l); reflexivity. }
    eapply answers_conseq; [apply (IH ls R' (Some o') E2 Ho')|]. cbv beta. intros res. cbn [List.concat].
    intros (r' & -> & H1 & H2). assert (X : exists r0, Val (Some r') = Val (Some r0) /\ slvec (fun i => (match o with None => false | Some _ => R i end) || existsb (Nat.eqb i) (l ++ List.concat ls)) r0).
    { exists r'. split; [reflexivity|]. split; [assumption|]. intros i. rewrite mem_appl, orb_assoc. apply H2. }
    destruct o; exact X.
Qed.
(** ** keys *)
Lemma c_edge u v i j : kid G u = Some i -> kid G v = Some j -> (if has_edge G u v then 1 else 0)%Z = c i j.
Proof. intros Hu Hv. rewrite (has_edge_kid G u v i j Hu Hv). destruct (mget A i j); reflexivity. Qed.
Lemma nbrs_id u i : kid G u = Some i -> nbrs G u = dg i.
Proof. intros Hu. unfold nbrs. rewrite total_count. apply (gtotal_nodes G wf _ _ _ _ Zsr0). intros v j Hv. apply c_edge; assumption. Qed.
Lemma common_id u v i j : kid G u = Some i -> kid G v = Some j -> common G u v = pp i j.
Proof.
  intros Hu Hv. unfold common. rewrite total_count. apply (gtotal_nodes G wf _ _ _ _ Zsr0). intros x k Hx.
  rewrite <- (c_edge u x i k Hu Hx), <- (c_edge x v k j Hx Hv). destruct (has_edge G u x), (has_edge G x v); reflexivity.
Qed.
Lemma counted_id v i : kid G v = Some i -> squares_counted G v = slz i.
Proof.
  intros Hv. unfold squares_counted, slz. f_equal. apply (gtotal_nodes G wf _ _ _ _ Zsr0). intros x j Hx.
  rewrite (kid_eqb G wf x v j i Hx Hv), (common_id v x i j Hv Hx). unfold SquareMath.np. destruct (j =? i); reflexivity.
Qed.
Lemma tri_id v i : kid G v = Some i -> triangles_counted G v = trl i.
Proof.
  intros Hv. apply (gtotal_nodes G wf _ _ _ _ Zsr0). intros x j Hx.
  rewrite (kid_eqb G wf x v j i Hx Hv), (common_id v x i j Hv Hx), <- (c_edge v x i j Hv Hx). unfold SquareMath.np. destruct (j =? i), (has_edge G v x); ring.
Qed.
Lemma counted_of_id v i : kid G v = Some i -> squares_counted_of G v = dnl i.
Proof.
  intros Hv. unfold squares_counted_of, dnl. rewrite (nbrs_id v i Hv), (tri_id v i Hv), (counted_id v i Hv).
  assert (E : total (fun x => weight0 G v x * nbrs G x)%Z (gnodes G) = zs n (fun x => cw i x * dg x)%Z); [|rewrite E; reflexivity].
  apply (gtotal_nodes G wf _ _ _ _ Zsr0). intros x j Hx. rewrite (nbrs_id x j Hx), (weight0_kid G v x i j Hv Hx). destruct (mget A i j); reflexivity.
Qed.
Lemma code_id v i : kid G v = Some i -> square_code G v = slv i.
Proof. intros Hv. unfold square_code, slv. rewrite (counted_id v i Hv), (counted_of_id v i Hv). reflexivity. Qed.
Lemma split_exact si c ids : c <> 1%Z \/ si = true ->
  let l := match ids with Some l => l | None => vindices (red_row RAny (g_A G)) end in
  answers G (square_clustering_split G si ids c) (fun o =>
    match l with [] => o = Val None | _ => exists r, o = Val (Some r) /\ slvec (fun i => existsb (Nat.eqb i) l) r end).
Proof.
  intros H l. unfold square_clustering_split. fold l. destruct (chunks_of si c l H) as (ls & E1 & E2 & E3).
  eapply answers_conseq; [apply (square_chunks_exact si _ ls (fun _ => false) None E1 I)|]. cbv beta. intros o Ho.
  destruct ls as [|a ls].
  - rewrite (proj1 E3 eq_refl). exact Ho.
  - destruct l as [|b l']; [discriminate (proj2 E3 eq_refl)|]. rewrite <- E2. exact Ho.
Qed.
Lemma any_row_el i : has (vget (red_row RAny (g_A G)) i) = true <-> exists j, j < n /\ el i j.
Proof.
  unfold red_row. rewrite vget_mred_row by apply mwf_mbuild. unfold mmap at 1. rewrite ncols_mbuild, (Hsq G wf). rewrite has_ored_true.
  assert (E : forall j, has (mget (mmap (rmap RAny) (g_A G)) i j) = has (mget A i j)).
  { intros j. rewrite mget_mmap by apply (HmA G wf). destruct (mget (g_A G) i j); reflexivity. }
  split; intros (j & Hj & H); exists j; (split; [assumption|]); unfold el in *; rewrite E in *; assumption.
Qed.
Lemma all_mapl r R : (forall i, i < n -> slz i <> 0%Z -> R i = true) -> slvec R r ->
  is_map (to_nodemap_fill G 0%Qc r) (fun k x => node G k /\ x = square_code G k).
Proof.
  intros HR Hr. apply (is_map_fill G wf). intros k i Hk. rewrite (code_id k i Hk).
  rewrite <- (proj1 (VX_entry G 0%Qc r _ _ i Hr)). pose proof (kid_lt G wf _ _ Hk) as Li. destruct (Nat.ltb_spec i n) as [_|]; [|unfold glen in *; lia]. cbn [andb].
  destruct (R i) eqn:E; [reflexivity|]. apply slv_0. destruct (Z.eq_dec (slz i) 0) as [|N]; [assumption|]. rewrite (HR i Li N) in E. discriminate.
Qed.
Lemma some_mapl r l ids : mapO (kid G) l = Some ids -> slvec (fun i => existsb (Nat.eqb i) ids) r ->
  is_map (to_nodemap G r) (fun k x => In k l /\ squares_counted G k <> 0%Z /\ x = square_code G k).
Proof.
  intros Hl Hr. apply (is_map_intro G wf); [destruct Hr as [-> _]; reflexivity|]. intros k x.
  assert (Hex : forall i, kid G k = Some i -> (existsb (Nat.eqb i) ids = true <-> In k l)).
  { intros i Hk. rewrite existsb_exists. split.
    - intros (j & Hj & E). apply Nat.eqb_eq in E. subst j. destruct (mapO_in _ _ _ Hl i) as [X _]. destruct (X Hj) as (k' & Hk' & Hi). rewrite (kid_inj G wf k k' i Hk Hi). assumption.
    - intros Hin. exists i. split; [|apply Nat.eqb_refl]. apply (mapO_in _ _ _ Hl). eauto. }
  destruct Hr as [Hs Hr]. split.
  - intros (Hin & Hsq & ->). assert (Hk : exists i, kid G k = Some i).
    { destruct (kid G k) as [i|] eqn:E; [eauto|]. assert (mapO (kid G) l = None) by (apply mapO_none; eauto). congruence. }
    destruct Hk as [i Hk]. exists i. split; [assumption|]. destruct (Hr i) as [H1 H2]. pose proof (kid_lt G wf _ _ Hk) as Li.
    rewrite (counted_id k i Hk) in Hsq. rewrite (code_id k i Hk).
    assert (Hh : has (vget r i) = true) by (apply H1; split; [exact Li|]; split; [apply Hex; assumption|assumption]).
    destruct (vget r i) as [q|]; [|discriminate]. f_equal. unfold eval, id in H2. rewrite H2. destruct (Nat.ltb_spec i n); [|unfold glen in *; lia].
    rewrite (proj2 (Hex i Hk) Hin). reflexivity.
  - intros (i & Hk & Hx). destruct (Hr i) as [H1 H2]. rewrite Hx in H1, H2. destruct (proj1 H1 eq_refl) as (Li & Hi & Hsq). split; [apply (Hex i Hk); assumption|].
    rewrite (counted_id k i Hk). split; [assumption|]. rewrite (code_id k i Hk). unfold eval, id in H2. rewrite H2.
    destruct (Nat.ltb_spec i n); [|lia]. rewrite Hi. reflexivity.
Qed.
(** every undirected graph, with self-loops and any weights.  A map gives inf where the denominator is 0: nothing is said about those
    nodes ([val] is only determined elsewhere); a single node raises ZeroDivisionError there *)
Theorem C23_square_clustering_exact a si cs : cs <> Some 1%Z \/ si = true -> (forall k, a = OneNode k -> node G k) ->
  answers G (nx_square_clustering G a si (Val cs)) (fun o => exists val,
    (forall k, node G k -> squares_counted G k = 0%Z \/ squares_counted_of G k <> 0%Z -> val k = square_code G k) /\
    match o with
    | Val REmpty => gnodes G = []
    | Val (ROne q) => exists k, a = OneNode k /\ q = val k /\ (squares_counted G k = 0 \/ squares_counted_of G k <> 0)%Z
    | Val (RMap (Some m)) =>
        match a with
        | AllNodes => is_map m (fun k x => node G k /\ x = val k)
        | Nodes l => is_map m (fun k x => In k l /\ squares_counted G k <> 0%Z /\ x = val k)
        | OneNode _ => False
        end
    | Val (RMap None) => cs <> None /\ (a = Nodes [] \/ (a = AllNodes /\ forall u v, ~ edge G u v))
    | Raise e => (e = EKey /\ exists l u, a = Nodes l /\ In u l /\ ~ node G u) \/
        (e = EZeroDiv /\ exists k, a = OneNode k /\ squares_counted G k <> 0%Z /\ squares_counted_of G k = 0%Z)
    end).
Proof.
  intros Hc Ha. match goal with |- answers G _ (fun o => exists val, _ /\ @?P val o) => apply (answers_conseq G _ (P (square_code G))) end; [|intros o Ho; exists (square_code G); split; [auto|exact Ho]].
  cbv beta. unfold nx_square_clustering. destruct (Nat.eqb_spec n 0) as [E|E].
  { apply answers_ret. apply (no_nodes G wf). assumption. }
  eapply answers_bind_v; [apply answers_lifto; reflexivity|].
  assert (Hc' : forall c, cs = Some c -> c <> 1%Z \/ si = true) by (intros c ->; destruct Hc as [Hc|]; [left; congruence|right; assumption]).
  destruct a as [|k|l].
  - destruct cs as [c|].
    + eapply (answers_bind G _ _ _); [apply (split_exact si c None (Hc' c eq_refl))| |].
      * cbv zeta beta iota. intros r Hr. apply answers_ret. destruct (vindices (red_row RAny (g_A G))) as [|x l] eqn:Ei.
        -- injection Hr as ->. cbn [omap]. split; [discriminate|]. right. split; [reflexivity|]. intros u v [w Hw].
           unfold weight in Hw. destruct (kid G u) as [i|] eqn:Hi; [|discriminate]. destruct (kid G v) as [j|] eqn:Hj; [|discriminate]. rename Hw into Hm.
           assert (has (vget (red_row RAny (g_A G)) i) = true).
           { apply any_row_el. exists j. split; [exact (kid_lt G wf _ _ Hj)|]. unfold el. rewrite Hm. reflexivity. }
           apply in_vindices in H. rewrite Ei in H. destruct H.
        -- destruct Hr as (r' & [= ->] & Hr). cbn [omap]. apply (all_mapl r' _) with (2 := Hr). intros i Li Hs. rewrite <- Ei, any_row. apply any_row_el.
           assert (Hd : (2 <= dg i)%Z) by (apply sl2_deg; rewrite (slz2 i); lia).
           destruct (find_below n (fun j => has (mget A i j))) as [(j & Hj & He)|Hn]; [exists j; auto|]. exfalso.
           assert (dg i = 0%Z); [|lia]. apply zs_zero. intros j Hj. specialize (Hn j Hj). destruct (mget A i j); [discriminate|reflexivity].
      * cbv zeta beta iota. intros e. destruct (vindices _); [discriminate|intros (r & H & _); discriminate].
    + destruct (square_clustering_exact None) as (r & H1 & H2). eapply answers_bind_v; [eapply answers_bind_v; [exact H1|apply answers_ret; reflexivity]|].
      apply answers_ret. cbn [omap]. apply (all_mapl r (fun _ => true)); [auto|]. exact H2.
  - cbn [arg_node]. pose proof (Ha k eq_refl) as Hk. apply node_kid in Hk as [i Hi]. rewrite Hi.
    eapply answers_bind; [apply (single_square_exact i (kid_lt G wf _ _ Hi))| |]; cbv beta; rewrite <- (counted_id k i Hi), <- (counted_of_id k i Hi), <- (code_id k i Hi).
    + intros q Hq. apply answers_ret. exists k. split; [reflexivity|]. unfold square_code in *. destruct (Z.eqb_spec (squares_counted G k) 0) as [E0|E0]; [injection Hq as ->; auto|].
      destruct (Z.eqb_spec (squares_counted_of G k) 0); [discriminate|]. injection Hq as ->. auto.
    + intros e Hq. right. destruct (Z.eqb_spec (squares_counted G k) 0) as [E0|E0]; [discriminate|].
      destruct (Z.eqb_spec (squares_counted_of G k) 0); [|discriminate]. injection Hq as ->. split; [reflexivity|]. exists k. auto.
  - cbn [arg_node]. eapply answers_bind_v; [apply answers_ret; reflexivity|]. unfold list_to_ids.
    change (mapO (dget (g_kid G)) l) with (mapO (kid G) l). destruct (mapO (kid G) l) as [ids|] eqn:El; cbn [okey].
    + eapply answers_bind_v; [apply answers_lifto; reflexivity|]. destruct cs as [c|].
      * eapply (answers_bind G _ _ _); [apply (split_exact si c (Some ids) (Hc' c eq_refl))| |].
        -- cbv zeta beta iota. intros r Hr. apply answers_ret. destruct ids as [|x ids'].
           ++ injection Hr as ->. cbn [omap]. split; [discriminate|]. left. apply mapO_length in El. destruct l; [reflexivity|discriminate].
           ++ destruct Hr as (r' & [= ->] & Hr). cbn [omap]. apply (some_mapl r' l _ El). exact Hr.
        -- cbv zeta beta iota. intros e. destruct ids; [discriminate|intros (r & H & _); discriminate].
      * destruct (square_clustering_exact (Some ids)) as (r & H1 & H2). eapply answers_bind_v; [eapply answers_bind_v; [exact H1|apply answers_ret; reflexivity]|].
        apply answers_ret. cbn [omap]. apply (some_mapl r l ids El). exact H2.
    + eapply answers_bind_e; [apply answers_lifto; reflexivity|]. left. split; [reflexivity|]. apply mapO_none in El as (u & Hu & Nu). exists l, u.
      split; [reflexivity|]. split; [assumption|]. intros H. apply node_kid in H as [i Hi]. congruence.
Qed.
End P.

(** ** Non-vacuity: the weighted and the looped square of the refuted claims; a denominator that is 0 *)
Example C23_exact_ex : gwf g_sqw /\ g_dir g_sqw = false /\ squares_counted g_sqw (KI 0) <> 0%Z /\ square_code g_sqw (KI 0) = Q2Qc (1 # 9) /\
  gwf g_sql /\ ~ loop_free g_sql /\ square_code g_sql (KI 0) = Q2Qc (1 # 5).
Proof.
  split; [apply mkg_wf|]. split; [reflexivity|]. split; [vm_compute; discriminate|]. split; [apply Qc_is_canon; vm_compute; reflexivity|].
  split; [apply mkg_wf|]. split; [|apply Qc_is_canon; vm_compute; reflexivity].
  intros H. assert (X : existsb (fun k => has_edge g_sql k k) (gnodes g_sql) = true) by (vm_compute; reflexivity). apply existsb_exists in X as (k & _ & Hk). apply (H k). apply has_edge_true. assumption.
Qed.
(** a 4-cycle with a pendant node and one edge of weight 0: the denominator at node 0 is 0 *)
Definition g_sq0 : graph := mkg false 5 [(0, 1, 1%Z); (1, 2, 1%Z); (2, 3, 1%Z); (0, 3, 0%Z); (1, 4, 1%Z)].
Example C23_zero_div_ex : gwf g_sq0 /\ node g_sq0 (KI 0) /\ squares_counted g_sq0 (KI 0) = 1%Z /\ squares_counted_of g_sq0 (KI 0) = 0%Z /\
  fst (nx_square_clustering g_sq0 (OneNode (KI 0)) true (Val None) st0) = Raise EZeroDiv.
Proof. split; [apply mkg_wf|]. split; [unfold node; vm_compute; auto|]. split; [vm_compute; reflexivity|]. split; vm_compute; reflexivity. Qed.
Print Assumptions C23_square_clustering_exact.
