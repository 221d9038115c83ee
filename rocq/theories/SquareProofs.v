(** * Square clustering: the sparse computation equals the count *)
From Verif Require Import Base BaseProofs Model_Graph Model_Cache Spec_Cache CacheMath CacheProofs CacheProofs2
  Model_Keys Spec KeyProofs Spec_Run RunProofs Model_Utils Model_Bfs Model_Operators OperatorProofs Spec_Count Model_Measures CountProofs Props_Cuts
  Model_Cluster ClusterMath ClusterMath2 Spec_Cluster ClusterProofs SquareMath.
From Coq Require Import Permutation QArith Qcanon Ring.
Open Scope nat_scope.

Lemma zs_zsum n f : zs n f = zsum n f.
Proof. reflexivity. Qed.
Lemma find_below n (p : nat -> bool) : (exists j, j < n /\ p j = true) \/ (forall j, j < n -> p j = false).
Proof.
  induction n as [|n [(j & Hj & E)|H]]; [right; lia|left; exists j; auto|].
  destruct (p n) eqn:E; [left; exists n; auto|]. right. intros j Hj. destruct (Nat.eq_dec j n) as [->|]; [assumption|]. apply H. lia.
Qed.
Section P.
Variable G : graph.
Hypothesis wf : gwf G.
Hypothesis D : g_dir G = false.
Hypothesis LF : loop_free G.
Notation n := (glen G).
Notation A := (g_A G).
Notation one1 := (fun _ : Z => 1%Z).
Notation c := (cf G 0%Z one1).
Notation ee := (ee G).
Lemma c01 i j : c i j = 0%Z \/ c i j = 1%Z.
Proof. unfold cf. destruct (ent G SM i j); cbn; auto. Qed.
Lemma csym i j : c i j = c j i. Proof. apply (cf_sym G wf 0%Z one1 i j D). Qed.
Lemma cirr i : c i i = 0%Z. Proof. apply cf_irr. Qed.
Lemma c_ee i j : c i j = 1%Z <-> ee i j.
Proof. unfold cf, ClusterProofs.ee. destruct (ent G SM i j); cbn; split; congruence. Qed.
Lemma ent_pm i j : ent G SP i j = ent G SM i j.
Proof. rewrite (noself_ent G wf i j (lf_self G wf LF)). reflexivity. Qed.
Lemma MX_A {V} (zero : V) f : MX zero n f A ee (cf G zero f).
Proof.
  split; [apply (HmA G wf)|]. split; [reflexivity|]. split; [apply (Hsq G wf)|]. intros i j. unfold ClusterProofs.ee, cf.
  rewrite (noself_ent G wf i j (lf_self G wf LF)). apply eis_refl.
Qed.
Notation dg := (dg n c). Notation pp := (pp n c). Notation np := (np n c).
Notation sq2 := (sq2 n c). Notation po2 := (po2 n c). Notation pot := (pot n c).
Lemma outdeg_dg i : Z.of_nat (outdeg G SP i) = dg i.
Proof.
  unfold outdeg, SquareMath.dg. rewrite cnt_zsum. change (zs n (fun j => c i j)) with (zsum (nrows A) (fun j => c i j)). apply zsum_ext. intros j _. rewrite ent_pm. unfold cf. destruct (ent G SM i j); reflexivity.
Qed.
Definition deg := den_red G Row RCount SP.
Lemma vsize_deg : vsize deg = n. Proof. unfold deg. rewrite (den_count G). apply vsize_vbuild. Qed.
Lemma vget_deg i : i < n -> vget deg i = if (dg i =? 0)%Z then None else Some (dg i).
Proof.
  intros Hi. unfold deg. rewrite (den_count G), vget_vbuild_lt by assumption. rewrite <- outdeg_dg. unfold onz.
  destruct (Nat.eqb_spec (outdeg G SP i) 0) as [->|N]; [reflexivity|]. destruct (Z.eqb_spec (Z.of_nat (outdeg G SP i)) 0); [lia|reflexivity].
Qed.
Lemma dg_nonneg i : (0 <= dg i)%Z. Proof. rewrite <- outdeg_dg. lia. Qed.
Lemma dg_pos i j : ee i j -> (1 <= dg i)%Z.
Proof.
  intros H. destruct (ee_lt G wf i j H) as [_ Lj]. pose proof (dg_nonneg i). destruct (Z.eq_dec (dg i) 0) as [E|]; [|lia].
  apply (zs_pos n (fun j => c i j)) with (i := j) in E; [|intros k _; destruct (c01 i k) as [-> | ->]; lia|assumption].
  apply c_ee in H. congruence.
Qed.
Lemma VX_deg : VX 0%Z n id deg (fun i => i < n /\ dg i <> 0%Z) (fun i => if i <? n then dg i else 0%Z).
Proof.
  split; [apply vsize_deg|]. intros i. destruct (Nat.ltb_spec i n).
  - rewrite vget_deg by assumption. destruct (Z.eqb_spec (dg i) 0) as [E|E]; split; cbn; try tauto; [split; [discriminate|tauto]|]; auto.
  - rewrite vget_out by (rewrite vsize_deg; assumption). split; cbn; [split; [discriminate|lia]|reflexivity].
Qed.

(** ** one node *)
Lemma sq2_deg i : sq2 i <> 0%Z -> (2 <= dg i)%Z.
Proof.
  intros H. pose proof (dg_nonneg i). destruct (Z_lt_le_dec (dg i) 2) as [L|]; [|assumption]. exfalso. apply H.
  apply zs_zero. intros u Hu. apply zs_zero. intros w Hw. unfold pr. destruct (Nat.eqb_spec u w) as [|N]; [ring|].
  destruct (c01 i u) as [-> | Eu]; [ring|]. destruct (c01 i w) as [-> | Ew]; [ring|]. exfalso.
  assert (2 <= dg i)%Z; [|lia]. unfold SquareMath.dg.
  assert (E : (zs n (fun x => if (x =? u)%nat then c i x else 0%Z) + zs n (fun x => if (x =? w)%nat then c i x else 0%Z) <= zs n (fun j => c i j))%Z).
  { rewrite <- zs_add. apply zs_le. intros x _. destruct (Nat.eqb_spec x u), (Nat.eqb_spec x w); subst; try congruence; try lia. destruct (c01 i x) as [-> | ->]; lia. }
  rewrite !zs_single in E by assumption. lia.
Qed.
Lemma p2_row i : i < n -> VX 0%Z n id (vdel (vxm Z.add op_pairz (mrow A i) A) i)
  (fun j => j <> i /\ exists k, k < n /\ ee i k /\ ee k j) (fun j => np i j).
Proof.
  intros Hi. assert (Hs : vsize (vxm Z.add op_pairz (mrow A i) A) = n) by (unfold vxm; rewrite vsize_vbuild; apply (Hsq G wf)).
  split; [unfold vdel; rewrite vsize_vbuild; assumption|]. intros j. unfold vdel. rewrite vget_vbuild, Hs, vget_vxm by apply (HmA G wf).
  assert (X : eis 0%Z id (ored Z.add (nrows A) (fun k => oboth op_pairz (vget (mrow A i) k) (mget A k j))) (exists k, k < n /\ ee i k /\ ee k j) (pp i j)).
  { apply (eis_ored _ _ _ _ Zsr0 n). intros k Hk. apply (eis_oboth _ _ _ _ Zsr0 one1); [reflexivity| |].
    - apply (MX_A 0%Z one1).
    - apply (MX_A 0%Z one1). }
  unfold SquareMath.np. destruct (Nat.eqb_spec j i) as [->|N].
  - destruct (i <? n); split; cbn; try reflexivity; split; try discriminate; tauto.
  - destruct (Nat.ltb_spec j n) as [L|L].
    + eapply eis_conv; [exact X|tauto|reflexivity].
    + split; cbn.
      * split; [discriminate|]. intros (_ & k & _ & _ & H). apply (ee_lt G wf) in H. lia.
      * symmetry. apply zs_zero. intros k _. replace (c k j) with 0%Z; [ring|]. destruct (c01 k j) as [-> | H]; [reflexivity|].
        apply c_ee in H. apply (ee_lt G wf) in H. lia.
Qed.
Definition unit_ids : Prop := forall i j x, mget A i j = Some x -> x = 1%Z.
Hypothesis UW : unit_ids.
Lemma MX_A1 : MX 0%Z n id A ee c.
Proof.
  split; [apply (HmA G wf)|]. split; [reflexivity|]. split; [apply (Hsq G wf)|]. intros i j. unfold ClusterProofs.ee, cf.
  rewrite (noself_ent G wf i j (lf_self G wf LF)). split; [reflexivity|]. destruct (mget A i j) as [x|] eqn:E; cbn; [|reflexivity].
  apply UW in E. exact E.
Qed.
(** [P(binary.times) << P - 1] *)
Lemma pm1 (o : option Z) p x : eis 0%Z id o p x -> eis 0%Z id (omerge Z.mul o (omap (fun x => x - 1)%Z o)) p (x * (x - 1))%Z.
Proof. intros [H1 H2]. split; [destruct o; exact H1|]. rewrite <- H2. unfold id. destruct o; reflexivity. Qed.
Definition sqz (i : nat) : Z := (sq2 i / 2)%Z.
Definition poz (i : nat) : Z := (po2 i / 2)%Z.
Lemma sqz2 i : (sq2 i = 2 * sqz i)%Z.
Proof. destruct (sq2_even n c c01 i) as [k Hk]. unfold sqz. rewrite Hk. replace (2 * k / 2)%Z with k; [reflexivity|]. symmetry. rewrite Z.mul_comm. apply Z.div_mul. lia. Qed.
Lemma poz2 i : (po2 i = 2 * poz i)%Z.
Proof.
  assert (E : (po2 i = 2 * (pot i - sqz i))%Z) by (rewrite (po2_pot n c c01 cirr i), sqz2; ring).
  unfold poz. rewrite E. rewrite (Z.mul_comm 2), Z.div_mul by lia. ring.
Qed.
Lemma poz_pot i : (poz i = pot i - sqz i)%Z.
Proof. pose proof (poz2 i) as E. rewrite (po2_pot n c c01 cirr i), sqz2 in E. lia. Qed.
Lemma sqz_nonneg i : (0 <= sqz i)%Z.
Proof. pose proof (sq2_nonneg n c c01 i). rewrite sqz2 in H. lia. Qed.
Lemma poz_ge i : i < n -> (sqz i <= poz i)%Z.
Proof. intros Hi. pose proof (pot_ge n c c01 csym cirr i Hi) as H. rewrite sqz2, poz2 in H. lia. Qed.
Definition sqv (i : nat) : Qc := if (poz i =? 0)%Z then 0%Qc else (zq (sqz i) / zq (poz i))%Qc.
Lemma sqv_0 i : sqz i = 0%Z -> sqv i = 0%Qc.
Proof. intros H. unfold sqv. rewrite H. destruct (_ =? 0)%Z; [reflexivity|]. rewrite zq_0. unfold Qcdiv. ring. Qed.
Lemma tri_dot i (p2 : vec Z) P : i < n -> VX 0%Z n id p2 P (fun j => np i j) ->
  oz (vdot Z.add op_first p2 (mrow A i)) = zs n (fun x => c i x * np i x)%Z.
Proof.
  intros Hi [H1 H2]. unfold vdot. rewrite H1.
  assert (X : eis 0%Z id (ored Z.add n (fun k => oboth op_first (vget p2 k) (vget (mrow A i) k))) (exists k, k < n /\ (P k /\ ee i k)) (zs n (fun x => c i x * np i x)%Z)); [|exact (proj2 X)].
  apply (eis_ored _ _ _ _ Zsr0). intros k Hk. destruct (H2 k) as [E1 E2]. destruct MX_A1 as (_ & _ & _ & M). destruct (M i k) as [F1 F2].
  change (vget (mrow A i) k) with (mget A i k). split; [rewrite has_oboth, andb_true_iff, E1, F1; reflexivity|].
  rewrite <- E2. destruct (mget A i k) as [x|] eqn:Em.
  - pose proof (UW _ _ _ Em). subst x. cbn in F2. rewrite <- F2. destruct (vget p2 k) as [y|]; unfold eval, op_first, id, oboth; lia.
  - cbn in F2. rewrite <- F2. destruct (vget p2 k) as [y|]; unfold eval, op_first, id, oboth; lia.
Qed.
Lemma deg_dot i : i < n -> oz (vdot Z.add Z.mul (mrow A i) deg) = zs n (fun x => c i x * dg x)%Z.
Proof.
  intros Hi. unfold vdot. replace (vsize (mrow A i)) with n by (unfold vsize; rewrite mrow_length; [symmetry; apply (Hsq G wf)|apply (HmA G wf)|assumption]).
  assert (X : eis 0%Z id (ored Z.add n (fun k => oboth Z.mul (vget (mrow A i) k) (vget deg k))) (exists k, k < n /\ (ee i k /\ (k < n /\ dg k <> 0%Z))) (zs n (fun x => c i x * (if (x <? n)%nat then dg x else 0))%Z)).
  { apply (eis_ored _ _ _ _ Zsr0). intros k Hk. apply (eis_oboth _ _ _ _ Zsr0 id); [reflexivity| |].
    - apply MX_A1.
    - apply VX_deg. }
  etransitivity; [exact (proj2 X)|]. apply zs_ext. intros x Hx. destruct (Nat.ltb_spec x n); [reflexivity|lia].
Qed.
Lemma single_square_ok i : i < n -> answers G (single_square_clustering G i) (eq (Val (sqv i))).
Proof.
  intros Hi. unfold single_square_clustering, get_degrees_A. rewrite D. cbv zeta. eapply answers_bind_GV; [apply (get_red_ok G wf true eq_refl)|]. cbn [msk]. fold deg.
  assert (Ed : oz (vget deg i) = dg i) by (rewrite vget_deg by assumption; destruct (Z.eqb_spec (dg i) 0) as [->|]; reflexivity).
  rewrite Ed. destruct (Z.leb_spec (dg i) 1) as [L|L].
  { apply answers_ret. f_equal. apply sqv_0. destruct (Z.eq_dec (sq2 i) 0) as [E|E]; [unfold sqz; rewrite E; reflexivity|]. apply sq2_deg in E. lia. }
  set (p2 := vdel _ _). pose proof (p2_row i Hi) as Hp. fold p2 in Hp. pose proof (tri_dot i p2 _ Hi Hp) as Et.
  assert (Es : vsum (vunion Z.mul p2 (vmap (fun x => x - 1)%Z p2)) = sq2 i).
  { rewrite (sq2_np n c c01 i). unfold vsum.
    assert (X : VX 0%Z n id (vunion Z.mul p2 (vmap (fun x => x - 1)%Z p2)) (fun j => j <> i /\ exists k, k < n /\ ee i k /\ ee k j) (fun j => np i j * (np i j - 1))%Z).
    { destruct Hp as [Hs Hp]. split; [rewrite vsize_vunion; assumption|]. intros j. rewrite vget_vunion by (rewrite vsize_vmap; reflexivity). rewrite vget_vmap. apply pm1, Hp. }
    exact (proj2 (VX_reduce _ _ _ _ Zsr0 _ _ _ _ X)). }
  rewrite Es. fold (sqz i). destruct (Z.eqb_spec (sqz i) 0) as [E0|E0].
  { apply answers_ret. f_equal. apply sqv_0. assumption. }
  rewrite Et, (deg_dot i Hi).
  replace (- zs n (fun x => c i x * np i x) - dg i * (dg i - 1) + zs n (fun x => c i x * dg x) * (dg i - 1) - sqz i)%Z with (poz i) by (rewrite poz_pot; unfold SquareMath.pot; ring).
  pose proof (poz_ge i Hi). pose proof (sqz_nonneg i). rewrite (qdiv_ok _ (poz i)) by lia. apply answers_lifto. f_equal. unfold sqv.
  destruct (Z.eqb_spec (poz i) 0); [lia|reflexivity].
Qed.
(** ** several nodes *)
Definition inr (ids : option (list nat)) (i : nat) : bool := match ids with None => true | Some l => existsb (Nat.eqb i) l end.
Lemma if_mul (b : bool) x y : ((if b then x else 0) * y)%Z = if b then (x * y)%Z else 0%Z.
Proof. destruct b; ring. Qed.
Lemma zs_if (b : bool) f : zs n (fun j => if b then f j else 0%Z) = if b then zs n f else 0%Z.
Proof. destruct b; [reflexivity|]. apply zs_zero. reflexivity. Qed.
Lemma square_clustering_ok ids : exists r, answers G (square_clustering G ids) (eq (Val r)) /\
  VX 0%Qc n id r (fun i => i < n /\ inr ids i = true /\ sqz i <> 0%Z) (fun i => if (i <? n) && inr ids i then sqv i else 0%Qc).
Proof.
  eexists. split.
  { unfold square_clustering, get_degrees_A. rewrite D. eapply answers_bind_GV; [apply (get_red_ok G wf true eq_refl)|]. cbn [msk]. fold deg. apply answers_ret. reflexivity. }
  cbv zeta. rewrite vsize_deg.
  set (Asub := match ids with Some l => vm_inter op_second (vscatter n l true) A | None => A end).
  set (A' := match ids with Some _ => A | None => mtrans A end).
  assert (HAs : forall f : Z -> Z, (f 1%Z = 1%Z) -> MX 0%Z n f Asub (fun i j => inr ids i = true /\ ee i j) (fun i j => if inr ids i then c i j else 0%Z)).
  { intros f Hf. assert (HAf : MX 0%Z n f A ee c).
    { destruct MX_A1 as (M1 & M2 & M3 & M4). split; [assumption|]. split; [assumption|]. split; [assumption|]. intros i j. destruct (M4 i j) as [E1 E2]. split; [assumption|].
      rewrite <- E2. destruct (mget A i j) as [x|] eqn:E; [|reflexivity]. apply UW in E. subst x. exact Hf. }
    unfold Asub, inr. destruct ids as [l|]; [|eapply MX_conv; [exact HAf|tauto|reflexivity]].
    destruct HAf as (M1 & M2 & M3 & M4). split; [apply mwf_mbuild|]. split; [apply nrows_mbuild|]. split; [unfold vm_inter; rewrite ncols_mbuild; assumption|].
    intros i j. rewrite mget_vm_inter by assumption. rewrite vget_vscatter. destruct (M4 i j) as [E1 E2].
    destruct (Nat.ltb_spec i n) as [Li|Li]; cbn [andb].
    - destruct (existsb (Nat.eqb i) l); [|split; cbn; [split; [discriminate|intros [? _]; discriminate]|reflexivity]].
      unfold op_second. destruct (mget A i j); split; cbn [oboth has] in *; tauto.
    - cbn [oboth]. assert (N : ~ ee i j) by (intros H; apply (ee_lt G wf) in H; lia). split; [split; [discriminate|tauto]|].
      destruct (existsb (Nat.eqb i) l); [|reflexivity]. destruct (c01 i j) as [-> | H]; [reflexivity|]. apply c_ee in H. contradiction. }
  assert (HA' : MX 0%Z n one1 A' ee c).
  { unfold A'. destruct ids; [apply (MX_A 0%Z one1)|]. eapply MX_conv; [apply MX_trans, (MX_A 0%Z one1)| |].
    - intros i j. split; apply (ee_sym G wf _ _ D).
    - intros i j. apply csym. }
  set (P2 := mrestrict _ _).
  assert (HP : MX 0%Z n id P2 (fun i j => inr ids i = true /\ j <> i /\ exists k, k < n /\ ee i k /\ ee k j) (fun i j => if inr ids i then np i j else 0%Z)).
  { pose proof (MX_mxm 0%Z 1%Z Z.add Z.mul Zsr0 one1 op_pairz ltac:(reflexivity) n _ _ _ _ _ _ (HAs one1 eq_refl) HA') as (M1 & M2 & M3 & M4).
    split; [apply mwf_mselect|]. split; [unfold P2, mrestrict; rewrite nrows_mselect; assumption|]. split; [unfold P2, mrestrict; rewrite ncols_mselect; assumption|].
    intros i j. unfold P2, mrestrict. rewrite mget_mselect by assumption. destruct (M4 i j) as [E1 E2].
    assert (Ex : has (mget (mxm Z.add op_pairz Asub A') i j) = true <-> inr ids i = true /\ exists k, k < n /\ ee i k /\ ee k j).
    { rewrite E1. split; [intros (k & Hk & [H1 H2] & H3); split; [assumption|exists k; auto]|intros [H1 (k & Hk & H2 & H3)]; exists k; auto]. }
    assert (Ev : eval 0%Z id (mget (mxm Z.add op_pairz Asub A') i j) = if inr ids i then pp i j else 0%Z).
    { rewrite E2. rewrite (zs_ext n _ (fun k => if inr ids i then (c i k * c k j)%Z else 0%Z)) by (intros; apply if_mul). apply zs_if. }
    clear E1 E2. unfold msNS, vdiag. rewrite mget_mbuild, vsize_deg.
    destruct (Nat.eqb_spec j i) as [->|N].
    - rewrite Nat.eqb_refl. unfold SquareMath.np. rewrite Nat.eqb_refl.
      assert (X : (if negb (has (if (i <? n) && (i <? n) then vget deg i else None)) then mget (mxm Z.add op_pairz Asub A') i i else None) = None).
      { destruct (Nat.ltb_spec i n) as [Li|Li]; cbn [andb has negb].
        - rewrite vget_deg by assumption. destruct (Z.eqb_spec (dg i) 0) as [E|E]; [|reflexivity]. cbn [has negb].
          destruct (mget _ i i) as [x|]; [|reflexivity]. exfalso. assert (H : has (Some x) = true) by reflexivity. apply Ex in H as (_ & k & _ & H & _). apply dg_pos in H. lia.
        - destruct (mget _ i i) as [x|]; [|reflexivity]. exfalso. assert (H : has (Some x) = true) by reflexivity. apply Ex in H as (_ & k & _ & H & _). apply (ee_lt G wf) in H. lia. }
      rewrite X. split; cbn; [split; [discriminate|tauto]|destruct (inr ids i); reflexivity].
    - destruct (Nat.eqb_spec i j) as [|N']; [congruence|]. replace (if (i <? n) && (j <? n) then None else None) with (@None Z) by (destruct (_ && _); reflexivity). cbn [has negb].
      unfold SquareMath.np. destruct (Nat.eqb_spec j i); [contradiction|]. split; [rewrite Ex; tauto|assumption]. }
  set (neg0 := mred_row Z.add (minter op_first P2 Asub)).
  assert (Hn0 : exists p, VX 0%Z n id neg0 p (fun i => if inr ids i then zs n (fun x => c i x * np i x)%Z else 0%Z)).
  { eexists. eapply VX_conv; [apply (MX_row 0%Z 1%Z Z.add Z.mul Zsr0 n _ (fun i j => (inr ids i = true /\ j <> i /\ exists k, k < n /\ ee i k /\ ee k j) /\ (inr ids i = true /\ ee i j)) (fun i j => if inr ids i then (c i j * np i j)%Z else 0%Z))|reflexivity|intros i; apply zs_if].
    destruct HP as (M1 & M2 & M3 & M4). destruct (HAs id eq_refl) as (N1 & N2 & N3 & N4).
    split; [apply mwf_mbuild|]. split; [unfold minter; rewrite nrows_mbuild; assumption|]. split; [unfold minter; rewrite ncols_mbuild; assumption|].
    intros i j. rewrite mget_minter by assumption. destruct (M4 i j) as [E1 E2], (N4 i j) as [F1 F2]. split; [rewrite has_oboth, andb_true_iff, E1, F1; reflexivity|].
    destruct (inr ids i) eqn:Ei.
    - rewrite <- E2. unfold op_first. destruct (mget Asub i j) as [x|] eqn:Ea.
      + assert (Hc : c i j = 1%Z) by (apply c_ee; apply F1; reflexivity). rewrite Hc. destruct (mget P2 i j) as [y|]; unfold eval, oboth, id; lia.
      + unfold eval in F2. rewrite <- F2. destruct (mget P2 i j) as [y|]; unfold eval, oboth, id; lia.
    - destruct (mget P2 i j) as [y|]; [|reflexivity]. assert (false = true) by (apply E1; reflexivity). discriminate. }
  set (P2' := munion Z.mul P2 (mmap (fun x => x - 1)%Z P2)).
  assert (HP' : MX 0%Z n id P2' (fun i j => inr ids i = true /\ j <> i /\ exists k, k < n /\ ee i k /\ ee k j) (fun i j => if inr ids i then (np i j * (np i j - 1))%Z else 0%Z)).
  { destruct HP as (M1 & M2 & M3 & M4). split; [apply mwf_mbuild|]. split; [unfold P2', munion; rewrite nrows_mbuild; assumption|]. split; [unfold P2', munion; rewrite ncols_mbuild; assumption|].
    intros i j. unfold P2'. rewrite mget_munion; [|assumption|apply mwf_mbuild|unfold mmap; rewrite nrows_mbuild; reflexivity|unfold mmap; rewrite ncols_mbuild; reflexivity].
    rewrite mget_mmap by assumption. eapply eis_conv; [apply pm1; apply M4|reflexivity|]. cbv beta. destruct (inr ids i); [reflexivity|ring]. }
  set (sq0 := mred_row Z.add P2').
  assert (Hq0 : exists p, VX 0%Z n id sq0 p (fun i => if inr ids i then sq2 i else 0%Z)).
  { eexists. eapply VX_conv; [apply (MX_row 0%Z 1%Z Z.add Z.mul Zsr0 n _ _ _ HP')|reflexivity|]. intros i. cbv beta. rewrite zs_if, (sq2_np n c c01 i). reflexivity. }
  destruct Hq0 as (pq & Hq1 & Hq2), Hn0 as (pn & Hn1 & Hn2).
  set (squares := vwrite (mV sq0) true sq0 (vmap (fun x => x / 2)%Z sq0)).
  assert (Hqs : vsize squares = n) by (unfold squares; rewrite vsize_vwrite; assumption).
  assert (Hqg : forall i, i < n -> vget squares i = if inr ids i && negb (sqz i =? 0)%Z then Some (sqz i) else None).
  { intros i Hi. unfold squares. rewrite vget_vwrite, Hq1. destruct (Nat.ltb_spec i n); [|lia]. rewrite vget_vmap. unfold mV. destruct (Hq2 i) as [E1 E2]. clear E1.
    unfold id in E2. destruct (inr ids i); cbn [andb].
    - destruct (Z.eqb_spec (sqz i) 0) as [E|E]; cbn [negb].
      + rewrite sqz2, E in E2. destruct (vget sq0 i) as [x|]; [|reflexivity]. cbn in E2. rewrite E2. reflexivity.
      + rewrite sqz2 in E2. destruct (vget sq0 i) as [x|]; cbn [eval] in E2; [|lia]. destruct (Z.eqb_spec x 0); [lia|]. cbn [negb omap]. f_equal.
        rewrite E2, Z.mul_comm. apply Z.div_mul. lia.
    - destruct (vget sq0 i) as [x|]; [|reflexivity]. cbn in E2. rewrite E2. reflexivity. }
  set (den0 := vrestrict (mS squares) (vmap (fun x => x - 1)%Z deg)).
  assert (Hds : vsize den0 = n) by (unfold den0; rewrite vsize_vrestrict, vsize_vmap; apply vsize_deg).
  set (neg1 := vunion Z.add neg0 (vinter Z.mul deg den0)).
  assert (Hns : vsize neg1 = n) by (unfold neg1; rewrite vsize_vunion; assumption).
  set (T := mxv Z.add Z.mul Asub deg).
  set (den1 := vbuild (vsize den0) _).
  assert (Hd1 : vsize den1 = n) by (unfold den1; rewrite vsize_vbuild; assumption).
  set (den2 := vunion Z.sub den1 (vinter Z.add neg1 squares)).
  assert (Hd2 : vsize den2 = n) by (unfold den2; rewrite vsize_vunion; assumption).
  split; [rewrite vsize_vinter; assumption|]. intros i. rewrite vget_vinter by congruence.
  destruct (Nat.ltb_spec i n) as [Li|Li].
  2: { rewrite (vget_out squares) by (rewrite Hqs; assumption). cbn. split; [split; [discriminate|lia]|reflexivity]. }
  cbn [andb]. rewrite (Hqg i Li). destruct (inr ids i) eqn:Ei; cbn [andb].
  2: { cbn. split; [split; [discriminate|intros (_ & ? & _); discriminate]|reflexivity]. }
  destruct (Z.eqb_spec (sqz i) 0) as [E0|E0]; cbn [negb].
  { cbn. rewrite sqv_0 by assumption. split; [split; [discriminate|tauto]|reflexivity]. }
  assert (Hdg : (2 <= dg i)%Z) by (apply sq2_deg; rewrite sqz2; lia).
  assert (Hdeg : vget deg i = Some (dg i)) by (rewrite vget_deg by assumption; destruct (Z.eqb_spec (dg i) 0); [lia|reflexivity]).
  assert (Hden0 : vget den0 i = Some (dg i - 1)%Z).
  { unfold den0. rewrite vget_vrestrict, vget_vmap, Hdeg. unfold mS. rewrite (Hqg i Li), Ei. destruct (Z.eqb_spec (sqz i) 0); [contradiction|]. reflexivity. }
  assert (Hneg1 : vget neg1 i = Some (zs n (fun x => c i x * np i x) + dg i * (dg i - 1))%Z).
  { unfold neg1. rewrite vget_vunion by (rewrite vsize_vinter, vsize_deg; assumption). rewrite vget_vinter by (rewrite vsize_deg; congruence). rewrite Hdeg, Hden0.
    destruct (Hn2 i) as [_ E2]. rewrite Ei in E2. rewrite <- E2. unfold id. destruct (vget neg0 i); cbn [omerge oboth eval]; f_equal; ring. }
  assert (HT : vget T i = Some (zs n (fun x => c i x * dg x)%Z)).
  { pose proof (VX_mxv 0%Z 1%Z Z.add Z.mul Zsr0 id Z.mul ltac:(reflexivity) n Asub deg _ _ _ _ (HAs id eq_refl) VX_deg) as [_ X]. destruct (X i) as [E1 E2]. fold T in E1, E2.
    assert (Ex : exists j, j < n /\ ee i j).
    { assert (E : ~ forall j, j < n -> c i j = 0%Z) by (intros H; assert (dg i = 0)%Z by (apply zs_zero; assumption); lia).
      destruct (find_below n (fun j => negb (c i j =? 0)%Z)) as [(j & Hj & Hc)|Hn].
      - exists j. split; [assumption|]. apply c_ee. destruct (c01 i j) as [E'|]; [rewrite E' in Hc; discriminate|assumption].
      - exfalso. apply E. intros j Hj. specialize (Hn j Hj). apply negb_false_iff, Z.eqb_eq in Hn. assumption. }
    destruct Ex as (j & Lj & Hj). assert (has (vget T i) = true).
    { apply E1. exists j. split; [assumption|]. split; [auto|]. split; [assumption|]. apply (ee_sym G wf _ _ D) in Hj. apply dg_pos in Hj. lia. }
    destruct (vget T i) as [t|]; [|discriminate]. f_equal. cbn [eval] in E2. unfold id in E2. rewrite E2. apply zs_ext. intros x Hx. destruct (Nat.ltb_spec x n); [|lia]. rewrite Ei. reflexivity. }
  assert (Hden1 : vget den1 i = Some ((dg i - 1) * zs n (fun x => c i x * dg x))%Z).
  { unfold den1. rewrite vget_vbuild_lt by (rewrite Hds; assumption). unfold mS. rewrite Hden0, HT. reflexivity. }
  assert (Hden2 : vget den2 i = Some (poz i)).
  { unfold den2. rewrite vget_vunion by (rewrite vsize_vinter; congruence). rewrite vget_vinter by congruence. rewrite Hden1, Hneg1, (Hqg i Li), Ei.
    destruct (Z.eqb_spec (sqz i) 0); [contradiction|]. cbn [andb negb oboth omerge]. f_equal. rewrite poz_pot. unfold SquareMath.pot. ring. }
  rewrite Hden2. cbn [oboth]. pose proof (poz_ge i Li). pose proof (sqz_nonneg i). split; [cbn; tauto|]. cbn [eval]. unfold id, sqv. destruct (Z.eqb_spec (poz i) 0); [lia|reflexivity].
Qed.
(** ** keys *)
Lemma c_nbr u v i j : kid G u = Some i -> kid G v = Some j -> (if nbr G u v then 1 else 0)%Z = c i j.
Proof. intros Hu Hv. rewrite (nbr_kid G wf u v i j Hu Hv). unfold cf. destruct (ent G SM i j); reflexivity. Qed.
Lemma valency_id u i : kid G u = Some i -> valency G (nbr G) u = dg i.
Proof.
  intros Hu. unfold valency. fold (deg0 G u). rewrite (deg0_id G wf u i Hu), <- outdeg_dg. f_equal. unfold outdeg. apply cnt_ext. intros j _. rewrite ent_pm. reflexivity.
Qed.
Lemma kid_eqb u v i j : kid G u = Some i -> kid G v = Some j -> nkey_eqb u v = (i =? j).
Proof.
  intros Hu Hv. destruct (Nat.eqb_spec i j) as [->|N].
  - rewrite (kid_inj G wf u v j Hu Hv). apply nkey_eqb_eq. reflexivity.
  - destruct (nkey_eqb u v) eqn:E; [|reflexivity]. apply nkey_eqb_eq in E. congruence.
Qed.
Lemma squares_with_id v u w i j k : kid G v = Some i -> kid G u = Some j -> kid G w = Some k -> squares_with G (nbr G) v u w = com n c i j k.
Proof.
  intros Hv Hu Hw. unfold squares_with. rewrite total_count. apply (gtotal_nodes G wf _ _ _ _ Zsr0). intros x l Hx.
  rewrite (kid_eqb x v l i Hx Hv). rewrite <- (c_nbr u x j l Hu Hx), <- (c_nbr w x k l Hw Hx). destruct (l =? i), (nbr G u x), (nbr G w x); reflexivity.
Qed.
Lemma possible_with_id v u w i j k : kid G v = Some i -> kid G u = Some j -> kid G w = Some k -> possible_with G (nbr G) v u w =
  ((dg j - (com n c i j k + 1 + c j k)) + (dg k - (com n c i j k + 1 + c j k)) + com n c i j k)%Z.
Proof.
  intros Hv Hu Hw. unfold possible_with. rewrite (squares_with_id v u w i j k Hv Hu Hw), (valency_id u j Hu), (valency_id w k Hw), (c_nbr u w j k Hu Hw). reflexivity.
Qed.
Lemma over_pairs_id v i f F : kid G v = Some i -> (forall u w, f u w = f w u) ->
  (forall u w j k, kid G u = Some j -> kid G w = Some k -> f u w = F j k) ->
  (2 * over_pairs G (nbr G) v f = zs n (fun j => zs n (fun k => pr c i j k * F j k)))%Z.
Proof.
  intros Hv Hs Hf. unfold over_pairs.
  transitivity (total (fun p => if negb (nkey_eqb (fst p) (snd p)) && nbr G v (fst p) && nbr G v (snd p) then f (fst p) (snd p) else 0%Z) (pairs (gnodes G))).
  - rewrite (total_pairs_upairs nkey_eqb (fun x y => if negb (nkey_eqb x y) && nbr G v x && nbr G v y then f x y else 0%Z) (gnodes G) (gnodes_nodup G wf)) by (intros; apply nkey_eqb_eq).
    rewrite <- total_scale. apply total_ext. intros [x y] _. cbn [fst snd]. assert (Es : nkey_eqb y x = nkey_eqb x y).
    { destruct (nkey_eqb x y) eqn:E; [apply nkey_eqb_eq in E; subst; apply nkey_eqb_eq; reflexivity|].
      destruct (nkey_eqb y x) eqn:E'; [|reflexivity]. apply nkey_eqb_eq in E'. subst. rewrite (proj2 (nkey_eqb_eq x x) eq_refl) in E. discriminate. }
    destruct (nkey_eqb x y) eqn:E.
    + reflexivity.
    + rewrite Es. cbn [negb andb]. rewrite (Hs y x). destruct (nbr G v x), (nbr G v y); cbn [andb]; ring.
  - apply (gtotal_node_pairs G wf _ _ _ _ Zsr0). intros x y j k Hx Hy. cbn [fst snd]. unfold pr. rewrite (kid_eqb x y j k Hx Hy), (Hf x y j k Hx Hy).
    rewrite <- (c_nbr v x i j Hv Hx), <- (c_nbr v y i k Hv Hy). destruct (j =? k), (nbr G v x), (nbr G v y); cbn [negb andb]; ring.
Qed.
Lemma squares_with_sym v u w : squares_with G (nbr G) v u w = squares_with G (nbr G) v w u.
Proof. unfold squares_with. f_equal. apply Nat2Z.inj. rewrite !total_count. apply total_ext. intros x _. destruct (nkey_eqb x v), (nbr G u x), (nbr G w x); reflexivity. Qed.
Lemma squares_at_id v i : kid G v = Some i -> squares_at G (nbr G) v = sqz i.
Proof.
  intros Hv. pose proof (over_pairs_id v i (squares_with G (nbr G) v) (fun j k => com n c i j k) Hv (squares_with_sym v) (fun u w j k Hu Hw => squares_with_id v u w i j k Hv Hu Hw)) as E.
  fold (squares_at G (nbr G) v) in E. change (2 * squares_at G (nbr G) v = sq2 i)%Z in E. rewrite sqz2 in E. lia.
Qed.
Lemma possible_at_id v i : kid G v = Some i -> possible_at G (nbr G) v = poz i.
Proof.
  intros Hv.
  assert (Hs : forall u w, possible_with G (nbr G) v u w = possible_with G (nbr G) v w u).
  { intros u w. unfold possible_with. rewrite (squares_with_sym v w u), (nbr_sym G wf w u D). cbv zeta. ring. }
  pose proof (over_pairs_id v i (possible_with G (nbr G) v) (fun j k => (dg j - (com n c i j k + 1 + c j k)) + (dg k - (com n c i j k + 1 + c j k)) + com n c i j k)%Z Hv Hs (fun u w j k Hu Hw => possible_with_id v u w i j k Hv Hu Hw)) as E.
  fold (possible_at G (nbr G) v) in E. change (2 * possible_at G (nbr G) v = po2 i)%Z in E. rewrite poz2 in E. lia.
Qed.
Lemma square_at_id v i : kid G v = Some i -> square_at G (nbr G) v = sqv i.
Proof. intros Hv. unfold square_at, sqv. rewrite (squares_at_id v i Hv), (possible_at_id v i Hv). reflexivity. Qed.

(** ** chunks *)
Lemma mem_app {X} (f : X -> bool) a b : existsb f (a ++ b) = existsb f a || existsb f b.
Proof. induction a; cbn; [reflexivity|]. rewrite IHa. destruct (f a); reflexivity. Qed.
Definition sqvec (R : nat -> bool) (r : vec Qc) : Prop :=
  VX 0%Qc n id r (fun i => i < n /\ R i = true /\ sqz i <> 0%Z) (fun i => if (i <? n) && R i then sqv i else 0%Qc).
Lemma square_chunks_ok si : forall ps ls R o, map (chunk_ids si) ps = map Val ls ->
  match o with None => True | Some r => sqvec R r end ->
  answers G (square_chunks G si ps o) (fun res => match o, ls with
    | None, [] => res = Val None
    | _, _ => exists r, res = Val (Some r) /\ sqvec (fun i => (match o with None => false | Some _ => R i end) || existsb (Nat.eqb i) (List.concat ls)) r end).
Proof.
  induction ps as [|p ps IH]; intros [|l ls] R o E Ho; cbn [map] in E; try discriminate; cbn [square_chunks].
  - destruct o as [r|]; apply answers_ret; [|reflexivity]. exists r. split; [reflexivity|]. cbn [List.concat existsb]. destruct Ho as [H1 H2]. split; [assumption|]. intros i. rewrite orb_false_r. apply H2.
  - injection E as E1 E2. rewrite E1. eapply answers_bind_v; [apply answers_lifto; reflexivity|]. destruct (square_clustering_ok (Some l)) as (r & Hr & Hv).
    eapply answers_bind_v; [exact Hr|]. set (o' := match o with None => r | Some x => vunion op_any x r end).
    set (R' := fun i => (match o with None => false | Some _ => R i end) || existsb (Nat.eqb i) l).
    assert (Ho' : sqvec R' o').
    { unfold o', R'. destruct o as [x|]; [|exact Hv]. destruct Ho as [A1 A2], Hv as [B1 B2]. split; [rewrite vsize_vunion; assumption|]. intros i.
      rewrite vget_vunion by congruence. destruct (A2 i) as [E3 E4], (B2 i) as [F3 F4]. cbn [inr] in *. split.
      - rewrite has_omerge, !orb_true_iff, E3, F3. tauto.
      - destruct (vget x i) as [q|]; cbn [omerge].
        + destruct (proj1 E3 eq_refl) as (L1 & L2 & _). rewrite L2 in *. cbn [orb]. destruct (vget r i); exact E4.
        + assert (E5 : (if (i <? n) && R i then sqv i else 0%Qc) = 0%Qc) by (rewrite <- E4; reflexivity).
          replace (match vget r i with Some y => Some y | None => None end) with (vget r i) by (destruct (vget r i); reflexivity).
          rewrite F4. destruct (i <? n); cbn [andb] in *; [|reflexivity]. destruct (R i); cbn [orb]; [|reflexivity]. rewrite E5. destruct (existsb (Nat.eqb i) l); reflexivity. }
    eapply answers_conseq; [apply (IH ls R' (Some o') E2 Ho')|]. cbv beta. intros res. cbn [List.concat].
    intros (r' & -> & H1 & H2). assert (X : exists r0, Val (Some r') = Val (Some r0) /\ sqvec (fun i => (match o with None => false | Some _ => R i end) || existsb (Nat.eqb i) (l ++ List.concat ls)) r0).
    { exists r'. split; [reflexivity|]. split; [assumption|]. intros i. rewrite mem_app, orb_assoc. apply H2. }
    destruct o; exact X.
Qed.
End P.
