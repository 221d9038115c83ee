(** * Presence and value of the entries of triangle products *)
From Verif Require Import Base BaseProofs Model_Cache Model_Cluster ClusterMath.
From Coq Require Import Ring.

Definition inm (mask : mask_t) (i : nat) : bool := match mask with Some p => p i | None => true end.

Section SR.
Context {V : Type} (zero one : V) (add mul : V -> V -> V).
Hypothesis SRth : semi_ring_theory zero one add mul (@eq V).
Add Ring VRing2 : SRth.
Notation "0" := zero.
Notation "1" := one.
Infix "+" := add.
Infix "*" := mul.
Notation sum := (gsum zero add).
Context {U : Type} (xv : U -> V) (m : U -> U -> V).
Hypothesis Hm : forall u v, m u v = xv u * xv v.
Variable n : nat.

Definition MX {W} (f : W -> V) (M : mat W) (p : nat -> nat -> Prop) (w : nat -> nat -> V) : Prop :=
  mwf M /\ nrows M = n /\ ncols M = n /\ forall i j, eis zero f (mget M i j) (p i j) (w i j).
Definition VX {W} (f : W -> V) (v : vec W) (p : nat -> Prop) (w : nat -> V) : Prop :=
  vsize v = n /\ forall i, eis zero f (vget v i) (p i) (w i).
Lemma MX_conv {W} (f : W -> V) M p w q x : MX f M p w -> (forall i j, p i j <-> q i j) -> (forall i j, w i j = x i j) -> MX f M q x.
Proof. intros (H1 & H2 & H3 & H4) Hp Hw. repeat split; try assumption; destruct (H4 i j) as [E1 E2]; [rewrite <- Hp; apply E1|rewrite <- Hp; apply E1|rewrite <- Hw; assumption]. Qed.
Lemma VX_conv {W} (f : W -> V) M p w q x : VX f M p w -> (forall i, p i <-> q i) -> (forall i, w i = x i) -> VX f M q x.
Proof. intros (H1 & H4) Hp Hw. repeat split; try assumption; destruct (H4 i) as [E1 E2]; [rewrite <- Hp; apply E1|rewrite <- Hp; apply E1|rewrite <- Hw; assumption]. Qed.
Lemma MX_refl {W} (f : W -> V) M : mwf M -> nrows M = n -> ncols M = n -> MX f M (fun i j => has (mget M i j) = true) (fun i j => eval zero f (mget M i j)).
Proof. intros. repeat split; auto. Qed.
Lemma MX_lt {W} (f : W -> V) M p w i j : MX f M p w -> p i j -> (i < n /\ j < n)%nat.
Proof.
  intros (H1 & H2 & H3 & H4) Hp. apply (proj1 (H4 i j)) in Hp. apply has_true in Hp as [x Hx].
  apply mget_some_lt in Hx; [|assumption]. lia.
Qed.
Lemma VX_lt {W} (f : W -> V) v p w i : VX f v p w -> p i -> (i < n)%nat.
Proof. intros (H1 & H4) Hp. apply (proj1 (H4 i)) in Hp. apply has_vget_lt in Hp. lia. Qed.
Lemma MX_out {W} (f : W -> V) M p w i j : MX f M p w -> ~ p i j -> w i j = 0.
Proof.
  intros (H1 & H2 & H3 & H4) Hp. destruct (H4 i j) as [E1 E2]. destruct (mget M i j); [|symmetry; assumption].
  destruct Hp. apply E1. reflexivity.
Qed.
Lemma VX_out {W} (f : W -> V) M p w i : VX f M p w -> ~ p i -> w i = 0.
Proof.
  intros (H1 & H4) Hp. destruct (H4 i) as [E1 E2]. destruct (vget M i); [|symmetry; assumption].
  destruct Hp. apply E1. reflexivity.
Qed.
Lemma MX_trans {W} (f : W -> V) M p w : MX f M p w -> MX f (mtrans M) (fun i j => p j i) (fun i j => w j i).
Proof.
  intros (H1 & H2 & H3 & H4). split; [apply mwf_mtrans|]. split; [rewrite nrows_mtrans; assumption|]. split; [rewrite ncols_mtrans; assumption|].
  intros i j. rewrite mget_mtrans by assumption. apply H4.
Qed.
Lemma MX_mxm A B p q w x : MX xv A p w -> MX xv B q x ->
  MX id (mxm add m A B) (fun i j => exists k, (k < n)%nat /\ p i k /\ q k j) (fun i j => sum n (fun k => w i k * x k j)).
Proof.
  intros (A1 & A2 & A3 & A4) (B1 & B2 & B3 & B4). split; [apply mwf_mbuild|].
  split; [unfold mxm; rewrite nrows_mbuild; assumption|]. split; [unfold mxm; rewrite ncols_mbuild; assumption|].
  intros i j. rewrite mget_mxm by assumption. rewrite A3. apply (eis_ored _ _ _ _ SRth). intros k _.
  apply (eis_oboth _ _ _ _ SRth xv m); auto.
Qed.
(** the two branches of [X *= Y]: unweighted (nothing) and weighted *)
Definition post_ok (post : mat V -> mat U -> mat V) : Prop :=
  forall T B p q w x, MX id T p w -> MX xv B q x ->
    MX id (post (mrestrict (msS B) T) B) (fun i j => q i j /\ p i j) (fun i j => x i j * w i j).
Definition vpost_ok (post : vec V -> vec U -> vec V) : Prop :=
  forall T B p q w x, VX id T p w -> VX xv B q x ->
    VX id (post (vrestrict (mS B) T) B) (fun i => q i /\ p i) (fun i => x i * w i).
Lemma MX_restrict T B p q w x : MX id T p w -> MX xv B q x ->
  MX id (mrestrict (msS B) T) (fun i j => q i j /\ p i j) (fun i j => if has (mget B i j) then w i j else 0).
Proof.
  intros (A1 & A2 & A3 & A4) (B1 & B2 & B3 & B4). split; [apply mwf_mselect|].
  split; [unfold mrestrict; rewrite nrows_mselect; assumption|]. split; [unfold mrestrict; rewrite ncols_mselect; assumption|].
  intros i j. unfold mrestrict. rewrite mget_mselect by assumption. unfold msS.
  eapply eis_conv; [apply eis_if, A4| |reflexivity]. rewrite (proj1 (B4 i j)). reflexivity.
Qed.
Lemma VX_restrict {W} (g : W -> V) (T : vec V) B p q w x : VX id T p w -> VX g B q x ->
  VX id (vrestrict (mS B) T) (fun i => q i /\ p i) (fun i => if has (vget B i) then w i else 0).
Proof.
  intros (A1 & A4) (B1 & B4). split; [rewrite vsize_vrestrict; assumption|].
  intros i. rewrite vget_vrestrict. unfold mS. eapply eis_conv; [apply eis_if, A4| |reflexivity]. rewrite (proj1 (B4 i)). reflexivity.
Qed.
Lemma post_id : (forall u, xv u = 1) -> post_ok (fun C _ => C).
Proof.
  intros H1 T B p q w x HT HB. eapply MX_conv; [apply (MX_restrict T B p q w x HT HB)|reflexivity|].
  intros i j. destruct HB as (_ & _ & _ & B4). destruct (B4 i j) as [_ <-]. destruct (mget B i j); simpl; [rewrite H1|]; ring.
Qed.
Lemma vpost_id : (forall u, xv u = 1) -> vpost_ok (fun C _ => C).
Proof.
  intros H1 T B p q w x HT HB. eapply VX_conv; [apply (VX_restrict xv T B p q w x HT HB)|reflexivity|].
  intros i. destruct HB as (_ & B4). destruct (B4 i) as [_ <-]. destruct (vget B i); simpl; [rewrite H1|]; ring.
Qed.
Lemma MX_row A p w : MX id A p w -> VX id (mred_row add A) (fun i => exists j, (j < n)%nat /\ p i j) (fun i => sum n (fun j => w i j)).
Proof.
  intros (A1 & A2 & A3 & A4). split; [unfold mred_row; rewrite vsize_vbuild; assumption|].
  intros i. rewrite vget_mred_row by assumption. rewrite A3. apply (eis_ored _ _ _ _ SRth). auto.
Qed.
Lemma MX_col A p w : MX id A p w -> VX id (mred_col add A) (fun j => exists i, (i < n)%nat /\ p i j) (fun j => sum n (fun i => w i j)).
Proof.
  intros (A1 & A2 & A3 & A4). split; [unfold mred_col; rewrite vsize_vbuild; assumption|].
  intros i. rewrite vget_mred_col by assumption. rewrite A2. apply (eis_ored _ _ _ _ SRth). auto.
Qed.
Lemma VX_mxv A v p q w x : MX xv A p w -> VX xv v q x ->
  VX id (mxv add m A v) (fun i => exists k, (k < n)%nat /\ p i k /\ q k) (fun i => sum n (fun k => w i k * x k)).
Proof.
  intros (A1 & A2 & A3 & A4) (B1 & B4). split; [unfold mxv; rewrite vsize_vbuild; assumption|].
  intros i. rewrite vget_mxv by assumption. rewrite A3. apply (eis_ored _ _ _ _ SRth). intros k _.
  apply (eis_oboth _ _ _ _ SRth xv m); auto.
Qed.
Lemma VX_omask (mask : mask_t) v p w : VX id v p w -> VX id (omask mask v) (fun i => inm mask i = true /\ p i) (fun i => if inm mask i then w i else 0).
Proof.
  intros (H1 & H4). destruct mask as [q|]; cbn [omask inm].
  - split; [rewrite vsize_vrestrict; assumption|]. intros i. rewrite vget_vrestrict. apply eis_if, H4.
  - split; [assumption|]. intros i. eapply eis_conv; [apply H4| |reflexivity]. intuition.
Qed.
Lemma VX_union u v p q w x : VX id u p w -> VX id v q x -> VX id (vunion add u v) (fun i => p i \/ q i) (fun i => w i + x i).
Proof.
  intros (A1 & A4) (B1 & B4). split; [rewrite vsize_vunion; assumption|]. intros i. rewrite vget_vunion by congruence.
  apply (eis_omerge _ _ _ _ SRth); auto.
Qed.
Lemma VX_reduce v p w : VX id v p w -> eis zero id (vreduce add v) (exists i, (i < n)%nat /\ p i) (sum n w).
Proof. intros (H1 & H4). unfold vreduce. rewrite H1. apply (eis_ored _ _ _ _ SRth). auto. Qed.
Lemma MX_scalar A p w : MX id A p w -> eval zero id (mred_scalar add A) = sum n (fun i => sum n (fun j => w i j)).
Proof. intros H. unfold mred_scalar. exact (proj2 (VX_reduce _ _ _ (MX_row A p w H))). Qed.

(** ** triangles of an undirected graph *)
Section Tri.
Variable e : nat -> nat -> Prop.
Variable w : nat -> nat -> V.
Hypothesis e_sym : forall i j, e i j -> e j i.
Hypothesis e_irr : forall i, ~ e i i.
Hypothesis e_lt : forall i j, e i j -> (i < n /\ j < n)%nat.
Hypothesis w_sym : forall i j, w i j = w j i.
Hypothesis w_irr : forall i, w i i = 0.
Variables (L Um : mat U) (post : mat V -> mat U -> mat V).
Hypothesis HL : MX xv L (fun i j => (j < i)%nat /\ e i j) (fun i j => if j <? i then w i j else 0).
Hypothesis HU : MX xv Um (fun i j => (i < j)%nat /\ e i j) (fun i j => if i <? j then w i j else 0).
Hypothesis Hpost : post_ok post.
Definition tsum (v : nat) : V := sum n (fun j => sum n (fun k => if k <? j then w v j * w v k * w j k else 0)).

Lemma tsum_double v : tsum v + tsum v = sum n (fun j => sum n (fun k => w v j * w v k * w j k)).
Proof.
  symmetry. apply (gsum2_half _ _ _ _ SRth).
  - intros i j. rewrite (w_sym i j). ring.
  - intros i. rewrite w_irr. ring.
Qed.
Lemma triangles_entry mask : VX id (triangles_gen add m post L Um mask)
  (fun v => inm mask v = true /\ exists j k, e v j /\ e v k /\ e j k)
  (fun v => if inm mask v then tsum v else 0).
Proof.
  unfold triangles_gen.
  pose proof (Hpost _ _ _ _ _ _ (MX_mxm _ _ _ _ _ _ HL (MX_trans _ _ _ _ HL)) HL) as HC.
  pose proof (Hpost _ _ _ _ _ _ (MX_mxm _ _ _ _ _ _ HU (MX_trans _ _ _ _ HL)) HU) as HD.
  eapply VX_conv; [apply VX_union; [apply VX_union|]; apply VX_omask; [apply MX_row|apply MX_col|apply MX_row]; eassumption| |].
  - intros v. cbn beta. split.
    + intros [[[H (j & _ & [_ E] & k & _ & [_ E1] & [_ E2])]|[H (j & _ & [_ E] & k & _ & [_ E1] & [_ E2])]]|[H (j & _ & [_ E] & k & _ & [_ E1] & [_ E2])]];
        (split; [assumption|]).
      * exists j, k. auto.
      * exists j, k. auto.
      * exists j, k. auto.
    + intros (H & j & k & E1 & E2 & E3).
      pose proof (e_lt _ _ E1). pose proof (e_lt _ _ E2).
      assert (N : j <> v /\ k <> v /\ j <> k).
      { repeat split; intros ->; eapply e_irr; eassumption. }
      assert (Gen : forall j k, (k < j)%nat -> (j < n)%nat -> (k < n)%nat -> j <> v -> k <> v -> e v j -> e v k -> e j k ->
        ((inm mask v = true /\ (exists j0, (j0 < n)%nat /\ ((j0 < v)%nat /\ e v j0) /\ (exists k0, (k0 < n)%nat /\ ((k0 < v)%nat /\ e v k0) /\ (k0 < j0)%nat /\ e j0 k0))) \/
         (inm mask v = true /\ (exists i, (i < n)%nat /\ ((v < i)%nat /\ e i v) /\ (exists k0, (k0 < n)%nat /\ ((k0 < i)%nat /\ e i k0) /\ (k0 < v)%nat /\ e v k0)))) \/
         (inm mask v = true /\ (exists j0, (j0 < n)%nat /\ ((v < j0)%nat /\ e v j0) /\ (exists k0, (k0 < n)%nat /\ ((v < k0)%nat /\ e v k0) /\ (k0 < j0)%nat /\ e j0 k0)))).
      { clear - H e_sym. intros j k Hlt Hj Hk Nj Nk E1 E2 E3. destruct (Nat.lt_total j v) as [L1|[->|L1]]; [|congruence|].
        - left. left. split; [assumption|]. exists j. repeat split; auto. exists k. repeat split; auto. lia.
        - destruct (Nat.lt_total k v) as [L2|[->|L2]]; [|congruence|].
          + left. right. split; [assumption|]. exists j. repeat split; auto. exists k. repeat split; auto.
          + right. split; [assumption|]. exists j. repeat split; auto. exists k. repeat split; auto. }
      destruct (Nat.lt_total k j) as [L1|[->|L1]]; [|intuition congruence|]; [apply (Gen j k)|apply (Gen k j)]; intuition auto.
  - intros v. cbn beta. destruct (inm mask v); [|ring].
    unfold tsum.
    rewrite (gsum_ext zero one add mul SRth n _ (fun j => sum n (fun k => if (k <? j) && (j <? v) then w v j * w v k * w j k else 0))).
    2:{ intros j _. rewrite <- (gsum_scale _ _ _ _ SRth). apply (gsum_ext _ _ _ _ SRth). intros k _.
        destruct (Nat.ltb_spec j v), (Nat.ltb_spec k j), (Nat.ltb_spec k v); cbn [andb]; try ring; lia. }
    rewrite (gsum_ext zero one add mul SRth n (fun i => _ * _) (fun j => sum n (fun k => if (v <? j) && (k <? v) then w v j * w v k * w j k else 0))).
    2:{ intros j _. rewrite <- (gsum_scale _ _ _ _ SRth). apply (gsum_ext _ _ _ _ SRth). intros k _.
        rewrite (w_sym j v).
        destruct (Nat.ltb_spec v j), (Nat.ltb_spec k j), (Nat.ltb_spec k v); cbn [andb]; try ring; lia. }
    rewrite (gsum_ext zero one add mul SRth n (fun j => _ * _) (fun j => sum n (fun k => if (v <? k) && (k <? j) then w v j * w v k * w j k else 0))).
    2:{ intros j _. rewrite <- (gsum_scale _ _ _ _ SRth). apply (gsum_ext _ _ _ _ SRth). intros k _.
        destruct (Nat.ltb_spec v j), (Nat.ltb_spec k j), (Nat.ltb_spec v k); cbn [andb]; try ring; lia. }
    rewrite <- !(gsum2_add _ _ _ _ SRth). apply (gsum2_ext _ _ _ _ SRth). intros j k _ _.
    destruct (Nat.eq_dec j v) as [->|]; [rewrite w_irr; destruct (_ && _), (_ && _), (_ && _), (_ <? _); ring|].
    destruct (Nat.eq_dec k v) as [->|]; [rewrite w_irr; destruct (_ && _), (_ && _), (_ && _), (_ <? _); ring|].
    destruct (Nat.ltb_spec k j), (Nat.ltb_spec j v), (Nat.ltb_spec v j), (Nat.ltb_spec k v), (Nat.ltb_spec v k); cbn [andb]; try lia; ring.
Qed.
(** one node: L @ r, masked by r *)
Lemma single_tri v r vpost : VX xv r (e v) (w v) -> vpost_ok vpost ->
  eis zero id (single_tri_gen add m vpost L r) (exists j k, e v j /\ e v k /\ e j k) (tsum v).
Proof.
  intros Hr Hp. unfold single_tri_gen.
  pose proof (Hp _ _ _ _ _ _ (VX_mxv _ _ _ _ _ _ HL Hr) Hr) as HV.
  eapply eis_conv; [apply VX_reduce, HV| |].
  - cbn beta. split.
    + intros (j & _ & E1 & k & _ & [_ E2] & E3). exists j, k. auto.
    + intros (j & k & E1 & E2 & E3). pose proof (e_lt _ _ E3) as [Lj Lk].
      assert (j <> k) by (intros ->; eapply e_irr; eassumption).
      destruct (Nat.lt_total k j) as [L1|[L1|L1]]; [|congruence|].
      * exists j. split; [assumption|]. split; [assumption|]. exists k. auto.
      * exists k. split; [assumption|]. split; [assumption|]. exists j. auto.
  - unfold tsum. apply (gsum_ext _ _ _ _ SRth). intros j _. rewrite <- (gsum_scale _ _ _ _ SRth).
    apply (gsum_ext _ _ _ _ SRth). intros k _. destruct (k <? j); ring.
Qed.
End Tri.

(** ** triangles through a node of a directed graph *)
Section Dir.
Variable e : nat -> nat -> Prop.
Variable w : nat -> nat -> V.
Hypothesis e_lt : forall i j, e i j -> (i < n /\ j < n)%nat.
Variables (A AT : mat U) (post : mat V -> mat U -> mat V).
Hypothesis HA : MX xv A e w.
Hypothesis HAT : MX xv AT (fun i j => e j i) (fun i j => w j i).
Hypothesis Hpost : post_ok post.
Definition dsum (v : nat) : V := sum n (fun j => sum n (fun k => (w v j + w j v) * (w v k + w k v) * w j k)).
Definition dthere (v : nat) : Prop := exists j k, (e v j \/ e j v) /\ (e v k \/ e k v) /\ e j k.
Lemma dtri_entry mask : VX id (dtri_gen add m post A AT mask)
  (fun v => inm mask v = true /\ dthere v) (fun v => if inm mask v then dsum v else 0).
Proof.
  unfold dtri_gen.
  pose proof (Hpost _ _ _ _ _ _ (MX_mxm _ _ _ _ _ _ HA (MX_trans _ _ _ _ HA)) HA) as HC.
  pose proof (Hpost _ _ _ _ _ _ (MX_mxm _ _ _ _ _ _ HAT (MX_trans _ _ _ _ HA)) HA) as HD.
  pose proof (Hpost _ _ _ _ _ _ (MX_mxm _ _ _ _ _ _ HAT (MX_trans _ _ _ _ HAT)) HA) as HE.
  eapply VX_conv; [apply VX_union; [apply VX_union; [apply VX_union|]|]; apply VX_omask; [apply MX_row|apply MX_col|apply MX_row|apply MX_col]; eassumption| |].
  - intros v. cbn beta. unfold dthere. split.
    + intros [[[[H (j & _ & E & k & _ & E1 & E2)]|[H (j & _ & E & k & _ & E1 & E2)]]|[H (j & _ & E & k & _ & E1 & E2)]]|[H (j & _ & E & k & _ & E1 & E2)]];
        (split; [assumption|]).
      * exists j, k. auto.
      * exists j, k. auto.
      * exists j, k. auto.
      * exists k, j. auto.
    + intros (H & j & k & [E1|E1] & [E2|E2] & E3); pose proof (e_lt _ _ E3) as [Lj Lk].
      * left. left. left. split; [assumption|]. exists j. repeat split; auto. exists k. auto.
      * left. right. split; [assumption|]. exists j. repeat split; auto. exists k. auto.
      * left. left. right. split; [assumption|]. exists j. repeat split; auto. exists k. auto.
      * right. split; [assumption|]. exists k. repeat split; auto. exists j. auto.
  - intros v. cbn beta. destruct (inm mask v); [|ring]. unfold dsum.
    rewrite (gsum_ext zero one add mul SRth n (fun j => w v j * sum n (fun k => w v k * w j k)) (fun j => sum n (fun k => w v j * w v k * w j k)))
      by (intros j _; rewrite <- (gsum_scale _ _ _ _ SRth); apply (gsum_ext _ _ _ _ SRth); intros; ring).
    rewrite (gsum_ext zero one add mul SRth n (fun i => w i v * sum n (fun k => w i k * w v k)) (fun j => sum n (fun k => w j v * w v k * w j k)))
      by (intros j _; rewrite <- (gsum_scale _ _ _ _ SRth); apply (gsum_ext _ _ _ _ SRth); intros; ring).
    rewrite (gsum_ext zero one add mul SRth n (fun j => w v j * sum n (fun k => w k v * w j k)) (fun j => sum n (fun k => w v j * w k v * w j k)))
      by (intros j _; rewrite <- (gsum_scale _ _ _ _ SRth); apply (gsum_ext _ _ _ _ SRth); intros; ring).
    rewrite (gsum_ext zero one add mul SRth n (fun i => w i v * sum n (fun k => w k i * w k v)) (fun k => sum n (fun j => w j v * w k v * w j k)))
      by (intros j _; rewrite <- (gsum_scale _ _ _ _ SRth); apply (gsum_ext _ _ _ _ SRth); intros; ring).
    rewrite (gsum_swap _ _ _ _ SRth n n (fun k j => w j v * w k v * w j k)).
    rewrite <- !(gsum2_add _ _ _ _ SRth). apply (gsum2_ext _ _ _ _ SRth). intros j k _ _. ring.
Qed.
Lemma sdir_ok v vpost : (v < n)%nat -> vpost_ok vpost -> sdir_gen add m vpost 0 A v = dsum v.
Proof.
  intros Hv Hp. unfold sdir_gen.
  assert (Hr : VX xv (mrow A v) (fun j => e v j) (fun j => w v j)).
  { destruct HA as (A1 & A2 & A3 & A4).
    split; [unfold vsize; rewrite mrow_length; [assumption..|rewrite A2; assumption]|]. intros j. apply A4. }
  assert (Hc : VX xv (mcol A v) (fun i => e i v) (fun i => w i v)).
  { destruct HA as (A1 & A2 & A3 & A4). split; [unfold mcol; rewrite vsize_vbuild; assumption|]. intros i. unfold mcol. rewrite vget_vbuild.
    destruct (Nat.ltb_spec i (nrows A)); [apply A4|]. eapply eis_conv; [apply (eis_none zero xv)| |].
    - split; [intros []|intros E; apply e_lt in E; lia].
    - symmetry. apply (MX_out _ _ _ _ _ _ HA). intros E. apply e_lt in E. lia. }
  assert (T : forall x y p q wx wy, VX xv x p wx -> VX xv y q wy ->
       oget 0 (vreduce add (vpost (vrestrict (mS y) (mxv add m A x)) y)) = sum n (fun j => sum n (fun k => wy j * (w j k * wx k)))).
  { intros x y p q wx wy Hx Hy. pose proof (Hp _ _ _ _ _ _ (VX_mxv _ _ _ _ _ _ HA Hx) Hy) as HV.
    transitivity (eval zero id (vreduce add (vpost (vrestrict (mS y) (mxv add m A x)) y))); [reflexivity|].
    rewrite (proj2 (VX_reduce _ _ _ HV)). apply (gsum_ext _ _ _ _ SRth). intros j _. symmetry. apply (gsum_scale _ _ _ _ SRth). }
  rewrite (T _ _ _ _ _ _ Hc Hc), (T _ _ _ _ _ _ Hc Hr), (T _ _ _ _ _ _ Hr Hc), (T _ _ _ _ _ _ Hr Hr).
  assert (Z0 : forall x, 0 + x = x) by (intros; ring). rewrite Z0.
  rewrite <- !(gsum2_add _ _ _ _ SRth). apply (gsum2_ext _ _ _ _ SRth). intros j k _ _. unfold dsum. ring.
Qed.
End Dir.
End SR.
