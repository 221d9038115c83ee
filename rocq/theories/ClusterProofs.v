(** * From sparse products to the specification of triangles and clustering *)
From Verif Require Import Base BaseProofs Model_Graph Model_Cache Spec_Cache CacheMath CacheProofs CacheProofs2
  Model_Keys Spec KeyProofs Spec_Run RunProofs Model_Bfs Model_Operators OperatorProofs Spec_Count Model_Measures CountProofs Props_Cuts
  Model_Cluster ClusterMath ClusterMath2 Spec_Cluster.
From Coq Require Import Permutation QArith Qcanon Ring.
Open Scope nat_scope.

Lemma Zsr : semi_ring_theory 0%Z 1%Z Z.add Z.mul eq.
Proof. constructor; intros; ring. Qed.
Lemma Qcsr : semi_ring_theory 0%Qc 1%Qc Qcplus Qcmult eq.
Proof. constructor; intros; ring. Qed.

Section MMap.
Context {V : Type} (zero : V) {U W : Type} (g : W -> U) (xv : U -> V) (n : nat).
Lemma MX_mmap M p w : MX zero n (fun z => xv (g z)) M p w -> MX zero n xv (mmap g M) p w.
Proof.
  intros (H1 & H2 & H3 & H4). split; [apply mwf_mbuild|]. split; [unfold mmap; rewrite nrows_mbuild; assumption|]. split; [unfold mmap; rewrite ncols_mbuild; assumption|].
  intros i j. rewrite mget_mmap by assumption. destruct (H4 i j) as [E1 E2]. destruct (mget M i j); split; assumption.
Qed.
Lemma VX_vmap v p w : VX zero n (fun z => xv (g z)) v p w -> VX zero n xv (vmap g v) p w.
Proof.
  intros (H1 & H4). split; [rewrite vsize_vmap; assumption|].
  intros i. rewrite vget_vmap. destruct (H4 i) as [E1 E2]. destruct (vget v i); split; assumption.
Qed.
End MMap.
Lemma VX_hom {V V'} (zero : V) (zero' : V') (h : V -> V') n v p w : h zero = zero' -> VX zero n id v p w -> VX zero' n id (vmap h v) p (fun i => h (w i)).
Proof.
  intros Hz (H1 & H4). split; [rewrite vsize_vmap; assumption|].
  intros i. rewrite vget_vmap. destruct (H4 i) as [E1 E2]. rewrite <- E2. destruct (vget v i); split; try assumption; cbn; [reflexivity|symmetry; assumption].
Qed.
Lemma gsum_hom {V V'} (zero : V) add (zero' : V') add' (h : V -> V') n f :
  h zero = zero' -> (forall x y, h (add x y) = add' (h x) (h y)) -> h (gsum zero add n f) = gsum zero' add' n (fun i => h (f i)).
Proof. intros Hz Ha. unfold gsum. induction (seq 0 n) as [|a l IH]; [assumption|]. cbn [map fold_right]. rewrite Ha, IH. reflexivity. Qed.
(** the weighted branch: [X *= Y] on the intersection *)
Lemma eval_both (t b : option Qc) (w x : Qc) : eval 0%Qc id b = x -> eval 0%Qc id t = (if has b then w else 0%Qc) ->
  eval 0%Qc id (oboth Qcmult t b) = (x * w)%Qc.
Proof.
  intros <- H. destruct b as [y|]; cbn [has] in H.
  - destruct t as [z|]; unfold eval, id in *; cbn [oboth]; rewrite <- H; ring.
  - destruct t as [z|]; unfold eval, id in *; cbn [oboth]; ring.
Qed.
Lemma post_mul n : post_ok 0%Qc Qcmult (@id Qc) n (minter Qcmult).
Proof.
  intros T B p q w x HT HB. pose proof (MX_restrict 0%Qc id n T B p q w x HT HB) as (R1 & R2 & R3 & R4).
  destruct HB as (B1 & B2 & B3 & B4).
  split; [apply mwf_mbuild|]. split; [unfold minter; rewrite nrows_mbuild; assumption|]. split; [unfold minter; rewrite ncols_mbuild; assumption|].
  intros i j. rewrite mget_minter by assumption. destruct (R4 i j) as [E1 E2], (B4 i j) as [F1 F2]. split.
  - rewrite has_oboth, andb_true_iff, E1, F1. tauto.
  - apply eval_both; assumption.
Qed.
Lemma vpost_mul n : vpost_ok 0%Qc Qcmult (@id Qc) n (vinter Qcmult).
Proof.
  intros T B p q w x HT HB. pose proof (VX_restrict 0%Qc n id T B p q w x HT HB) as (R2 & R4).
  destruct HB as (B2 & B4).
  split; [rewrite vsize_vinter; assumption|].
  intros i. rewrite vget_vinter by congruence. destruct (R4 i) as [E1 E2], (B4 i) as [F1 F2]. split.
  - rewrite has_oboth, andb_true_iff, E1, F1. tauto.
  - apply eval_both; assumption.
Qed.

Section P.
Variable G : graph.
Hypothesis wf : gwf G.
Notation n := (glen G).
Notation A := (g_A G).
Lemma Hsq : ncols A = n. Proof. apply (sq_nrows G wf). Qed.
Lemma HmA : mwf A. Proof. apply wf. Qed.

(** ** entries between different nodes *)
Notation wanted := (Spec_Cluster.wanted G).
Notation wok := (Spec_Cluster.scale G).
Notation weigh_fail := (Spec_Cluster.weigh_fail G).
Definition ee (i j : nat) : Prop := has (ent G SM i j) = true.
Definition cf {V} (zero : V) (f : Z -> V) (i j : nat) : V := eval zero f (ent G SM i j).
Lemma ee_lt i j : ee i j -> i < n /\ j < n.
Proof.
  unfold ee, ent. destruct (i =? j); [discriminate|]. intros H. apply has_true in H as [x Hx].
  apply mget_some_lt in Hx; [|apply HmA]. rewrite Hsq in Hx. exact Hx.
Qed.
Lemma ee_irr i : ~ ee i i.
Proof. unfold ee, ent. rewrite Nat.eqb_refl. discriminate. Qed.
Lemma ent_sym s i j : g_dir G = false -> ent G s i j = ent G s j i.
Proof.
  intros D. unfold ent. rewrite (Nat.eqb_sym j i). destruct s; [|destruct (i =? j); [reflexivity|]]; apply (gw_sym G wf D).
Qed.
Lemma ee_sym i j : g_dir G = false -> ee i j -> ee j i.
Proof. intros D. unfold ee. rewrite (ent_sym SM i j D). auto. Qed.
Lemma cf_sym {V} (zero : V) f i j : g_dir G = false -> cf zero f i j = cf zero f j i.
Proof. intros D. unfold cf. rewrite (ent_sym SM i j D). reflexivity. Qed.
Lemma cf_irr {V} (zero : V) f i : cf zero f i i = zero.
Proof. unfold cf, ent. rewrite Nat.eqb_refl. reflexivity. Qed.
Lemma MX_den {V} (zero : V) f k : k = KOff \/ k = KL SM \/ k = KU SM ->
  MX zero n f (den_mat G k) (fun i j => msel k i j = true /\ ee i j) (fun i j => if msel k i j then cf zero f i j else zero).
Proof.
  intros Hk. assert (E : den_mat G k = mbuild n n (fun i j => if msel k i j then mget A i j else None)) by (intuition (subst; reflexivity)).
  rewrite E. split; [apply mwf_mbuild|]. split; [apply nrows_mbuild|]. split; [apply ncols_mbuild|].
  intros i j. rewrite mget_mbuild. unfold cf, ee.
  assert (Es : msel k i j = true -> ent G SM i j = mget A i j).
  { unfold ent. intros Hs. destruct (Nat.eqb_spec i j) as [->|]; [|reflexivity].
    destruct Hk as [->|[->| ->]]; simpl in Hs; rewrite ?Nat.eqb_refl, ?Nat.ltb_irrefl in Hs; discriminate. }
  destruct (msel k i j).
  - rewrite (Es eq_refl). destruct ((i <? n) && (j <? n)) eqn:B.
    + split; [tauto|reflexivity].
    + replace (mget A i j) with (@None Z); [split; [intuition|reflexivity]|]. symmetry. apply mget_out; [apply HmA|].
      rewrite Hsq. apply andb_false_iff in B. rewrite !Nat.ltb_ge in B. unfold glen in *. tauto.
  - destruct ((i <? n) && (j <? n)); split; try reflexivity; split; [discriminate|intros [? _]; discriminate|discriminate|intros [? _]; discriminate].
Qed.
Lemma MX_L {V} (zero : V) f : MX zero n f (den_mat G (KL SM)) (fun i j => j < i /\ ee i j) (fun i j => if j <? i then cf zero f i j else zero).
Proof. eapply MX_conv; [apply MX_den; auto| |reflexivity]. intros i j. cbn [msel]. rewrite Nat.ltb_lt. reflexivity. Qed.
Lemma MX_U {V} (zero : V) f : MX zero n f (den_mat G (KU SM)) (fun i j => i < j /\ ee i j) (fun i j => if i <? j then cf zero f i j else zero).
Proof. eapply MX_conv; [apply MX_den; auto| |reflexivity]. intros i j. cbn [msel]. rewrite Nat.ltb_lt. reflexivity. Qed.
Lemma MX_off {V} (zero : V) f : MX zero n f (den_mat G KOff) ee (cf zero f).
Proof.
  eapply MX_conv; [apply MX_den; auto| |]; intros i j; cbn [msel].
  - destruct (Nat.eqb_spec i j) as [->|]; cbn [negb]; [|tauto]. pose proof (ee_irr j). tauto.
  - destruct (Nat.eqb_spec i j) as [->|]; cbn [negb]; [symmetry; apply cf_irr|reflexivity].
Qed.
Lemma noself_mget i : den_bool G KSelf = false -> mget A i i = None.
Proof.
  intros H. cbn [den_bool] in H. apply negb_false_iff, Nat.eqb_eq in H. unfold dcount in H. rewrite cnt_zero in H.
  destruct (Nat.lt_ge_cases i n) as [L|L].
  - specialize (H i L). destruct (mget A i i); [discriminate|reflexivity].
  - apply mget_out; [apply HmA|]. unfold glen in *. lia.
Qed.
Lemma noself_ent i j : den_bool G KSelf = false -> ent G SM i j = mget A i j.
Proof. intros H. unfold ent. destruct (Nat.eqb_spec i j) as [->|]; [|reflexivity]. rewrite (noself_mget j H). reflexivity. Qed.
Lemma MX_AT {V} (zero : V) f : den_bool G KSelf = false -> MX zero n f (den_mat G KAT) (fun i j => ee j i) (fun i j => cf zero f j i).
Proof.
  intros H. split; [apply mwf_mbuild|]. split; [apply nrows_mbuild|]. split; [apply ncols_mbuild|].
  intros i j. cbn [den_mat]. rewrite mget_mbuild. unfold cf, ee. rewrite (noself_ent j i H).
  destruct ((i <? nrows A) && (j <? nrows A)) eqn:B; [split; [reflexivity|reflexivity]|].
  replace (mget A j i) with (@None Z); [split; [intuition|reflexivity]|]. symmetry. apply mget_out; [apply HmA|].
  rewrite Hsq. apply andb_false_iff in B. rewrite !Nat.ltb_ge in B. unfold glen in *. tauto.
Qed.
Lemma VX_row {V} (zero : V) f i : i < n ->
  VX zero n f (if den_bool G KSelf then vdel (mrow A i) i else mrow A i) (fun j => ee i j) (fun j => cf zero f i j).
Proof.
  intros Hi. assert (Hl : vsize (mrow A i) = n) by (unfold vsize; rewrite mrow_length; [apply Hsq|apply HmA|assumption]).
  destruct (den_bool G KSelf) eqn:E.
  - split; [unfold vdel; rewrite vsize_vbuild; assumption|]. intros j. unfold vdel. rewrite vget_vbuild, Hl. unfold ee, cf, ent.
    change (vget (mrow A i) j) with (mget A i j). rewrite (Nat.eqb_sym j i).
    destruct (Nat.ltb_spec j n); [apply eis_refl|]. replace (mget A i j) with (@None Z).
    + destruct (i =? j); split; cbn; intuition discriminate.
    + symmetry. apply mget_out; [apply HmA|]. rewrite Hsq. lia.
  - split; [assumption|]. intros j. unfold ee, cf. rewrite (noself_ent i j E). apply eis_refl.
Qed.

(** ** keys and ids *)
Lemma nbr_kid u v i j : kid G u = Some i -> kid G v = Some j -> nbr G u v = has (ent G SM i j).
Proof.
  intros Hu Hv. unfold nbr, ent. rewrite (has_edge_kid G u v i j Hu Hv).
  destruct (Nat.eqb_spec i j) as [->|N].
  - rewrite (kid_inj G wf u v j Hu Hv). rewrite (proj2 (nkey_eqb_eq v v) eq_refl). reflexivity.
  - destruct (nkey_eqb u v) eqn:E; [|reflexivity]. apply nkey_eqb_eq in E. congruence.
Qed.
Lemma nbr_node u v : nbr G u v = true -> node G u /\ node G v.
Proof.
  unfold nbr. rewrite andb_true_iff. intros [_ H]. apply has_edge_true in H as [w Hw]. apply weight_nodes in Hw. exact Hw.
Qed.
Lemma nbr_irr u : nbr G u u = false.
Proof. unfold nbr. rewrite (proj2 (nkey_eqb_eq u u) eq_refl). reflexivity. Qed.
Lemma nbr_sym u v : g_dir G = false -> nbr G u v = nbr G v u.
Proof.
  intros D. unfold nbr. rewrite (has_edge_sym G wf u v D). f_equal. f_equal.
  destruct (nkey_eqb u v) eqn:E; symmetry.
  - apply nkey_eqb_eq in E. apply nkey_eqb_eq. congruence.
  - destruct (nkey_eqb v u) eqn:E'; [|reflexivity]. apply nkey_eqb_eq in E'. subst. rewrite (proj2 (nkey_eqb_eq u u) eq_refl) in E. discriminate.
Qed.
Definition fco (cbrt : Qc -> Qc) (mx : option Z) (x : Z) : Qc :=
  match mx with None => 1%Qc | Some m => cbrt (qz x / qz m)%Qc end.
Lemma coef_kid cbrt mx u v i j : kid G u = Some i -> kid G v = Some j -> coef G cbrt mx u v = cf 0%Qc (fco cbrt mx) i j.
Proof.
  intros Hu Hv. unfold coef, cf. rewrite (nbr_kid u v i j Hu Hv). rewrite (weight0_kid G u v i j Hu Hv). unfold ent.
  destruct (i =? j); [reflexivity|]. destruct (mget A i j); reflexivity.
Qed.
Lemma deg0_id u i : kid G u = Some i -> deg0 G u = outdeg G SM i.
Proof. intros Hu. unfold deg0. apply (count_nodes G wf). intros v j Hv. apply nbr_kid; assumption. Qed.
Lemma indeg0_id u i : kid G u = Some i -> indeg0 G u = indeg G SM i.
Proof. intros Hu. unfold indeg0. apply (count_nodes G wf). intros v j Hv. apply nbr_kid; assumption. Qed.
Lemma recip0_id u i : kid G u = Some i -> recip0 G u = recipdeg G SM i.
Proof. intros Hu. unfold recip0. apply (count_nodes G wf). intros v j Hv. rewrite (nbr_kid u v i j Hu Hv), (nbr_kid v u j i Hv Hu). reflexivity. Qed.

Section T.
Context {V : Type} (zero one : V) (add mul : V -> V -> V).
Hypothesis SRth : semi_ring_theory zero one add mul (@eq V).
Lemma gtotal_nodes F f : (forall u i, kid G u = Some i -> F u = f i) -> gtotal zero add F (gnodes G) = gsum zero add n f.
Proof.
  intros H. rewrite (gtotal_ext zero add F (fun u => f (oget 0 (kid G u)))).
  - rewrite <- (gtotal_map zero add f (fun u => oget 0 (kid G u))), gnodes_kid by assumption. apply (gtotal_seq _ _ _ _ SRth). apply wf.
  - intros u Hu. apply node_kid in Hu as [i Hi]. rewrite Hi. apply H. assumption.
Qed.
Lemma gtotal_node_pairs F f : (forall u v i j, kid G u = Some i -> kid G v = Some j -> F (u, v) = f i j) ->
  gtotal zero add F (pairs (gnodes G)) = gsum zero add n (fun i => gsum zero add n (fun j => f i j)).
Proof.
  intros H. unfold pairs. rewrite (gtotal_prod _ _ _ _ SRth). apply gtotal_nodes. intros u i Hu. apply gtotal_nodes. intros v j Hv. apply H; assumption.
Qed.
End T.

(** ** triangles at a node *)
Notation one1 := (fun _ : Z => 1%Z).
Lemma ent1 i j : (if has (ent G SM i j) then 1 else 0)%Z = cf 0%Z one1 i j.
Proof. unfold cf. destruct (ent G SM i j); reflexivity. Qed.
Definition tris (i : nat) : Z := tsum 0%Z Z.add Z.mul n (cf 0%Z one1) i.
Lemma closed_pairs_id u i : kid G u = Some i ->
  Z.of_nat (closed_pairs G u) = gsum 0%Z Z.add n (fun j => gsum 0%Z Z.add n (fun k => cf 0 one1 i j * cf 0 one1 i k * cf 0 one1 j k)%Z).
Proof.
  intros Hu. unfold closed_pairs. rewrite total_count. apply (gtotal_node_pairs _ _ _ _ Zsr).
  intros x y j k Hx Hy. cbn [fst snd]. rewrite (nbr_kid u x i j Hu Hx), (nbr_kid u y i k Hu Hy), (nbr_kid x y j k Hx Hy).
  rewrite <- !ent1. destruct (has (ent G SM i j)), (has (ent G SM i k)), (has (ent G SM j k)); reflexivity.
Qed.
Lemma closed_pairs_tri u : g_dir G = false -> closed_pairs G u = 2 * triangles_at G u.
Proof.
  intros D. apply Nat2Z.inj. unfold closed_pairs, triangles_at. rewrite Nat2Z.inj_mul, !total_count.
  rewrite (total_pairs_upairs nkey_eqb (fun x y => if nbr G u x && nbr G u y && nbr G x y then 1 else 0)%Z (gnodes G) (gnodes_nodup G wf))
    by (intros; apply nkey_eqb_eq).
  change (Z.of_nat 2) with 2%Z. rewrite <- total_scale. apply total_ext. intros [x y] _. cbn [fst snd].
  destruct (nkey_eqb x y) eqn:E.
  - apply nkey_eqb_eq in E as ->. rewrite nbr_irr, andb_false_r. reflexivity.
  - rewrite (nbr_sym y x D). destruct (nbr G u x), (nbr G u y), (nbr G x y); reflexivity.
Qed.
Lemma triangles_at_id u i : g_dir G = false -> kid G u = Some i -> Z.of_nat (triangles_at G u) = tris i.
Proof.
  intros D Hu. pose proof (closed_pairs_id u i Hu) as E. rewrite (closed_pairs_tri u D) in E.
  rewrite <- (tsum_double 0%Z 1%Z Z.add Z.mul Zsr n (cf 0%Z one1) (fun i j => cf_sym 0%Z one1 i j D) (fun i => cf_irr 0%Z one1 i)) in E.
  fold (tris i) in E. lia.
Qed.
(** the triangle vectors *)
Definition tri_exists (i : nat) : Prop := exists j k, ee i j /\ ee i k /\ ee j k.
Lemma triangles_ok mask : g_dir G = false -> exists r, VX 0%Z n id r (fun i => inm mask i = true /\ tri_exists i) (fun i => if inm mask i then tris i else 0%Z) /\
  answers G (triangles G mask) (eq (Val r)).
Proof.
  intros D. eexists. split; [|unfold triangles, get_LU; rewrite ?answers_assoc;
    eapply answers_bind_v; [eapply answers_bind_GV; [apply (get_Um_ok G wf true eq_refl)|]; eapply answers_bind_GV; [apply (get_Lm_ok G wf true eq_refl)|]; apply answers_ret; reflexivity|];
    apply answers_ret; reflexivity].
  apply (triangles_entry 0%Z 1%Z Z.add Z.mul Zsr one1 op_pairz ltac:(reflexivity) n ee (cf 0%Z one1)).
  - intros i j. apply ee_sym. assumption.
  - apply ee_irr.
  - apply ee_lt.
  - intros i j. apply cf_sym. assumption.
  - apply cf_irr.
  - apply MX_L.
  - apply MX_U.
  - apply (post_id 0%Z 1%Z Z.add Z.mul Zsr). reflexivity.
Qed.
Lemma single_row_ok i : i < n -> answers G (single_row G i) (eq (Val (den_mat G (KL SM), if den_bool G KSelf then vdel (mrow A i) i else mrow A i))).
Proof.
  intros Hi. unfold single_row. eapply answers_bind_GV; [apply (get_Lm_ok G wf true eq_refl)|].
  eapply answers_bind_GV; [apply (has_self_edges_ok G wf true eq_refl)|]. apply answers_ret. reflexivity.
Qed.
Lemma single_triangle_ok i : g_dir G = false -> i < n -> answers G (single_triangle G i) (eq (Val (tris i))).
Proof.
  intros D Hi. unfold single_triangle. eapply answers_bind_v; [apply single_row_ok; assumption|]. apply answers_ret. f_equal. symmetry.
  assert (H : eis 0%Z id (single_tri_gen Z.add op_pairz (fun v _ => v) (den_mat G (KL SM)) (if den_bool G KSelf then vdel (mrow A i) i else mrow A i)) (tri_exists i) (tris i)); [|exact (proj2 H)].
  apply (single_tri 0%Z 1%Z Z.add Z.mul Zsr one1 op_pairz ltac:(reflexivity) n ee (cf 0%Z one1)).
  - intros a b. apply ee_sym. assumption.
  - apply ee_irr.
  - apply ee_lt.
  - apply MX_L.
  - apply VX_row. assumption.
  - apply (vpost_id 0%Z 1%Z Z.add Z.mul Zsr). reflexivity.
Qed.

(** ** the largest weight *)
Lemma ored_max_some k f m : ored Z.max k f = Some m -> (exists i, i < k /\ f i = Some m) /\ forall i x, i < k -> f i = Some x -> (x <= m)%Z.
Proof.
  revert m. induction k as [|k IH]; intros m; cbn [ored]; [discriminate|].
  destruct (ored Z.max k f) as [a|] eqn:Ea; destruct (f k) as [b|] eqn:Eb; cbn [omerge]; intros [= <-].
  - destruct (IH a eq_refl) as [(i & Hi & Hf) Hle]. split.
    + destruct (Z.max_spec a b) as [[? E]|[? E]]; rewrite E; [exists k; auto|exists i; auto].
    + intros j x Hj Hx. destruct (Nat.eq_dec j k) as [->|]; [rewrite Eb in Hx; injection Hx as ->; lia|].
      specialize (Hle j x ltac:(lia) Hx). lia.
  - destruct (IH a eq_refl) as [(i & Hi & Hf) Hle]. split; [exists i; auto|].
    intros j x Hj Hx. destruct (Nat.eq_dec j k) as [->|]; [congruence|]. apply (Hle j); [lia|assumption].
  - rewrite ored_none in Ea. split; [exists k; auto|].
    intros j x Hj Hx. destruct (Nat.eq_dec j k) as [->|]; [rewrite Eb in Hx; injection Hx as ->; lia|].
    rewrite Ea in Hx by lia. discriminate.
Qed.
Lemma ent_lt s i j x : ent G s i j = Some x -> i < n /\ j < n.
Proof.
  intros H. assert (Hx : mget A i j = Some x) by (destruct s; simpl in H; [|destruct (i =? j)]; congruence).
  apply mget_some_lt in Hx; [|apply HmA]. rewrite Hsq in Hx. exact Hx.
Qed.
Lemma max_weight_den m : den_scal G (KElem RMax SM) = Some m -> max_weight G m.
Proof.
  cbn [den_scal rbin]. intros H. apply ored_max_some in H as [(i & Hi & Hf) Hm].
  assert (E : forall i, rfold G RMax (fun j => ent G SM i j) = ored Z.max (nrows A) (fun j => ent G SM i j)).
  { intros k. unfold rfold. apply ored_ext. intros j _. destruct (ent G SM k j); reflexivity. }
  split.
  - rewrite E in Hf. apply ored_max_some in Hf as [(j & Hj & Hf) _].
    destruct (kid_key G wf i Hi) as [u Hu], (kid_key G wf j Hj) as [v Hv]. exists u, v. split.
    + rewrite (nbr_kid u v i j Hu Hv), Hf. reflexivity.
    + unfold weight. rewrite Hu, Hv. unfold ent in Hf. destruct (i =? j); congruence.
  - intros u v H. destruct (nbr_node u v H) as [Nu Nv]. apply node_kid in Nu as [k Hk], Nv as [l Hl].
    rewrite (nbr_kid u v k l Hk Hl) in H. apply has_true in H as [x Hx]. destruct (ent_lt _ _ _ _ Hx) as [Lk Ll].
    rewrite (weight0_kid G u v k l Hk Hl). assert (Ex : mget A k l = Some x) by (unfold ent in Hx; destruct (k =? l); congruence). rewrite Ex. cbn [oz].
    destruct (ored Z.max (nrows A) (fun j => ent G SM k j)) as [y|] eqn:Ey.
    + assert (y <= m)%Z by (apply (Hm k y Lk); rewrite E; assumption).
      apply ored_max_some in Ey as [_ Hy]. specialize (Hy l x Ll Hx). unfold oz. cbn [oget]. lia.
    + rewrite ored_none in Ey. rewrite Ey in Hx by assumption. discriminate.
Qed.
Lemma no_max_den : den_scal G (KElem RMax SM) = None -> forall u v, nbr G u v = false.
Proof.
  cbn [den_scal]. rewrite ored_none. intros H u v. destruct (nbr G u v) eqn:E; [|reflexivity].
  destruct (nbr_node u v E) as [Nu Nv]. apply node_kid in Nu as [k Hk], Nv as [l Hl].
  rewrite (nbr_kid u v k l Hk Hl) in E. apply has_true in E as [x Hx]. destruct (ent_lt _ _ _ _ Hx) as [Lk Ll].
  specialize (H k Lk). unfold rfold in H. rewrite ored_none in H. specialize (H l Ll). rewrite Hx in H. discriminate.
Qed.
Lemma max_weight_fun m m' : max_weight G m -> max_weight G m' -> m = m'.
Proof.
  intros [(u & v & H1 & H2) H3] [(u' & v' & H1' & H2') H3'].
  pose proof (H3 _ _ H1') as P1. pose proof (H3' _ _ H1) as P2. unfold weight0 in *. rewrite H2 in P2. rewrite H2' in P1. unfold oz in *. cbn [oget] in *. lia.
Qed.
Lemma self_not_lf : den_bool G KSelf = true -> ~ loop_free G.
Proof. intros H L. apply (loop_free_dcount G wf) in L. cbn [den_bool] in H. rewrite L in H. discriminate. Qed.
Lemma lf_self : loop_free G -> den_bool G KSelf = false.
Proof. intros H. destruct (den_bool G KSelf) eqn:E; [destruct (self_not_lf E H)|reflexivity]. Qed.
Lemma get_maxval_ok mhr : answers G (get_maxval mhr G) (fun o =>
  match o with Val q => exists m, max_weight G m /\ q = qz m | Raise e => weigh_fail mhr e end).
Proof.
  unfold get_maxval. eapply answers_bind; [eapply answers_GO; [apply (elem_minus_ok mhr G wf true eq_refl RMax)|intros o Ho; exact Ho]| |].
  - intros x [(y & [= <-] & Hx)|(H & _)]; [|discriminate]. specialize (Hx ltac:(discriminate)). destruct x as [m|].
    + apply answers_ret. exists m. split; [|reflexivity]. apply max_weight_den. auto.
    + apply answers_raise. left. split; [reflexivity|]. apply no_max_den. auto.
  - intros e [(y & H & _)|(H & H1 & H2 & _)]; [discriminate|]. injection H as ->. right. split; [reflexivity|]. split; [assumption|]. apply self_not_lf. assumption.
Qed.

(** ** clustering *)
Lemma zq_add a b : zq (a + b) = (zq a + zq b)%Qc.
Proof. unfold zq. apply Qc_is_canon. cbn [this Qcplus Q2Qc]. rewrite !Qred_correct. rewrite inject_Z_plus. reflexivity. Qed.
Lemma zq_mul a b : zq (a * b) = (zq a * zq b)%Qc.
Proof. unfold zq. apply Qc_is_canon. cbn [this Qcmult Q2Qc]. rewrite !Qred_correct. rewrite inject_Z_mult. reflexivity. Qed.
Lemma zq_0 : zq 0 = 0%Qc. Proof. reflexivity. Qed.
Lemma zq_1 : zq 1 = 1%Qc. Proof. reflexivity. Qed.
Lemma zq_inj a b : zq a = zq b -> a = b.
Proof.
  unfold zq. intros H. apply Qc_eq_Qeq in H || (apply (f_equal this) in H). cbn [this Q2Qc] in H.
  assert (E : inject_Z a == inject_Z b) by (rewrite <- (Qred_correct (inject_Z a)), <- (Qred_correct (inject_Z b)), H; reflexivity).
  unfold Qeq, inject_Z in E. cbn in E. lia.
Qed.
Section W.
Variable mhr : bool.
Variable cbrt : Qc -> Qc.
Notation cq mx := (cf 0%Qc (fco cbrt mx)).
Definition trisq (mx : option Z) (i : nat) : Qc := tsum 0%Qc Qcplus Qcmult n (cq mx) i.
Lemma zq_cf i j : zq (cf 0%Z one1 i j) = cq None i j.
Proof. unfold cf. destruct (ent G SM i j); reflexivity. Qed.
Lemma trisq_none i : zq (tris i) = trisq None i.
Proof.
  unfold tris, trisq, tsum. rewrite (gsum_hom 0%Z Z.add 0%Qc Qcplus zq) by (reflexivity || apply zq_add).
  apply (gsum_ext _ _ _ _ Qcsr). intros j _. rewrite (gsum_hom 0%Z Z.add 0%Qc Qcplus zq) by (reflexivity || apply zq_add).
  apply (gsum_ext _ _ _ _ Qcsr). intros k _. destruct (k <? j); [|reflexivity]. rewrite !zq_mul, !zq_cf. reflexivity.
Qed.
Definition tri_any (weighted : bool) (mask : mask_t) : M (vec Qc) :=
  if weighted then triangles_w mhr cbrt G mask else t <- triangles G mask ;; ret (vmap zq t).
Lemma tri_any_ok weighted mask : g_dir G = false -> answers G (tri_any weighted mask) (fun o =>
  match o with
  | Val r => exists mx, wok weighted mx /\ VX 0%Qc n id r (fun i => inm mask i = true /\ tri_exists i) (fun i => if inm mask i then trisq mx i else 0%Qc)
  | Raise e => weighted = true /\ weigh_fail mhr e end).
Proof.
  intros D. unfold tri_any. destruct weighted.
  - unfold triangles_w, get_LU. eapply answers_bind_v; [eapply answers_bind_GV; [apply (get_Um_ok G wf true eq_refl)|]; eapply answers_bind_GV; [apply (get_Lm_ok G wf true eq_refl)|]; apply answers_ret; reflexivity|].
    cbv beta iota. eapply answers_bind; [apply get_maxval_ok| |].
    + cbv beta iota. intros q (m & Hm & ->). apply answers_ret. exists (Some m). split; [split; [reflexivity|assumption]|].
      apply (triangles_entry 0%Qc 1%Qc Qcplus Qcmult Qcsr id Qcmult ltac:(reflexivity) n ee (cq (Some m))).
      * intros i j. apply ee_sym. assumption.
      * apply ee_irr.
      * apply ee_lt.
      * intros i j. apply cf_sym. assumption.
      * apply cf_irr.
      * apply (MX_mmap 0%Qc (normv cbrt (qz m)) id). apply MX_L.
      * apply (MX_mmap 0%Qc (normv cbrt (qz m)) id). apply MX_U.
      * apply post_mul.
    + cbv beta iota. intros e He. auto.
  - destruct (triangles_ok mask D) as (r & Hr & Ha). eapply answers_bind_v; [exact Ha|]. apply answers_ret.
    exists None. split; [reflexivity|]. eapply VX_conv; [apply (VX_hom 0%Z 0%Qc zq n r _ _ eq_refl Hr)|reflexivity|].
    intros i. cbn beta. destruct (inm mask i); [apply trisq_none|reflexivity].
Qed.
Lemma single_any_ok (weighted : bool) i : g_dir G = false -> i < n ->
  answers G (if weighted then single_triangle_w mhr cbrt G i else t <- single_triangle G i ;; ret (zq t)) (fun o =>
  match o with
  | Val q => exists mx, wok weighted mx /\ q = trisq mx i
  | Raise e => weighted = true /\ weigh_fail mhr e end).
Proof.
  intros D Hi. destruct weighted.
  - unfold single_triangle_w. eapply answers_bind_v; [apply single_row_ok; assumption|]. cbv beta iota.
    eapply answers_bind; [apply get_maxval_ok| |].
    + cbv beta iota. intros q (m & Hm & ->). apply answers_ret. exists (Some m). split; [split; [reflexivity|assumption]|].
      match goal with |- oq ?o = _ => assert (H : eis 0%Qc id o (tri_exists i) (trisq (Some m) i)); [|exact (proj2 H)] end.
      apply (single_tri 0%Qc 1%Qc Qcplus Qcmult Qcsr id Qcmult ltac:(reflexivity) n ee (cq (Some m))).
      * intros a b. apply ee_sym. assumption.
      * apply ee_irr.
      * apply ee_lt.
      * apply (MX_mmap 0%Qc (normv cbrt (qz m)) id). apply MX_L.
      * apply (VX_vmap 0%Qc (normv cbrt (qz m)) id). apply VX_row. assumption.
      * apply vpost_mul.
    + cbv beta iota. intros e He. auto.
  - eapply answers_bind_v; [apply single_triangle_ok; assumption|]. apply answers_ret. exists None. split; [reflexivity|]. apply trisq_none.
Qed.
(** the clustering coefficient in terms of ids *)
Lemma two_nbrs i : tri_exists i -> 2 <= outdeg G SM i.
Proof.
  intros (j & k & H1 & H2 & H3). assert (j <> k) by (intros ->; exact (ee_irr k H3)).
  destruct (ee_lt _ _ H1) as [_ Lj], (ee_lt _ _ H2) as [_ Lk]. unfold outdeg.
  assert (E : cnt n (fun x => (x =? j) || (x =? k)) = 2).
  { pose proof (cnt_orb n (fun x => x =? j) (fun x => x =? k)) as H0. rewrite !cnt_eqb in H0.
    apply Nat.ltb_lt in Lj, Lk. rewrite Lj, Lk in H0. rewrite (cnt_ext n (fun i => (i =? j) && (i =? k)) (fun _ => false)), cnt_false in H0.
    - lia.
    - intros x _. destruct (Nat.eqb_spec x j), (Nat.eqb_spec x k); try reflexivity. congruence. }
  rewrite <- E. apply cnt_mono. intros x _ Hx. apply orb_true_iff in Hx as [Hx|Hx]; apply Nat.eqb_eq in Hx; subst; assumption.
Qed.
Definition ccv (mx : option Z) (i : nat) : Qc :=
  if outdeg G SM i <=? 1 then 0%Qc else (zq 2 * trisq mx i / zq (Z.of_nat (outdeg G SM i) * (Z.of_nat (outdeg G SM i) - 1)))%Qc.
Lemma tri_out i mx : g_dir G = false -> ~ tri_exists i -> trisq mx i = 0%Qc.
Proof.
  intros D H. unfold trisq, tsum. apply (gsum_zero _ _ _ _ Qcsr). intros j _. apply (gsum_zero _ _ _ _ Qcsr). intros k _.
  destruct (k <? j); [|reflexivity]. unfold cf.
  destruct (ent G SM i j) as [x|] eqn:E1; cbn [eval]; [|ring].
  destruct (ent G SM i k) as [y|] eqn:E2; cbn [eval]; [|ring].
  destruct (ent G SM j k) as [z|] eqn:E3; cbn [eval]; [|ring].
  destruct H. exists j, k. unfold ee. rewrite E1, E2, E3. auto.
Qed.
Lemma cc_kid u i mx : g_dir G = false -> kid G u = Some i -> cc G (coef G cbrt mx) u = ccv mx i.
Proof.
  intros D Hu. unfold cc, ccv. rewrite (deg0_id u i Hu). destruct (outdeg G SM i <=? 1); [reflexivity|]. f_equal.
  change (@qtotal (nkey * nkey)) with (@gtotal Qc (nkey * nkey) 0%Qc Qcplus). rewrite (gtotal_node_pairs 0%Qc 1%Qc Qcplus Qcmult Qcsr _ (fun j k => cq mx i j * cq mx i k * cq mx j k)%Qc).
  - rewrite <- (tsum_double 0%Qc 1%Qc Qcplus Qcmult Qcsr n (cq mx) (fun i j => cf_sym 0%Qc _ i j D) (fun i => cf_irr 0%Qc _ i) i).
    fold (trisq mx i). change (zq 2) with (zq (1 + 1)). rewrite zq_add, zq_1. ring.
  - intros x y j k Hx Hy. cbn [fst snd]. rewrite (coef_kid cbrt mx u x i j Hu Hx), (coef_kid cbrt mx u y i k Hu Hy), (coef_kid cbrt mx x y j k Hx Hy). reflexivity.
Qed.
Lemma clustering_ok weighted mask : g_dir G = false -> answers G (clustering mhr cbrt G weighted mask) (fun o =>
  match o with
  | Val r => exists mx, wok weighted mx /\ VX 0%Qc n id r (fun i => inm mask i = true /\ tri_exists i) (fun i => if inm mask i then ccv mx i else 0%Qc)
  | Raise e => weighted = true /\ weigh_fail mhr e end).
Proof.
  intros D. unfold clustering. fold (tri_any weighted mask). eapply answers_bind; [apply tri_any_ok; assumption| |auto].
  cbv beta iota. intros tri (mx & Hmx & Hs & Ht). eapply answers_bind_GV; [apply (get_red_ok G wf true eq_refl)|]. apply answers_ret.
  exists mx. split; [assumption|]. cbn [msk]. unfold clustering_of. rewrite (den_count G).
  set (d := vbuild _ _). assert (Hd : vsize d = n) by apply vsize_vbuild.
  assert (Hdg : forall i, i < n -> vget d i = onz (outdeg G SM i)) by (intros i Hi; unfold d; rewrite vget_vbuild_lt by assumption; reflexivity).
  assert (H1 : vsize (dd1 d) = n) by (unfold dd1; rewrite vsize_vinter; assumption).
  split; [rewrite vsize_vinter, vsize_vmap; assumption|]. intros i.
  rewrite vget_vinter by (rewrite vsize_vmap; congruence). rewrite vget_vmap. unfold dd1.
  rewrite vget_vinter by (rewrite vsize_vmap; congruence). rewrite vget_vmap.
  destruct (Ht i) as [T1 T2]. destruct (vget tri i) as [t|] eqn:Et.
  - assert (Hex : inm mask i = true /\ tri_exists i) by (apply T1; reflexivity). destruct Hex as [Hin Hex].
    assert (Li : i < n) by (destruct Hex as (j & k & He & _); apply (ee_lt _ _ He)).
    pose proof (two_nbrs i Hex) as H2. rewrite (Hdg i Li). unfold onz. destruct (Nat.eqb_spec (outdeg G SM i) 0); [lia|].
    cbn [oboth omap]. split; [cbn [has]; tauto|]. rewrite Hin in *. cbn [eval]. unfold id in *. cbn [eval] in T2. unfold ccv.
    destruct (Nat.leb_spec (outdeg G SM i) 1); [lia|]. rewrite T2. reflexivity.
  - cbn [omap]. rewrite (has_false _) in T1 || idtac. split.
    + destruct (oboth _ _ _) eqn:Eo; [destruct (oboth Z.mul _ _); discriminate|]. exact T1.
    + destruct (inm mask i) eqn:Em.
      * assert (N : ~ tri_exists i) by (intros Hx; assert (has (@None Qc) = true) by (apply T1; auto); discriminate).
        unfold ccv. rewrite (tri_out i mx D N). destruct (oboth Z.mul _ _); cbn [oboth eval]; destruct (_ <=? 1); try reflexivity; unfold Qcdiv; ring.
      * destruct (oboth Z.mul _ _); reflexivity.
Qed.
Lemma Qc_eqb_spec a b : Qc_eq_bool a b = true <-> a = b.
Proof. split; [apply Qc_eq_bool_correct|]. intros ->. unfold Qc_eq_bool. destruct (Qc_eq_dec b b); congruence. Qed.
Lemma qdiv_ok a z : z <> 0%Z -> qdiv a (zq z) = Val (a / zq z)%Qc.
Proof.
  intros H. unfold qdiv. destruct (Qc_eq_bool (zq z) 0) eqn:E; [|reflexivity]. apply Qc_eqb_spec in E. apply (zq_inj z 0) in E. contradiction.
Qed.
Lemma self_deg i : i < n -> (Z.of_nat (outdeg G SP i) - (if den_bool G KSelf && has (mget A i i) then 1 else 0))%Z = Z.of_nat (outdeg G SM i).
Proof.
  intros Hi. unfold outdeg. assert (E : cnt n (fun j => has (ent G SP i j)) = cnt n (fun j => has (ent G SM i j)) + b2n (has (mget A i i))).
  { rewrite !cnt_nsum. rewrite (nsum_ext n (fun j => b2n (has (ent G SP i j))) (fun j => b2n (has (ent G SM i j)) + (if j =? i then b2n (has (mget A i i)) else 0))).
    - rewrite nsum_add. f_equal. rewrite (nsum_ext n _ (fun j => b2n ((j =? i) && has (mget A i i)))), <- cnt_nsum by (intros j _; destruct (j =? i), (has (mget A i i)); reflexivity).
      rewrite (cnt_single n i) by (auto; intros j _ H; apply andb_true_iff in H as [H _]; apply Nat.eqb_eq; assumption). rewrite Nat.eqb_refl. reflexivity.
    - intros j _. cbn [ent]. rewrite (Nat.eqb_sym i j). destruct (Nat.eqb_spec j i) as [->|]; cbn; lia. }
  unfold glen in *. rewrite E. destruct (den_bool G KSelf) eqn:Es; cbn [andb].
  - destruct (has (mget A i i)); cbn [b2n]; lia.
  - rewrite (noself_mget i Es). cbn [b2n has]. lia.
Qed.
Lemma answers_get_st {X} (f : st -> M X) R : (forall s, answers G (f s) R) -> answers G (bind get_st f) R.
Proof. intros H s HI. apply (H s s HI). Qed.
Lemma single_degree_ok i : i < n -> answers G (single_degree G i) (eq (Val (Z.of_nat (outdeg G SM i)))).
Proof.
  intros Hi. unfold single_degree. apply answers_get_st. intros s.
  assert (Hv : forall k, vget (vbuild (nrows A) (fun i => onz (outdeg G k i))) i = onz (outdeg G k i)) by (intros k; rewrite vget_vbuild_lt by assumption; reflexivity).
  assert (Hz : forall k, oz (onz k) = Z.of_nat k) by (intros k; unfold onz; destruct (Nat.eqb_spec k 0); [subst|]; reflexivity).
  destruct (has (c_vec s (KAliasDeg SM))); [|destruct (has (c_vec s (KAliasDeg SP)))].
  - eapply answers_bind_GV; [apply (get_red_ok G wf true eq_refl)|]. apply answers_ret. cbn [msk]. rewrite (den_count G), Hv, Hz. reflexivity.
  - eapply answers_bind_GV; [apply (get_red_ok G wf true eq_refl)|]. eapply answers_bind_GV; [apply (has_self_edges_ok G wf true eq_refl)|].
    apply answers_ret. cbn [msk]. rewrite (den_count G), Hv, Hz. rewrite self_deg by assumption. reflexivity.
  - eapply answers_bind_GV; [apply (has_self_edges_ok G wf true eq_refl)|]. apply answers_ret. f_equal. rewrite <- self_deg by assumption. f_equal. f_equal.
    unfold nvals, outdeg. change (vget (mrow A i)) with (mget A i). cbn [ent]. f_equal. unfold vsize. rewrite mrow_length; [symmetry; apply Hsq|apply HmA|assumption].
Qed.
Lemma single_clustering_ok weighted i : g_dir G = false -> i < n -> answers G (single_clustering mhr cbrt G weighted i) (fun o =>
  match o with
  | Val q => exists mx, wok weighted mx /\ q = ccv mx i
  | Raise e => weighted = true /\ weigh_fail mhr e end).
Proof.
  intros D Hi. unfold single_clustering. eapply answers_bind; [apply single_any_ok; assumption| |auto].
  cbv beta iota. intros q (mx & Hmx & ->). destruct (Qc_eq_bool (trisq mx i) 0) eqn:E.
  - apply answers_ret. exists mx. split; [assumption|]. apply Qc_eqb_spec in E. unfold ccv. rewrite E. destruct (_ <=? 1); [reflexivity|]. unfold Qcdiv. ring.
  - eapply answers_bind_v; [apply single_degree_ok; assumption|]. apply answers_lifto.
    destruct (Nat.leb_spec (outdeg G SM i) 1) as [L|L].
    + exfalso. rewrite (tri_out i mx D) in E; [|intros Hx; apply two_nbrs in Hx; lia]. discriminate.
    + rewrite qdiv_ok by nia. exists mx. split; [assumption|]. unfold ccv. destruct (Nat.leb_spec (outdeg G SM i) 1); [lia|]. reflexivity.
Qed.

(** ** directed clustering *)
Definition dthr (i : nat) : Prop := dthere ee i.
Definition dtris (mx : option Z) (i : nat) : Qc := dsum 0%Qc Qcplus Qcmult n (cq mx) i.
Definition dden (i : nat) : Z :=
  let td := Z.of_nat (outdeg G SM i + indeg G SM i) in (td * (td - 1) - 2 * Z.of_nat (recipdeg G SM i))%Z.
Definition ccdv (mx : option Z) (i : nat) : Qc := (dtris mx i / zq (dden i))%Qc.
Lemma dtris_none i : zq (dsum 0%Z Z.add Z.mul n (cf 0%Z one1) i) = dtris None i.
Proof.
  unfold dtris, dsum. rewrite (gsum_hom 0%Z Z.add 0%Qc Qcplus zq) by (reflexivity || apply zq_add).
  apply (gsum_ext _ _ _ _ Qcsr). intros j _. rewrite (gsum_hom 0%Z Z.add 0%Qc Qcplus zq) by (reflexivity || apply zq_add).
  apply (gsum_ext _ _ _ _ Qcsr). intros k _. rewrite !zq_mul, !zq_add, !zq_cf. reflexivity.
Qed.
Lemma dtri_out i mx : ~ dthr i -> dtris mx i = 0%Qc.
Proof.
  intros H. unfold dtris, dsum. apply (gsum_zero _ _ _ _ Qcsr). intros j _. apply (gsum_zero _ _ _ _ Qcsr). intros k _.
  assert (C : forall a b, cq mx a b <> 0%Qc -> ee a b) by (intros a b; unfold cf, ee; destruct (ent G SM a b); cbn; congruence).
  destruct (Qc_eq_dec (cq mx j k) 0) as [E|E]; [rewrite E; ring|]. apply C in E.
  assert (S1 : forall a, (cq mx i a + cq mx a i)%Qc <> 0%Qc -> ee i a \/ ee a i).
  { intros a Ha. destruct (Qc_eq_dec (cq mx i a) 0) as [E1|E1]; [|left; apply C; assumption].
    destruct (Qc_eq_dec (cq mx a i) 0) as [E2|E2]; [|right; apply C; assumption]. destruct Ha. rewrite E1, E2. reflexivity. }
  destruct (Qc_eq_dec (cq mx i j + cq mx j i) 0) as [E1|E1]; [rewrite E1; ring|]. apply S1 in E1.
  destruct (Qc_eq_dec (cq mx i k + cq mx k i) 0) as [E2|E2]; [rewrite E2; ring|]. apply S1 in E2.
  destruct H. exists j, k. auto.
Qed.
Lemma dden_pos i : dthr i -> (0 < dden i)%Z.
Proof.
  intros (j & k & H1 & H2 & H3). assert (N : j <> k) by (intros ->; exact (ee_irr k H3)). destruct (ee_lt _ _ H3) as [Lj Lk].
  pose proof (cnt_orb n (fun x => has (ent G SM i x)) (fun x => has (ent G SM x i))) as Hor. cbv beta in Hor.
  change (cnt n (fun x => has (ent G SM i x))) with (outdeg G SM i) in Hor. change (cnt n (fun x => has (ent G SM x i))) with (indeg G SM i) in Hor.
  change (cnt n (fun x => has (ent G SM i x) && has (ent G SM x i))) with (recipdeg G SM i) in Hor.
  assert (E2 : 2 <= cnt n (fun x => has (ent G SM i x) || has (ent G SM x i))).
  { assert (E : cnt n (fun x => (x =? j) || (x =? k)) = 2).
    { pose proof (cnt_orb n (fun x => x =? j) (fun x => x =? k)) as H0. rewrite !cnt_eqb in H0.
      apply Nat.ltb_lt in Lj, Lk. rewrite Lj, Lk in H0. rewrite (cnt_ext n (fun i => (i =? j) && (i =? k)) (fun _ => false)), cnt_false in H0.
      - lia.
      - intros x _. destruct (Nat.eqb_spec x j), (Nat.eqb_spec x k); try reflexivity. congruence. }
    rewrite <- E. apply cnt_mono. intros x _ Hx. apply orb_true_iff. apply orb_true_iff in Hx as [Hx|Hx]; apply Nat.eqb_eq in Hx; subst; assumption. }
  assert (R1 : recipdeg G SM i <= outdeg G SM i) by (apply cnt_mono; intros x _ Hx; apply andb_true_iff in Hx; tauto).
  assert (R2 : recipdeg G SM i <= indeg G SM i) by (apply cnt_mono; intros x _ Hx; apply andb_true_iff in Hx; tauto).
  unfold dden. cbv zeta. set (td := outdeg G SM i + indeg G SM i) in *. set (r := recipdeg G SM i) in *.
  assert (r + 2 <= td) by lia. assert (2 * r <= td) by lia. clearbody td r. clear - H H0. nia.
Qed.
Lemma ccd_kid u i mx : kid G u = Some i -> ccd G (coef G cbrt mx) u = ccdv mx i.
Proof.
  intros Hu. unfold ccd, ccdv, dden. rewrite (deg0_id u i Hu), (indeg0_id u i Hu), (recip0_id u i Hu). cbv zeta.
  set (z := (_ - _)%Z). change (@qtotal (nkey * nkey)) with (@gtotal Qc (nkey * nkey) 0%Qc Qcplus).
  rewrite (gtotal_node_pairs 0%Qc 1%Qc Qcplus Qcmult Qcsr _ (fun j k => (cq mx i j + cq mx j i) * (cq mx i k + cq mx k i) * (cq mx j k + cq mx k j))%Qc).
  2:{ intros x y j k Hx Hy. cbn [fst snd].
      rewrite (coef_kid cbrt mx u x i j Hu Hx), (coef_kid cbrt mx u y i k Hu Hy), (coef_kid cbrt mx x y j k Hx Hy),
        (coef_kid cbrt mx x u j i Hx Hu), (coef_kid cbrt mx y u k i Hy Hu), (coef_kid cbrt mx y x k j Hy Hx). reflexivity. }
  assert (E : gsum 0%Qc Qcplus n (fun j => gsum 0%Qc Qcplus n (fun k => (cq mx i j + cq mx j i) * (cq mx i k + cq mx k i) * (cq mx j k + cq mx k j)))%Qc = (dtris mx i + dtris mx i)%Qc).
  { transitivity (gsum 0%Qc Qcplus n (fun j => gsum 0%Qc Qcplus n (fun k => (cq mx i j + cq mx j i) * (cq mx i k + cq mx k i) * cq mx j k))%Qc +
      gsum 0%Qc Qcplus n (fun j => gsum 0%Qc Qcplus n (fun k => (cq mx i j + cq mx j i) * (cq mx i k + cq mx k i) * cq mx k j))%Qc)%Qc.
    - rewrite <- (gsum2_add _ _ _ _ Qcsr). apply (gsum2_ext _ _ _ _ Qcsr). intros j k _ _. ring.
    - f_equal. rewrite (gsum_swap _ _ _ _ Qcsr). apply (gsum2_ext _ _ _ _ Qcsr). intros j k _ _. ring. }
  rewrite E. change qz with zq. rewrite zq_mul. change (zq 2) with (zq (1 + 1)). rewrite zq_add, zq_1. unfold Qcdiv. rewrite Qcinv_mult_distr.
  assert (H2 : ((1 + 1) * / (1 + 1) = 1)%Qc) by (apply Qcmult_inv_r; discriminate).
  transitivity (dtris mx i * ((1 + 1) * / (1 + 1)) * / zq z)%Qc; [ring|]. rewrite H2. ring.
Qed.
Lemma vget_msk mask v i : vget (msk mask v) i = if inm mask i then vget v i else None.
Proof. destruct mask; cbn [msk inm]; [apply vget_vrestrict|reflexivity]. Qed.
Lemma vsize_msk mask v : vsize (msk mask v) = vsize v.
Proof. destruct mask; cbn [msk]; [apply vsize_vrestrict|reflexivity]. Qed.
Lemma clustering_directed_ok weighted mask : loop_free G -> g_dir G = true -> answers G (clustering_directed mhr cbrt G weighted mask) (fun o =>
  match o with
  | Val r => exists mx, wok weighted mx /\ VX 0%Qc n id r (fun i => inm mask i = true /\ dthr i) (fun i => if inm mask i then ccdv mx i else 0%Qc)
  | Raise e => weighted = true /\ weigh_fail mhr e end).
Proof.
  intros LF D. apply lf_self in LF. unfold clustering_directed.
  eapply answers_bind_GV; [apply (get_AT_ok G wf true)|]. eapply answers_bind_GV; [apply (get_offdiag_ok G wf true)|].
  eapply (answers_bind G _ _ (fun o => match o with
    | Val r => exists mx, wok weighted mx /\ VX 0%Qc n id r (fun i => inm mask i = true /\ dthr i) (fun i => if inm mask i then dtris mx i else 0%Qc)
    | Raise e => weighted = true /\ weigh_fail mhr e end)).
  - destruct weighted.
    + eapply answers_bind; [apply get_maxval_ok| |auto]. cbv beta iota. intros q (m & Hm & ->). apply answers_ret.
      exists (Some m). split; [split; [reflexivity|assumption]|].
      apply (dtri_entry 0%Qc 1%Qc Qcplus Qcmult Qcsr id Qcmult ltac:(reflexivity) n ee (cq (Some m))).
      * apply ee_lt.
      * apply (MX_mmap 0%Qc (normv cbrt (qz m)) id). apply MX_off.
      * apply (MX_mmap 0%Qc (normv cbrt (qz m)) id). apply MX_AT. assumption.
      * apply post_mul.
    + apply answers_ret. exists None. split; [reflexivity|]. eapply VX_conv; [eapply (VX_hom 0%Z 0%Qc zq n _ (fun i => inm mask i = true /\ dthr i) (fun i => if inm mask i then dsum 0%Z Z.add Z.mul n (cf 0%Z one1) i else 0%Z)); [reflexivity|]|reflexivity|].
      * apply (dtri_entry 0%Z 1%Z Z.add Z.mul Zsr one1 op_pairz ltac:(reflexivity) n ee (cf 0%Z one1)).
        -- apply ee_lt.
        -- apply MX_off.
        -- apply MX_AT. assumption.
        -- apply (post_id 0%Z 1%Z Z.add Z.mul Zsr). reflexivity.
      * intros i. cbn beta. destruct (inm mask i); [apply dtris_none|reflexivity].
  - cbv beta iota. intros tri (mx & Hmx & Hs & Ht).
    eapply answers_bind_GV; [apply (get_recip_ok G wf true eq_refl)|]. eapply answers_bind_GV; [apply (get_total_m_ok G wf true eq_refl)|].
    apply answers_ret. exists mx. split; [assumption|]. set (rd := msk mask (den_vec G (KRecip SM))). set (td := msk mask (den_vec G (KTotal SM))).
    assert (S1 : vsize td = n) by (unfold td; rewrite vsize_msk; apply vsize_vbuild).
    assert (S2 : vsize (ddenom rd td) = n) by (unfold ddenom; rewrite vsize_vbuild; assumption).
    split; [rewrite vsize_vinter; assumption|]. intros i. rewrite vget_vinter by congruence.
    destruct (Ht i) as [T1 T2]. destruct (vget tri i) as [t|] eqn:Et.
    + assert (Hex : inm mask i = true /\ dthr i) by (apply T1; reflexivity). destruct Hex as [Hin Hex].
      assert (Li : i < n) by (destruct Hex as (j & k & [He|He] & _); apply (ee_lt _ _ He)).
      assert (Hd : vget (ddenom rd td) i = Some (dden i)).
      { pose proof (dden_pos i Hex) as Hp. unfold ddenom. rewrite vget_vbuild_lt by (rewrite S1; assumption). unfold dd1. rewrite vget_vinter by (rewrite vsize_vmap; reflexivity). rewrite vget_vmap.
        unfold rd, td. rewrite !vget_msk, Hin. cbn [den_vec]. rewrite !vget_vbuild_lt by assumption. unfold dden in *. cbv zeta in *. unfold onz.
        destruct (Nat.eqb_spec (outdeg G SM i + indeg G SM i) 0) as [Z0|Z0]; [rewrite Z0 in Hp; lia|].
        destruct (Nat.eqb_spec (recipdeg G SM i) 0) as [R0|R0]; cbn [omap oboth ounion]; f_equal; lia. }
      rewrite Hd. cbn [oboth]. split; [cbn [has]; tauto|]. rewrite Hin in *. cbn [eval] in *. unfold id in *. rewrite T2. reflexivity.
    + cbn [oboth]. split; [exact T1|]. destruct (inm mask i) eqn:Em; [|reflexivity].
      assert (Nd : ~ dthr i) by (intros Hx; assert (has (@None Qc) = true) by (apply T1; auto); discriminate).
      unfold ccdv. rewrite (dtri_out i mx Nd). cbn [eval]. unfold Qcdiv. ring.
  - auto.
Qed.
Lemma single_directed_ok weighted i : g_dir G = true -> i < n -> answers G (single_clustering_directed mhr cbrt G weighted i) (fun o =>
  match o with
  | Val q => exists mx, wok weighted mx /\ q = ccdv mx i
  | Raise e => weighted = true /\ weigh_fail mhr e end).
Proof.
  intros D Hi. unfold single_clustering_directed. eapply answers_bind_GV; [apply (get_offdiag_ok G wf true)|].
  eapply (answers_bind G _ _ (fun o => match o with
    | Val q => exists mx, wok weighted mx /\ q = dtris mx i
    | Raise e => weighted = true /\ weigh_fail mhr e end)); [| |auto].
  - destruct weighted.
    + eapply answers_bind; [apply get_maxval_ok| |auto]. cbv beta iota. intros q (m & Hm & ->). apply answers_ret.
      exists (Some m). split; [split; [reflexivity|assumption]|].
      apply (sdir_ok 0%Qc 1%Qc Qcplus Qcmult Qcsr id Qcmult ltac:(reflexivity) n ee (cq (Some m))).
      * apply ee_lt.
      * apply (MX_mmap 0%Qc (normv cbrt (qz m)) id). apply MX_off.
      * assumption.
      * apply vpost_mul.
    + apply answers_ret. exists None. split; [reflexivity|]. rewrite <- dtris_none. f_equal.
      apply (sdir_ok 0%Z 1%Z Z.add Z.mul Zsr one1 op_pairz ltac:(reflexivity) n ee (cf 0%Z one1)).
      * apply ee_lt.
      * apply MX_off.
      * assumption.
      * apply (vpost_id 0%Z 1%Z Z.add Z.mul Zsr). reflexivity.
  - cbv beta iota. intros q (mx & Hmx & ->). destruct (Qc_eq_bool (dtris mx i) 0) eqn:E.
    + apply answers_ret. exists mx. split; [assumption|]. apply Qc_eqb_spec in E. unfold ccdv. rewrite E. unfold Qcdiv. ring.
    + apply answers_lifto.
      assert (Er : Z.of_nat (nvals (mrow (den_mat G KOff) i)) = Z.of_nat (outdeg G SM i)).
      { f_equal. unfold nvals. destruct (MX_off 0%Z one1) as (M1 & M2 & M3 & M4). unfold vsize. rewrite mrow_length; [|assumption|rewrite M2; assumption]. rewrite M3.
        unfold outdeg. apply cnt_ext. intros j Hj. change (vget (mrow (den_mat G KOff) i) j) with (mget (den_mat G KOff) i j). apply eq_true_iff_eq. apply M4. }
      assert (Ec : Z.of_nat (nvals (mcol (den_mat G KOff) i)) = Z.of_nat (indeg G SM i)).
      { f_equal. unfold nvals, mcol. destruct (MX_off 0%Z one1) as (M1 & M2 & M3 & M4). rewrite vsize_vbuild, M2.
        unfold indeg. apply cnt_ext. intros j Hj. rewrite vget_vbuild_lt by assumption. apply eq_true_iff_eq. apply M4. }
      assert (Erc : Z.of_nat (nvals (vinter op_pairz (mcol (den_mat G KOff) i) (mrow (den_mat G KOff) i))) = Z.of_nat (recipdeg G SM i)).
      { f_equal. unfold nvals. destruct (MX_off 0%Z one1) as (M1 & M2 & M3 & M4).
        assert (Sc : vsize (mcol (den_mat G KOff) i) = n) by (unfold mcol; rewrite vsize_vbuild; assumption).
        assert (Sr : vsize (mrow (den_mat G KOff) i) = n) by (unfold vsize; rewrite mrow_length; [assumption|assumption|rewrite M2; assumption]).
        rewrite vsize_vinter, Sc. unfold recipdeg. apply cnt_ext. intros j Hj. rewrite vget_vinter by congruence. rewrite has_oboth.
        unfold mcol. rewrite vget_vbuild_lt by (rewrite M2; assumption). change (vget (mrow (den_mat G KOff) i) j) with (mget (den_mat G KOff) i j).
        rewrite andb_comm. f_equal; apply eq_true_iff_eq; apply M4. }
      rewrite Er, Ec, Erc. replace ((Z.of_nat (indeg G SM i) + Z.of_nat (outdeg G SM i)) * (Z.of_nat (indeg G SM i) + Z.of_nat (outdeg G SM i) - 1) - 2 * Z.of_nat (recipdeg G SM i))%Z with (dden i) by (unfold dden; cbv zeta; lia).
      rewrite qdiv_ok; [exists mx; split; [assumption|reflexivity]|]. intros Z0.
      (* a zero denominator would mean there is no triangle *)
      assert (N : ~ dthr i) by (intros Hx; apply dden_pos in Hx; lia). rewrite (dtri_out i mx N) in E. discriminate.
Qed.
End W.

(** ** either kind of graph *)
Definition intri (i : nat) : Prop := if g_dir G then dthr i else tri_exists i.
Definition clv (cbrt : Qc -> Qc) (mx : option Z) (i : nat) : Qc := if g_dir G then ccdv cbrt mx i else ccv cbrt mx i.
Lemma clv_kid cbrt mx u i : kid G u = Some i -> clustering_at G (coef G cbrt mx) u = clv cbrt mx i.
Proof.
  intros Hu. unfold clustering_at, clv. destruct (g_dir G) eqn:D; [apply ccd_kid; assumption|apply cc_kid; assumption].
Qed.
Lemma in_triangle_id u i : kid G u = Some i -> (in_triangle G u = true <-> intri i).
Proof.
  intros Hu. assert (Ha : forall a b j k, kid G a = Some j -> kid G b = Some k -> (adj G a b = true <-> ee j k \/ ee k j)).
  { intros a b j k Ha Hb. unfold adj. rewrite orb_true_iff, (nbr_kid a b j k Ha Hb), (nbr_kid b a k j Hb Ha). reflexivity. }
  assert (E : in_triangle G u = true <-> dthr i).
  { unfold in_triangle. rewrite existsb_exists. split.
    - intros ([x y] & Hin & H). cbn [fst snd] in H. apply in_prod_iff in Hin as [Hx Hy]. apply (node_kid G x) in Hx as [j Hj]. apply (node_kid G y) in Hy as [k Hk].
      rewrite !andb_true_iff in H. destruct H as [[H1 H2] H3]. rewrite (Ha u x i j Hu Hj) in H1. rewrite (Ha u y i k Hu Hk) in H2. rewrite (Ha x y j k Hj Hk) in H3.
      destruct H3 as [H3|H3]; [exists j, k; auto|exists k, j; auto].
    - intros (j & k & H1 & H2 & H3). destruct (ee_lt _ _ H3) as [Lj Lk].
      destruct (kid_key G wf j Lj) as [x Hx], (kid_key G wf k Lk) as [y Hy]. exists (x, y). cbn [fst snd]. split.
      + apply in_prod_iff. split; apply (node_kid G); eauto.
      + rewrite !andb_true_iff. rewrite (Ha u x i j Hu Hx), (Ha u y i k Hu Hy), (Ha x y j k Hx Hy). auto. }
  rewrite E. unfold intri. destruct (g_dir G) eqn:D; [reflexivity|]. unfold dthr, dthere, tri_exists. split; intros (j & k & H1 & H2 & H3); exists j, k.
  - destruct H1 as [H1|H1], H2 as [H2|H2]; auto using ee_sym.
  - auto.
Qed.
Definition dir_lf : Prop := g_dir G = true -> loop_free G.
Lemma clustering_any_ok mhr cbrt weighted mask : dir_lf -> answers G (clustering_any mhr cbrt G weighted mask) (fun o =>
  match o with
  | Val r => exists mx, wok weighted mx /\ VX 0%Qc n id r (fun i => inm mask i = true /\ intri i) (fun i => if inm mask i then clv cbrt mx i else 0%Qc)
  | Raise e => weighted = true /\ weigh_fail mhr e end).
Proof.
  intros LF. unfold clustering_any, intri, clv. destruct (g_dir G) eqn:D.
  - apply clustering_directed_ok; auto.
  - apply clustering_ok. assumption.
Qed.
Lemma clv_out cbrt mx i : ~ intri i -> clv cbrt mx i = 0%Qc.
Proof.
  unfold intri, clv. destruct (g_dir G) eqn:D; intros N.
  - unfold ccdv. rewrite (dtri_out cbrt i mx N). unfold Qcdiv. ring.
  - unfold ccv. rewrite (tri_out cbrt i mx D N). destruct (_ <=? 1); [reflexivity|]. unfold Qcdiv. ring.
Qed.

(** ** results as NodeMaps *)
(** the value of a NodeMap built from a masked vector *)
Lemma masked_map {V} (fill : V) (m : vec bool) (v : vec V) (l : list nkey) (F : nkey -> V) :
  svec G m (fun u => mem u l) -> (forall k, In k l -> node G k) -> vsize v = n ->
  (forall u i, kid G u = Some i -> if mem u l then F u = oget fill (vget v i) else vget v i = None) ->
  is_map (masked_nodemap G fill (Some m) v) (fun k x => In k l /\ x = F k).
Proof.
  intros Hm Hl Hv HF. unfold masked_nodemap.
  set (w := if nvals v <? nvals m then _ else v).
  assert (Hw : vsize w = n) by (unfold w; destruct (nvals v <? nvals m); [rewrite vsize_vbuild|]; assumption).
  apply (is_map_intro G wf); [rewrite Hw; reflexivity|].
  assert (Hg : forall u i, kid G u = Some i -> vget w i = if mem u l then Some (F u) else None).
  { intros u i Hu. assert (Li : i < n) by exact (kid_lt G wf _ _ Hu). unfold w. destruct (Nat.ltb_spec (nvals v) (nvals m)) as [L|L].
    - rewrite vget_vbuild_lt by (rewrite Hv; assumption). unfold mS. rewrite (svec_has G _ _ _ _ Hm Hu). specialize (HF u i Hu).
      destruct (mem u l); [|assumption]. destruct (vget v i); cbn [omerge oget] in *; rewrite HF; reflexivity.
    - assert (Hsub : forall j, j < n -> has (vget v j) = true -> has (vget m j) = true).
      { intros j Lj Hj. destruct (kid_key G wf j Lj) as [x Hx]. rewrite (svec_has G _ _ _ _ Hm Hx). specialize (HF x j Hx). destruct (mem x l); [reflexivity|]. rewrite HF in Hj. discriminate. }
      assert (E : forall j, j < n -> has (vget m j) = has (vget v j)).
      { apply cnt_eq_mono; [assumption|]. unfold nvals in L. rewrite Hv, (proj1 Hm) in L. pose proof (cnt_mono n _ _ Hsub). lia. }
      specialize (E i Li). rewrite (svec_has G _ _ _ _ Hm Hu) in E. specialize (HF u i Hu). destruct (mem u l).
      + symmetry in E. apply has_true in E as [x Hx]. rewrite Hx in *. cbn [oget] in HF. congruence.
      + assumption. }
  intros k x. split.
  - intros [Hk ->]. destruct (proj1 (node_kid G k) (Hl k Hk)) as [i Hi]. exists i. split; [assumption|]. rewrite (Hg k i Hi).
    rewrite (proj2 (mem_In k l) Hk). reflexivity.
  - intros (i & Hi & Hx). rewrite (Hg k i Hi) in Hx. destruct (mem k l) eqn:E; [|discriminate]. apply mem_In in E. injection Hx as <-. auto.
Qed.
(** entries of a masked result *)
Lemma VX_entry {V} (zero : V) r p w i : VX zero n id r p w -> (w i = oget zero (vget r i)) /\ (~ p i -> vget r i = None).
Proof.
  intros (Hs & H). destruct (H i) as [H1 H2]. split.
  - rewrite <- H2. destruct (vget r i); reflexivity.
  - intros N. destruct (vget r i); [|reflexivity]. destruct N. apply H1. reflexivity.
Qed.
Lemma arg_map {V} (zero : V) (a : nodes_arg) (R : outcome (cres V (nodemap V)) -> Prop) (E : exn -> Prop) (m : mask_t -> M (vec V)) (F : nat -> V) (FK : nkey -> V) (p : nat -> Prop) :
  (forall u i, kid G u = Some i -> FK u = F i) -> (forall k, a <> OneNode k) ->
  (forall mask, answers G (m mask) (fun o => match o with
     | Val r => VX zero n id r (fun i => inm mask i = true /\ p i) (fun i => if inm mask i then F i else zero)
     | Raise e => E e end)) ->
  (forall e, E e -> R (Raise e)) -> (forall k, a = Nodes k -> (exists u, In u k /\ ~ node G u) -> R (Raise EKey)) ->
  (forall nm, is_map nm (fun k x => wanted a k /\ x = FK k) -> R (Val (RMap nm))) ->
  answers G (mv <- arg_vec G a ;; r <- m (omap mS mv) ;; ret (RMap (masked_nodemap G zero mv r))) R.
Proof.
  intros HF Ha Hm HE HN HR. destruct a as [|k|l]; [|destruct (Ha k eq_refl)|].
  - cbn [arg_vec]. eapply answers_bind_v; [apply answers_ret; reflexivity|]. cbn [omap]. eapply answers_bind; [apply (Hm None)| |exact HE].
    cbv beta iota. intros r Hr. apply answers_ret. apply HR. cbn [masked_nodemap Spec_Cluster.wanted]. apply (is_map_fill G wf).
    intros u i Hu. rewrite (HF u i Hu). apply (proj1 (VX_entry zero r _ _ i Hr)).
  - cbn [arg_vec]. unfold list_vec_of. destruct (list_vec_ok G wf l) as [(v & E1 & Hv & Hn)|(E1 & Hk)]; rewrite E1.
    + eapply answers_bind_v; [eapply answers_bind_v; [apply answers_lifto; reflexivity|apply answers_ret; reflexivity]|]. cbn [omap].
      eapply answers_bind; [apply (Hm (Some (mS v)))| |exact HE]. cbv beta iota. intros r Hr. apply answers_ret. apply HR.
      cbn [Spec_Cluster.wanted]. apply masked_map; [assumption|assumption|apply Hr|]. intros u i Hu.
      destruct (VX_entry zero r _ _ i Hr) as [V1 V2]. cbn [inm] in *. unfold mS in *. rewrite (svec_has G _ _ _ _ Hv Hu) in *.
      destruct (mem u l).
      * rewrite (HF u i Hu). assumption.
      * apply V2. intros [? _]. discriminate.
    + eapply answers_bind_e; [eapply answers_bind_e; [apply answers_lifto; reflexivity|reflexivity]|]. eapply HN; [reflexivity|]. destruct Hk as [u Hu]. exists u. exact Hu.
Qed.
Lemma wok_fun weighted mx mx' : wok weighted mx -> wok weighted mx' -> mx = mx'.
Proof.
  destruct mx as [m|], mx' as [m'|]; cbn [scale].
  - intros [_ H] [_ H']. f_equal. eapply max_weight_fun; eassumption.
  - intros [-> _]. discriminate.
  - intros -> [? _]. discriminate.
  - reflexivity.
Qed.

(** ** transitivity *)
Notation w1 := (cf 0%Z one1).
Notation sumz := (gsum 0%Z Z.add).
Definition closedv (i : nat) : Z := sumz n (fun j => sumz n (fun k => w1 i j * w1 i k * w1 j k)%Z).
Definition ntri : Z := sumz n (fun i => sumz n (fun j => sumz n (fun k => if (j <? k) && (k <? i) then (w1 i j * w1 i k * w1 j k)%Z else 0%Z))).
Lemma w1_nonneg i j : (0 <= w1 i j)%Z.
Proof. unfold cf. destruct (ent G SM i j); cbn [eval]; lia. Qed.
Lemma gsum_nonneg (f : nat -> Z) (k : nat) : (forall i, (i < k)%nat -> 0 <= f i)%Z -> (0 <= sumz k f)%Z.
Proof. induction k as [|k IH]; intros H; [cbn; lia|]. rewrite (gsum_S _ _ _ _ Zsr). specialize (IH ltac:(auto)). specialize (H k ltac:(lia)). lia. Qed.
Lemma gsum_pos (f : nat -> Z) (k i : nat) : (forall i, (i < k)%nat -> 0 <= f i)%Z -> i < k -> (0 < f i)%Z -> (0 < sumz k f)%Z.
Proof.
  induction k as [|k IH]; intros H Hi Hp; [lia|]. rewrite (gsum_S _ _ _ _ Zsr). destruct (Nat.eq_dec i k) as [->|].
  - pose proof (gsum_nonneg f k ltac:(auto)). lia.
  - specialize (IH ltac:(auto) ltac:(lia) Hp). specialize (H k ltac:(lia)). lia.
Qed.
Lemma tris_sum : g_dir G = false -> sumz n tris = (3 * ntri)%Z.
Proof.
  intros D.
  set (t := fun i j k => (w1 i j * w1 i k * w1 j k)%Z).
  assert (P1 : sumz n (fun v => sumz n (fun j => sumz n (fun k => if (k <? j) && (j <? v) then (t v j k)%Z else 0%Z))) = ntri).
  { unfold ntri. apply (gsum_ext _ _ _ _ Zsr). intros v _. rewrite (gsum_swap _ _ _ _ Zsr). apply (gsum2_ext _ _ _ _ Zsr). intros j k _ _.
    destruct ((j <? k) && (k <? v)); [|reflexivity]. unfold t. rewrite (cf_sym 0%Z one1 k j D). ring. }
  assert (P2 : sumz n (fun v => sumz n (fun j => sumz n (fun k => if (v <? j) && (k <? v) then (t v j k)%Z else 0%Z))) = ntri).
  { unfold ntri. rewrite (gsum_swap _ _ _ _ Zsr). apply (gsum_ext _ _ _ _ Zsr). intros j _. rewrite (gsum_swap _ _ _ _ Zsr). apply (gsum2_ext _ _ _ _ Zsr). intros k v _ _.
    rewrite (andb_comm (k <? v)). destruct ((v <? j) && (k <? v)); [|reflexivity]. unfold t. rewrite (cf_sym 0%Z one1 v j D), (cf_sym 0%Z one1 v k D). ring. }
  assert (P3 : sumz n (fun v => sumz n (fun j => sumz n (fun k => if (v <? k) && (k <? j) then (t v j k)%Z else 0%Z))) = ntri).
  { unfold ntri. rewrite (gsum_swap _ _ _ _ Zsr). apply (gsum_ext _ _ _ _ Zsr). intros j _. apply (gsum2_ext _ _ _ _ Zsr). intros v k _ _.
    destruct ((v <? k) && (k <? j)); [|reflexivity]. unfold t. rewrite (cf_sym 0%Z one1 v j D). ring. }
  assert (E : sumz n tris = (ntri + ntri + ntri)%Z); [|lia].
  rewrite <- P1 at 1. rewrite <- P2 at 1. rewrite <- P3. rewrite <- !(gsum_add _ _ _ _ Zsr). apply (gsum_ext _ _ _ _ Zsr). intros v _.
  unfold tris, tsum. rewrite <- !(gsum2_add _ _ _ _ Zsr). apply (gsum2_ext _ _ _ _ Zsr). intros j k _ _. unfold t.
  destruct (Nat.eq_dec j v) as [->|]; [rewrite cf_irr; destruct (_ && _), (_ && _), (_ && _), (_ <? _); ring|].
  destruct (Nat.eq_dec k v) as [->|]; [rewrite cf_irr; destruct (_ && _), (_ && _), (_ && _), (_ <? _); ring|].
  destruct (Nat.ltb_spec k j), (Nat.ltb_spec j v), (Nat.ltb_spec v j), (Nat.ltb_spec k v), (Nat.ltb_spec v k); cbn [andb]; try lia; ring.
Qed.
Lemma closedv_tris i : g_dir G = false -> closedv i = (tris i + tris i)%Z.
Proof.
  intros D. symmetry. apply (tsum_double 0%Z 1%Z Z.add Z.mul Zsr n w1 (fun i j => cf_sym 0%Z one1 i j D) (fun i => cf_irr 0%Z one1 i)).
Qed.
Lemma closedv_sum : g_dir G = false -> sumz n closedv = (6 * ntri)%Z.
Proof.
  intros D. rewrite (gsum_ext _ _ _ _ Zsr n closedv (fun i => tris i + tris i)%Z) by (intros; apply closedv_tris; assumption).
  rewrite (gsum_add _ _ _ _ Zsr). rewrite tris_sum by assumption. lia.
Qed.
Lemma closed_total : total (fun v => Z.of_nat (closed_pairs G v)) (gnodes G) = sumz n closedv.
Proof. apply (total_nodes G wf). intros u i Hu. apply closed_pairs_id. assumption. Qed.
Definition prv (i : nat) : Z := (Z.of_nat (outdeg G SM i) * (Z.of_nat (outdeg G SM i) - 1))%Z.
Lemma pairs_total : total (pairs_at G) (gnodes G) = sumz n prv.
Proof. apply (total_nodes G wf). intros u i Hu. unfold pairs_at, prv. rewrite (deg0_id u i Hu). reflexivity. Qed.
Lemma vsum_dd1 : vsum (dd1 (vbuild (nrows A) (fun i => onz (outdeg G SM i)))) = sumz n prv.
Proof.
  set (d := vbuild _ _). assert (H : VX 0%Z n id (dd1 d) (fun i => i < n /\ outdeg G SM i <> 0) (fun i => if i <? n then prv i else 0%Z)).
  { split; [unfold dd1; rewrite vsize_vinter; apply vsize_vbuild|]. intros i. unfold dd1. rewrite vget_vinter by (rewrite vsize_vmap; reflexivity). rewrite vget_vmap. unfold d. rewrite vget_vbuild.
    change (nrows A) with n. unfold prv. destruct (Nat.ltb_spec i n); [|cbn; split; [split; [discriminate|lia]|reflexivity]].
    unfold onz. destruct (Nat.eqb_spec (outdeg G SM i) 0) as [E|E]; cbn [omap oboth].
    - split; [cbn; split; [discriminate|tauto]|]. rewrite E. reflexivity.
    - split; [cbn; tauto|reflexivity]. }
  apply (VX_reduce 0%Z 1%Z Z.add Z.mul Zsr n) in H. destruct H as [_ H]. unfold vsum, oz. transitivity (eval 0%Z id (vreduce Z.add (dd1 d))).
  - unfold vreduce. destruct (ored _ _ _); reflexivity.
  - rewrite H. apply (gsum_ext _ _ _ _ Zsr). intros i Hi. apply Nat.ltb_lt in Hi. rewrite Hi. reflexivity.
Qed.
Lemma prv_nonneg i : (0 <= prv i)%Z. Proof. unfold prv. nia. Qed.
Lemma closed_outdeg i : (0 < closedv i)%Z -> 2 <= outdeg G SM i.
Proof.
  intros H. destruct (Nat.le_gt_cases 2 (outdeg G SM i)) as [|L]; [assumption|].
  assert (closedv i = 0%Z); [|lia]. unfold closedv. apply (gsum_zero _ _ _ _ Zsr). intros j _. apply (gsum_zero _ _ _ _ Zsr). intros k _.
  unfold cf. destruct (ent G SM i j) as [x|] eqn:E1; cbn [eval]; [|ring].
  destruct (ent G SM i k) as [y|] eqn:E2; cbn [eval]; [|ring].
  destruct (ent G SM j k) as [z|] eqn:E3; cbn [eval]; [|ring].
  assert (2 <= outdeg G SM i); [|lia]. apply two_nbrs. exists j, k. unfold ee. rewrite E1, E2, E3. auto.
Qed.
Lemma closedv_nonneg i : (0 <= closedv i)%Z.
Proof. apply gsum_nonneg. intros j _. apply gsum_nonneg. intros k _. pose proof (w1_nonneg i j). pose proof (w1_nonneg i k). pose proof (w1_nonneg j k). nia. Qed.
Lemma closed_pairs_pos : sumz n closedv <> 0%Z -> sumz n prv <> 0%Z.
Proof.
  intros H. assert (Hex : exists i, i < n /\ (0 < closedv i)%Z).
  { destruct (existsb (fun i => 0 <? closedv i)%Z (seq 0 n)) eqn:E.
    - apply existsb_exists in E as (i & Hi & Hp). apply in_seq in Hi. apply Z.ltb_lt in Hp. exists i. split; [lia|assumption].
    - destruct H. apply (gsum_zero _ _ _ _ Zsr). intros i Hi. pose proof (closedv_nonneg i).
      destruct (Z.eq_dec (closedv i) 0) as [|Nz]; [assumption|]. exfalso. assert (existsb (fun i => 0 <? closedv i)%Z (seq 0 n) = true); [|congruence].
      apply existsb_exists. exists i. split; [apply in_seq; lia|apply Z.ltb_lt; lia]. }
  destruct Hex as (i & Hi & Hp). apply closed_outdeg in Hp. pose proof (gsum_pos prv n i (fun i _ => prv_nonneg i) Hi). unfold prv in H0 at 1. nia.
Qed.
Lemma transitivity_of_id : transitivity_of G = if (sumz n closedv =? 0)%Z then 0%Qc else (zq (sumz n closedv) / zq (sumz n prv))%Qc.
Proof. unfold transitivity_of. rewrite closed_total, pairs_total. reflexivity. Qed.
Lemma total_triangles_ok : g_dir G = false -> answers G (total_triangles G) (eq (Val ntri)).
Proof.
  intros D. unfold total_triangles, get_LU.
  eapply answers_bind_v; [eapply answers_bind_GV; [apply (get_Um_ok G wf true eq_refl)|]; eapply answers_bind_GV; [apply (get_Lm_ok G wf true eq_refl)|]; apply answers_ret; reflexivity|].
  cbv beta iota. apply answers_ret. f_equal. symmetry.
  pose proof (post_id 0%Z 1%Z Z.add Z.mul Zsr one1 n ltac:(reflexivity) _ _ _ _ _ _
    (MX_mxm 0%Z 1%Z Z.add Z.mul Zsr one1 op_pairz ltac:(reflexivity) n _ _ _ _ _ _ (MX_L 0%Z one1) (MX_trans 0%Z n one1 _ _ _ (MX_U 0%Z one1))) (MX_L 0%Z one1)) as H.
  cbv beta in H. apply (MX_scalar 0%Z 1%Z Z.add Z.mul Zsr n) in H. unfold msumz, oz.
  transitivity (eval 0%Z id (mred_scalar Z.add (mrestrict (msS (den_mat G (KL SM))) (mxm Z.add op_pairz (den_mat G (KL SM)) (mtrans (den_mat G (KU SM))))))).
  - unfold eval, id, oget. destruct (mred_scalar _ _); reflexivity.
  - rewrite H. unfold ntri. apply (gsum2_ext _ _ _ _ Zsr). intros i j _ _. rewrite <- (gsum_scale _ _ _ _ Zsr). apply (gsum_ext _ _ _ _ Zsr). intros k _.
    destruct (Nat.ltb_spec j i), (Nat.ltb_spec k i), (Nat.ltb_spec j k); cbn [andb]; try lia; ring.
Qed.
Lemma trans_ok : answers G (if g_dir G then transitivity_directed G else Model_Cluster.transitivity G) (eq (Val (transitivity_of G))).
Proof.
  rewrite transitivity_of_id. destruct (g_dir G) eqn:D.
  - unfold transitivity_directed. eapply answers_bind_GV; [apply (get_AT_ok G wf true)|]. eapply answers_bind_GV; [apply (get_offdiag_ok G wf true)|].
    assert (E : msumz (mrestrict (msS (den_mat G KOff)) (mxm Z.add op_pairz (den_mat G KOff) (mtrans (den_mat G KOff)))) = sumz n closedv).
    { pose proof (post_id 0%Z 1%Z Z.add Z.mul Zsr one1 n ltac:(reflexivity) _ _ _ _ _ _
        (MX_mxm 0%Z 1%Z Z.add Z.mul Zsr one1 op_pairz ltac:(reflexivity) n _ _ _ _ _ _ (MX_off 0%Z one1) (MX_trans 0%Z n one1 _ _ _ (MX_off 0%Z one1))) (MX_off 0%Z one1)) as H.
      cbv beta in H. apply (MX_scalar 0%Z 1%Z Z.add Z.mul Zsr n) in H. unfold msumz, oz.
      match goal with |- match ?o with _ => _ end = _ => transitivity (eval 0%Z id o); [unfold eval, id; destruct o; reflexivity|] end.
      rewrite H. apply (gsum_ext _ _ _ _ Zsr). intros i _. apply (gsum_ext _ _ _ _ Zsr). intros j _. rewrite <- (gsum_scale _ _ _ _ Zsr). apply (gsum_ext _ _ _ _ Zsr). intros k _. ring. }
    cbv zeta. rewrite E. destruct (Z.eqb_spec (sumz n closedv) 0) as [Z0|Z0]; [apply answers_ret; reflexivity|].
    eapply answers_bind_GV; [apply (get_red_ok G wf true eq_refl)|]. apply answers_lifto. cbn [msk]. rewrite (den_count G). cbn iota. rewrite vsum_dd1.
    rewrite qdiv_ok by (apply closed_pairs_pos; assumption). reflexivity.
  - unfold Model_Cluster.transitivity. eapply answers_bind_v; [apply total_triangles_ok; assumption|]. rewrite (closedv_sum D).
    destruct (Z.eqb_spec ntri 0) as [Z0|Z0].
    + rewrite Z0. apply answers_ret. reflexivity.
    + replace (6 * ntri =? 0)%Z with false by (symmetry; apply Z.eqb_neq; lia).
      eapply answers_bind_GV; [apply (get_red_ok G wf true eq_refl)|]. apply answers_lifto. cbn [msk]. rewrite (den_count G). cbn iota. rewrite vsum_dd1.
      rewrite qdiv_ok; [reflexivity|]. apply closed_pairs_pos. rewrite (closedv_sum D). lia.
Qed.

(** ** averages *)
Lemma qtotal_filter {X} (f : X -> Qc) p l : qtotal f (filter p l) = qtotal (fun x => if p x then f x else 0%Qc) l.
Proof.
  unfold qtotal. induction l as [|x l IH]; [reflexivity|]. cbn [filter map fold_right]. destruct (p x); cbn [map fold_right]; rewrite IH; [reflexivity|]. ring.
Qed.
Lemma count_filter {X} (p q : X -> bool) l : count q (filter p l) = count (fun x => p x && q x) l.
Proof. unfold count. induction l as [|x l IH]; [reflexivity|]. cbn [filter]. destruct (p x); cbn [filter andb]; [destruct (q x); cbn [List.length]; rewrite IH; reflexivity|assumption]. Qed.
Lemma qdiv_cases a k : qdiv a (zq (Z.of_nat k)) = if k =? 0 then Raise EZeroDiv else Val (a / zq (Z.of_nat k))%Qc.
Proof. destruct (Nat.eqb_spec k 0) as [->|H]; [reflexivity|]. apply qdiv_ok. lia. Qed.
Lemma average_eq cbrt c mask (P : nkey -> bool) nmask mx cz :
  VX 0%Qc n id c (fun i => inm mask i = true /\ intri i) (fun i => if inm mask i then clv cbrt mx i else 0%Qc) ->
  (forall u i, kid G u = Some i -> inm mask i = P u) ->
  (nmask = None /\ (forall u, node G u -> P u = true) \/ nmask = Some (List.length (members G P))) ->
  average_of c cz nmask = let l := members G P in
    if mean_count G cz l =? 0 then Raise EZeroDiv else Val (mean G cz (clustering_at G (coef G cbrt mx)) l).
Proof.
  intros Hc HP Hn. cbv zeta.
  assert (E1 : vsumq c = qtotal (clustering_at G (coef G cbrt mx)) (members G P)).
  { unfold members. rewrite qtotal_filter. change (@qtotal nkey) with (@gtotal Qc nkey 0%Qc Qcplus).
    rewrite (gtotal_nodes 0%Qc 1%Qc Qcplus Qcmult Qcsr _ (fun i => if inm mask i then clv cbrt mx i else 0%Qc)).
    - unfold vsumq, oq. apply (VX_reduce 0%Qc 1%Qc Qcplus Qcmult Qcsr n) in Hc. destruct Hc as [_ H]. rewrite <- H. unfold eval, id, oget. destruct (vreduce Qcplus c); reflexivity.
    - intros u i Hu. rewrite (HP u i Hu), (clv_kid cbrt mx u i Hu). reflexivity. }
  assert (E2 : nvals c = count (in_triangle G) (members G P)).
  { unfold members. rewrite count_filter. unfold nvals. rewrite (proj1 Hc). symmetry. apply (count_nodes G wf). intros u i Hu.
    destruct Hc as [_ Hc]. destruct (Hc i) as [H1 _]. apply eq_true_iff_eq. rewrite H1, andb_true_iff, (HP u i Hu), (in_triangle_id u i Hu). reflexivity. }
  assert (E3 : match nmask with Some k => k | None => vsize c end = List.length (members G P)).
  { destruct Hn as [[-> Hn]| ->]; [|reflexivity]. rewrite (proj1 Hc). unfold members. transitivity (count P (gnodes G)); [|reflexivity].
    rewrite (count_nodes G wf P (fun _ => true)); [symmetry; apply cnt_all; reflexivity|]. intros u i Hu. apply Hn. apply (node_kid G). eauto. }
  unfold average_of, mean, mean_count. rewrite E1. change qz with zq. destruct cz; cbn [negb].
  - destruct nmask as [k|]; rewrite E3; apply qdiv_cases.
  - rewrite E2. apply qdiv_cases.
Qed.
End P.
