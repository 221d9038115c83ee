(** * C86: the operators, called with any kind of argument *)
From Verif Require Import Base BaseProofs Model_Graph Model_Cache Spec_Cache CacheMath CacheProofs CacheProofs2
  Model_Keys Spec KeyProofs Model_Operators OperatorProofs Props_Operators Model_Nx Props_Nx Concrete Model_Convert Props_Convert.
From Coq Require Import Permutation.
Open Scope nat_scope.
Local Notation complement := Model_Operators.complement.

(** the directed or undirected graph that an argument stands for: its nodes and weights.  A networkx graph's edges
    all count 1, whatever attributes they have; a Matrix is a directed graph, None an empty one *)
Definition stands_for (a : garg) (dir : bool) (P : nkey -> Prop) (W : nkey -> nkey -> option Z) : Prop :=
  match a with
  | AGraph G _ => dir = g_dir G /\ (forall k, P k <-> node G k) /\ forall u v, W u v = weight G u v
  | ANx N => dir = nx_dir N /\ (forall k, P k <-> nx_node N k) /\ forall u v, W u v = match nx_data N u v with Some _ => Some 1%Z | None => None end
  | AMatrix A _ => dir = true /\ (forall k, P k <-> In k (mnodes A)) /\ forall u v, W u v = mweight A u v
  | AOther => False
  | ANone => dir = true /\ (forall k, ~ P k) /\ forall u v, W u v = None
  end.
(** an argument that cannot be converted, and the exception it gives *)
Definition unusable (a : garg) (e : exn) : Prop :=
  (e = EType /\ a = AOther) \/ (e = EValue /\ exists A d, a = AMatrix A d /\ nrows A <> ncols A).

Section C86.
Variable orc : mat Z -> bool.
Variables a b : garg.
Hypothesis Ha : arg_ok a.
Hypothesis Hb : arg_ok b.
Variables (da db : bool) (P Q : nkey -> Prop) (V W : nkey -> nkey -> option Z).
Hypothesis Sa : stands_for a da P V.
Hypothesis Sb : stands_for b db Q W.

Lemma stands a0 d0 P0 W0 : arg_ok a0 -> stands_for a0 d0 P0 W0 ->
  match to_graph orc a0 None None with Val Gs => is_graph (fst Gs) d0 P0 W0 | Raise e => unusable a0 e end.
Proof.
  intros H0 S0. pose proof (C71_to_graph orc a0 None None H0 (or_introl eq_refl)) as H. destruct (to_graph orc a0 None None) as [[G s]|e]; [|exact H].
  destruct H as (wf & _ & H). cbn [fst]. destruct a0 as [G' s'|N|A d| |]; cbn [stands_for] in S0; [| | |destruct S0|]; destruct S0 as (D & HP & HW).
  - destruct H as [-> _]. split; [assumption|]. split; [auto|]. split; [intros k; rewrite HP; reflexivity|intros; auto].
  - destruct H as (_ & A1 & A2 & A3). split; [assumption|]. split; [congruence|]. split.
    + intros k. rewrite HP. unfold node, nx_node. rewrite A2. reflexivity.
    + intros u v. rewrite A3, HW. unfold nx_weight. destruct (nx_data N u v); reflexivity.
  - destruct H as (_ & A1 & A2 & A3). split; [assumption|]. split; [congruence|]. split.
    + intros k. rewrite HP. unfold node. rewrite A2. reflexivity.
    + intros u v. rewrite A3, HW. reflexivity.
  - destruct H as (_ & A1 & A2 & A3). split; [assumption|]. split; [congruence|]. split.
    + intros k. unfold node. rewrite A2. specialize (HP k). cbn [In]. tauto.
    + intros u v. rewrite A3, HW. reflexivity.
Qed.
Lemma op2_ok op (R : outcome graph -> Prop) :
  (forall e, unusable a e -> R (Raise e)) -> (forall e, unusable b e -> R (Raise e)) ->
  (forall G H, is_graph G da P V -> is_graph H db Q W -> R (op G H)) -> R (nx_op2 orc op a b).
Proof.
  intros U1 U2 HR. unfold nx_op2. pose proof (stands a da P V Ha Sa) as X. pose proof (stands b db Q W Hb Sb) as Y.
  destruct (to_graph orc a None None) as [G|e]; cbn [obind]; [|auto]. destruct (to_graph orc b None None) as [H|e]; cbn [obind]; auto.
Qed.
Lemma op1_ok op (R : outcome graph -> Prop) :
  (forall e, unusable a e -> R (Raise e)) -> (forall G, is_graph G da P V -> R (op G)) -> R (nx_op1 orc op a).
Proof.
  intros U1 HR. unfold nx_op1. pose proof (stands a da P V Ha Sa) as X. destruct (to_graph orc a None None) as [G|e]; cbn [obind]; auto.
Qed.

(** the second graph must not be directed when the first is undirected; a directed first graph may be combined with both *)
Hypothesis D : da = false -> db = false.

Theorem C86_union :
  match nx_union orc a b [] with
  | Val R => (forall k, P k -> ~ Q k) /\ is_graph R da (fun k => P k \/ Q k) (fun u v => match V u v with Some x => Some x | None => W u v end)
  | Raise e => unusable a e \/ unusable b e \/ (e = EAlg /\ exists k, P k /\ Q k)
  end.
Proof.
  unfold nx_union. apply op2_ok; auto. intros G H (wG & DG & NG & WG) (wH & DH & NH & WH).
  pose proof (C26_union_plain orc G H wG wH ltac:(rewrite DG, DH; exact D)) as X. destruct (union orc G H []) as [R|e].
  - destruct X as (X1 & X2 & X3 & X4 & X5). split; [intros k Hk Hk'; apply (X1 k); [apply NG|apply NH]; assumption|].
    split; [assumption|]. split; [congruence|]. split; [intros k; rewrite X4, NG, NH; reflexivity|]. intros u v. rewrite X5, WG, WH. reflexivity.
  - right. right. destruct X as [-> (k & K1 & K2)]. split; [reflexivity|]. exists k. rewrite <- NG, <- NH. auto.
Qed.
Theorem C86_intersection :
  match nx_intersection orc a b with
  | Val R => is_graph R da (fun k => P k /\ Q k) (fun u v => match V u v, W u v with Some _, Some _ => Some 1%Z | _, _ => None end)
  | Raise e => unusable a e \/ unusable b e
  end.
Proof.
  unfold nx_intersection. apply op2_ok; auto. intros G H (wG & DG & NG & WG) (wH & DH & NH & WH).
  destruct (C28_intersection orc G H wG wH ltac:(rewrite DG, DH; exact D)) as (R & -> & X2 & X3 & X4 & X5).
  split; [assumption|]. split; [congruence|]. split; [intros k; rewrite X4, NG, NH; reflexivity|]. intros u v. rewrite X5, WG, WH. reflexivity.
Qed.
Theorem C86_difference :
  match nx_difference orc a b with
  | Val R => (forall k, P k <-> Q k) /\ is_graph R da P (fun u v => match V u v, W u v with Some _, None => Some 1%Z | _, _ => None end)
  | Raise e => unusable a e \/ unusable b e \/ (e = EAlg /\ ~ forall k, P k <-> Q k)
  end.
Proof.
  unfold nx_difference. apply op2_ok; auto. intros G H (wG & DG & NG & WG) (wH & DH & NH & WH).
  pose proof (C29_difference orc G H wG wH ltac:(rewrite DG, DH; exact D)) as X. destruct (difference orc G H) as [R|e].
  - destruct X as (X1 & X2 & X3 & X4 & X5). split; [intros k; rewrite <- NG, <- NH; apply X1|].
    split; [assumption|]. split; [congruence|]. split; [intros k; rewrite X4; apply NG|]. intros u v. rewrite X5, WG, WH. reflexivity.
  - right. right. destruct X as [-> X]. split; [reflexivity|]. intros F. apply X. intros k. rewrite NG, NH. apply F.
Qed.
Theorem C86_symmetric_difference :
  match nx_symmetric_difference orc a b with
  | Val R => (forall k, P k <-> Q k) /\ is_graph R da P (fun u v => match V u v, W u v with Some _, None | None, Some _ => Some 1%Z | _, _ => None end)
  | Raise e => unusable a e \/ unusable b e \/ (e = EAlg /\ ~ forall k, P k <-> Q k)
  end.
Proof.
  unfold nx_symmetric_difference. apply op2_ok; auto. intros G H (wG & DG & NG & WG) (wH & DH & NH & WH).
  pose proof (C30_symmetric_difference orc G H wG wH ltac:(rewrite DG, DH; exact D)) as X. destruct (symmetric_difference orc G H) as [R|e].
  - destruct X as (X1 & X2 & X3 & X4 & X5). split; [intros k; rewrite <- NG, <- NH; apply X1|].
    split; [assumption|]. split; [congruence|]. split; [intros k; rewrite X4; apply NG|]. intros u v. rewrite X5, WG, WH. reflexivity.
  - right. right. destruct X as [-> X]. split; [reflexivity|]. intros F. apply X. intros k. rewrite NG, NH. apply F.
Qed.
Theorem C86_compose_partial : (forall k, P k <-> Q k) \/ (forall k, P k -> ~ Q k) ->
  match nx_compose orc a b with
  | Val R => is_graph R da (fun k => P k \/ Q k) (fun u v => match W u v with Some x => Some x | None => V u v end)
  | Raise e => unusable a e \/ unusable b e
  end.
Proof.
  intros HK. unfold nx_compose. apply op2_ok; auto. intros G H (wG & DG & NG & WG) (wH & DH & NH & WH).
  destruct (C31_compose_partial orc G H wG wH ltac:(rewrite DG, DH; exact D)) as (R & -> & X2 & X3 & X4 & X5).
  { destruct HK as [HK|HK]; [left; intros k; rewrite NG, NH; apply HK|right; intros k Hk Hk'; apply (HK k); [apply NG|apply NH]; assumption]. }
  split; [assumption|]. split; [congruence|]. split; [intros k; rewrite X4, NG, NH; reflexivity|]. intros u v. rewrite X5, WG, WH. reflexivity.
Qed.
(** the nodes of the second graph follow those of the first; which node gets which number is the graphs' own business *)
Theorem C86_disjoint_union :
  match nx_disjoint_union orc a b with
  | Val R => exists n m f g, gwf R /\ g_dir R = da /\ gnodes R = map (fun i => KI (Z.of_nat i)) (seq 0 (n + m)) /\
      (forall u, P u -> f u < n) /\ (forall u v, P u -> P v -> f u = f v -> u = v) /\ (forall i, i < n -> exists u, P u /\ f u = i) /\
      (forall u, Q u -> g u < m) /\ (forall u v, Q u -> Q v -> g u = g v -> u = v) /\ (forall i, i < m -> exists u, Q u /\ g u = i) /\
      (forall u v, P u -> P v -> weight R (KI (Z.of_nat (f u))) (KI (Z.of_nat (f v))) = V u v) /\
      (forall u v, Q u -> Q v -> weight R (KI (Z.of_nat (n + g u))) (KI (Z.of_nat (n + g v))) = W u v) /\
      (forall u v, P u -> Q v -> weight R (KI (Z.of_nat (f u))) (KI (Z.of_nat (n + g v))) = None /\
                                 weight R (KI (Z.of_nat (n + g v))) (KI (Z.of_nat (f u))) = None)
  | Raise e => unusable a e \/ unusable b e
  end.
Proof.
  unfold nx_disjoint_union. apply op2_ok; auto. intros G H (wG & DG & NG & WG) (wH & DH & NH & WH).
  destruct (C27_disjoint_union orc G H wG wH ltac:(rewrite DG, DH; exact D)) as (R & -> & X2 & X3 & X4 & X5 & X6 & X7).
  pose (num := fun (K : graph) (u : nkey) => oget 0 (kid K u)). exists (glen G), (glen H), (num G), (num H).
  assert (KG : forall u, P u -> kid G u = Some (num G u)).
  { intros u Hu. apply NG in Hu. apply node_kid in Hu as [i Hi]. unfold num. rewrite Hi. reflexivity. }
  assert (KH : forall u, Q u -> kid H u = Some (num H u)).
  { intros u Hu. apply NH in Hu. apply node_kid in Hu as [i Hi]. unfold num. rewrite Hi. reflexivity. }
  split; [assumption|]. split; [congruence|]. split; [assumption|].
  split; [intros u Hu; apply (kid_lt G wG u); auto|].
  split; [intros u v Hu Hv E; apply (kid_inj G wG u v (num G u)); [auto|rewrite E; auto]|].
  split; [intros i Hi; destruct (kid_key G wG i Hi) as [u Hu]; exists u; split; [apply NG, node_kid; eauto|unfold num; rewrite Hu; reflexivity]|].
  split; [intros u Hu; apply (kid_lt H wH u); auto|].
  split; [intros u v Hu Hv E; apply (kid_inj H wH u v (num H u)); [auto|rewrite E; auto]|].
  split; [intros i Hi; destruct (kid_key H wH i Hi) as [u Hu]; exists u; split; [apply NH, node_kid; eauto|unfold num; rewrite Hu; reflexivity]|].
  split; [intros u v Hu Hv; rewrite (X5 u v _ _ (KG u Hu) (KG v Hv)); apply WG|].
  split; [intros u v Hu Hv; rewrite (X6 u v _ _ (KH u Hu) (KH v Hv)); apply WH|].
  intros u v Hu Hv. apply (X7 u v _ _ (KG u Hu) (KH v Hv)).
Qed.
Theorem C86_full_join :
  match nx_full_join orc a b [] with
  | Val R => (forall k, P k -> ~ Q k) /\ gwf R /\ g_dir R = da /\ (forall k, node R k <-> P k \/ Q k) /\
      (forall u v, P u -> P v -> weight R u v = V u v) /\ (forall u v, Q u -> Q v -> weight R u v = W u v) /\
      (forall u v, P u -> Q v -> weight R u v = Some 1%Z /\ weight R v u = Some 1%Z)
  | Raise e => unusable a e \/ unusable b e \/ (e = EAlg /\ exists k, P k /\ Q k)
  end.
Proof.
  unfold nx_full_join. apply op2_ok; auto. intros G H (wG & DG & NG & WG) (wH & DH & NH & WH).
  assert (O : forall K, rn_ok None K) by (intros K u v _ _ E; exact E).
  pose proof (C32_full_join orc G H [] wG wH ltac:(rewrite DG, DH; exact D) (O G) (O H)) as X. cbv zeta in X. cbn in X.
  destruct (full_join orc G H []) as [R|e].
  - destruct X as (X1 & X2 & X3 & X4 & X5 & X6 & X7). split; [intros k Hk Hk'; apply (X1 k k); [apply NG|apply NH|reflexivity]; assumption|].
    split; [assumption|]. split; [congruence|]. split.
    { intros k. rewrite X4. split.
      - intros [(u & Hu & ->)|(u & Hu & ->)]; [left; apply NG|right; apply NH]; assumption.
      - intros [Hk|Hk]; [left|right]; exists k; (split; [apply NG || apply NH; assumption|reflexivity]). }
    split; [intros u v Hu Hv; rewrite X5 by (apply NG; assumption); apply WG|].
    split; [intros u v Hu Hv; rewrite X6 by (apply NH; assumption); apply WH|].
    intros u v Hu Hv. apply X7; [apply NG|apply NH]; assumption.
  - right. right. destruct X as [-> (u & v & Hu & Hv & E)]. split; [reflexivity|]. exists u. rewrite <- NG, <- NH. split; [assumption|]. rewrite E. assumption.
Qed.
(** with prefixes: node [k] of the first graph becomes [rn (prefix1 ren) k], of the second [rn (prefix2 ren) k] (a prefix
    is put before the name as a string), where these are one to one on the nodes *)
Theorem C86_union_rename ren : (forall u v, P u -> P v -> rn (prefix1 ren) u = rn (prefix1 ren) v -> u = v) ->
  (forall u v, Q u -> Q v -> rn (prefix2 ren) u = rn (prefix2 ren) v -> u = v) ->
  let r1 := rn (prefix1 ren) in let r2 := rn (prefix2 ren) in
  match nx_union orc a b ren with
  | Val R => (forall u v, P u -> Q v -> r1 u <> r2 v) /\ gwf R /\ g_dir R = da /\
      (forall k, node R k <-> (exists u, P u /\ k = r1 u) \/ (exists v, Q v /\ k = r2 v)) /\
      (forall u v, P u -> P v -> weight R (r1 u) (r1 v) = V u v) /\ (forall u v, Q u -> Q v -> weight R (r2 u) (r2 v) = W u v) /\
      (forall u v, P u -> Q v -> weight R (r1 u) (r2 v) = None /\ weight R (r2 v) (r1 u) = None)
  | Raise e => unusable a e \/ unusable b e \/ (e = EAlg /\ exists u v, P u /\ Q v /\ r1 u = r2 v)
  end.
Proof.
  intros O1 O2 r1 r2. unfold nx_union. apply op2_ok; auto. intros G H (wG & DG & NG & WG) (wH & DH & NH & WH).
  assert (R1 : rn_ok (prefix1 ren) G) by (intros u v Hu Hv; apply O1; apply NG; assumption).
  assert (R2 : rn_ok (prefix2 ren) H) by (intros u v Hu Hv; apply O2; apply NH; assumption).
  pose proof (C26_union orc G H ren wG wH ltac:(rewrite DG, DH; exact D) R1 R2) as X. cbv zeta in X.
  destruct (union orc G H ren) as [R|e].
  - destruct X as (X1 & X2 & X3 & X4 & X5 & X6 & X7). split; [intros u v Hu Hv; apply X1; [apply NG|apply NH]; assumption|].
    split; [assumption|]. split; [congruence|]. split.
    { intros k. rewrite X4. split; (intros [(u & Hu & ->)|(u & Hu & ->)]; [left|right]; exists u; (split; [apply NG || apply NH; assumption|reflexivity])). }
    split; [intros u v Hu Hv; unfold r1; rewrite X5 by (apply NG; assumption); apply WG|].
    split; [intros u v Hu Hv; unfold r2; rewrite X6 by (apply NH; assumption); apply WH|].
    intros u v Hu Hv. apply X7; [apply NG|apply NH]; assumption.
  - right. right. destruct X as [-> (u & v & Hu & Hv & E)]. split; [reflexivity|]. exists u, v. rewrite <- NG, <- NH. auto.
Qed.
Theorem C86_full_join_rename ren : (forall u v, P u -> P v -> rn (prefix1 ren) u = rn (prefix1 ren) v -> u = v) ->
  (forall u v, Q u -> Q v -> rn (prefix2 ren) u = rn (prefix2 ren) v -> u = v) ->
  let r1 := rn (prefix1 ren) in let r2 := rn (prefix2 ren) in
  match nx_full_join orc a b ren with
  | Val R => (forall u v, P u -> Q v -> r1 u <> r2 v) /\ gwf R /\ g_dir R = da /\
      (forall k, node R k <-> (exists u, P u /\ k = r1 u) \/ (exists v, Q v /\ k = r2 v)) /\
      (forall u v, P u -> P v -> weight R (r1 u) (r1 v) = V u v) /\ (forall u v, Q u -> Q v -> weight R (r2 u) (r2 v) = W u v) /\
      (forall u v, P u -> Q v -> weight R (r1 u) (r2 v) = Some 1%Z /\ weight R (r2 v) (r1 u) = Some 1%Z)
  | Raise e => unusable a e \/ unusable b e \/ (e = EAlg /\ exists u v, P u /\ Q v /\ r1 u = r2 v)
  end.
Proof.
  intros O1 O2 r1 r2. unfold nx_full_join. apply op2_ok; auto. intros G H (wG & DG & NG & WG) (wH & DH & NH & WH).
  assert (R1 : rn_ok (prefix1 ren) G) by (intros u v Hu Hv; apply O1; apply NG; assumption).
  assert (R2 : rn_ok (prefix2 ren) H) by (intros u v Hu Hv; apply O2; apply NH; assumption).
  pose proof (C32_full_join orc G H ren wG wH ltac:(rewrite DG, DH; exact D) R1 R2) as X. cbv zeta in X.
  destruct (full_join orc G H ren) as [R|e].
  - destruct X as (X1 & X2 & X3 & X4 & X5 & X6 & X7). split; [intros u v Hu Hv; apply X1; [apply NG|apply NH]; assumption|].
    split; [assumption|]. split; [congruence|]. split.
    { intros k. rewrite X4. split; (intros [(u & Hu & ->)|(u & Hu & ->)]; [left|right]; exists u; (split; [apply NG || apply NH; assumption|reflexivity])). }
    split; [intros u v Hu Hv; unfold r1; rewrite X5 by (apply NG; assumption); apply WG|].
    split; [intros u v Hu Hv; unfold r2; rewrite X6 by (apply NH; assumption); apply WH|].
    intros u v Hu Hv. apply X7; [apply NG|apply NH]; assumption.
  - right. right. destruct X as [-> (u & v & Hu & Hv & E)]. split; [reflexivity|]. exists u, v. rewrite <- NG, <- NH. auto.
Qed.
Theorem C86_complement :
  match nx_complement orc a with
  | Val R => gwf R /\ g_dir R = da /\ (forall k, node R k <-> P k) /\ (forall u v, weight R u v = Some 1%Z \/ weight R u v = None) /\
      forall u v, edge R u v <-> P u /\ P v /\ u <> v /\ V u v = None
  | Raise e => unusable a e
  end.
Proof.
  unfold nx_complement. apply (op1_ok _ (fun o => match o with Val R => _ | Raise e => _ end)); auto. intros G (wG & DG & NG & WG).
  destruct (C33_complement orc G wG) as (X2 & X3 & X4 & X5). split; [assumption|]. split; [congruence|]. split; [intros k; rewrite X4; apply NG|].
  split.
  - intros u v. rewrite X5. destruct (nkey_eqb u v); [auto|]. destruct (in_graph G u && in_graph G v); [|auto]. destruct (weight G u v); auto.
  - intros u v. rewrite (proj1 (C33_complement_edges orc G u v wG)), !NG. unfold edge. rewrite WG.
    destruct (V u v) as [x|]; split; try tauto; intros (A1 & A2 & A3 & A4); repeat split; auto; try discriminate.
    + destruct A4. eauto.
    + intros [? ?]. discriminate.
Qed.
Theorem C86_reverse :
  match nx_reverse orc a with
  | Val R => da = true /\ is_graph R true P (fun u v => V v u)
  | Raise e => unusable a e \/ (e = EAlg /\ da = false)
  end.
Proof.
  unfold nx_reverse. apply op1_ok; auto. intros G (wG & DG & NG & WG). pose proof (C34_reverse orc G wG) as X. destruct (reverse orc G) as [R|e].
  - destruct X as (X1 & (X2 & X3 & X4 & X5) & _). split; [congruence|]. split; [assumption|]. split; [assumption|]. split; [intros k; rewrite X4; apply NG|].
    intros u v. rewrite X5. apply WG.
  - right. destruct X. split; congruence.
Qed.
End C86.

(** without that restriction the operators answer all the same: the union of an undirected graph with a directed one
    (which networkx refuses) is "undirected" and has an edge in one direction only, so it is not a graph at all *)
Definition ex_und : garg := AGraph (mkgk false [KS "x"; KS "y"] [(0, 1, 3%Z)]) st0.
Definition ex_dir : garg := AMatrix (mbuild 2 2 (fun i j => if (i =? 0) && (j =? 1) then Some 4%Z else None)) DInt.
Lemma ex_und_ok : arg_ok ex_und.
Proof. split; [apply mkgk_wf; repeat constructor; simpl; intuition discriminate|apply Inv_st0]. Qed.
Lemma ex_dir_ok : arg_ok ex_dir.
Proof. split; [apply mwf_mbuild|discriminate]. Qed.
Theorem C86_mixed_refuted : exists R,
  arg_ok ex_und /\ arg_ok ex_dir /\ nx_union (fun _ => false) ex_und ex_dir [] = Val R /\ g_dir R = false /\
  weight R (KI 0) (KI 1) = Some 4%Z /\ weight R (KI 1) (KI 0) = None /\ ~ gwf R.
Proof.
  eexists. split; [apply ex_und_ok|]. split; [apply ex_dir_ok|]. split; [vm_compute; reflexivity|].
  split; [reflexivity|]. split; [vm_compute; reflexivity|]. split; [vm_compute; reflexivity|].
  intros wf. pose proof (gw_sym _ wf eq_refl 2 3) as H. vm_compute in H. discriminate.
Qed.
(** the same for the other operators that take two graphs *)
Theorem C86_mixed_full_join_refuted : exists R,
  nx_full_join (fun _ => false) ex_und ex_dir [] = Val R /\ g_dir R = false /\ edge R (KI 0) (KI 1) /\ ~ edge R (KI 1) (KI 0).
Proof.
  eexists. split; [vm_compute; reflexivity|]. split; [reflexivity|].
  split; [exists 4%Z; vm_compute; reflexivity|intros [x Hx]; vm_compute in Hx; discriminate].
Qed.
Definition ex_und01 : garg := AGraph (mkgk false [KI 0; KI 1] []) st0.
Theorem C86_mixed_symmetric_difference_refuted : exists R,
  nx_symmetric_difference (fun _ => false) ex_und01 ex_dir = Val R /\ g_dir R = false /\ edge R (KI 0) (KI 1) /\ ~ edge R (KI 1) (KI 0).
Proof.
  eexists. split; [vm_compute; reflexivity|]. split; [reflexivity|].
  split; [exists 1%Z; vm_compute; reflexivity|intros [x Hx]; vm_compute in Hx; discriminate].
Qed.
(** a networkx graph given to an operator loses its weights: every edge of the result counts 1 *)
Definition nxw : nxgraph := {| nx_dir := true; nx_nattr := false; nx_adj := [(KI 7, [(KI 8, [(KS "weight", 5%Z)])]); (KI 8, [])] |}.
Lemma nxw_wf : nxwf nxw.
Proof.
  constructor.
  - repeat constructor; simpl; intuition congruence.
  - intros u v x H. unfold nx_data in H. cbn [nxw nx_adj dget] in H. destruct (nkey_eqb u (KI 7)); cbn [dget] in H.
    + destruct (nkey_eqb v (KI 8)) eqn:E; [|discriminate]. apply nkey_eqb_eq in E. subst. simpl. auto.
    + destruct (nkey_eqb u (KI 8)); cbn [dget] in H; discriminate.
  - discriminate.
Qed.
Example C86_weights_dropped : exists R, arg_ok (ANx nxw) /\ nx_reverse (fun _ => true) (ANx nxw) = Val R /\
  nx_data nxw (KI 7) (KI 8) = Some [(KS "weight", 5%Z)] /\ weight R (KI 8) (KI 7) = Some 1%Z.
Proof. eexists. split; [apply nxw_wf|]. split; [vm_compute; reflexivity|]. split; vm_compute; reflexivity. Qed.
(** non-vacuity: a Matrix and a networkx graph are joined; each stands for the graph one expects *)
Lemma stands_for_ex : exists P V Q W, stands_for ex_dir true P V /\ stands_for (ANx nxw) true Q W /\
  P (KI 0) /\ ~ P (KI 7) /\ V (KI 0) (KI 1) = Some 4%Z /\ Q (KI 7) /\ W (KI 7) (KI 8) = Some 1%Z.
Proof.
  eexists (fun k => In k (mnodes _)), (mweight _), (nx_node nxw), (fun u v => match nx_data nxw u v with Some _ => Some 1%Z | None => None end).
  split; [split; [reflexivity|split; [intros; reflexivity|intros; reflexivity]]|].
  split; [split; [reflexivity|split; [intros; reflexivity|intros; reflexivity]]|].
  split; [vm_compute; auto|]. split; [vm_compute; intuition discriminate|]. split; [vm_compute; reflexivity|]. split; [vm_compute; auto|vm_compute; reflexivity].
Qed.
Example C86_ex : exists R, nx_full_join (fun _ => true) ex_dir (ANx nxw) [] = Val R /\ gnodes R = [KI 7; KI 8; KI 0; KI 1] /\
  weight R (KI 0) (KI 1) = Some 4%Z /\ weight R (KI 7) (KI 8) = Some 1%Z /\ weight R (KI 8) (KI 0) = Some 1%Z /\ weight R (KI 8) (KI 7) = None.
Proof. eexists. split; [vm_compute; reflexivity|]. repeat split; vm_compute; reflexivity. Qed.
Example C86_rename_hyp : let P := fun k => In k [KI 0; KI 1] in
  forall u v, P u -> P v -> rn (prefix1 [Some "a"%string; Some "b"%string]) u = rn (prefix1 [Some "a"%string; Some "b"%string]) v -> u = v.
Proof. cbn [In]. intros u v [<-|[<-|[]]] [<-|[<-|[]]] E; try reflexivity; vm_compute in E; discriminate. Qed.
Example C86_rename_ex : exists R, nx_union (fun _ => true) ex_dir ex_dir [Some "a"%string; Some "b"%string] = Val R /\
  gnodes R = [KS "b0"; KS "b1"; KS "a0"; KS "a1"] /\ weight R (KS "a0") (KS "a1") = Some 4%Z /\ weight R (KS "a0") (KS "b1") = None.
Proof. eexists. split; [vm_compute; reflexivity|]. repeat split; vm_compute; reflexivity. Qed.
Example C86_ex_raise : nx_union (fun _ => true) ex_dir AOther [] = Raise EType /\ nx_union (fun _ => true) ex_dir ex_dir [] = Raise EAlg /\
  nx_reverse (fun _ => true) ex_und = Raise EAlg.
Proof. repeat split; vm_compute; reflexivity. Qed.
Print Assumptions C86_union.
Print Assumptions C86_intersection.
Print Assumptions C86_difference.
Print Assumptions C86_symmetric_difference.
Print Assumptions C86_compose_partial.
Print Assumptions C86_disjoint_union.
Print Assumptions C86_full_join.
Print Assumptions C86_union_rename.
Print Assumptions C86_full_join_rename.
Print Assumptions C86_complement.
Print Assumptions C86_reverse.
Print Assumptions C86_mixed_refuted.
Print Assumptions C86_mixed_full_join_refuted.
Print Assumptions C86_mixed_symmetric_difference_refuted.
