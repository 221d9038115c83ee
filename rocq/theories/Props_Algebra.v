(** * C80: the algebra of the graph operators *)
From Verif Require Import Base BaseProofs Model_Graph Model_Cache Spec_Cache Spec_Laws Model_Keys Spec Spec_Count
  Model_Operators KeyProofs CountProofs OperatorProofs Concrete Props_Operators.
From Coq Require Import QArith Permutation.
Open Scope nat_scope.
Local Notation complement := Model_Operators.complement.

(** the weight functions of the operators' results *)
Definition unit_weight (o : option Z) : option Z := match o with Some _ => Some 1%Z | None => None end.
Lemma in_graph_node G u : in_graph G u = true <-> node G u.
Proof. unfold in_graph. rewrite node_kid. destruct (kid G u) as [i|]; split; intros H; [exists i; reflexivity|reflexivity|discriminate|destruct H as [i Hi]; discriminate]. Qed.
Lemma weight_dom G u v : weight G u v <> None -> node G u /\ node G v.
Proof. destruct (weight G u v) as [w|] eqn:E; [intros _; eapply weight_nodes; eassumption|congruence]. Qed.
Lemma is_graph_same R R' d P P' W W' : is_graph R d P W -> is_graph R' d P' W' -> (forall k, P k <-> P' k) -> (forall u v, W u v = W' u v) -> same_graph R R'.
Proof.
  intros (_ & D & N & E) (_ & D' & N' & E') HP HW. split; [congruence|]. split; [intros k; rewrite N, N'; apply HP|]. intros u v. rewrite E, E'. apply HW.
Qed.

(** complement twice drops the self-loops and the weights; three times is once *)
Theorem C80_complement o1 o2 o3 o4 G : gwf G ->
  is_graph (complement o1 (complement o2 G)) (g_dir G) (node G) (fun u v => if nkey_eqb u v then None else unit_weight (weight G u v)) /\
  same_graph (complement o1 (complement o2 (complement o3 G))) (complement o4 G).
Proof.
  intros wf. assert (K : forall o o' H, gwf H -> is_graph (complement o (complement o' H)) (g_dir H) (node H) (fun u v => if nkey_eqb u v then None else unit_weight (weight H u v))).
  { intros o o' H wH. destruct (C33_complement o' H wH) as (w1 & D1 & N1 & W1). destruct (C33_complement o _ w1) as (w2 & D2 & N2 & W2).
    split; [assumption|]. split; [congruence|]. split; [intros k; rewrite N2; apply N1|]. intros u v. rewrite W2, W1.
    destruct (nkey_eqb u v); [reflexivity|].
    assert (I : forall k, in_graph (complement o' H) k = in_graph H k) by (intros k; apply eq_true_iff_eq; rewrite !in_graph_node; apply N1).
    rewrite !I. destruct (weight H u v) as [w|] eqn:E.
    - destruct (weight_nodes _ _ _ _ E) as [Nu Nv]. apply in_graph_node in Nu, Nv. rewrite Nu, Nv. reflexivity.
    - destruct (in_graph H u && in_graph H v); reflexivity. }
  split; [apply K; assumption|].
  destruct (C33_complement o3 G wf) as (w1 & D1 & N1 & W1). destruct (C33_complement o4 G wf) as (w4 & D4 & N4 & W4).
  destruct (K o1 o2 _ w1) as (w3 & D3 & N3 & W3). split; [congruence|]. split; [intros k; rewrite N3, N1, N4; reflexivity|].
  intros u v. rewrite W3, W1, W4. destruct (nkey_eqb u v); [reflexivity|]. destruct (in_graph G u && in_graph G v); [|reflexivity]. destruct (weight G u v); reflexivity.
Qed.
Lemma dd {a b : bool} : a = b -> a = false -> b = false.
Proof. congruence. Qed.


(** ** intersection *)
Theorem C80_intersection_comm o o' G H : gwf G -> gwf H -> g_dir G = g_dir H ->
  exists R R', intersection o G H = Val R /\ intersection o' H G = Val R' /\ same_graph R R'.
Proof.
  intros wG wH D. destruct (C28_intersection o G H wG wH (dd D)) as (R & E & I). destruct (C28_intersection o' H G wH wG (dd (eq_sym D))) as (R' & E' & I').
  exists R, R'. split; [assumption|]. split; [assumption|]. rewrite <- D in I'. eapply is_graph_same; [exact I|exact I'| |].
  - intros k. simpl. tauto.
  - intros u v. simpl. destruct (weight G u v), (weight H u v); reflexivity.
Qed.
Theorem C80_intersection_assoc o1 o2 o3 o4 G H K : gwf G -> gwf H -> gwf K -> g_dir G = g_dir H -> g_dir H = g_dir K ->
  exists A B R R', intersection o1 G H = Val A /\ intersection o2 A K = Val R /\ intersection o3 H K = Val B /\ intersection o4 G B = Val R' /\ same_graph R R'.
Proof.
  intros wG wH wK D D'. destruct (C28_intersection o1 G H wG wH (dd D)) as (A & EA & wA & DA & NA & WA). destruct (C28_intersection o3 H K wH wK (dd D')) as (B & EB & wB & DB & NB & WB).
  destruct (C28_intersection o2 A K wA wK ltac:(intros; congruence)) as (R & E & I). destruct (C28_intersection o4 G B wG wB ltac:(intros; congruence)) as (R' & E' & I').
  exists A, B, R, R'. do 4 (split; [assumption|]). rewrite DA in I. eapply is_graph_same; [exact I|exact I'| |].
  - intros k. simpl. rewrite NA, NB. tauto.
  - intros u v. simpl. rewrite WA, WB. destruct (weight G u v), (weight H u v), (weight K u v); reflexivity.
Qed.
Theorem C80_intersection_self o G : gwf G -> exists R, intersection o G G = Val R /\ is_graph R (g_dir G) (node G) (fun u v => unit_weight (weight G u v)).
Proof.
  intros wG. destruct (C28_intersection o G G wG wG (dd eq_refl)) as (R & E & wR & DR & NR & WR). exists R. split; [assumption|]. split; [assumption|]. split; [assumption|].
  split; [intros k; rewrite NR; tauto|]. intros u v. rewrite WR. destruct (weight G u v); reflexivity.
Qed.

(** ** differences; both graphs must have the same nodes *)
Section Same.
Variables G H : graph.
Hypothesis wG : gwf G.
Hypothesis wH : gwf H.
Hypothesis D : g_dir G = g_dir H.
Hypothesis N : forall k, node G k <-> node H k.
Lemma diff_val o : exists R, difference o G H = Val R /\ is_graph R (g_dir G) (node G) (fun u v => match weight G u v, weight H u v with Some _, None => Some 1%Z | _, _ => None end).
Proof. assert (X := C29_difference o G H wG wH (dd D)). destruct (difference o G H) as [R|e]; [exists R; split; [reflexivity|apply X]|destruct X as [_ []]; assumption]. Qed.
Lemma sdiff_val o : exists R, symmetric_difference o G H = Val R /\ is_graph R (g_dir G) (node G)
  (fun u v => match weight G u v, weight H u v with Some _, None | None, Some _ => Some 1%Z | _, _ => None end).
Proof. assert (X := C30_symmetric_difference o G H wG wH (dd D)). destruct (symmetric_difference o G H) as [R|e]; [exists R; split; [reflexivity|apply X]|destruct X as [_ []]; assumption]. Qed.
Lemma inter_val o : exists R, intersection o G H = Val R /\ is_graph R (g_dir G) (node G)
  (fun u v => match weight G u v, weight H u v with Some _, Some _ => Some 1%Z | _, _ => None end).
Proof.
  destruct (C28_intersection o G H wG wH (dd D)) as (R & E & wR & DR & NR & WR). exists R. split; [assumption|]. split; [assumption|]. split; [assumption|]. split; [|assumption].
  intros k. rewrite NR, <- N. tauto.
Qed.
End Same.
Theorem C80_difference_self o G : gwf G -> exists R, difference o G G = Val R /\ (forall k, node R k <-> node G k) /\ forall u v, ~ edge R u v.
Proof.
  intros wG. destruct (diff_val G G wG wG eq_refl (fun k => iff_refl _) o) as (R & E & _ & _ & NR & WR). exists R. split; [assumption|]. split; [assumption|].
  intros u v [w Hw]. rewrite WR in Hw. destruct (weight G u v); discriminate.
Qed.
(** symmetric_difference(G, H) is the disjoint union of difference(G, H) and difference(H, G), and commutes *)
Theorem C80_symmetric_difference o1 o2 o3 o4 G H : gwf G -> gwf H -> g_dir G = g_dir H -> (forall k, node G k <-> node H k) ->
  exists S S' A B, symmetric_difference o1 G H = Val S /\ symmetric_difference o2 H G = Val S' /\ difference o3 G H = Val A /\ difference o4 H G = Val B /\
    same_graph S S' /\ forall u v, (edge S u v <-> edge A u v \/ edge B u v) /\ ~ (edge A u v /\ edge B u v).
Proof.
  intros wG wH D N. assert (N' : forall k, node H k <-> node G k) by (intros; symmetry; apply N).
  destruct (sdiff_val G H wG wH D N o1) as (S & ES & IS). destruct (sdiff_val H G wH wG (eq_sym D) N' o2) as (S' & ES' & IS').
  destruct (diff_val G H wG wH D N o3) as (A & EA & IA). destruct (diff_val H G wH wG (eq_sym D) N' o4) as (B & EB & IB).
  exists S, S', A, B. do 4 (split; [assumption|]). split.
  - rewrite <- D in IS'. eapply is_graph_same; [exact IS|exact IS'|exact N|]. intros u v. simpl. destruct (weight G u v), (weight H u v); reflexivity.
  - destruct IS as (_ & _ & _ & WS), IA as (_ & _ & _ & WA), IB as (_ & _ & _ & WB). intros u v. unfold edge. rewrite WS, WA, WB.
    assert (T1 : (exists w, Some 1%Z = Some w) <-> True) by (split; eauto). assert (F1 : (exists w : Z, None = Some w) <-> False) by (split; [intros [w Hw]; discriminate|intros []]).
    destruct (weight G u v), (weight H u v); rewrite ?T1, ?F1; tauto.
Qed.
(** G is put together from difference and intersection *)
Theorem C80_recompose o1 o2 o3 G H : gwf G -> gwf H -> g_dir G = g_dir H -> (forall k, node G k <-> node H k) ->
  exists A B R, difference o1 G H = Val A /\ intersection o2 G H = Val B /\ compose o3 A B = Val R /\
    is_graph R (g_dir G) (node G) (fun u v => unit_weight (weight G u v)).
Proof.
  intros wG wH D N. destruct (diff_val G H wG wH D N o1) as (A & EA & wA & DA & NA & WA). destruct (inter_val G H wG wH D N o2) as (B & EB & wB & DB & NB & WB).
  destruct (C31_compose_partial o3 A B wA wB ltac:(intros; congruence)) as (R & ER & wR & DR & NR & WR); [left; intros k; rewrite NA, NB; reflexivity|].
  exists A, B, R. do 3 (split; [assumption|]). split; [assumption|]. split; [congruence|]. split; [intros k; rewrite NR, NA, NB; tauto|].
  intros u v. rewrite WR, WA, WB. destruct (weight G u v), (weight H u v); reflexivity.
Qed.
(** difference is intersection with the complement, self-loops aside *)
Theorem C80_difference_complement o1 o2 o3 G H : gwf G -> gwf H -> g_dir G = g_dir H -> (forall k, node G k <-> node H k) -> loop_free G ->
  exists A R, difference o1 G H = Val A /\ intersection o2 G (complement o3 H) = Val R /\ same_graph A R.
Proof.
  intros wG wH D N LF. destruct (diff_val G H wG wH D N o1) as (A & EA & IA). destruct (C33_complement o3 H wH) as (wC & DC & NC & WC).
  destruct (inter_val G (complement o3 H) wG wC ltac:(congruence) ltac:(intros; rewrite NC; apply N) o2) as (R & ER & IR).
  exists A, R. do 2 (split; [assumption|]). eapply is_graph_same; [exact IA|exact IR|reflexivity|]. intros u v. simpl. rewrite WC.
  destruct (weight G u v) as [w|] eqn:E; [|reflexivity].
  destruct (nkey_eqb u v) eqn:Q; [apply nkey_eqb_eq in Q; subst; destruct (LF v); exists w; assumption|].
  destruct (weight_nodes _ _ _ _ E) as [Nu Nv]. apply N, in_graph_node in Nu, Nv. rewrite Nu, Nv. simpl. destruct (weight H u v); reflexivity.
Qed.
(** de Morgan *)
Theorem C80_de_morgan o1 o2 o3 o4 o5 G H : gwf G -> gwf H -> g_dir G = g_dir H -> (forall k, node G k <-> node H k) ->
  exists A R, intersection o1 G H = Val A /\ compose o2 (complement o3 G) (complement o4 H) = Val R /\ same_graph (complement o5 A) R.
Proof.
  intros wG wH D N. destruct (inter_val G H wG wH D N o1) as (A & EA & wA & DA & NA & WA).
  destruct (C33_complement o3 G wG) as (wC & DC & NC & WC). destruct (C33_complement o4 H wH) as (wC' & DC' & NC' & WC').
  destruct (C31_compose_partial o2 _ _ wC wC' ltac:(intros; congruence)) as (R & ER & wR & DR & NR & WR); [left; intros k; rewrite NC, NC'; apply N|].
  destruct (C33_complement o5 A wA) as (wD & DD & ND & WD). exists A, R. do 2 (split; [assumption|]). split; [congruence|].
  split; [intros k; rewrite ND, NR, NA, NC, NC'; rewrite <- N; tauto|]. intros u v. rewrite WD, WR, WC, WC', WA.
  destruct (nkey_eqb u v); [reflexivity|].
  assert (IA : forall k, in_graph A k = in_graph G k) by (intros k; apply eq_true_iff_eq; rewrite !in_graph_node; apply NA).
  assert (IH : forall k, in_graph H k = in_graph G k) by (intros k; apply eq_true_iff_eq; rewrite !in_graph_node; symmetry; apply N).
  rewrite !IA, !IH. destruct (in_graph G u && in_graph G v); [|reflexivity]. destruct (weight G u v), (weight H u v); reflexivity.
Qed.
(** a graph and its complement together are complete *)
Theorem C80_complete o1 o2 G : gwf G -> exists R, compose o1 G (complement o2 G) = Val R /\ (forall k, node R k <-> node G k) /\
  forall u v, u <> v -> (edge R u v <-> node G u /\ node G v).
Proof.
  intros wG. destruct (C33_complement o2 G wG) as (wC & DC & NC & WC).
  destruct (C31_compose_partial o1 G _ wG wC ltac:(intros; congruence)) as (R & ER & wR & DR & NR & WR); [left; intros k; rewrite NC; reflexivity|].
  exists R. split; [assumption|]. split; [intros k; rewrite NR, NC; tauto|]. intros u v Ne. unfold edge. rewrite WR, WC, (nkey_eqb_neq u v Ne). rewrite <- !in_graph_node.
  destruct (weight G u v) as [w|] eqn:E.
  - destruct (weight_nodes _ _ _ _ E) as [Nu Nv]. apply in_graph_node in Nu, Nv. rewrite Nu, Nv. simpl. split; eauto.
  - destruct (in_graph G u), (in_graph G v); simpl; (split; [intros [w Hw]; try discriminate; auto|intros [X Y]; try discriminate; eauto]).
Qed.
(** ** reverse commutes with the others *)
Theorem C80_reverse o1 o2 o3 o4 o5 G H : gwf G -> gwf H -> g_dir G = true -> g_dir H = true -> (forall k, node G k <-> node H k) ->
  exists G' H', reverse o1 G = Val G' /\ reverse o2 H = Val H' /\
    (exists C, reverse o3 (complement o4 G) = Val C /\ same_graph C (complement o5 G')) /\
    (exists A R R', intersection o3 G H = Val A /\ reverse o4 A = Val R /\ intersection o5 G' H' = Val R' /\ same_graph R R') /\
    (exists A R R', difference o3 G H = Val A /\ reverse o4 A = Val R /\ difference o5 G' H' = Val R' /\ same_graph R R').
Proof.
  intros wG wH DG DH N.
  assert (RV : forall o K, gwf K -> g_dir K = true -> exists K', reverse o K = Val K' /\ is_graph K' true (node K) (fun u v => weight K v u)).
  { intros o K wK DK. assert (X := C34_reverse o K wK). destruct (reverse o K) as [K'|e]; [exists K'; split; [reflexivity|apply X]|destruct X; congruence]. }
  destruct (RV o1 G wG DG) as (G' & EG & wG' & DG' & NG & WG). destruct (RV o2 H wH DH) as (H' & EH & wH' & DH' & NH & WH).
  exists G', H'. do 2 (split; [assumption|]). assert (N2 : forall k, node G' k <-> node H' k) by (intros k; rewrite NG, NH; apply N). split; [|split].
  - destruct (C33_complement o4 G wG) as (wC & DC & NC & WC). destruct (RV o3 _ wC ltac:(congruence)) as (C & EC & wC' & DC' & NC' & WC').
    exists C. split; [assumption|]. destruct (C33_complement o5 G' wG') as (w5 & D5 & N5 & W5). split; [congruence|]. split; [intros k; rewrite NC', NC, N5, NG; reflexivity|].
    intros u v. rewrite WC', WC, W5, WG. 
    assert (I : forall k, in_graph G' k = in_graph G k) by (intros k; apply eq_true_iff_eq; rewrite !in_graph_node; apply NG). rewrite !I.
    replace (nkey_eqb v u) with (nkey_eqb u v) by (apply eq_true_iff_eq; rewrite !nkey_eqb_eq; split; congruence). rewrite (andb_comm (in_graph G v)). reflexivity.
  - destruct (inter_val G H wG wH ltac:(congruence) N o3) as (A & EA & wA & DA & NA & WA). destruct (RV o4 A wA ltac:(congruence)) as (R & ER & IR).
    destruct (inter_val G' H' wG' wH' ltac:(congruence) N2 o5) as (R' & ER' & IR'). exists A, R, R'. do 3 (split; [assumption|]). rewrite DG' in IR'.
    eapply is_graph_same; [exact IR|exact IR'|intros k; rewrite NA, NG; reflexivity|]. intros u v. simpl. rewrite WA, WG, WH. reflexivity.
  - destruct (diff_val G H wG wH ltac:(congruence) N o3) as (A & EA & wA & DA & NA & WA). destruct (RV o4 A wA ltac:(congruence)) as (R & ER & IR).
    destruct (diff_val G' H' wG' wH' ltac:(congruence) N2 o5) as (R' & ER' & IR'). exists A, R, R'. do 3 (split; [assumption|]). rewrite DG' in IR'.
    eapply is_graph_same; [exact IR|exact IR'|intros k; rewrite NA, NG; reflexivity|]. intros u v. simpl. rewrite WA, WG, WH. reflexivity.
Qed.
(** ** the complement of the full join is the union of the complements *)
Theorem C80_join o1 o2 o3 o4 o5 G H ren : gwf G -> gwf H -> g_dir G = g_dir H -> rn_ok (prefix1 ren) G -> rn_ok (prefix2 ren) H ->
  (forall u v, node G u -> node H v -> rn (prefix1 ren) u <> rn (prefix2 ren) v) ->
  exists J U, full_join o1 G H ren = Val J /\ union o2 (complement o3 G) (complement o4 H) ren = Val U /\ same_graph (complement o5 J) U.
Proof.
  intros wG wH D O1 O2 DJ.
  assert (XJ := C32_full_join o1 G H ren wG wH (dd D) O1 O2). cbv zeta in XJ.
  destruct (C33_complement o3 G wG) as (wC & DC & NC & WC). destruct (C33_complement o4 H wH) as (wC' & DC' & NC' & WC').
  assert (O1' : rn_ok (prefix1 ren) (complement o3 G)) by (intros a b Ha Hb; apply O1; apply NC; assumption).
  assert (O2' : rn_ok (prefix2 ren) (complement o4 H)) by (intros a b Ha Hb; apply O2; apply NC'; assumption).
  assert (XU := C26_union o2 _ _ ren wC wC' ltac:(intros; congruence) O1' O2'). cbv zeta in XU.
  destruct (full_join o1 G H ren) as [J|e]; [|destruct XJ as (_ & u & v & Nu & Nv & E); destruct (DJ u v Nu Nv E)].
  destruct (union o2 (complement o3 G) (complement o4 H) ren) as [U|e]; [|destruct XU as (_ & u & v & Nu & Nv & E); apply NC in Nu; apply NC' in Nv; destruct (DJ u v Nu Nv E)].
  destruct XJ as (_ & wJ & DJ' & NJ & W1 & W2 & W3). destruct XU as (_ & wU & DU & NU & V1 & V2 & V3).
  exists J, U. do 2 (split; [reflexivity|]). destruct (C33_complement o5 J wJ) as (wK & DK & NK & WK).
  split; [congruence|]. assert (NN : forall k, node (complement o5 J) k <-> node U k).
  { intros k. rewrite NK, NJ, NU. split; (intros [(u & Hu & E)|(u & Hu & E)]; [left; exists u; split; [apply NC; exact Hu|exact E]|right; exists u; split; [apply NC'; exact Hu|exact E]]). }
  split; [exact NN|]. intros x y.
  assert (IJ : forall k, in_graph J k = true <-> node J k) by apply in_graph_node.
  assert (Q : forall k, node J k \/ ~ node J k) by (intros k; rewrite <- IJ; destruct (in_graph J k); [left; reflexivity|right; discriminate]).
  assert (OUT : forall a b, ~ node J a \/ ~ node J b -> weight (complement o5 J) a b = weight U a b).
  { intros a b Hn. destruct (weight (complement o5 J) a b) as [w|] eqn:E1; [apply weight_nodes in E1; rewrite !NK in E1; tauto|].
    destruct (weight U a b) as [w|] eqn:E2; [apply weight_nodes in E2; rewrite <- !NN, !NK in E2; tauto|reflexivity]. }
  destruct (Q x) as [Nx|Nx]; [|apply OUT; left; assumption]. destruct (Q y) as [Ny|Ny]; [|apply OUT; right; assumption].
  assert (Ix := proj2 (IJ x) Nx). assert (Iy := proj2 (IJ y) Ny). rewrite WK, Ix, Iy. simpl.
  apply NJ in Nx, Ny. destruct Nx as [(u & Nu & ->)|(u & Nu & ->)], Ny as [(v & Nv & ->)|(v & Nv & ->)].
  - rewrite W1, V1 by (try apply NC; assumption). rewrite WC. rewrite (proj2 (in_graph_node G u) Nu), (proj2 (in_graph_node G v) Nv). simpl.
    replace (nkey_eqb (rn (prefix1 ren) u) (rn (prefix1 ren) v)) with (nkey_eqb u v); [reflexivity|].
    apply eq_true_iff_eq. rewrite !nkey_eqb_eq. split; [congruence|]. apply O1; assumption.
  - destruct (W3 u v Nu Nv) as [-> _]. destruct (V3 u v) as [-> _]; [apply NC; assumption|apply NC'; assumption|]. destruct (nkey_eqb _ _); reflexivity.
  - destruct (W3 v u Nv Nu) as [_ ->]. destruct (V3 v u) as [_ ->]; [apply NC; assumption|apply NC'; assumption|]. destruct (nkey_eqb _ _); reflexivity.
  - rewrite W2, V2 by (try apply NC'; assumption). rewrite WC'. rewrite (proj2 (in_graph_node H u) Nu), (proj2 (in_graph_node H v) Nv). simpl.
    replace (nkey_eqb (rn (prefix2 ren) u) (rn (prefix2 ren) v)) with (nkey_eqb u v); [reflexivity|].
    apply eq_true_iff_eq. rewrite !nkey_eqb_eq. split; [congruence|]. apply O2; assumption.
Qed.

(** ** Concrete cases: different numberings of the same nodes, a self-loop, weights *)
Definition alg_G := mkgk true [KI 0; KI 1; KI 2] [(0, 1, 5%Z); (1, 2, 7%Z); (2, 2, 4%Z)].
Definition alg_H := mkgk true [KI 2; KI 0; KI 1] [(1, 2, 3%Z); (0, 1, 6%Z)].
Definition no_iso (_ : mat Z) := false.
Lemma alg_G_wf : gwf alg_G. Proof. apply mkgk_wf; repeat constructor; simpl; intuition discriminate. Qed.
Lemma alg_H_wf : gwf alg_H. Proof. apply mkgk_wf; repeat constructor; simpl; intuition discriminate. Qed.
Example C80_ex : g_dir alg_G = g_dir alg_H /\ (forall k, node alg_G k <-> node alg_H k) /\ loop_free alg_H /\
  weight (complement no_iso (complement no_iso alg_G)) (KI 0) (KI 1) = Some 1%Z /\ weight (complement no_iso (complement no_iso alg_G)) (KI 2) (KI 2) = None /\
  (exists R, symmetric_difference no_iso alg_G alg_H = Val R /\ weight R (KI 0) (KI 1) = None /\ weight R (KI 1) (KI 2) = Some 1%Z /\ weight R (KI 2) (KI 0) = Some 1%Z).
Proof.
  split; [reflexivity|]. split; [intros k; unfold node; vm_compute; tauto|]. split.
  { intros u [w Hw]. assert (X := weight_nodes _ _ _ _ Hw). destruct X as [X _]. unfold node in X. vm_compute in X. destruct X as [<-|[<-|[<-|[]]]]; vm_compute in Hw; discriminate. }
  split; [vm_compute; reflexivity|]. split; [vm_compute; reflexivity|]. eexists. split; [vm_compute; reflexivity|]. repeat split; vm_compute; reflexivity.
Qed.
Example C80_join_ex : let ren := [Some "g"%string; Some "h"%string] in
  rn_ok (prefix1 ren) alg_G /\ rn_ok (prefix2 ren) alg_H /\ (forall u v, node alg_G u -> node alg_H v -> rn (prefix1 ren) u <> rn (prefix2 ren) v).
Proof.
  intros ren. assert (F : forall K p, (forall k, node K k -> k = KI 0 \/ k = KI 1 \/ k = KI 2) -> rn_ok (Some p) K).
  { intros K p HK a b Ha Hb. apply HK in Ha, Hb. destruct Ha as [-> | [-> | ->]], Hb as [-> | [-> | ->]]; try reflexivity; simpl; intros [= E]; exfalso; revert E;
      induction p as [|c p IH]; simpl; intros E; try discriminate; injection E as E; apply IH; exact E. }
  assert (A : forall k, node alg_G k -> k = KI 0 \/ k = KI 1 \/ k = KI 2) by (intros k H; unfold node in H; vm_compute in H; intuition).
  assert (B : forall k, node alg_H k -> k = KI 0 \/ k = KI 1 \/ k = KI 2) by (intros k H; unfold node in H; vm_compute in H; intuition).
  split; [apply F, A|]. split; [apply F, B|]. intros u v _ _ E. simpl in E. injection E as E. discriminate.
Qed.
Print Assumptions C80_complement.
Print Assumptions C80_intersection_comm.
Print Assumptions C80_intersection_assoc.
Print Assumptions C80_intersection_self.
Print Assumptions C80_difference_self.
Print Assumptions C80_symmetric_difference.
Print Assumptions C80_recompose.
Print Assumptions C80_difference_complement.
Print Assumptions C80_de_morgan.
Print Assumptions C80_complete.
Print Assumptions C80_reverse.
Print Assumptions C80_join.
