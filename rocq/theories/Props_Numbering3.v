(** * C70 continued: power iterations and graph operators under another numbering *)
From Verif Require Import Base BaseProofs Model_Graph Model_Cache Spec_Cache CacheMath CacheProofs CacheProofs2
  Model_Keys Spec KeyProofs Spec_Run RunProofs Model_Operators OperatorProofs Props_Operators
  Spec_Count Model_Measures CountProofs Model_Cluster Spec_Cluster Model_Linalg Spec_Linalg Props_Linalg
  Model_Rank Spec_Rank RankProofs RankMath Props_Pagerank Props_Power Spec_Iso IsoProofs Concrete Spec_Numbering Props_Numbering Props_Numbering2.
From Coq Require Import QArith Qcanon Qcabs Permutation.
Open Scope nat_scope.

(** ** iterations depend on the round only pointwise *)
Definition ext_round (F F' : (nkey -> Qc) -> nkey -> Qc) : Prop := forall f g, (forall u, f u = g u) -> forall u, F f u = F' g u.
Lemma iterate_same F F' x x' : ext_round F F' -> (forall u, x u = x' u) -> forall k u, iterate F k x u = iterate F' k x' u.
Proof. intros E X. induction k as [|k IH]; [exact X|]. cbn [iterate]. apply E. exact IH. Qed.

Section Thm.
Variables G H : graph.
Hypothesis wf : gwf G.
Hypothesis wf' : gwf H.
Hypothesis SG : same_graph G H.
Local Lemma SE u v : edge G u v <-> edge H u v. Proof. apply sg_edge, SG. Qed.
Local Lemma SN u : node G u <-> node H u. Proof. apply sg_node, SG. Qed.
Local Lemma PN : Permutation (gnodes G) (gnodes H). Proof. apply sg_nodes; assumption. Qed.

Lemma sg_qtotal (f g : nkey -> Qc) : (forall u, f u = g u) -> qtotal f (gnodes G) = qtotal g (gnodes H).
Proof. intros E. rewrite (qtotal_perm f _ _ PN). apply qtotal_ext'. exact E. Qed.
Lemma sg_qlen : qlen (gnodes G) = qlen (gnodes H).
Proof. unfold qlen. rewrite (Permutation_length PN). reflexivity. Qed.
Lemma sg_l1 f f' g g' : (forall u, f u = f' u) -> (forall u, g u = g' u) -> l1 G f g = l1 H f' g'.
Proof. intros E E'. unfold l1. apply sg_qtotal. intros u. rewrite E, E'. reflexivity. Qed.
Lemma sg_settled F F' x x' tol k : ext_round F F' -> (forall u, x u = x' u) -> (settled G F x tol k <-> settled H F' x' tol k).
Proof.
  intros E X. unfold settled. rewrite sg_qlen, (sg_l1 _ (iterate F' (k - 1) x') _ (iterate F' k x')); [reflexivity|apply iterate_same; assumption..].
Qed.
Lemma sg_first F F' x x' tol mi k : ext_round F F' -> (forall u, x u = x' u) -> (first_settled G F x tol mi k <-> first_settled H F' x' tol mi k).
Proof.
  intros E X. unfold first_settled. split; intros (A & B & C); (split; [exact A|]); (split; [apply (sg_settled F F' x x' tol k E X); exact B|]); intros j Hj K; apply (C j Hj), (sg_settled F F' x x' tol j E X), K.
Qed.
Lemma sg_never F F' x x' tol mi : ext_round F F' -> (forall u, x u = x' u) -> (never_settled G F x tol mi <-> never_settled H F' x' tol mi).
Proof.
  intros E X. unfold never_settled. split; intros C j Hj K; apply (C j Hj), (sg_settled F F' x x' tol j E X), K.
Qed.
Lemma first_unique F x tol mi k k' : first_settled G F x tol mi k -> first_settled G F x tol mi k' -> k = k'.
Proof.
  intros (A & B & C) (A' & B' & C'). destruct (Nat.lt_trichotomy k k') as [L|[L|L]]; [|exact L|]; exfalso; [apply (C' k)|apply (C k')]; try assumption; lia.
Qed.
Lemma first_never F x tol mi k : first_settled G F x tol mi k -> never_settled G F x tol mi -> False.
Proof. intros (A & B & _) N. apply (N k A B). Qed.
Lemma sg_distr d u : distr (gnodes G) d u = distr (gnodes H) d u.
Proof. unfold distr. destruct d as [d|]; [rewrite (sg_qtotal _ (dval d)) by reflexivity|rewrite sg_qlen]; reflexivity. Qed.
Lemma sg_from_preds f g v : (forall u, f u = g u) -> from_preds G f v = from_preds H g v.
Proof. intros E. unfold from_preds. apply sg_qtotal. intros u. rewrite E, (sg_adj G H SG). reflexivity. Qed.
Lemma sg_from_succs f g v : (forall u, f u = g u) -> from_succs G f v = from_succs H g v.
Proof. intros E. unfold from_succs. apply sg_qtotal. intros u. rewrite E, (sg_adj G H SG). reflexivity. Qed.
Lemma divided_same q q' f g u : q = q' -> f u = g u -> divided q f u = divided q' g u.
Proof. intros -> E. unfold divided. rewrite E. reflexivity. Qed.
Lemma sg_dangling u : dangling G (gnodes G) u = dangling H (gnodes H) u.
Proof.
  unfold dangling. f_equal. apply eq_true_iff_eq. rewrite !existsb_exists.
  split; intros (x & A & B); exists x; (split; [apply (Permutation_in x PN)|]) || idtac.
  - exact A.
  - rewrite <- (sg_has G H SG). exact B.
  - split; [apply (Permutation_in x (Permutation_sym PN)); exact A|]. rewrite (sg_has G H SG). exact B.
Qed.
Lemma sg_sumz d : sums_to_zero (gnodes G) d <-> sums_to_zero (gnodes H) d.
Proof. unfold sums_to_zero. split; intros (d' & -> & E); exists d'; (split; [reflexivity|]); [rewrite <- E; symmetry|rewrite <- E]; apply sg_qtotal; reflexivity. Qed.
Lemma sg_foreign d : foreign G d <-> foreign H d.
Proof. unfold foreign. split; intros (d' & u & q & -> & I & N); exists d', u, q; (split; [reflexivity|]); (split; [exact I|]); rewrite SN in *; exact N. Qed.

(** a start or distribution argument that is usable *)
Definition usable (K : graph) (d : option (list (nkey * Qc))) : Prop :=
  is_dict d /\ ~ foreign K d /\ ~ no_entries d /\ ~ sums_to_zero (gnodes K) d.
Lemma sg_usable d : usable G d <-> usable H d.
Proof. unfold usable. rewrite sg_foreign, sg_sumz. reflexivity. Qed.
Lemma sg_used d : used G d = used H d.
Proof.
  unfold used. assert (E : existsb (dangling G (gnodes G)) (gnodes G) = existsb (dangling H (gnodes H)) (gnodes H)).
  { apply eq_true_iff_eq. rewrite !existsb_exists. split; intros (x & A & B); exists x.
    - split; [apply (Permutation_in x PN A)|]. rewrite <- sg_dangling. exact B.
    - split; [apply (Permutation_in x (Permutation_sym PN) A)|]. rewrite sg_dangling. exact B. }
  rewrite E. reflexivity.
Qed.
(** both calls return maps that agree, or both return None, or both raise the same exception *)
Definition same_omap (a b : option (nodemap Qc)) : Prop := match a, b with Some x, Some y => same_map x y | None, None => True | _, _ => False end.
Lemma none_iff : gnodes G = [] <-> gnodes H = [].
Proof. rewrite <- !length_zero_iff_nil, (Permutation_length PN). reflexivity. Qed.
Lemma pr_ext alpha pers dang : ext_round (pr_round G alpha pers dang) (pr_round H alpha pers dang).
Proof.
  intros f g E v. unfold pr_round, pr_next. rewrite sg_distr. f_equal. f_equal. apply sg_qtotal. intros u. rewrite E. f_equal.
  unfold step. rewrite sg_dangling, sg_distr. destruct (dangling H (gnodes H) u); [reflexivity|].
  rewrite (sg_adj G H SG). f_equal. f_equal. unfold rsum. rewrite (total_perm _ _ _ PN). apply total_ext. intros. apply (sg_adj G H SG).
Qed.
Theorem C70_pagerank em alpha pers max_iter tol nstart dang :
  em = false \/ (nstart = None /\ pers = None) -> usable G nstart -> usable G pers -> usable G dang ->
  rows_nonzero G true (gnodes G) -> (exists u v, edge G u v) ->
  forall s t, Inv G s -> iso_known s -> Inv H t -> iso_known t ->
  same_outcome same_omap (fst (nx_pagerank em G alpha pers max_iter tol nstart dang s)) (fst (nx_pagerank em H alpha pers max_iter tol nstart dang t)).
Proof.
  intros EM U1 U2 U3 R (a & b & Hab) s t Is Ks It Kt.
  assert (R' : rows_nonzero H true (gnodes H)).
  { intros u v Hu Hv Huv E. apply (R u v); [apply SN, Hu|apply SN, Hv|apply SE, Huv|]. rewrite <- E. unfold rsum. rewrite (total_perm _ _ _ PN). apply total_ext. intros; apply (sg_adj G H SG). }
  assert (V1 := proj1 (sg_usable nstart) U1). assert (V2 := proj1 (sg_usable pers) U2). assert (V3 := proj1 (sg_usable dang) U3).
  destruct (C57_pagerank G wf em alpha pers nstart dang max_iter tol (proj1 U1) (proj1 U2) (proj1 U3) R (ex_intro _ a (ex_intro _ b Hab)) s Is Ks) as [P _].
  destruct (C57_pagerank H wf' em alpha pers nstart dang max_iter tol (proj1 V1) (proj1 V2) (proj1 V3) R' (ex_intro _ a (ex_intro _ b (proj1 (SE a b) Hab))) t It Kt) as [Q _].
  assert (NE : gnodes G <> []) by (destruct Hab as [x Hx]; destruct (weight_nodes G a b x Hx) as [Ha _]; unfold node in Ha; intros E; rewrite E in Ha; destruct Ha).
  assert (NE' : gnodes H <> []) by (rewrite <- none_iff; exact NE).
  assert (EX := pr_ext alpha pers dang). assert (X0 := sg_distr nstart).
  assert (KP : forall K, usable K nstart -> usable K pers -> usable K dang -> forall e, pagerank_ans K em alpha pers nstart dang max_iter tol (Raise e) -> e = EConv).
  { clear - EM. intros K U1 U2 U3 e A.
    assert (UD : used K dang = dang \/ used K dang = None) by (unfold used; destruct (existsb _ _); auto).
    assert (F0 : ~ foreign K None) by (intros (d & u & q & E & _); discriminate). assert (S0 : ~ sums_to_zero (gnodes K) None) by (intros (d & E & _); discriminate).
    destruct U1 as (_ & A1 & A2 & A3), U2 as (_ & B1 & B2 & B3), U3 as (_ & C1 & C2 & C3).
    destruct e; try reflexivity; cbn [pagerank_ans] in A; try contradiction; exfalso.
    - destruct UD as [E|E]; rewrite E in A; tauto.
    - destruct A as [A|[A|[A|(E & k & _ & K0 & K1 & _)]]]; [tauto|tauto|destruct UD as [E|E]; rewrite E in A; [tauto|discriminate]|].
      destruct EM as [EM|[EM1 EM2]]; [congruence|]. destruct k; [apply K0; auto|apply K1; auto; discriminate].
    - destruct UD as [E|E]; rewrite E in A; tauto. }
  destruct (fst (nx_pagerank em G alpha pers max_iter tol nstart dang s)) as [[m|]|e]; destruct (fst (nx_pagerank em H alpha pers max_iter tol nstart dang t)) as [[m'|]|e'];
    try (assert (e = EConv) by (apply (KP G U1 U2 U3 e P)); subst e); try (assert (e' = EConv) by (apply (KP H V1 V2 V3 e' Q)); subst e'); cbn [pagerank_ans same_outcome same_omap] in *; try contradiction; try exact I.
  - destruct P as (_ & _ & _ & k & F & P), Q as (_ & _ & _ & k' & F' & Q). apply (sg_first _ _ _ _ tol max_iter k' EX X0) in F'.
    rewrite <- (first_unique _ _ _ _ _ _ F F') in Q. eapply same_map_intro; [exact P|exact Q|]. intros u q. cbv beta. rewrite SN, (iterate_same _ _ _ _ EX X0 k u). reflexivity.
  - destruct P as (_ & _ & _ & k & F & P). apply (sg_never _ _ _ _ tol max_iter EX X0) in Q. apply (first_never _ _ _ _ _ F Q).
  - destruct Q as (_ & _ & _ & k & F & Q). apply (sg_first _ _ _ _ tol max_iter k EX X0) in F. apply (first_never _ _ _ _ _ F P).
  - reflexivity.
Qed.
Lemma eig_ext sqr : ext_round (eig_next sqr G) (eig_next sqr H).
Proof.
  intros f g E u. unfold eig_next. cbv zeta. assert (E' : forall v, (f v + from_preds G f v)%Qc = (g v + from_preds H g v)%Qc) by (intros v; rewrite E, (sg_from_preds f g v E); reflexivity).
  apply divided_same; [|apply E']. unfold l2norm. f_equal. apply sg_qtotal. intros v. rewrite E'. reflexivity.
Qed.
Lemma sg_spread P k u : spread G P k u <-> spread H P k u.
Proof.
  revert u. induction k as [|k IH]; intros u; [reflexivity|]. cbn [spread]. rewrite IH.
  assert (E : (exists w, edge G w u /\ spread G P k w) <-> (exists w, edge H w u /\ spread H P k w)) by (split; intros (w & A & B); exists w; rewrite IH, SE in *; auto).
  rewrite E. reflexivity.
Qed.
Lemma with_nodes : (exists u, node G u) -> gnodes G <> [] /\ gnodes H <> [].
Proof. intros [u Hu]. assert (N : gnodes G <> []) by (unfold node in Hu; intros E; rewrite E in Hu; destruct Hu). split; [exact N|]. rewrite <- none_iff. exact N. Qed.
Theorem C70_eigenvector sqr max_iter tol nstart : usable G nstart -> (exists u, node G u) ->
  alike G H (fun K => nx_eigenvector_centrality sqr K max_iter tol nstart) same_map.
Proof.
  intros U NE. destruct (with_nodes NE) as [N1 N2]. assert (V := proj1 (sg_usable nstart) U). assert (EX := eig_ext sqr). assert (X0 := sg_distr nstart).
  eapply alike_intro; [apply (C58_eigenvector G wf sqr max_iter tol nstart (proj1 U))|apply (C58_eigenvector H wf' sqr max_iter tol nstart (proj1 V))|]. cbv zeta.
  destruct U as (_ & A1 & A2 & A3), V as (_ & B1 & B2 & B3). intros [m|e] [m'|e'] P Q; cbn [same_outcome].
  - destruct P as (k & F & P), Q as (k' & F' & Q). apply (sg_first _ _ _ _ tol max_iter k' EX X0) in F'. rewrite <- (first_unique _ _ _ _ _ _ F F') in Q.
    eapply same_map_intro; [exact P|exact Q|]. intros u q. cbv beta. rewrite SN, (iterate_same _ _ _ _ EX X0 k u), sg_spread. reflexivity.
  - destruct P as (k & F & P), e'; try contradiction. apply (sg_never _ _ _ _ tol max_iter EX X0) in Q. apply (first_never _ _ _ _ _ F Q).
  - destruct Q as (k & F & Q), e; try contradiction. apply (sg_first _ _ _ _ tol max_iter k EX X0) in F. apply (first_never _ _ _ _ _ F P).
  - destruct e; try contradiction; destruct e'; try contradiction; reflexivity.
Qed.
Lemma katz_ext alpha b : ext_round (katz_next G alpha b) (katz_next H alpha b).
Proof. intros f g E u. unfold katz_next. rewrite (sg_from_preds f g u E). reflexivity. Qed.
Lemma sg_adds fl beta nstart : adds_everywhere G fl beta nstart -> adds_everywhere H fl beta nstart.
Proof.
  intros [A|[A|A]]; [left; exact A|right; left; exact A|]. right. right. intros v Hv. destruct (A v (proj2 (SN v) Hv)) as [[u Hu] B]. split; [exists u; apply SE, Hu|exact B].
Qed.
(** every node has a value in the dict *)
Definition covers (K : graph) (b : Qc + list (nkey * Qc)) : Prop := match b with inl _ => True | inr d => forall u, node K u -> In u (map fst d) end.
Theorem C70_katz sqr fl alpha beta max_iter tol nstart normalized : is_dict nstart -> is_dict (beta_dict beta) -> adds_everywhere G fl beta nstart ->
  ~ foreign G nstart -> ~ foreign G (beta_dict beta) -> ~ no_entries nstart -> covers G beta -> (exists u, node G u) ->
  forall s t, Inv G s -> iso_known s -> Inv H t -> iso_known t ->
  same_outcome same_omap (fst (nx_katz_centrality sqr fl G alpha beta max_iter tol nstart normalized s)) (fst (nx_katz_centrality sqr fl H alpha beta max_iter tol nstart normalized t)).
Proof.
  intros D1 D2 AE F1 F2 E1 CV NE s t Is Ks It Kt. destruct (with_nodes NE) as [N1 N2].
  assert (F1' : ~ foreign H nstart) by (rewrite <- sg_foreign; exact F1). assert (F2' : ~ foreign H (beta_dict beta)) by (rewrite <- sg_foreign; exact F2).
  assert (CV' : covers H beta) by (destruct beta as [q|d]; [exact I|]; intros u Hu; apply CV, SN, Hu).
  destruct (C58_katz_partial G wf sqr fl alpha beta max_iter tol nstart normalized D1 D2 AE s Is Ks) as [P _].
  destruct (C58_katz_partial H wf' sqr fl alpha beta max_iter tol nstart normalized D1 D2 (sg_adds _ _ _ AE) t It Kt) as [Q _].
  assert (EX := katz_ext alpha (beta_val beta)). assert (X0 : forall u, katz_start nstart u = katz_start nstart u) by reflexivity.
  destruct (fst (nx_katz_centrality sqr fl G alpha beta max_iter tol nstart normalized s)) as [[m|]|e]; destruct (fst (nx_katz_centrality sqr fl H alpha beta max_iter tol nstart normalized t)) as [[m'|]|e'];
    cbn [same_outcome same_omap] in *; try contradiction; try exact I.
  - destruct P as (k & F & P), Q as (k' & F' & Q). apply (sg_first _ _ _ _ tol max_iter k' EX X0) in F'. rewrite <- (first_unique _ _ _ _ _ _ F F') in Q.
    assert (IT := iterate_same _ _ _ _ EX X0 k).
    eapply same_map_intro; [exact P|exact Q|]. intros u q. cbv beta. rewrite SN. destruct normalized; [|rewrite (IT u); reflexivity].
    rewrite (divided_same _ (l2norm sqr H (iterate (katz_next H alpha (beta_val beta)) k (katz_start nstart))) _ (iterate (katz_next H alpha (beta_val beta)) k (katz_start nstart)) u); [reflexivity| |apply IT].
    unfold l2norm. f_equal. apply sg_qtotal. intros v. rewrite (IT v). reflexivity.
  - destruct P as (k & F & P), e'; try contradiction; try tauto.
    + apply (sg_never _ _ _ _ tol max_iter EX X0) in Q. apply (first_never _ _ _ _ _ F Q).
    + destruct Q as (d & u & -> & Hu & Q). apply Q, CV', Hu.
  - destruct Q as (k & F & Q), e; try contradiction; try tauto.
    + apply (sg_first _ _ _ _ tol max_iter k EX X0) in F. apply (first_never _ _ _ _ _ F P).
    + destruct P as (d & u & -> & Hu & P). apply P, CV, Hu.
  - assert (e = EConv) by (destruct e; try reflexivity; try contradiction; try tauto; destruct P as (d & u & -> & Hu & P); elim P; apply CV, Hu).
    assert (e' = EConv) by (destruct e'; try reflexivity; try contradiction; try tauto; destruct Q as (d & u & -> & Hu & Q); elim Q; apply CV', Hu). congruence.
Qed.
(** hits *)
Lemma sg_largest f g l l' : (forall u, f u = g u) -> Permutation l l' -> largest f l = largest g l'.
Proof.
  intros E P. destruct l as [|x l].
  - apply Permutation_nil in P. subst. reflexivity.
  - destruct l' as [|y l']; [apply Permutation_sym, Permutation_nil in P; discriminate|].
    destruct (largest_spec f (x :: l)) as [(a & Ha & <-) MA]; [discriminate|]. destruct (largest_spec g (y :: l')) as [(b & Hb & <-) MB]; [discriminate|].
    apply Qcle_antisym.
    + rewrite E. apply MB. apply (Permutation_in a P Ha).
    + rewrite <- E. apply MA. apply (Permutation_in b (Permutation_sym P) Hb).
Qed.
Lemma sg_hubs : Permutation (hubs G) (hubs H).
Proof.
  unfold hubs. apply NoDup_Permutation; [apply NoDup_filter, gnodes_nodup, wf|apply NoDup_filter, gnodes_nodup, wf'|]. intros u. rewrite !filter_In.
  assert (E : In u (gnodes G) <-> In u (gnodes H)) by apply SN. rewrite E. assert (D := sg_dangling u). unfold dangling in D. apply (f_equal negb) in D. rewrite !negb_involutive in D. rewrite D. reflexivity.
Qed.
Lemma sg_auths : Permutation (auths G) (auths H).
Proof.
  unfold auths. apply NoDup_Permutation; [apply NoDup_filter, gnodes_nodup, wf|apply NoDup_filter, gnodes_nodup, wf'|]. intros u. rewrite !filter_In.
  assert (E : In u (gnodes G) <-> In u (gnodes H)) by apply SN. rewrite E. rewrite !existsb_exists.
  split; intros (A & x & B & C); (split; [exact A|]); exists x; rewrite (sg_has G H SG) in *; (split; [|exact C]); [apply (Permutation_in x PN B)|apply (Permutation_in x (Permutation_sym PN) B)].
Qed.
Lemma hits_ext : ext_round (hits_next G) (hits_next H).
Proof.
  intros f g E u. unfold hits_next. cbv zeta.
  assert (E' : forall v, from_succs G (from_preds G f) v = from_succs H (from_preds H g) v) by (intros v; apply sg_from_succs; intros w; apply sg_from_preds, E).
  apply divided_same; [|apply E']. apply sg_largest; [exact E'|apply sg_hubs].
Qed.
Lemma sg_covered nstart : hits_covered G (hubs G) nstart -> hits_covered H (hubs H) nstart.
Proof.
  intros [A|[A B]]; [left; intros u Hu; apply A, (Permutation_in u (Permutation_sym sg_hubs) Hu)|right; split; [exact A|]].
  intros a b x K. apply (B a b x). rewrite (sg_weight G H SG). exact K.
Qed.
Definition same_omaps (a b : option (nodemap Qc * nodemap Qc)) : Prop :=
  match a, b with Some (x, x'), Some (y, y') => same_map x y /\ same_map x' y' | None, None => True | _, _ => False end.
Theorem C70_hits max_iter tol nstart normalized : usable G nstart -> hits_covered G (hubs G) nstart -> (exists u, node G u) -> 1 <= max_iter ->
  alike G H (fun K => nx_hits K max_iter tol nstart normalized) same_omaps.
Proof.
  intros U HC NE MI. destruct (with_nodes NE) as [N1 N2]. assert (V := proj1 (sg_usable nstart) U). assert (EX := hits_ext). assert (X0 := sg_distr nstart).
  eapply alike_intro; [apply (C58_hits G wf max_iter tol nstart normalized (proj1 U) HC)|apply (C58_hits H wf' max_iter tol nstart normalized (proj1 V) (sg_covered _ HC))|]. cbv zeta.
  destruct U as (_ & A1 & A2 & A3), V as (_ & B1 & B2 & B3). intros [[[m w]|]|e] [[[m' w']|]|e'] P Q; cbn [same_outcome same_omaps]; try contradiction.
  - destruct P as (k & F & P & PA), Q as (k' & F' & Q & QA). apply (sg_first _ _ _ _ tol max_iter k' EX X0) in F'. rewrite <- (first_unique _ _ _ _ _ _ F F') in Q, QA.
    assert (IT := fun j => iterate_same _ _ _ _ EX X0 j). split.
    + eapply same_map_intro; [exact P|exact Q|]. intros u q. cbv beta. rewrite SN.
      assert (E : hub_score G (distr (gnodes G) nstart) k normalized u = hub_score H (distr (gnodes H) nstart) k normalized u).
      { unfold hub_score. cbv zeta. destruct normalized; [|apply IT]. apply divided_same; [|apply IT]. apply sg_qtotal. apply IT. }
      rewrite E. reflexivity.
    + eapply same_map_intro; [exact PA|exact QA|]. intros u q. cbv beta. rewrite SN.
      assert (E : auth_score G (distr (gnodes G) nstart) k normalized u = auth_score H (distr (gnodes H) nstart) k normalized u).
      { unfold auth_score. cbv zeta. assert (EP := fun v => sg_from_preds _ _ v (IT (k - 1))).
        destruct normalized; (apply divided_same; [|apply EP]); [apply sg_qtotal, EP|apply sg_largest; [exact EP|apply sg_auths]]. }
      rewrite E. reflexivity.
  - destruct P as (k & F & P), e'; try contradiction.
    + destruct Q as [Q|Q]; [contradiction|lia].
    + destruct Q as [Q _]. apply (sg_never _ _ _ _ tol max_iter EX X0) in Q. apply (first_never _ _ _ _ _ F Q).
  - destruct Q as (k & F & Q), e; try contradiction.
    + destruct P as [P|P]; [contradiction|lia].
    + destruct P as [P _]. apply (sg_first _ _ _ _ tol max_iter k EX X0) in F. apply (first_never _ _ _ _ _ F P).
  - assert (e = EConv) by (destruct e; try contradiction; try reflexivity; destruct P; [contradiction|lia]).
    assert (e' = EConv) by (destruct e'; try contradiction; try reflexivity; destruct Q; [contradiction|lia]). congruence.
Qed.
End Thm.

(** ** graph operators: renumbered arguments give the same graph *)
Section Ops.
Variable orc : mat Z -> bool.
Variables G G' H H' : graph.
Hypothesis wG : gwf G.
Hypothesis wG' : gwf G'.
Hypothesis wH : gwf H.
Hypothesis wH' : gwf H'.
Hypothesis SG : same_graph G G'.
Hypothesis SH : same_graph H H'.
Hypothesis DD : g_dir G = false -> g_dir H = false.
Local Lemma DD' : g_dir G' = false -> g_dir H' = false.
Proof. intros K. rewrite <- (sg_dir H H' SH). apply DD. rewrite (sg_dir G G' SG). exact K. Qed.
Lemma is_graph_same d d' N N' W W' R R' : is_graph R d N W -> is_graph R' d' N' W' -> d = d' -> (forall k, N k <-> N' k) -> (forall u v, W u v = W' u v) -> same_graph R R'.
Proof. intros (_ & A & B & C) (_ & A' & B' & C') E EN EW. split; [congruence|]. split; [intros u; rewrite B, B'; apply EN|intros u v; rewrite C, C'; apply EW]. Qed.
Theorem C70_intersection : same_outcome same_graph (intersection orc G H) (intersection orc G' H').
Proof.
  destruct (C28_intersection orc G H wG wH DD) as (R & -> & P). destruct (C28_intersection orc G' H' wG' wH' DD') as (R' & -> & Q). cbn [same_outcome].
  eapply is_graph_same; [exact P|exact Q|apply (sg_dir _ _ SG)| |].
  - intros k. cbv beta. rewrite (sg_node _ _ SG), (sg_node _ _ SH). reflexivity.
  - intros u v. cbv beta. rewrite (sg_weight _ _ SG), (sg_weight _ _ SH). reflexivity.
Qed.
Lemma same_nodes : (forall k, node G k <-> node H k) <-> (forall k, node G' k <-> node H' k).
Proof. split; intros E k; specialize (E k); rewrite (sg_node _ _ SG), (sg_node _ _ SH) in *; exact E. Qed.
Theorem C70_difference : same_outcome same_graph (difference orc G H) (difference orc G' H').
Proof.
  pose proof (C29_difference orc G H wG wH DD) as P. pose proof (C29_difference orc G' H' wG' wH' DD') as Q. pose proof same_nodes as E.
  destruct (difference orc G H) as [R|e], (difference orc G' H') as [R'|e']; cbn [same_outcome]; try tauto.
  - destruct P as [_ P], Q as [_ Q]. eapply is_graph_same; [exact P|exact Q|apply (sg_dir _ _ SG)|apply (sg_node _ _ SG)|].
    intros u v. cbv beta. rewrite (sg_weight _ _ SG), (sg_weight _ _ SH). reflexivity.
  - destruct P, Q; congruence.
Qed.
Theorem C70_symmetric_difference : same_outcome same_graph (symmetric_difference orc G H) (symmetric_difference orc G' H').
Proof.
  pose proof (C30_symmetric_difference orc G H wG wH DD) as P. pose proof (C30_symmetric_difference orc G' H' wG' wH' DD') as Q. pose proof same_nodes as E.
  destruct (symmetric_difference orc G H) as [R|e], (symmetric_difference orc G' H') as [R'|e']; cbn [same_outcome]; try tauto.
  - destruct P as [_ P], Q as [_ Q]. eapply is_graph_same; [exact P|exact Q|apply (sg_dir _ _ SG)|apply (sg_node _ _ SG)|].
    intros u v. cbv beta. rewrite (sg_weight _ _ SG), (sg_weight _ _ SH). reflexivity.
  - destruct P, Q; congruence.
Qed.
Theorem C70_compose : (forall k, node G k <-> node H k) \/ (forall k, node G k -> ~ node H k) ->
  same_outcome same_graph (compose orc G H) (compose orc G' H').
Proof.
  intros C. assert (C' : (forall k, node G' k <-> node H' k) \/ (forall k, node G' k -> ~ node H' k)).
  { destruct C as [C|C]; [left; apply same_nodes, C|right]. intros k A B. apply (C k); [apply (sg_node _ _ SG), A|apply (sg_node _ _ SH), B]. }
  destruct (C31_compose_partial orc G H wG wH DD C) as (R & -> & P). destruct (C31_compose_partial orc G' H' wG' wH' DD' C') as (R' & -> & Q). cbn [same_outcome].
  eapply is_graph_same; [exact P|exact Q|apply (sg_dir _ _ SG)| |].
  - intros k. cbv beta. rewrite (sg_node _ _ SG), (sg_node _ _ SH). reflexivity.
  - intros u v. cbv beta. rewrite (sg_weight _ _ SG), (sg_weight _ _ SH). reflexivity.
Qed.
Theorem C70_complement : same_graph (Model_Operators.complement orc G) (Model_Operators.complement orc G').
Proof.
  eapply is_graph_same; [apply (C33_complement orc G wG)|apply (C33_complement orc G' wG')|apply (sg_dir _ _ SG)|apply (sg_node _ _ SG)|].
  intros u v. cbv beta. destruct (nkey_eqb u v); [reflexivity|]. rewrite (sg_weight _ _ SG).
  assert (E : forall k, in_graph G k = in_graph G' k). { intros k. apply eq_true_iff_eq. rewrite <- !node_in_graph. apply (sg_node _ _ SG). }
  rewrite !E. reflexivity.
Qed.
Theorem C70_reverse : same_outcome same_graph (reverse orc G) (reverse orc G').
Proof.
  pose proof (C34_reverse orc G wG) as P. pose proof (C34_reverse orc G' wG') as Q. pose proof (sg_dir _ _ SG) as E.
  destruct (reverse orc G) as [R|e], (reverse orc G') as [R'|e']; cbn [same_outcome].
  - destruct P as (_ & P & _), Q as (_ & Q & _). eapply is_graph_same; [exact P|exact Q|reflexivity|apply (sg_node _ _ SG)|]. intros u v. cbv beta. apply (sg_weight _ _ SG).
  - destruct P, Q; congruence.
  - destruct P, Q; congruence.
  - destruct P, Q; congruence.
Qed.

(** union and full_join, with any renaming that keeps the nodes of each graph apart *)
Definition joined (c : option Z) (r1 r2 : nkey -> nkey) (G H R : graph) : Prop :=
  gwf R /\ g_dir R = g_dir G /\
  (forall k, node R k <-> (exists u, node G u /\ k = r1 u) \/ (exists v, node H v /\ k = r2 v)) /\
  (forall u v, node G u -> node G v -> weight R (r1 u) (r1 v) = weight G u v) /\
  (forall u v, node H u -> node H v -> weight R (r2 u) (r2 v) = weight H u v) /\
  (forall u v, node G u -> node H v -> weight R (r1 u) (r2 v) = c /\ weight R (r2 v) (r1 u) = c).
Lemma joined_same c r1 r2 R R' : joined c r1 r2 G H R -> joined c r1 r2 G' H' R' -> same_graph R R'.
Proof.
  intros (_ & D & N & WG & WH & WX) (_ & D' & N' & WG' & WH' & WX').
  assert (EN : forall u, node R u <-> node R' u).
  { intros k. rewrite N, N'. split; (intros [(u & A & B)|(u & A & B)]; [left|right]; exists u); (split; [|exact B]); apply (sg_node _ _ SG) || apply (sg_node _ _ SH); exact A. }
  split; [rewrite D, D'; apply (sg_dir _ _ SG)|]. split; [exact EN|]. intros x y.
  destruct (node_dec R x) as [Hx|Hx]; [|rewrite !weight_none_l; [reflexivity|rewrite <- EN; exact Hx|exact Hx]].
  destruct (node_dec R y) as [Hy|Hy]; [|rewrite !weight_none_r; [reflexivity|rewrite <- EN; exact Hy|exact Hy]].
  apply N in Hx, Hy. destruct Hx as [(u & A & ->)|(u & A & ->)], Hy as [(v & B & ->)|(v & B & ->)].
  - rewrite WG, WG'; try assumption; try (apply (sg_node _ _ SG); assumption). apply (sg_weight _ _ SG).
  - destruct (WX u v A B) as [-> _]. destruct (WX' u v) as [-> _]; [apply (sg_node _ _ SG), A|apply (sg_node _ _ SH), B|]. reflexivity.
  - destruct (WX v u B A) as [_ ->]. destruct (WX' v u) as [_ ->]; [apply (sg_node _ _ SG), B|apply (sg_node _ _ SH), A|]. reflexivity.
  - rewrite WH, WH'; try assumption; try (apply (sg_node _ _ SH); assumption). apply (sg_weight _ _ SH).
Qed.
Lemma rn_ok_same p K K' : same_graph K K' -> rn_ok p K -> rn_ok p K'.
Proof. intros S R u v Hu Hv. apply R; apply (sg_node _ _ S); assumption. Qed.
Theorem C70_union ren : rn_ok (prefix1 ren) G -> rn_ok (prefix2 ren) H -> same_outcome same_graph (union orc G H ren) (union orc G' H' ren).
Proof.
  intros R1 R2. pose proof (C26_union orc G H ren wG wH DD R1 R2) as P. pose proof (C26_union orc G' H' ren wG' wH' DD' (rn_ok_same _ _ _ SG R1) (rn_ok_same _ _ _ SH R2)) as Q. cbv zeta in P, Q.
  destruct (union orc G H ren) as [R|e], (union orc G' H' ren) as [R'|e']; cbn [same_outcome].
  - destruct P as [_ P], Q as [_ Q]. apply (joined_same None _ _ _ _ P Q).
  - destruct P as [P _], Q as (_ & u & v & A & B & C). apply (P u v); [apply (sg_node _ _ SG), A|apply (sg_node _ _ SH), B|exact C].
  - destruct Q as [Q _], P as (_ & u & v & A & B & C). apply (Q u v); [apply (sg_node _ _ SG), A|apply (sg_node _ _ SH), B|exact C].
  - destruct P, Q; congruence.
Qed.
Theorem C70_full_join ren : rn_ok (prefix1 ren) G -> rn_ok (prefix2 ren) H -> same_outcome same_graph (full_join orc G H ren) (full_join orc G' H' ren).
Proof.
  intros R1 R2. pose proof (C32_full_join orc G H ren wG wH DD R1 R2) as P. pose proof (C32_full_join orc G' H' ren wG' wH' DD' (rn_ok_same _ _ _ SG R1) (rn_ok_same _ _ _ SH R2)) as Q. cbv zeta in P, Q.
  destruct (full_join orc G H ren) as [R|e], (full_join orc G' H' ren) as [R'|e']; cbn [same_outcome].
  - destruct P as [_ P], Q as [_ Q]. apply (joined_same (Some 1%Z) _ _ _ _ P Q).
  - destruct P as [P _], Q as (_ & u & v & A & B & C). apply (P u v); [apply (sg_node _ _ SG), A|apply (sg_node _ _ SH), B|exact C].
  - destruct Q as [Q _], P as (_ & u & v & A & B & C). apply (Q u v); [apply (sg_node _ _ SG), A|apply (sg_node _ _ SH), B|exact C].
  - destruct P, Q; congruence.
Qed.
End Ops.

(** ** two numberings of one graph: the hypotheses hold, the results differ only in the numbering *)
Example C70_rank_ex : usable num_G None /\ usable num_G (Some [(KS "a", 1%Qc); (KS "c", 1%Qc)]) /\ rows_nonzero num_G true (gnodes num_G) /\
  (exists u v, edge num_G u v) /\ hits_covered num_G (hubs num_G) None /\ adds_everywhere num_G false (inl 1%Qc) (Some [(KS "a", 1%Qc); (KS "b", 1%Qc); (KS "c", 1%Qc); (KS "d", 1%Qc)]) /\ iso_known st0 /\
  exists m m', fst (nx_pagerank false num_G (Q2Qc (1 # 2)) None 100 (Q2Qc (1 # 4)) None None st0) = Val (Some m) /\
    fst (nx_pagerank false num_H (Q2Qc (1 # 2)) None 100 (Q2Qc (1 # 4)) None None st0) = Val (Some m') /\
    nm_getitem m (KS "b") = nm_getitem m' (KS "b") /\ nm_getitem m (KS "b") <> nm_getitem m (KS "c") /\ m <> m'.
Proof.
  split; [|split; [|split; [|split; [|split; [|split; [|split]]]]]].
  - split; [exact I|]. split; [intros (d & u & q & E & _); discriminate|]. split; [discriminate|intros (d & E & _); discriminate].
  - split; [cbn; repeat constructor; cbn; intuition discriminate|]. split; [|split; [discriminate|]].
    + intros (d & u & q & E & I & N). injection E as <-. apply N, num_nodes. destruct I as [K|[K|[]]]; injection K as <- <-; simpl; auto.
    + intros (d & E & K). injection E as <-. apply (f_equal this) in K. vm_compute in K. discriminate.
  - intros u v Hu Hv He. apply num_nodes in Hu, Hv. destruct Hu as [<-|[<-|[<-|[<-|[]]]]]; vm_compute; discriminate.
  - exists (KS "a"), (KS "b"), 2%Z. reflexivity.
  - left. intros u _. exact I.
  - right. right. intros v Hv. apply num_nodes in Hv. destruct Hv as [<-|[<-|[<-|[<-|[]]]]]; (split; [|cbn; tauto]).
    + exists (KS "b"), 2%Z. reflexivity.
    + exists (KS "a"), 2%Z. reflexivity.
    + exists (KS "a"), 3%Z. reflexivity.
    + exists (KS "a"), 5%Z. reflexivity.
  - apply iso_known_st0.
  - do 2 eexists. split; [vm_compute; reflexivity|]. split; [vm_compute; reflexivity|]. split; [|split].
    + reflexivity.
    + intros E. injection E as E. vm_compute in E. discriminate.
    + discriminate.
Qed.
Example C70_ops_ex : exists R R', difference (fun _ => false) num_G num_H = Val R /\ difference (fun _ => false) num_H num_G = Val R' /\ same_graph R R' /\ gnodes R <> gnodes R'.
Proof.
  destruct C70_ex as (W & W' & S & _). assert (S' : same_graph num_H num_G) by (destruct S as (A & B & C); split; [auto|split; [intros; symmetry; apply B|intros; symmetry; apply C]]).
  pose proof (C70_difference (fun _ => false) num_G num_H num_H num_G W W' W' W S S' (fun _ => eq_refl)) as K.
  destruct (difference (fun _ => false) num_G num_H) as [R|] eqn:E; [|vm_compute in E; discriminate]. destruct (difference (fun _ => false) num_H num_G) as [R'|] eqn:E'; [|vm_compute in E'; discriminate].
  exists R, R'. split; [reflexivity|]. split; [reflexivity|]. split; [exact K|]. vm_compute in E, E'. injection E as <-. injection E' as <-. vm_compute. discriminate.
Qed.
Print Assumptions C70_pagerank.
Print Assumptions C70_eigenvector.
Print Assumptions C70_katz.
Print Assumptions C70_hits.
Print Assumptions C70_union.
Print Assumptions C70_full_join.
