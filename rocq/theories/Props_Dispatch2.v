(** C72 for disjoint_union and full_join of two networkx graphs: nodes are renumbered, respectively joined *)
From Verif Require Import Base BaseProofs Model_Graph Model_Cache Spec_Cache CacheMath CacheProofs CacheProofs2
  Model_Keys Spec KeyProofs Spec_Run RunProofs Model_Operators OperatorProofs Props_Operators Spec_Count Model_Measures CountProofs Props_Measures Spec_Weighted
  Model_Nx Props_Nx Concrete Props_Numbering Model_Convert Props_Convert.
Open Scope nat_scope.
Section C72b.
Variable orc : mat Z -> bool.
Lemma convert_from N ea pe pn G : convert_from_nx orc N ea false pe pn None = Val G -> exists w, G = from_networkx orc N w.
Proof.
  unfold convert_from_nx. destruct (if pe then _ else _) as [ea'|e]; cbn [obind]; [|discriminate].
  destruct (pn && nx_nattr N); [discriminate|]. destruct (match ea' with None => _ | Some _ => _ end) as [w|e]; cbn [obind]; [|discriminate].
  intros [= <-]. eauto.
Qed.
Lemma convert_kid N ea pe pn G : nxwf N -> convert_from_nx orc N ea false pe pn None = Val G ->
  forall i u, nth_error (nx_nodes N) i = Some u -> kid G u = Some i.
Proof. intros wf E i u H. apply convert_from in E as [w ->]. apply (C64_from_networkx orc N w wf). exact H. Qed.
(** disjoint_union: the nodes are the numbers from 0; the first graph's nodes come first, each in the order of its graph *)
Theorem C72_disjoint_union N1 N2 ea pe pn : nxwf N1 -> nxwf N2 -> (nx_dir N1 = false -> nx_dir N2 = false) ->
  let n1 := List.length (nx_nodes N1) in let n2 := List.length (nx_nodes N2) in
  let num := fun i => KI (Z.of_nat i) in
  match dispatched_graph2 orc (disjoint_union orc) N1 N2 ea pe pn with
  | Val N' => exists w1 w2 W, requested N1 ea pe None w1 /\ requested N2 ea pe None w2 /\
      nx_is N' (nx_dir N1) (fun k => exists i, i < n1 + n2 /\ k = num i) W /\
      (forall i j u v, nth_error (nx_nodes N1) i = Some u -> nth_error (nx_nodes N1) j = Some v -> W (num i) (num j) = nx_weight N1 w1 u v) /\
      (forall i j u v, nth_error (nx_nodes N2) i = Some u -> nth_error (nx_nodes N2) j = Some v -> W (num (n1 + i)) (num (n1 + j)) = nx_weight N2 w2 u v) /\
      (forall i j, i < n1 -> j < n2 -> W (num i) (num (n1 + j)) = None /\ W (num (n1 + j)) (num i) = None)
  | Raise e => convert_from_nx orc N1 ea false pe pn None = Raise e \/ convert_from_nx orc N2 ea false pe pn None = Raise e
  end.
Proof.
  intros wf wf' Hd n1 n2 num. unfold dispatched_graph2. destruct (convert_from_nx orc N1 ea false pe pn None) as [G|e] eqn:E; cbn [obind]; [|auto].
  destruct (convert_from_nx orc N2 ea false pe pn None) as [H|e] eqn:E'; cbn [obind]; [|auto].
  destruct (convert_seen orc N1 ea pe pn G wf E) as (w & Rq & Rp). destruct (convert_seen orc N2 ea pe pn H wf' E') as (w' & Rq' & Rp').
  pose proof (convert_kid _ _ _ _ _ wf E) as K1. pose proof (convert_kid _ _ _ _ _ wf' E') as K2.
  assert (L1 : glen G = n1) by (unfold n1; rewrite <- (proj1 (proj2 (proj2 Rp))); symmetry; apply (len_nodes G (proj1 Rp))).
  assert (L2 : glen H = n2) by (unfold n2; rewrite <- (proj1 (proj2 (proj2 Rp'))); symmetry; apply (len_nodes H (proj1 Rp'))).
  assert (DD : g_dir G = false -> g_dir H = false) by (destruct Rp as (_ & -> & _), Rp' as (_ & -> & _); assumption).
  destruct (C27_disjoint_union orc G H (proj1 Rp) (proj1 Rp') DD) as (R & ER & wR & DR & NR & A1 & A2 & A3).
  rewrite ER. cbn [obind]. rewrite L1, L2 in NR. rewrite L1 in A2, A3.
  destruct (back R (nx_dir N1) (fun k => exists i, i < n1 + n2 /\ k = num i) (weight R)) as (N' & E3 & HH).
  { split; [assumption|]. split; [rewrite DR; apply Rp|]. split; [|reflexivity]. intros k. unfold node. rewrite NR, in_map_iff. split.
    - intros (i & <- & Hi). apply in_seq in Hi. exists i. split; [lia|reflexivity].
    - intros (i & Hi & ->). exists i. split; [reflexivity|apply in_seq; lia]. }
  rewrite E3. exists w, w', (weight R). do 3 (split; [assumption|]). split; [|split].
  - intros i j u v Hu Hv. unfold num. rewrite (A1 u v i j (K1 _ _ Hu) (K1 _ _ Hv)). apply (rp_weight _ _ _ _ Rp).
  - intros i j u v Hu Hv. unfold num. rewrite (A2 u v i j (K2 _ _ Hu) (K2 _ _ Hv)). apply (rp_weight _ _ _ _ Rp').
  - intros i j Hi Hj. destruct (nth_error (nx_nodes N1) i) as [u|] eqn:Hu; [|apply nth_error_None in Hu; fold n1 in Hu; lia].
    destruct (nth_error (nx_nodes N2) j) as [v|] eqn:Hv; [|apply nth_error_None in Hv; fold n2 in Hv; lia].
    apply (A3 u v i j (K1 _ _ Hu) (K2 _ _ Hv)).
Qed.
(** full_join: nodes and edges of both, and an edge of weight 1 both ways between every node of the one and every node of the other *)
Theorem C72_full_join N1 N2 ea pe pn : nxwf N1 -> nxwf N2 -> (nx_dir N1 = false -> nx_dir N2 = false) ->
  match dispatched_graph2 orc (fun G H => full_join orc G H []) N1 N2 ea pe pn with
  | Val N' => (forall k, nx_node N1 k -> ~ nx_node N2 k) /\
      exists w1 w2 W, requested N1 ea pe None w1 /\ requested N2 ea pe None w2 /\
      nx_is N' (nx_dir N1) (fun k => nx_node N1 k \/ nx_node N2 k) W /\
      (forall u v, nx_node N1 u -> nx_node N1 v -> W u v = nx_weight N1 w1 u v) /\
      (forall u v, nx_node N2 u -> nx_node N2 v -> W u v = nx_weight N2 w2 u v) /\
      (forall u v, nx_node N1 u -> nx_node N2 v -> W u v = Some 1%Z /\ W v u = Some 1%Z)
  | Raise e => convert_from_nx orc N1 ea false pe pn None = Raise e \/ convert_from_nx orc N2 ea false pe pn None = Raise e \/
      (e = EAlg /\ exists k, nx_node N1 k /\ nx_node N2 k)
  end.
Proof.
  intros wf wf' Hd. pose proof (C72_graph2 orc (fun G H => full_join orc G H []) N1 N2 ea pe pn wf wf') as H.
  assert (O : forall X, rn_ok None X) by (intros X u v _ _ E; exact E).
  assert (T : forall G H, gwf G -> gwf H -> (g_dir G = false -> g_dir H = false) -> match full_join orc G H [] with
    | Val R => (forall k, node G k -> ~ node H k) /\ gwf R /\ g_dir R = g_dir G /\ (forall k, node R k <-> node G k \/ node H k) /\
       (forall u v, node G u -> node G v -> weight R u v = weight G u v) /\ (forall u v, node H u -> node H v -> weight R u v = weight H u v) /\
       (forall u v, node G u -> node H v -> weight R u v = Some 1%Z /\ weight R v u = Some 1%Z)
    | Raise e => e = EAlg /\ exists k, node G k /\ node H k end).
  { intros G0 H0 wG wH Hd0. pose proof (C32_full_join orc G0 H0 [] wG wH Hd0 (O G0) (O H0)) as T. cbv zeta in T. cbn [prefix1 prefix2 nth rn] in T.
    destruct (full_join orc G0 H0 []) as [R|e].
    - destruct T as (D & T1 & T2 & T3 & T4 & T5 & T6). split; [intros k A B; apply (D k k A B eq_refl)|]. split; [assumption|]. split; [assumption|]. split; [|auto].
      intros k. rewrite T3. split; [intros [(x & Hx & ->)|(x & Hx & ->)]; auto|intros [Hk|Hk]; eauto].
    - destruct T as [-> (u & v & A & B & ->)]. eauto. }
  destruct (dispatched_graph2 _ _ _ _ _ _ _) as [N'|e].
  - destruct H as (w1 & w2 & G & H & Rq1 & Rq2 & Rp1 & Rp2 & R & HR & HH).
    specialize (T G H (proj1 Rp1) (proj1 Rp2)). rewrite HR in T. destruct T as (D & A1 & A2 & A3 & A4 & A5 & A6); [destruct Rp1 as (_ & -> & _), Rp2 as (_ & -> & _); assumption|].
    pose proof (rp_node _ _ _ _ Rp1) as P1. pose proof (rp_node _ _ _ _ Rp2) as P2.
    split; [intros k Hk Hk'; apply (D k); [apply P1|apply P2]; assumption|].
    exists w1, w2, (weight R). split; [assumption|]. split; [assumption|]. split; [|split; [|split]].
    + apply HH. split; [assumption|]. split; [rewrite A2; apply Rp1|]. split; [|reflexivity]. intros k. rewrite A3, P1, P2. reflexivity.
    + intros u v Hu Hv. rewrite A4 by (apply P1; assumption). apply (rp_weight _ _ _ _ Rp1).
    + intros u v Hu Hv. rewrite A5 by (apply P2; assumption). apply (rp_weight _ _ _ _ Rp2).
    + intros u v Hu Hv. apply A6; [apply P1|apply P2]; assumption.
  - destruct H as [H|[H|(w1 & w2 & G & H & Rq1 & Rq2 & Rp1 & Rp2 & X)]]; [auto|auto|].
    specialize (T G H (proj1 Rp1) (proj1 Rp2)).
    assert (DD : g_dir G = false -> g_dir H = false) by (destruct Rp1 as (_ & -> & _), Rp2 as (_ & -> & _); assumption).
    destruct X as [X|(R & X & NW)]; rewrite X in T; specialize (T DD).
    + right. right. destruct T as [-> (k & T1 & T2)]. split; [reflexivity|]. exists k. split; [apply (rp_node _ _ _ _ Rp1)|apply (rp_node _ _ _ _ Rp2)]; assumption.
    + destruct NW. apply T.
Qed.
End C72b.
(** two undirected networkx graphs: a -3- b, and c -4- d *)
Definition nx_ab : nxgraph := {| nx_dir := false; nx_nattr := false;
  nx_adj := [(KS "a", [(KS "b", [(KS "weight", 3%Z)])]); (KS "b", [(KS "a", [(KS "weight", 3%Z)])])] |}.
Definition nx_cd : nxgraph := {| nx_dir := false; nx_nattr := false;
  nx_adj := [(KS "c", [(KS "d", [(KS "weight", 4%Z)])]); (KS "d", [(KS "c", [(KS "weight", 4%Z)])])] |}.
Lemma nx_pair_wf a b z : a <> b -> nxwf {| nx_dir := false; nx_nattr := false;
  nx_adj := [(a, [(b, [(KS "weight", z)])]); (b, [(a, [(KS "weight", z)])])] |}.
Proof.
  intros Hab.
  assert (H : forall u v, nx_data {| nx_dir := false; nx_nattr := false; nx_adj := [(a, [(b, [(KS "weight", z)])]); (b, [(a, [(KS "weight", z)])])] |} u v
    = if nkey_eqb u a && nkey_eqb v b || nkey_eqb u b && nkey_eqb v a then Some [(KS "weight", z)] else None).
  { intros u v. unfold nx_data. cbn [nx_adj dget]. destruct (nkey_eqb u a) eqn:E1.
    - apply nkey_eqb_eq in E1. subst u. assert (E : nkey_eqb a b = false) by (destruct (nkey_eqb a b) eqn:E; [apply nkey_eqb_eq in E; contradiction|reflexivity]).
      rewrite E. cbn [dget andb]. rewrite orb_false_r. destruct (nkey_eqb v b); reflexivity.
    - cbn [andb orb]. destruct (nkey_eqb u b); cbn [dget andb]; [|reflexivity]. destruct (nkey_eqb v a); reflexivity. }
  constructor.
  - cbn. constructor; [|constructor; [|constructor]]; simpl; intuition congruence.
  - intros u v x. rewrite H. destruct (nkey_eqb u a && nkey_eqb v b) eqn:E1; cbn [orb].
    + apply andb_true_iff in E1 as [E1 E2]. apply nkey_eqb_eq in E1. apply nkey_eqb_eq in E2. subst. intros _. cbn. auto.
    + destruct (nkey_eqb u b && nkey_eqb v a) eqn:E2; [|discriminate]. apply andb_true_iff in E2 as [E2 E3]. apply nkey_eqb_eq in E2. apply nkey_eqb_eq in E3. subst. intros _. cbn. auto.
  - intros _ u v. rewrite !H. rewrite orb_comm. rewrite (andb_comm (nkey_eqb v b)), (andb_comm (nkey_eqb v a)). reflexivity.
Qed.
Example C72_ex_joins : nxwf nx_ab /\ nxwf nx_cd /\
  (exists N', dispatched_graph2 (fun _ => false) (disjoint_union (fun _ => false)) nx_ab nx_cd (Some [(KS "weight", Some 1%Z)]) false false = Val N' /\
     nx_nodes N' = [KI 0; KI 1; KI 2; KI 3] /\ nx_data N' (KI 0) (KI 1) = Some [(KS "weight", 3%Z)] /\ nx_data N' (KI 3) (KI 2) = Some [(KS "weight", 4%Z)] /\
     nx_data N' (KI 1) (KI 2) = None) /\
  (exists N', dispatched_graph2 (fun _ => false) (fun G H => full_join (fun _ => false) G H []) nx_ab nx_cd (Some [(KS "weight", Some 1%Z)]) false false = Val N' /\
     nx_data N' (KS "a") (KS "b") = Some [(KS "weight", 3%Z)] /\ nx_data N' (KS "d") (KS "a") = Some [(KS "weight", 1%Z)]).
Proof.
  split; [apply nx_pair_wf; discriminate|]. split; [apply nx_pair_wf; discriminate|].
  split; eexists; (split; [vm_compute; reflexivity|]); repeat split.
Qed.
Print Assumptions C72_disjoint_union.
Print Assumptions C72_full_join.
