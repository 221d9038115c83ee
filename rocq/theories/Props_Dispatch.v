(** * C72: what networkx gets back from the functions that search a graph and return a new one *)
From Verif Require Import Base BaseProofs Model_Graph Model_Cache Spec_Cache CacheMath CacheProofs CacheProofs2
  Model_Keys Spec KeyProofs Spec_Run RunProofs Model_Bfs BfsProofs3 Walks Model_Operators OperatorProofs Props_Operators Props_Bfs
  Spec_Count Model_Measures CountProofs Spec_Weighted Model_Weighted Model_Dense Model_Cluster Spec_Cluster ClusterProofs Props_Truss Model_Ego Props_Ego
  Model_Nx Props_Nx Concrete Props_Numbering Model_Convert Props_Convert.
From Coq Require Import QArith Qcanon Permutation.
Open Scope nat_scope.

(** ** Specification: in terms of the networkx graphs alone *)
Definition nx_has (N : nxgraph) (u v : nkey) : bool := has (nx_data N u v).
(** a symmetric set of edges, no self-loops, each in k-2 or more triangles of the set *)
Definition nx_truss (N : nxgraph) (k : Z) (E : nkey -> nkey -> bool) : Prop :=
  (forall u v, E u v = true -> u <> v /\ nx_edge N u v) /\ (forall u v, E u v = E v u) /\
  forall u v, E u v = true -> (k - 2 <= Z.of_nat (count (fun x => E u x && E v x) (nx_nodes N)))%Z.
(** the edges an ego graph follows *)
Definition nx_step (N : nxgraph) (undirected : bool) : nkey -> nkey -> Prop := if undirected then sym (nx_edge N) else nx_edge N.
Definition nx_step_weight (N : nxgraph) (w : option nkey) (undirected : bool) (a b : nkey) : option Z :=
  match nx_weight N w a b with Some x => Some x | None => if undirected then nx_weight N w b a else None end.
(** [N'] is the part of [N] on the nodes satisfying [P], its weights under the name "weight" *)
Definition nx_induced (N N' : nxgraph) (w : option nkey) (P : nkey -> Prop) : Prop :=
  nx_dir N' = nx_dir N /\ NoDup (nx_nodes N') /\ (forall a, nx_node N' a <-> nx_node N a /\ P a) /\
  (forall a b x, nx_weight N w a b = Some x -> P a -> P b -> nx_data N' a b = Some [(KS "weight", x)]) /\
  (forall a b y, nx_data N' a b = Some y -> P a /\ P b /\ exists x, nx_weight N w a b = Some x).

Section D.
Variable orc : mat Z -> bool.
Lemma is_itself R : gwf R -> is_graph R (g_dir R) (node R) (weight R).
Proof. intros w. split; [exact w|]. split; [reflexivity|]. split; [reflexivity|reflexivity]. Qed.
Lemma induced_back G T N N' w P : represents G (nx_dir N) (nx_nodes N) (nx_weight N w) -> induced G P T -> nx_is N' (g_dir T) (node T) (weight T) -> nx_induced N N' w P.
Proof.
  intros Rp (I1 & I2 & I3) (A1 & A2 & A3 & A4). split; [rewrite A1, I1; apply Rp|]. split; [exact A2|].
  split; [intros a; rewrite A3, I2, (rp_node _ _ _ _ Rp); reflexivity|]. split.
  - intros a b x Hx Ha Hb. rewrite A4. rewrite <- (rp_weight _ _ _ _ Rp) in Hx. rewrite (proj2 (I3 a b x) (conj Hx (conj Ha Hb))). reflexivity.
  - intros a b y Hy. rewrite A4 in Hy. destruct (weight T a b) as [x|] eqn:E; [|discriminate]. apply I3 in E as (E & Ha & Hb). split; [exact Ha|]. split; [exact Hb|].
    exists x. rewrite <- (rp_weight _ _ _ _ Rp). exact E.
Qed.
Theorem C72_ego_graph pick N u r center undirected ea pe pn : nxwf N ->
  match dispatched_graph orc (fun G => fst (nx_ego_graph orc pick G u r center undirected false st0)) N ea pe pn with
  | Val N' => nx_node N u /\ exists w, requested N ea pe None w /\
      nx_induced N N' w (fun v => (exists d, dist (nx_step N undirected) u v d /\ within (Some r) d) /\ (center = false -> v <> u))
  | Raise e => convert_from_nx orc N ea false pe pn None = Raise e \/ (e = EKey /\ ~ nx_node N u)
  end.
Proof.
  intros wf. pose proof (C72_graph orc (fun G => fst (nx_ego_graph orc pick G u r center undirected false st0)) N ea pe pn wf) as H.
  assert (ST : forall G w, represents G (nx_dir N) (nx_nodes N) (nx_weight N w) -> forall v d, dist (ego_edge G undirected) u v d <-> dist (nx_step N undirected) u v d).
  { intros G w Rp v d. apply Props_Numbering.dist_iff. intros a b. unfold ego_edge, nx_step. destruct undirected; [unfold sym; rewrite !(rp_edge _ _ _ _ Rp); reflexivity|apply (rp_edge _ _ _ _ Rp)]. }
  destruct (dispatched_graph _ _ _ _ _ _) as [N'|e].
  - destruct H as (w & G & Rq & Rp & R & HR & H). destruct (C59_ego_graph orc pick G (proj1 Rp) u r center undirected st0 (Inv_st0 G true)) as [X _].
    rewrite HR in X. destruct X as (Nu & wR & X). split; [apply (rp_node _ _ _ _ Rp), Nu|]. exists w. split; [exact Rq|].
    specialize (H _ _ _ (is_itself R wR)). eapply induced_back; [exact Rp| |exact H]. destruct X as (X1 & X2 & X3). split; [exact X1|].
    assert (PP : forall v, ((exists d, dist (ego_edge G undirected) u v d /\ within (Some r) d) /\ (center = false -> v <> u)) <->
                           ((exists d, dist (nx_step N undirected) u v d /\ within (Some r) d) /\ (center = false -> v <> u))).
    { intros v. split; intros [(d & D1 & D2) D3]; (split; [exists d; split; [apply (ST G w Rp), D1|exact D2]|exact D3]). }
    split; [intros v; rewrite X2, PP; reflexivity|]. intros a b x. rewrite X3, !PP. reflexivity.
  - destruct H as [H|(w & G & Rq & Rp & H)]; [auto|]. destruct (C59_ego_graph orc pick G (proj1 Rp) u r center undirected st0 (Inv_st0 G true)) as [X _].
    destruct H as [H|(R & HR & H)].
    + rewrite H in X. destruct X as [-> X]. right. split; [reflexivity|]. rewrite <- (rp_node _ _ _ _ Rp). exact X.
    + rewrite HR in X. destruct H. apply X.
Qed.
(** with distance=: least total weight instead of the number of edges *)
Theorem C72_ego_graph_weighted pick N u r center undirected ea pe pn : nxwf N -> (0 <= r)%Z ->
  (forall w, requested N ea pe None w ->
    (forall a b x, nx_weight N w a b = Some x -> (0 <= x)%Z) /\
    (undirected && nx_dir N = true -> forall a b x y, nx_weight N w a b = Some x -> nx_weight N w b a = Some y -> x = y) /\
    exists a b x, nx_weight N w a b = Some x /\ x <> 0%Z) ->
  match dispatched_graph orc (fun G => fst (nx_ego_graph orc pick G u r center undirected true st0)) N ea pe pn with
  | Val N' => nx_node N u /\ exists w, requested N ea pe None w /\
      nx_induced N N' w (fun v => (exists x, shortest (nx_step_weight N w undirected) u v x /\ (x <= r)%Z) /\ (center = false -> v <> u))
  | Raise e => convert_from_nx orc N ea false pe pn None = Raise e \/ (e = EKey /\ ~ nx_node N u)
  end.
Proof.
  intros wf Hr Hw. pose proof (C72_graph orc (fun G => fst (nx_ego_graph orc pick G u r center undirected true st0)) N ea pe pn wf) as H.
  assert (T : forall G w, requested N ea pe None w -> represents G (nx_dir N) (nx_nodes N) (nx_weight N w) ->
    ego_ans G u (fun v => exists x, shortest (ego_weight G undirected) u v x /\ (x <= r)%Z) center (fst (nx_ego_graph orc pick G u r center undirected true st0))).
  { intros G w Rq Rp. destruct (Hw w Rq) as (H1 & H2 & a & b & x & H3 & H4). pose proof (rp_weight _ _ _ _ Rp) as W.
    apply (C59_ego_weighted orc pick G (proj1 Rp) u r center undirected Hr) with (s := st0); [| | |apply (Inv_st0 G true)].
    - intros v v' y Hy. rewrite W in Hy. apply (H1 _ _ _ Hy).
    - intros E v v' y y' Hy Hy'. rewrite W in Hy, Hy'. replace (g_dir G) with (nx_dir N) in E by (symmetry; apply Rp). apply (H2 E v v' y y' Hy Hy').
    - left. exists a, b, x. rewrite W. auto. }
  assert (ST : forall G w, represents G (nx_dir N) (nx_nodes N) (nx_weight N w) -> forall v x, shortest (ego_weight G undirected) u v x <-> shortest (nx_step_weight N w undirected) u v x).
  { intros G w Rp v x. apply Props_Ego.shortest_iff. intros a b. unfold ego_weight, nx_step_weight. rewrite !(rp_weight _ _ _ _ Rp). reflexivity. }
  destruct (dispatched_graph _ _ _ _ _ _) as [N'|e].
  - destruct H as (w & G & Rq & Rp & R & HR & H). pose proof (T G w Rq Rp) as X.
    rewrite HR in X. destruct X as (Nu & wR & X). split; [apply (rp_node _ _ _ _ Rp), Nu|]. exists w. split; [exact Rq|].
    specialize (H _ _ _ (is_itself R wR)). eapply induced_back; [exact Rp| |exact H]. destruct X as (X1 & X2 & X3). split; [exact X1|].
    assert (PP : forall v, ((exists x, shortest (ego_weight G undirected) u v x /\ (x <= r)%Z) /\ (center = false -> v <> u)) <->
                           ((exists x, shortest (nx_step_weight N w undirected) u v x /\ (x <= r)%Z) /\ (center = false -> v <> u))).
    { intros v. split; intros [(d & D1 & D2) D3]; (split; [exists d; split; [apply (ST G w Rp), D1|exact D2]|exact D3]). }
    split; [intros v; rewrite X2, PP; reflexivity|]. intros a b x. rewrite X3, !PP. reflexivity.
  - destruct H as [H|(w & G & Rq & Rp & H)]; [auto|]. pose proof (T G w Rq Rp) as X.
    destruct H as [H|(R & HR & H)].
    + rewrite H in X. destruct X as [-> X]. right. split; [reflexivity|]. rewrite <- (rp_node _ _ _ _ Rp). exact X.
    + rewrite HR in X. destruct H. apply X.
Qed.
(** the loop of [k_truss] is bounded by a fuel in the model: any fuel above the square of the number of nodes gives this answer *)
Definition truss_of (fuel : nat) (k : Z) (G : graph) : outcome graph :=
  obind (fst (nx_k_truss orc fuel G k st0)) (fun o => match o with Some T => Val T | None => Raise EAlg end).
Theorem C72_k_truss fuel N k ea pe pn : nxwf N -> List.length (nx_nodes N) * List.length (nx_nodes N) < fuel ->
  match dispatched_graph orc (truss_of fuel k) N ea pe pn with
  | Val N' => nx_dir N = false /\ nx_dir N' = false /\ nx_truss N k (nx_has N') /\
      (forall E, nx_truss N k E -> forall u v, E u v = true -> nx_edge N' u v) /\
      (forall u, nx_node N' u <-> exists v, nx_edge N' u v) /\
      exists w, requested N ea pe None w /\ forall u v y, nx_data N' u v = Some y -> exists x, y = [(KS "weight", x)] /\
        if (k <? 3)%Z then nx_weight N w u v = Some x else x = Z.of_nat (count (fun z => nx_has N' u z && nx_has N' v z) (nx_nodes N))
  | Raise e => convert_from_nx orc N ea false pe pn None = Raise e \/ (e = ENotImpl /\ nx_dir N = true)
  end.
Proof.
  intros wf Hf. pose proof (C72_graph orc (truss_of fuel k) N ea pe pn wf) as H.
  assert (T : forall G w, represents G (nx_dir N) (nx_nodes N) (nx_weight N w) ->
    match truss_of fuel k G with
    | Val T => nx_dir N = false /\ gwf T /\ g_dir T = false /\ truss G k (has_edge T) /\ (forall E, truss G k E -> forall u v, E u v = true -> has_edge T u v = true) /\
        (forall u, node T u <-> exists v, has_edge T u v = true) /\
        (forall u v x, weight T u v = Some x -> if (k <? 3)%Z then weight G u v = Some x else x = Z.of_nat (count (fun y => has_edge T u y && has_edge T v y) (gnodes G)))
    | Raise e => e = ENotImpl /\ nx_dir N = true
    end).
  { intros G w Rp. unfold truss_of. pose proof (proj1 (proj2 Rp)) as D. destruct (nx_dir N).
    - destruct (C25_directed G orc fuel k D st0 (Inv_st0 G true)) as [X _]. rewrite X. cbn [obind]. auto.
    - destruct (C25_k_truss G (proj1 Rp) orc fuel k D) with (s := st0) as [(T & E & X) _]; [|apply (Inv_st0 G true)|].
      + replace (glen G) with (List.length (nx_nodes N)); [exact Hf|]. rewrite <- (proj1 (proj2 (proj2 Rp))). unfold gnodes. rewrite map_length. apply (kok_len _ _ (gkok G (proj1 Rp))).
      + rewrite E. cbn [obind]. auto. }
  assert (TR : forall G w, represents G (nx_dir N) (nx_nodes N) (nx_weight N w) -> forall E, truss G k E <-> nx_truss N k E).
  { intros G w Rp E. unfold truss, nx_truss. rewrite (proj1 (proj2 (proj2 Rp))).
    assert (B : forall a b, nbr G a b = true <-> a <> b /\ nx_edge N a b).
    { intros a b. unfold nbr. rewrite andb_true_iff, negb_true_iff, has_edge_true, (rp_edge _ _ _ _ Rp).
      split; intros [C1 C2]; (split; [|exact C2]); [intros ->; rewrite nkey_eqb_refl in C1; discriminate|apply nkey_eqb_neq, C1]. }
    split; intros (A1 & A2 & A3); (split; [intros a b HE; apply B, A1, HE|split; [exact A2|exact A3] ]). }
  destruct (dispatched_graph _ _ _ _ _ _) as [N'|e].
  - destruct H as (w & G & Rq & Rp & R & HR & H). pose proof (T G w Rp) as X. rewrite HR in X. destruct X as (D & wR & D' & X1 & X2 & X3 & X4).
    specialize (H _ _ _ (is_itself R wR)). destruct H as (A1 & A2 & A3 & A4).
    assert (EQ : forall a b, nx_has N' a b = has_edge R a b).
    { intros a b. unfold nx_has. unfold has_edge. rewrite A4. destruct (weight R a b); reflexivity. }
    assert (ED : forall a b, nx_edge N' a b <-> has_edge R a b = true).
    { intros a b. rewrite <- EQ. unfold nx_edge, nx_has. destruct (nx_data N' a b) as [y|]; split; [reflexivity|eauto|intros (y & C); discriminate|discriminate]. }
    split; [exact D|]. split; [congruence|]. split; [|split; [|split] ].
    + apply (TR G w Rp) in X1. destruct X1 as (B1 & B2 & B3). split; [intros a b; rewrite EQ; apply B1|]. split; [intros a b; rewrite !EQ; apply B2|].
      intros a b Hab. rewrite EQ in Hab. specialize (B3 a b Hab). erewrite count_ext; [exact B3|]. intros x _. cbv beta. rewrite !EQ. reflexivity.
    + intros E HE a b Hab. apply ED. apply (X2 E); [apply (TR G w Rp), HE|exact Hab].
    + intros a. rewrite A3, X3. split; intros (b & Hb); exists b; apply ED, Hb.
    + exists w. split; [exact Rq|]. intros a b y Hy. rewrite A4 in Hy. destruct (weight R a b) as [x|] eqn:Ex; [|discriminate]. injection Hy as <-. exists x. split; [reflexivity|].
      specialize (X4 a b x Ex). destruct (k <? 3)%Z; [rewrite <- (rp_weight _ _ _ _ Rp); exact X4|]. rewrite X4, (proj1 (proj2 (proj2 Rp))). f_equal. apply count_ext. intros z _. rewrite !EQ. reflexivity.
  - destruct H as [H|(w & G & Rq & Rp & [H|(R & HR & H)])]; [auto| |].
    + pose proof (T G w Rp) as X. rewrite H in X. auto.
    + pose proof (T G w Rp) as X. rewrite HR in X. destruct H. apply X.
Qed.
End D.

(** ** Non-vacuity: two triangles 0-1-2 and 1-2-3 and the tail 3-4, the edge 3-4 with weight 7 *)
Lemma nxwf_by N : NoDup (nx_nodes N) -> (forall u r, In (u, r) (nx_adj N) -> incl (map fst r) (nx_nodes N)) ->
  (nx_dir N = false -> forall u v, In u (nx_nodes N) -> In v (nx_nodes N) -> nx_data N u v = nx_data N v u) -> nxwf N.
Proof.
  intros H1 H2 H3.
  assert (E : forall u v x, nx_data N u v = Some x -> In u (nx_nodes N) /\ In v (nx_nodes N)).
  { intros u v x H. unfold nx_data in H. destruct (dget (nx_adj N) u) as [r|] eqn:Er; [|discriminate].
    split; [unfold nx_nodes; apply dget_some; eauto|]. apply (H2 u r); [apply dget_In, Er|apply dget_some; eauto]. }
  constructor; [exact H1|intros u v x H; apply (E u v x H)|]. intros D u v.
  destruct (nx_data N u v) as [x|] eqn:E1; [destruct (E u v x E1) as [A B]; rewrite <- E1; apply H3; assumption|].
  destruct (nx_data N v u) as [x|] eqn:E2; [|reflexivity]. destruct (E v u x E2) as [A B]. rewrite <- E1, <- E2. apply H3; assumption.
Qed.
Definition nx_tri : nxgraph := {| nx_dir := false; nx_nattr := false; nx_adj :=
  [(KI 0, [(KI 1, []); (KI 2, [])]); (KI 1, [(KI 0, []); (KI 2, []); (KI 3, [])]); (KI 2, [(KI 0, []); (KI 1, []); (KI 3, [])]);
   (KI 3, [(KI 1, []); (KI 2, []); (KI 4, [(KS "weight", 7%Z)])]); (KI 4, [(KI 3, [(KS "weight", 7%Z)])])] |}.
Example C72_ex_searches : nxwf nx_tri /\ List.length (nx_nodes nx_tri) * List.length (nx_nodes nx_tri) < 26 /\
  (exists N', dispatched_graph (fun _ => false) (truss_of (fun _ => false) 26 3) nx_tri None false false = Val N' /\
     nx_nodes N' = [KI 0; KI 1; KI 2; KI 3] /\ nx_data N' (KI 1) (KI 2) = Some [(KS "weight", 2%Z)] /\ nx_data N' (KI 0) (KI 1) = Some [(KS "weight", 1%Z)]) /\
  (exists N', dispatched_graph (fun _ => false) (fun G => fst (nx_ego_graph (fun _ => false) (fun _ _ => false) G (KI 4) 2 true false false st0)) nx_tri None true false = Val N' /\
     nx_nodes N' = [KI 1; KI 2; KI 3; KI 4]) /\
  (exists N', dispatched_graph (fun _ => false) (fun G => fst (nx_ego_graph (fun _ => false) (fun _ _ => false) G (KI 0) 2 true false true st0)) nx_tri (Some [(KS "weight", Some 1%Z)]) false false = Val N' /\
     nx_nodes N' = [KI 0; KI 1; KI 2; KI 3] /\ nx_data N' (KI 1) (KI 3) = Some [(KS "weight", 1%Z)]).
Proof.
  split.
  - apply nxwf_by.
    + repeat constructor; simpl; intuition congruence.
    + intros u r H. simpl in H. intros x Hx. repeat (destruct H as [H|H]; [injection H as <- <-; simpl in Hx |- *; intuition|]). destruct H.
    + intros _ u v Hu Hv. simpl in Hu, Hv. repeat (destruct Hu as [<-|Hu]; [repeat (destruct Hv as [<-|Hv]; [vm_compute; reflexivity|]); destruct Hv|]). destruct Hu.
  - split; [vm_compute; lia|]. split; [eexists; split; [vm_compute; reflexivity|vm_compute; auto]|].
    split; (eexists; split; [vm_compute; reflexivity|vm_compute; auto]).
Qed.
Print Assumptions C72_ego_graph.
Print Assumptions C72_ego_graph_weighted.
Print Assumptions C72_k_truss.
