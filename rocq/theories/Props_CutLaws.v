(** * C83: cuts, boundaries, volumes and dominating sets agree with one another *)
From Verif Require Import Base BaseProofs Model_Graph Model_Cache Spec_Cache Spec_Run Spec_Session Spec_Laws Model_Keys Spec Spec_Count
  Model_Bfs Model_Measures KeyProofs CountProofs OperatorProofs LawProofs Concrete
  Props_Bfs Props_Operators Props_Cuts Props_Measures Props_Session.
From Coq Require Import QArith Permutation.
Open Scope nat_scope.

Lemma sum_ext {X Y} (f : X -> Z) (g : Y -> Z) (h : X -> Y) l m : NoDup (map h l) -> NoDup m -> (forall y, In y m <-> In y (map h l)) -> (forall x, In x l -> f x = g (h x)) ->
  total f l = total g m.
Proof.
  intros A B C E. rewrite (total_ext _ (fun x => g (h x)) l E), <- total_map. apply total_perm. apply NoDup_Permutation; [assumption|assumption|]. intros y. symmetry. apply C.
Qed.
Lemma nodup_app_intro {X} (l m : list X) : NoDup l -> NoDup m -> (forall x, In x l -> In x m -> False) -> NoDup (l ++ m).
Proof.
  intros A B C. induction A as [|a l Na A IH]; [exact B|]. cbn [app]. constructor.
  - intros H. apply in_app_or in H as [H|H]; [contradiction|]. apply (C a); [left; reflexivity|exact H].
  - apply IH. intros x Hx Hm. apply (C x); [right; exact Hx|exact Hm].
Qed.
Lemma prod_nodup {X Y} (l : list X) (m : list Y) : NoDup l -> NoDup m -> NoDup (list_prod l m).
Proof.
  intros A B. induction A as [|a l Na A IH]; [constructor|]. cbn [list_prod]. apply nodup_app_intro; [|exact IH|].
  - clear - B. induction B as [|b m Nb B IH]; [constructor|]. cbn [map]. constructor; [|assumption]. intros H. apply in_map_iff in H as (y & [= <-] & H). contradiction.
  - intros [x y] H1 H2. apply in_map_iff in H1 as (z & [= <- <-] & _). apply in_prod_iff in H2 as [H2 _]. contradiction.
Qed.
(** the sum of the values of an edge boundary: 1 for every edge, or its weight *)
Definition worth (w : bool) (e : nkey * nkey * option Z) : Z := if w then match snd e with Some x => x | None => 0%Z end else 1%Z.
Definition other (G : graph) (S S' : list nkey) : Prop := forall k, node G k -> (In k S' <-> ~ In k S).

Section C.
Variable G : graph.
Hypothesis wf : gwf G.
Lemma weight_fun u v x y : weight G u v = Some x -> weight G u v = Some y -> x = y. Proof. congruence. Qed.
(** what edge_boundary sums up to *)
Lemma boundary_sum S T w l : default_ok G S T -> seen G (nx_edge_boundary G S T w) (Val l) -> total (worth w) l = crossing G w (fun k => mem k S) (in_T S T).
Proof.
  intros DO H. assert (X := seen_ans G wf _ _ _ _ H (C36_edge_boundary G wf S T w DO)). destruct X as (l' & E & ND & M). injection E as <-.
  transitivity (total (fun e => ewt G w (fst e) (snd e)) (filter (fun e => (mem (fst e) S && in_T S T (snd e)) && has_edge G (fst e) (snd e)) (pairs (gnodes G)))).
  - apply sum_ext with (h := fst); [assumption| | |].
    + apply NoDup_filter. apply prod_nodup; apply gnodes_nodup; assumption.
    + intros [u v]. rewrite filter_In, in_map_iff. cbn [fst snd]. split.
      * intros [_ E]. rewrite !andb_true_iff, mem_In, has_edge_true in E. destruct E as [[E1 E2] [x E3]]. exists (u, v, if w then Some x else None).
        split; [reflexivity|]. apply M. split; [assumption|]. split; [assumption|]. exists x. split; [assumption|reflexivity].
      * intros ([[a b] o] & [= -> ->] & E). apply M in E as (E1 & E2 & x & E3 & _). split.
        -- apply in_prod; apply (weight_nodes G _ _ _ E3).
        -- rewrite !andb_true_iff, mem_In, has_edge_true. split; [split; assumption|]. exists x. assumption.
    + intros [[u v] o] E. apply M in E as (E1 & E2 & x & E3 & ->). unfold worth, ewt, weight0, has_edge. cbn [fst snd]. rewrite E3. destruct w; reflexivity.
  - unfold crossing. rewrite total_filter. apply total_ext. intros [u v] _. cbn [fst snd]. destruct (mem u S && in_T S T v); [|reflexivity]. cbn [andb].
    unfold ewt, weight0. unfold has_edge. destruct (weight G u v); [reflexivity|]. destruct w; reflexivity.
Qed.
Lemma crossing_ext w P Q P' Q' : (forall k, node G k -> P k = P' k) -> (forall k, node G k -> Q k = Q' k) -> crossing G w P Q = crossing G w P' Q'.
Proof.
  intros A B. unfold crossing. apply total_ext. intros [u v] H. apply in_prod_iff in H as [Hu Hv]. cbn [fst snd]. rewrite (A u Hu), (B v Hv). reflexivity.
Qed.
Lemma crossing_swap w P Q : g_dir G = false -> crossing G w P Q = crossing G w Q P.
Proof.
  intros D. unfold crossing, pairs. rewrite !total_prod. cbn [fst snd]. rewrite total_exchange. apply total_ext. intros v _. apply total_ext. intros u _.
  rewrite (andb_comm (P u)). unfold ewt, weight0. rewrite (weight_sym G u v wf D), (has_edge_sym G wf u v D). reflexivity.
Qed.
Lemma cut_swap w P Q : cut G w P Q = cut G w Q P.
Proof. unfold cut. destruct (g_dir G) eqn:D; [lia|]. rewrite (crossing_swap w P Q D). reflexivity. Qed.
(** ** cut_size *)
Theorem C83_cut_symmetric S T w z z' : seen G (nx_cut_size G S (Some T) w) (Val z) -> seen G (nx_cut_size G T (Some S) w) (Val z') -> z = z'.
Proof.
  intros H H'. destruct (seen_ans G wf _ _ _ _ H (C38_cut_size G wf S (Some T) w ltac:(discriminate))) as (? & [= <-] & ->).
  destruct (seen_ans G wf _ _ _ _ H' (C38_cut_size G wf T (Some S) w ltac:(discriminate))) as (? & [= <-] & ->). apply cut_swap.
Qed.
Lemma other_in_T S S' k : other G S S' -> node G k -> in_T S None k = mem k S' /\ in_T S' None k = mem k S.
Proof.
  intros O N. specialize (O k N). cbn [in_T]. split.
  - apply eq_true_iff_eq. rewrite negb_true_iff, mem_In, O, <- not_true_iff_false, mem_In. reflexivity.
  - apply eq_true_iff_eq. rewrite negb_true_iff, mem_In, <- not_true_iff_false, mem_In, O. split; [|auto].
    intros X. destruct (mem k S) eqn:E; [apply mem_In in E; assumption|]. destruct X. intros Y. apply mem_In in Y. congruence.
Qed.
(** S against the rest, the rest against S, and S against the rest given explicitly *)
Theorem C83_cut_complement S S' w z z' z2 : g_dir G = false -> other G S S' ->
  seen G (nx_cut_size G S None w) (Val z) -> seen G (nx_cut_size G S' None w) (Val z') -> seen G (nx_cut_size G S (Some S') w) (Val z2) -> z = z' /\ z = z2.
Proof.
  intros D O H H' H2. destruct (seen_ans G wf _ _ _ _ H (C38_cut_size G wf S None w (fun _ => D))) as (? & [= <-] & ->).
  destruct (seen_ans G wf _ _ _ _ H' (C38_cut_size G wf S' None w (fun _ => D))) as (? & [= <-] & ->). destruct (seen_ans G wf _ _ _ _ H2 (C38_cut_size G wf S (Some S') w (fun _ => D))) as (? & [= <-] & ->).
  assert (E : cut G w (fun k => mem k S) (in_T S None) = cut G w (fun k => mem k S) (in_T S (Some S'))).
  { unfold cut. rewrite D, !Z.add_0_r. apply crossing_ext; [reflexivity|]. intros k Nk. apply (other_in_T S S' k O Nk). }
  split; [|exact E]. rewrite E, cut_swap. unfold cut. rewrite D, !Z.add_0_r. apply crossing_ext; [reflexivity|]. intros k Nk. symmetry. apply (other_in_T S S' k O Nk).
Qed.
(** the cut is what edge_boundary lists, in both directions when the graph is directed *)
Theorem C83_cut_boundary S T w z l l' : seen G (nx_cut_size G S (Some T) w) (Val z) ->
  seen G (nx_edge_boundary G S (Some T) w) (Val l) -> seen G (nx_edge_boundary G T (Some S) w) (Val l') ->
  z = (total (worth w) l + if g_dir G then total (worth w) l' else 0)%Z.
Proof.
  intros H HL HL'. destruct (seen_ans G wf _ _ _ _ H (C38_cut_size G wf S (Some T) w ltac:(discriminate))) as (? & [= <-] & ->).
  rewrite (boundary_sum S (Some T) w l ltac:(intro; discriminate) HL), (boundary_sum T (Some S) w l' ltac:(intro; discriminate) HL'). reflexivity.
Qed.
Theorem C83_cut_boundary_default S w z l : g_dir G = false -> seen G (nx_cut_size G S None w) (Val z) -> seen G (nx_edge_boundary G S None w) (Val l) -> z = total (worth w) l.
Proof.
  intros D H HL. destruct (seen_ans G wf _ _ _ _ H (C38_cut_size G wf S None w (fun _ => D))) as (? & [= <-] & ->).
  rewrite (boundary_sum S None w l (fun _ => or_introl D) HL). unfold cut. rewrite D. lia.
Qed.
(** ** boundaries *)
Theorem C83_boundaries S data l r : default_ok G S None -> seen G (nx_edge_boundary G S None data) (Val l) -> seen G (nx_node_boundary G S None) (Val r) ->
  forall v, ns_contains r v = Val true <-> exists u w, In (u, v, w) l.
Proof.
  intros DO H H'. destruct (seen_ans G wf _ _ _ _ H (C36_edge_boundary G wf S None data DO)) as (? & [= <-] & _ & M).
  destruct (seen_ans G wf _ _ _ _ H' (C37_node_boundary G wf S None)) as (? & [= <-] & N & _). intros v. rewrite N. split.
  - intros (A & _ & u & B & x & E). exists u, (if data then Some x else None). apply M. split; [assumption|]. split; [|exists x; auto].
    cbn [in_T]. rewrite negb_true_iff, <- not_true_iff_false, mem_In. assumption.
  - intros (u & w & E). apply M in E as (A & B & x & E & _). cbn [in_T] in B. rewrite negb_true_iff, <- not_true_iff_false, mem_In in B.
    split; [assumption|]. split; [discriminate|]. exists u. split; [assumption|]. exists x. assumption.
Qed.
(** S dominates exactly when its boundary is the rest of the graph *)
Theorem C83_dominating S b r : seen G (nx_is_dominating_set G S) (Val b) -> seen G (nx_node_boundary G S None) (Val r) ->
  b = true <-> forall v, ns_contains r v = Val true <-> node G v /\ ~ In v S.
Proof.
  intros H H'. destruct (seen_ans G wf _ _ _ _ H (C43_is_dominating_set G wf S)) as (? & [= <-] & E).
  destruct (seen_ans G wf _ _ _ _ H' (C37_node_boundary G wf S None)) as (? & [= <-] & N & _). rewrite E. split.
  - intros X v. rewrite N. split; [intros (A & _ & u & _ & x & Q); split; [apply (weight_nodes G _ _ _ Q)|assumption]|]. intros [A B]. split; [assumption|]. split; [discriminate|]. apply X; assumption.
  - intros X v A B. assert (Y := proj2 (X v) (conj A B)). apply N in Y. tauto.
Qed.
(** ** volumes *)
Lemma vol_split w P : (vol G w P + vol G w (fun k => negb (P k)) = total (fun u => total (fun v => ewt G w u v) (gnodes G)) (gnodes G))%Z.
Proof. unfold vol, members. rewrite !total_filter, <- total_add. apply total_ext. intros u _. destruct (P u); cbn; lia. Qed.
Lemma all_edges : total (fun u => total (fun v => ewt G false u v) (gnodes G)) (gnodes G) = total (fun u => Z.of_nat (out_degree G u)) (gnodes G).
Proof. apply total_ext. intros u _. unfold out_degree. rewrite total_count. reflexivity. Qed.
Theorem C83_volume S S' z z' : other G S S' -> (g_dir G = false -> loop_free G) -> seen G (nx_volume G S false) (Val z) -> seen G (nx_volume G S' false) (Val z') ->
  (z + z' = (if g_dir G then 1 else 2) * Z.of_nat (List.length (edges G)))%Z.
Proof.
  intros O LF H H'. destruct (seen_ans G wf _ _ _ _ H (C39_volume G wf S false ltac:(discriminate))) as [_ ->]. destruct (seen_ans G wf _ _ _ _ H' (C39_volume G wf S' false ltac:(discriminate))) as [_ ->].
  assert (E : vol G false (fun k => mem k S') = vol G false (fun k => negb (mem k S))).
  { unfold vol, members. rewrite !total_filter. apply total_ext. intros k Hk. destruct (other_in_T S S' k O Hk) as [E _]. cbn [in_T] in E. rewrite E. reflexivity. }
  rewrite E, vol_split, all_edges. destruct (g_dir G) eqn:D.
  - rewrite total_length. unfold edges. rewrite D, total_filter. unfold pairs. rewrite total_prod. rewrite Z.mul_1_l. apply total_ext. intros u _. unfold out_degree. rewrite total_count. reflexivity.
  - specialize (LF eq_refl). rewrite <- (Nat2Z.inj_mul 2), <- (edges_undirected G wf D LF), (mnvals_A G wf), total_count. unfold pairs. rewrite total_prod. apply total_ext. intros u _. unfold out_degree. apply total_count.
Qed.
Theorem C83_volume_additive S S' w z z' z2 : (w = true -> g_dir G = false) -> (forall k, In k S -> ~ In k S') ->
  seen G (nx_volume G S w) (Val z) -> seen G (nx_volume G S' w) (Val z') -> seen G (nx_volume G (S ++ S') w) (Val z2) -> z2 = (z + z')%Z.
Proof.
  intros HW DJ H H' H2. destruct (seen_ans G wf _ _ _ _ H (C39_volume G wf S w HW)) as [_ ->]. destruct (seen_ans G wf _ _ _ _ H' (C39_volume G wf S' w HW)) as [_ ->].
  destruct (seen_ans G wf _ _ _ _ H2 (C39_volume G wf (S ++ S') w HW)) as [_ ->]. unfold vol, members. rewrite !total_filter, <- total_add. apply total_ext. intros k _.
  specialize (DJ k). destruct (mem k S) eqn:A, (mem k S') eqn:B; [apply mem_In in A; apply mem_In in B; destruct (DJ A B)|..].
  - rewrite (proj2 (mem_In k (S ++ S'))) by (apply in_or_app; left; apply mem_In; assumption). lia.
  - rewrite (proj2 (mem_In k (S ++ S'))) by (apply in_or_app; right; apply mem_In; assumption). lia.
  - replace (mem k (S ++ S')) with false; [reflexivity|]. symmetry. apply not_true_iff_false. intros X. apply mem_In, in_app_or in X as [X|X]; apply mem_In in X; congruence.
Qed.
(** ** ratios *)
Theorem C83_normalized_cut S T w w' x x' : seen G (nx_normalized_cut_size G S (Some T) w) (Val x) -> seen G (nx_normalized_cut_size G T (Some S) w') (Val x') -> (x == x')%Q.
Proof.
  intros H H'. destruct (seen_ans G wf _ _ _ _ H (C40_normalized_cut_size G wf S (Some T) w)) as (_ & _ & E). destruct (seen_ans G wf _ _ _ _ H' (C40_normalized_cut_size G wf T (Some S) w')) as (_ & _ & E').
  rewrite E, E', cut_swap. cbn [in_T]. apply Qmult_comp; [reflexivity|]. apply Qplus_comm.
Qed.
Theorem C83_conductance S T w w' x x' : seen G (nx_conductance G S (Some T) w) (Val x) -> seen G (nx_conductance G T (Some S) w') (Val x') -> (x == x')%Q.
Proof.
  intros H H'. destruct (seen_ans G wf _ _ _ _ H (C40_conductance G wf S (Some T) w)) as (E & _). destruct (seen_ans G wf _ _ _ _ H' (C40_conductance G wf T (Some S) w')) as (E' & _).
  rewrite E, E', cut_swap, Z.min_comm. reflexivity.
Qed.
(** conductance = cut_size / min(volume, volume) *)
Theorem C83_conductance_ratio S T w x c v v' : seen G (nx_conductance G S (Some T) w) (Val x) -> seen G (nx_cut_size G S (Some T) false) (Val c) ->
  seen G (nx_volume G S false) (Val v) -> seen G (nx_volume G T false) (Val v') -> (x == inject_Z c / inject_Z (Z.min v v'))%Q.
Proof.
  intros H Hc Hv Hv'. destruct (seen_ans G wf _ _ _ _ H (C40_conductance G wf S (Some T) w)) as (E & _). destruct (seen_ans G wf _ _ _ _ Hc (C38_cut_size G wf S (Some T) false ltac:(discriminate))) as (? & [= <-] & ->).
  destruct (seen_ans G wf _ _ _ _ Hv (C39_volume G wf S false ltac:(discriminate))) as [_ ->]. destruct (seen_ans G wf _ _ _ _ Hv' (C39_volume G wf T false ltac:(discriminate))) as [_ ->]. exact E.
Qed.
End C.

(** ** Concrete cases *)
Definition g_cl := mkg false 4 [(0, 1, 2%Z); (1, 2, 3%Z); (0, 2, 9%Z); (2, 3, 5%Z)].
Local Ltac run := eapply seen_after; [apply P_is_connected|vm_compute; reflexivity].
Example C83_ex : gwf g_cl /\ g_dir g_cl = false /\ loop_free g_cl /\ other g_cl [KI 0; KI 1] [KI 2; KI 3] /\ exists l r x,
  seen g_cl (nx_cut_size g_cl [KI 0; KI 1] None true) (Val 12%Z) /\ seen g_cl (nx_cut_size g_cl [KI 2; KI 3] None true) (Val 12%Z) /\
  seen g_cl (nx_cut_size g_cl [KI 0; KI 1] (Some [KI 2; KI 3]) true) (Val 12%Z) /\ seen g_cl (nx_edge_boundary g_cl [KI 0; KI 1] None true) (Val l) /\ total (worth true) l = 12%Z /\
  seen g_cl (nx_node_boundary g_cl [KI 0; KI 1] None) (Val r) /\ seen g_cl (nx_is_dominating_set g_cl [KI 0; KI 1]) (Val false) /\
  seen g_cl (nx_volume g_cl [KI 0; KI 1] false) (Val 4%Z) /\ seen g_cl (nx_volume g_cl [KI 2; KI 3] false) (Val 4%Z) /\
  seen g_cl (nx_conductance g_cl [KI 0; KI 1] (Some [KI 2; KI 3]) true) (Val x) /\ (x == 1 # 2)%Q.
Proof.
  split; [apply mkg_wf|]. split; [reflexivity|]. split.
  { intros u [x E]. destruct (weight_nodes _ _ _ _ E) as [N _]. unfold node in N. vm_compute in N. destruct N as [<-|[<-|[<-|[<-|[]]]]]; vm_compute in E; discriminate. }
  split.
  { intros k N. unfold node in N. vm_compute in N. destruct N as [<-|[<-|[<-|[<-|[]]]]]; simpl; intuition congruence. }
  do 3 eexists. do 4 (split; [run|]). split; [vm_compute; reflexivity|]. do 5 (split; [run|]). vm_compute. reflexivity.
Qed.
Print Assumptions C83_cut_symmetric.
Print Assumptions C83_cut_complement.
Print Assumptions C83_cut_boundary.
Print Assumptions C83_cut_boundary_default.
Print Assumptions C83_boundaries.
Print Assumptions C83_dominating.
Print Assumptions C83_volume.
Print Assumptions C83_volume_additive.
Print Assumptions C83_normalized_cut.
Print Assumptions C83_conductance.
Print Assumptions C83_conductance_ratio.
