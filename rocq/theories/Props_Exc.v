(** * C90: the class of the exception that a caller of a networkx-style function sees *)
From Verif Require Import Base BaseProofs Model_Graph Model_Cache Model_Keys Model_Utils Model_Bfs Model_Weighted Model_Dense Model_Measures Model_Rank
  Model_Operators Model_Nx Model_Convert Model_Exc Spec Walks KeyProofs Spec_Cache CacheMath CacheProofs CacheProofs2 Spec_Run RunProofs Spec_Count CountProofs
  Spec_Weighted Spec_Iso IsoProofs Spec_Rank RankMath Spec_Linalg Model_Linalg Props_Linalg OperatorProofs WeightedMath Concrete Props_Bfs Props_Weighted Props_PathExact Props_PathHist Props_Dense Props_Measures Props_Operators Props_Convert
  Props_Pagerank Props_Power.
From Coq Require Import Permutation Relations QArith Qcanon.
Open Scope nat_scope.
Local Notation complement := Model_Operators.complement.

(** ** Specification *)
(** what a caller sees, from every consistent state of the graph's cache *)
Definition shows (G : graph) {X} (m : call X) (R : seen_as X -> Prop) : Prop :=
  forall s, Inv G s -> R (fst (m s)) /\ Inv G (snd (m s)).
Definition shows_ndok (G : graph) {X} (m : call X) (R : seen_as X -> Prop) : Prop :=
  forall s, Inv G s -> nd_ok G s -> R (fst (m s)) /\ Inv G (snd (m s)).
Definition shows_iso (G : graph) {X} (m : call X) (R : seen_as X -> Prop) : Prop :=
  forall s, Inv G s -> iso_known s -> R (fst (m s)) /\ Inv G (snd (m s)) /\ iso_known (snd (m s)).
(** python's "is a subclass of" *)
Definition inherits : pyclass -> pyclass -> Prop := clos_refl_trans pyclass (fun c d => base c = Some d).
(** what a user who knows networkx only would catch, and what he would not *)
Definition networkx_class (c : pyclass) : Prop := inherits c CNetworkXException.
Definition internal_class (c : pyclass) : Prop := inherits c CGraphBlasAlgorithmException.

Lemma issub_inherits k c d : issub k c d = true -> inherits c d.
Proof.
  revert c. induction k as [|k IH]; intros c; cbn [issub]; (destruct (pyclass_eq c d) as [->|_]; [intros _; apply rt_refl|]); [discriminate|].
  destruct (base c) as [b|] eqn:E; [|discriminate]. intros H. eapply rt_trans; [apply rt_step; exact E|]. apply IH. assumption.
Qed.
(** the clauses of [except] match by inheritance *)
Theorem C90_issubclass c d : issubclass c d = true <-> inherits c d.
Proof.
  split; [apply issub_inherits|]. intros H. apply clos_rt_rt1n in H. induction H as [c|c b d E _ IH]; [destruct c; reflexivity|].
  clear - E IH. destruct c; cbn in E; try discriminate; injection E as <-; destruct d; vm_compute in IH; try discriminate IH; reflexivity.
Qed.
Lemma internal_dec c : internal_class c <-> issubclass c CGraphBlasAlgorithmException = true.
Proof. symmetry. apply C90_issubclass. Qed.
Lemma networkx_dec c : networkx_class c <-> issubclass c CNetworkXException = true.
Proof. symmetry. apply C90_issubclass. Qed.
(** the two families have nothing in common *)
Theorem C90_families c : ~ (networkx_class c /\ internal_class c).
Proof. rewrite internal_dec, networkx_dec. destruct c; vm_compute; intros [A B]; discriminate. Qed.

(** the exceptions of the code below are kept apart, and none of them is networkx's: what is not translated on the way
    out is not a networkx exception; the six of algorithms/exceptions.py are the package's own, the others python's *)
Theorem C90_untranslated e : ~ networkx_class (class_of e) /\
  (internal_class (class_of e) <-> In e [EAlg; EConv; EEmptyGraph; EPointless; ENoPath; EUnbounded]) /\
  forall e', class_of e = class_of e' -> e = e'.
Proof.
  rewrite internal_dec, networkx_dec. split; [destruct e; vm_compute; discriminate|]. split; [|intros e'; destruct e, e'; (reflexivity || discriminate)].
  destruct e; vm_compute; (split; intros H; try discriminate H; try reflexivity; try tauto; exfalso; repeat (destruct H as [H|H]; [discriminate H|]); exact H).
Qed.
(** and these are their members: the classes imported from networkx (and their bases), the classes of algorithms/exceptions.py *)
Theorem C90_members c :
  (networkx_class c <-> In c [CNetworkXException; CNetworkXError; CNetworkXPointlessConcept; CNetworkXAlgorithmError; CNetworkXUnfeasible; CNetworkXNoPath;
                              CNetworkXUnbounded; CNodeNotFound; CNetworkXNotImplemented; CExceededMaxIterations; CPowerIterationFailedConvergence]) /\
  (internal_class c <-> In c [CGraphBlasAlgorithmException; CConvergenceFailure; CEmptyGraphError; CPointlessConcept; CNoPath; CUnbounded]).
Proof.
  rewrite internal_dec, networkx_dec. destruct c; vm_compute; (split; split; intros H; try discriminate H; try reflexivity; try tauto; exfalso; repeat (destruct H as [H|H]; [discriminate H|]); exact H).
Qed.
Lemma shows_trying G {X} hs (m : M X) R (R' : seen_as X -> Prop) : answers G m R -> (forall o, R o -> R' (translate hs o)) -> shows G (trying hs m) R'.
Proof. intros H C s HI. destruct (H s HI) as [A B]. split; [apply C; exact A|exact B]. Qed.
Lemma shows_trying_ndok G {X} hs (m : M X) R (R' : seen_as X -> Prop) : answers_ndok G m R -> (forall o, R o -> R' (translate hs o)) -> shows_ndok G (trying hs m) R'.
Proof. intros H C s HI K. destruct (H s HI K) as [A B]. split; [apply C; exact A|exact B]. Qed.
Lemma shows_trying_iso G {X} hs (m : M X) R (R' : seen_as X -> Prop) : answers_iso G m R -> (forall o, R o -> R' (translate hs o)) -> shows_iso G (trying hs m) R'.
Proof. intros H C s HI K. destruct (H s HI K) as [A B]. split; [apply C; exact A|exact B]. Qed.
Lemma shows_refuse G {X} c (R : seen_as X -> Prop) : R (Raised c) -> shows G (refuse c) R.
Proof. intros H s HI. split; assumption. Qed.
Lemma shows_undirected G {X} (m : call X) R : (g_dir G = false -> shows G m R) -> (g_dir G = true -> R (Raised CNetworkXNotImplemented)) -> shows G (undirected_only G m) R.
Proof. unfold undirected_only. destruct (g_dir G); intros H1 H2; [apply shows_refuse; auto|auto]. Qed.
Lemma shows_directed G {X} (m : call X) R : (g_dir G = true -> shows G m R) -> (g_dir G = false -> R (Raised CNetworkXNotImplemented)) -> shows G (directed_only G m) R.
Proof. unfold directed_only. destruct (g_dir G); intros H1 H2; [auto|apply shows_refuse; auto]. Qed.
Lemma shows_digraph G {X} (m : call X) R : (g_dir G = true -> shows G m R) -> (g_dir G = false -> R (Raised CTypeError)) ->
  shows G (if negb (g_dir G) then refuse CTypeError else m) R.
Proof. destruct (g_dir G); intros H1 H2; [auto|apply shows_refuse; auto]. Qed.

Section C90.
Variable G : graph.
Hypothesis wf : gwf G.

(** ** shortest paths *)
Theorem C90_has_path u v : shows G (c_has_path G u v) (fun o =>
  match o with
  | Returned b => node G u /\ node G v /\ (b = true <-> reach (edge G) u v)
  | Raised c => c = CNodeNotFound /\ ~ (node G u /\ node G v)
  end).
Proof. eapply shows_trying; [apply (C10_has_path G u v wf)|]. intros [b|e] H; [exact H|]. destruct H as [-> H]. split; [reflexivity|exact H]. Qed.
Theorem C90_single_source u cutoff : shows G (c_single_source_spl G u cutoff) (fun o =>
  match o with
  | Returned m => node G u /\ is_map m (fun v x => exists d, x = Z.of_nat d /\ dist (edge G) u v d /\ within cutoff d)
  | Raised c => c = CNodeNotFound /\ ~ node G u
  end).
Proof.
  unfold c_single_source_spl. destruct (in_graph G u) eqn:E.
  - eapply shows_trying; [apply (C08_single_source G u cutoff wf)|]. intros [m|e] H; [exact H|]. apply node_in_graph in E. tauto.
  - apply shows_refuse. split; [reflexivity|]. intros H. apply node_in_graph in H. congruence.
Qed.
Theorem C90_single_target u cutoff : shows G (c_single_target_spl G u cutoff) (fun o =>
  match o with
  | Returned m => node G u /\ is_map m (fun v x => exists d, x = Z.of_nat d /\ dist (edge G) v u d /\ within cutoff d)
  | Raised c => c = CNodeNotFound /\ ~ node G u
  end).
Proof.
  unfold c_single_target_spl. destruct (in_graph G u) eqn:E.
  - eapply shows_trying; [apply (C08_single_target G u cutoff wf)|]. intros [m|e] H; [exact H|]. apply node_in_graph in E. tauto.
  - apply shows_refuse. split; [reflexivity|]. intros H. apply node_in_graph in H. congruence.
Qed.
Theorem C90_single_source_bellman_ford u : Props_Weighted.iso_has_edge G -> shows G (c_single_source_bf G u) (fun o =>
  match o with
  | Returned m => node G u /\ ~ neg_cycle_from (weight G) u /\ is_map m (shortest (weight G) u)
  | Raised c => (c = CNodeNotFound /\ ~ node G u) \/ (c = CNetworkXUnbounded /\ node G u /\ neg_cycle_from (weight G) u)
  end).
Proof.
  intros HE. eapply shows_trying; [apply (C14_single_source G u wf HE)|]. intros [m|e] H; [exact (conj (proj1 H) (conj (proj1 (proj2 H)) (proj1 (proj2 (proj2 H)))))|].
  destruct H as [[-> H]|[-> H]]; [left|right]; split; try reflexivity; exact H.
Qed.
Theorem C90_all_pairs_bellman_ford pyfloat isz chunk : Props_Weighted.iso_has_edge G -> shows G (c_all_pairs_bf pyfloat isz G chunk) (fun o =>
  match o with
  | Returned L => Permutation (map fst L) (gnodes G) /\
      forall u m, In (u, m) L -> ~ neg_cycle_from (weight G) u /\ is_map m (shortest (weight G) u)
  | Raised c => (c = CNetworkXUnbounded /\ exists u, node G u /\ neg_cycle_from (weight G) u) \/
      exists e, normalize_chunksize pyfloat chunk (Z.of_nat (glen G) * isz) (Some (Z.of_nat (glen G))) = Raise e /\
                handler [(CUnbounded, CNetworkXUnbounded)] (class_of e) = c
  end).
Proof.
  intros HE. eapply shows_trying; [apply (C14_all_pairs G pyfloat isz chunk wf HE)|]. intros [L|e] H.
  - destruct H as (A & _ & B). split; [exact A|]. intros u m Hm. destruct (B u m Hm) as (B1 & B2 & _). auto.
  - destruct H as [H|[-> H]]; [right; eauto|left; split; [reflexivity|exact H]].
Qed.
(** Unbounded is not translated by this function; C90_unbounded_refuted *)
Theorem C90_bellman_ford_path_length_partial u v : Props_Weighted.iso_has_edge G -> shows G (c_bf_path_length G u v) (fun o =>
  match o with
  | Returned x => (exists d, wwalk (weight G) u d x v) /\ (~ neg_cycle_from (weight G) u -> shortest (weight G) u v x)
  | Raised c => (c = CNodeNotFound /\ ~ (node G u /\ node G v)) \/
                (c = CNetworkXNoPath /\ node G u /\ node G v /\ ~ wreach (weight G) u v) \/
                (c = CUnbounded /\ neg_cycle_from (weight G) u)
  end).
Proof.
  intros HE. eapply shows_trying; [apply (C15_path_length_partial G u v wf HE)|]. intros [x|e] H; [exact H|].
  destruct H as [[-> H]|[[-> H]|[-> H]]]; [left|right; right|right; left]; (split; [reflexivity|exact H]).
Qed.
Theorem C90_bellman_ford_path_partial fuel u v : glen G <= fuel -> ~ neg_cycle_from (weight G) u ->
  (forall x w, weight G x x = Some w -> (0 <= w)%Z) ->
  (g_iso G = true -> forall x y w, weight G x y = Some w -> (0 <= w)%Z) ->
  shows_ndok G (c_bf_path fuel G u v) (fun o =>
    match o with
    | Returned (Some l) => node G u /\ node G v /\ (l = [] /\ ~ wreach (weight G) u v \/ exists l', l = u :: l' /\ List.last l u = v)
    | Returned None => False
    | Raised c => c = CNodeNotFound /\ ~ (node G u /\ node G v)
    end).
Proof.
  intros L NC H1 H2. eapply shows_trying_ndok; [apply (C16_path_partial G fuel u v wf L NC H1 H2)|]. intros [[l|]|e] H; [|exact H|].
  - destruct H as (A & B & [C|(l' & w & C & D & _)]); (split; [exact A|split; [exact B|]]); [left; exact C|right; eauto].
  - destruct H as [-> H]. split; [reflexivity|exact H].
Qed.
(** the same in every consistent state, for any source from which no negative cycle is reachable: [Unbounded] is then a false alarm of a
    graph whose weights are one negative number, or of a graph with a self-loop and a negative edge *)
Theorem C90_bellman_ford_path fuel u v : glen G <= fuel -> ~ neg_cycle_from (weight G) u ->
  shows G (c_bf_path fuel G u v) (fun o =>
    match o with
    | Returned (Some l) => node G u /\ node G v /\
        ((l = [] /\ ~ wreach (weight G) u v) \/
         exists l' w, l = u :: l' /\ List.last l u = v /\ wpath (weight G) l w /\ shortest (weight G) u v w)
    | Returned None => False
    | Raised c => (c = CNodeNotFound /\ ~ (node G u /\ node G v)) \/
        (c = CUnbounded /\ g_iso G = true /\ exists x y w, weight G x y = Some w /\ (w < 0)%Z) \/
        ((c = CUnbounded \/ c = CValueError) /\ g_iso G = false /\ (exists x, edge G x x) /\ exists x y w, weight G x y = Some w /\ (w < 0)%Z)
    end).
Proof.
  intros L NC. eapply shows_trying; [apply (C16_returned G fuel u v wf L NC)|]. intros [[l|]|e] H; [exact H|exact H|].
  destruct H as [[-> H]|[[-> H]|[[->| ->] H]]]; [left|right; left|right; right|right; right]; (split; [auto|exact H]).
Qed.
Theorem C90_floyd_warshall_numpy pk l weighted : 
  (weighted = true -> forall u, ~ neg_cycle (weight G) u) ->
  (g_dir G = false -> forall a u, nth_error l a = Some u -> kid G u = Some a) ->
  shows G (c_fw_numpy pk G (Some l) weighted) (fun o =>
    match o with
    | Returned D => Permutation l (gnodes G)
    | Raised c => (c = CNetworkXError /\ ~ (NoDup l /\ List.length l = glen G)) \/ (c = CKeyError /\ exists u, In u l /\ ~ node G u)
    end).
Proof.
  intros NC HD. unfold c_fw_numpy. pose proof (C18_numpy_partial pk G l weighted wf NC HD) as T.
  destruct (negb _) eqn:E.
  - apply shows_refuse. left. split; [reflexivity|]. intros [N L].
    apply negb_true_iff, andb_false_iff in E. destruct E as [E|E]; apply Nat.eqb_neq in E; [congruence|]. apply E. rewrite <- L.
    symmetry. clear - N. induction N as [|x l Hx N IH]; [reflexivity|]. cbn [distinct List.length]. rewrite IH.
    destruct (existsb (nkey_eqb x) l) eqn:E; [|reflexivity]. apply existsb_exists in E as (y & Hy & Ey). apply nkey_eqb_eq in Ey. subst. tauto.
  - eapply shows_trying; [exact T|]. intros [D|e] H; [exact (proj1 H)|]. destruct H as [[-> H]|[-> H]]; [left|right]; (split; [reflexivity|exact H]).
Qed.

(** ** traversal *)
Theorem C90_bfs_layers srcs : shows G (c_bfs_layers G srcs) (fun o =>
  match o with
  | Returned Ls => forall u, In u (slist G srcs) -> node G u
  | Raised c => (c = CNetworkXError /\ exists u, In u (slist G srcs) /\ ~ node G u) \/
                (c = CTypeError /\ exists z, srcs = One (KI z) /\ ~ node G (KI z))
  end).
Proof.
  eapply shows_trying; [apply (C12_bfs_layers G srcs wf)|]. intros [Ls|e] H; [exact (proj1 (proj2 H))|].
  destruct H as [[-> H]|[-> H]]; [left|right]; (split; [reflexivity|exact H]).
Qed.
Theorem C90_descendants_at_distance u d : shows G (c_descendants_at_distance G u (Z.of_nat d)) (fun o =>
  match o with
  | Returned r => node G u /\ is_set r (fun v => dist (edge G) u v d)
  | Raised c => c = CNetworkXError /\ ~ node G u
  end).
Proof. eapply shows_trying; [apply (C12_descendants_at_distance G u d wf)|]. intros [r|e] H; [exact H|]. destruct H as [-> H]. split; [reflexivity|exact H]. Qed.
Theorem C90_descendants u : shows G (c_descendants G u) (fun o =>
  match o with
  | Returned r => node G u /\ is_set r (fun v => v <> u /\ reach (edge G) u v)
  | Raised c => c = CNetworkXError /\ ~ node G u
  end).
Proof. eapply shows_trying; [apply (C07_descendants G u wf)|]. intros [r|e] H; [exact H|]. destruct H as [-> H]. split; [reflexivity|exact H]. Qed.
Theorem C90_ancestors u : shows G (c_ancestors G u) (fun o =>
  match o with
  | Returned r => node G u /\ is_set r (fun v => v <> u /\ reach (edge G) v u)
  | Raised c => c = CNetworkXError /\ ~ node G u
  end).
Proof. eapply shows_trying; [apply (C07_ancestors G u wf)|]. intros [r|e] H; [exact H|]. destruct H as [-> H]. split; [reflexivity|exact H]. Qed.
Theorem C90_is_connected : shows G (c_is_connected G) (fun o =>
  match o with
  | Returned b => g_dir G = false /\ ~ Props_Bfs.nodes_empty G /\ (b = true <-> forall u v, node G u -> node G v -> reach (edge G) u v)
  | Raised c => (c = CNetworkXNotImplemented /\ g_dir G = true) \/ (c = CNetworkXPointlessConcept /\ g_dir G = false /\ Props_Bfs.nodes_empty G)
  end).
Proof.
  apply shows_undirected; [|auto]. intros HD. pose proof (C11_is_connected G wf HD) as T. unfold nx_is_connected in T. rewrite HD in T.
  eapply shows_trying; [exact T|]. intros [b|e] H; [exact (conj HD H)|]. destruct H as [-> H]. right. split; [reflexivity|auto].
Qed.
Theorem C90_is_weakly_connected : shows G (c_is_weakly_connected G) (fun o =>
  match o with
  | Returned b => g_dir G = true /\ ~ Props_Bfs.nodes_empty G /\ (b = true <-> forall u v, node G u -> node G v -> reach (Spec.sym (edge G)) u v)
  | Raised c => (c = CNetworkXNotImplemented /\ g_dir G = false) \/ (c = CNetworkXPointlessConcept /\ g_dir G = true /\ Props_Bfs.nodes_empty G)
  end).
Proof.
  apply shows_directed; [|auto]. intros HD. pose proof (C11_is_weakly_connected G wf HD) as T. unfold nx_is_weakly_connected in T. rewrite HD in T.
  eapply shows_trying; [exact T|]. intros [b|e] H; [exact (conj HD H)|]. destruct H as [-> H]. right. split; [reflexivity|auto].
Qed.
(** no clause for KeyError in these three; networkx raises NodeNotFound for efficiency and lowest_common_ancestor, and also a
    KeyError for node_connected_component *)
Theorem C90_node_connected_component u : shows G (c_node_connected_component G u) (fun o =>
  match o with
  | Returned r => g_dir G = false /\ node G u /\ is_set r (fun v => reach (edge G) u v)
  | Raised c => (c = CNetworkXNotImplemented /\ g_dir G = true) \/ (c = CKeyError /\ g_dir G = false /\ ~ node G u)
  end).
Proof.
  apply shows_undirected; [|auto]. intros HD.
  eapply shows_trying; [apply (C07_node_connected_component G u wf HD)|]. intros [b|e] H; [exact (conj HD H)|]. destruct H as [-> H]. right. split; [reflexivity|auto].
Qed.
Theorem C90_efficiency u v : shows G (c_efficiency G u v) (fun o =>
  match o with
  | Returned x => g_dir G = false /\ node G u /\ node G v /\ u <> v
  | Raised c => (c = CNetworkXNotImplemented /\ g_dir G = true) \/ (c = CZeroDivisionError /\ g_dir G = false /\ node G u /\ u = v) \/
                (c = CKeyError /\ g_dir G = false /\ ~ (node G u /\ node G v))
  end).
Proof.
  apply shows_undirected; [|auto]. intros HD. pose proof (C10_efficiency G u v wf HD) as T. unfold nx_efficiency in T. rewrite HD in T.
  eapply shows_trying; [exact T|]. intros [x|e] H.
  - destruct H as (A & B & C & _). exact (conj HD (conj A (conj B C))).
  - destruct e; cbn in H |- *; try (destruct H as [A _]; discriminate A); right; [right|left]; (split; [reflexivity|]); tauto.
Qed.
Theorem C90_lowest_common_ancestor u v default : acyclic (edge G) -> shows G (c_lowest_common_ancestor G u v default) (fun o =>
  match o with
  | Returned r => g_dir G = true /\ node G u /\ node G v
  | Raised c => (c = CNetworkXNotImplemented /\ g_dir G = false) \/ (c = CKeyError /\ g_dir G = true /\ ~ (node G u /\ node G v))
  end).
Proof.
  intros AC. apply shows_directed; [|auto]. intros HD. pose proof (C13_lowest_common_ancestor G u v default wf HD AC) as T. unfold nx_lowest_common_ancestor in T. rewrite HD in T.
  eapply shows_trying; [exact T|]. intros [x|e] H; [split; [exact HD|split; apply H]|]. destruct H as [-> H]. right. split; [reflexivity|auto].
Qed.

(** ** reciprocity *)
Theorem C90_reciprocity a : shows G (c_reciprocity G a) (fun o =>
  match o with
  | Returned (inl x) => g_dir G = true /\
      match a with
      | AllOf => edges G <> []
      | OneOf u => node G u /\ 0 < degree G u /\ x = recip_of G u
      | SomeOf _ => False
      end
  | Returned (inr r) => g_dir G = true /\ exists l,
      (a = SomeOf l \/ exists t, a = OneOf (KS t) /\ ~ node G (KS t) /\ l = map (fun c => KS (String c EmptyString)) (list_ascii_of_string t)) /\
      is_map r (fun u x => In u l /\ 0 < degree G u /\ x = recip_of G u)
  | Raised c =>
      (c = CTypeError /\ g_dir G = false) \/ g_dir G = true /\
      match a with
      | AllOf => c = CNetworkXError /\ edges G = []
      | OneOf u => (c = CNetworkXError /\ node G u /\ degree G u = 0) \/
          (~ node G u /\ match u with KI _ => c = CTypeError | KS t => c = CKeyError /\ exists ch, In ch (list_ascii_of_string t) /\ ~ node G (KS (String ch EmptyString)) end)
      | SomeOf l => c = CKeyError /\ exists u, In u l /\ ~ node G u
      end
  end).
Proof.
  unfold c_reciprocity. apply shows_digraph; [|auto]. intros HD.
  assert (MANY : forall l, shows G (c_reciprocity_nodes G l) (fun o => match o with
    | Returned (inl _) => False
    | Returned (inr r) => is_map r (fun u x => In u l /\ 0 < degree G u /\ x = recip_of G u)
    | Raised c => c = CKeyError /\ exists u, In u l /\ ~ node G u end)).
  { intros l. eapply shows_trying with (R := fun o => match o with
      | Val (inl _) => False
      | Val (inr r) => is_map r (fun u x => In u l /\ 0 < degree G u /\ x = recip_of G u)
      | Raise e => e = EKey /\ exists u, In u l /\ ~ node G u end).
    - eapply answers_bind; [apply (C49_reciprocity_nodes G wf l)| |].
      + intros r (_ & _ & H). apply answers_ret. exact H.
      + intros e [[-> H]|[-> H]]; [congruence|auto].
    - intros [[x|r]|e] H; [destruct H|exact H|]. destruct H as [-> H]. split; [reflexivity|exact H]. }
  destruct a as [|u|l].
  - eapply shows_trying with (R := fun o => match o with Val (inl x) => edges G <> [] | Val (inr _) => False | Raise e => e = EEmptyGraph /\ edges G = [] end).
    + pose proof (C49_overall_reciprocity G wf) as T. unfold nx_overall_reciprocity, as_digraph in T. rewrite HD in T.
      eapply answers_bind; [exact T| |].
      * intros r (_ & H & _). apply answers_ret. exact H.
      * intros e [[_ H]|[-> H]]; [congruence|]. split; [reflexivity|apply H].
    + intros [[x|r]|e] H; [exact (conj HD H)|destruct H|]. destruct H as [-> H]. right. split; [exact HD|]. split; [reflexivity|exact H].
  - destruct (in_graph G u) eqn:E.
    + apply node_in_graph in E.
      eapply shows_trying with (R := fun o => match o with Val (inl x) => 0 < degree G u /\ x = recip_of G u | Val (inr _) => False | Raise e => e = EAlg /\ degree G u = 0 end).
      * eapply answers_bind; [apply (C49_reciprocity_node G wf u)| |].
        -- intros r (_ & _ & H). apply answers_ret. exact H.
        -- intros e [[_ H]|[[_ H]|(-> & _ & H)]]; [congruence|tauto|auto].
      * intros [[x|r]|e] H; [exact (conj HD (conj E H))|destruct H|]. destruct H as [-> H]. right. split; [exact HD|]. left. split; [reflexivity|auto].
    + assert (N : ~ node G u) by (intros H; apply node_in_graph in H; congruence).
      destruct u as [z|t]; cbn [iter_key].
      * apply shows_refuse. right. split; [exact HD|]. right. split; [exact N|reflexivity].
      * intros s HI. destruct (MANY (map (fun c => KS (String c EmptyString)) (list_ascii_of_string t)) s HI) as [A B]. split; [|exact B].
        destruct (fst _) as [[x|r]|c]; [destruct A| |].
        -- split; [exact HD|]. eexists. split; [right; exists t; split; [reflexivity|split; [exact N|reflexivity]]|exact A].
        -- right. split; [exact HD|]. right. split; [exact N|]. destruct A as (-> & u & Hu & Nu). split; [reflexivity|].
           apply in_map_iff in Hu as (ch & <- & Hch). eauto.
  - intros s HI. destruct (MANY l s HI) as [A B]. split; [|exact B].
    destruct (fst _) as [[x|r]|c]; [destruct A|exact (conj HD (ex_intro _ l (conj (or_introl eq_refl) A)))|]. right. split; [exact HD|exact A].
Qed.

(** ** power iterations *)
Theorem C90_eigenvector sqr max_iter tol nstart : is_dict nstart ->
  let F := eig_next sqr G in let x0 := distr (gnodes G) nstart in
  shows G (c_eigenvector sqr G max_iter tol nstart) (fun o =>
    match o with
    | Returned m => exists k, first_settled G F x0 tol max_iter k
    | Raised c => (c = CNetworkXPointlessConcept /\ gnodes G = []) \/
                  (c = CPowerIterationFailedConvergence /\ never_settled G F x0 tol max_iter) \/
                  (c = CNetworkXError /\ sums_to_zero (gnodes G) nstart) \/
                  (c = CKeyError /\ foreign G nstart) \/ (c = CValueError /\ no_entries nstart)
    end).
Proof.
  intros D F x0. unfold c_eigenvector. destruct (glen G =? 0) eqn:E.
  - apply shows_refuse. left. split; [reflexivity|]. apply (n_zero G wf). assumption.
  - eapply shows_trying; [apply (C58_eigenvector G wf sqr max_iter tol nstart D)|].
    intros [m|e] H; [destruct H as (k & H & _); exists k; exact H|].
    destruct e; cbn in H |- *; try contradiction; auto 8. elim (n_nonzero G wf E). assumption.
Qed.
Theorem C90_katz sqr fl alpha beta max_iter tol nstart normalized : is_dict nstart -> is_dict (beta_dict beta) -> adds_everywhere G fl beta nstart ->
  let F := katz_next G alpha (beta_val beta) in let x0 := katz_start nstart in
  shows_iso G (c_katz sqr fl G alpha beta max_iter tol nstart normalized) (fun o =>
    match o with
    | Returned None => gnodes G = []
    | Returned (Some m) => exists k, first_settled G F x0 tol max_iter k
    | Raised c => (c = CPowerIterationFailedConvergence /\ never_settled G F x0 tol max_iter) \/
                  (c = CNetworkXError /\ exists d u, beta = inr d /\ node G u /\ ~ In u (map fst d)) \/
                  (c = CKeyError /\ (foreign G nstart \/ foreign G (beta_dict beta))) \/ (c = CValueError /\ no_entries nstart)
    end).
Proof.
  intros D1 D2 AE F x0. eapply shows_trying_iso; [apply (C58_katz_partial G wf sqr fl alpha beta max_iter tol nstart normalized D1 D2 AE)|].
  intros [[m|]|e] H; [destruct H as (k & H & _); exists k; exact H|exact H|]. destruct e; cbn in H |- *; try contradiction; auto 8.
Qed.
Theorem C90_hits max_iter tol nstart normalized : is_dict nstart -> hits_covered G (hubs G) nstart ->
  let F := hits_next G in let x0 := distr (gnodes G) nstart in
  shows G (c_hits G max_iter tol nstart normalized) (fun o =>
    match o with
    | Returned None => gnodes G = []
    | Returned (Some _) => exists k, first_settled G F x0 tol max_iter k
    | Raised c => (c = CArpackNoConvergence /\ never_settled G F x0 tol max_iter /\ 1 <= max_iter) \/
                  (c = CValueError /\ (no_entries nstart \/ max_iter = 0)) \/
                  (c = CKeyError /\ foreign G nstart) \/ (c = CZeroDivisionError /\ sums_to_zero (gnodes G) nstart)
    end).
Proof.
  intros D HC F x0. eapply shows_trying; [apply (C58_hits G wf max_iter tol nstart normalized D HC)|].
  intros [[[h a]|]|e] H; [destruct H as (k & H & _); exists k; exact H|exact H|]. destruct e; cbn in H |- *; try contradiction; auto 8.
  left. destruct (Nat.leb_spec max_iter 0); [lia|]. auto.
Qed.
Theorem C90_pagerank em alpha pers max_iter tol nstart dang : is_dict nstart -> is_dict pers -> is_dict dang ->
  rows_nonzero G true (gnodes G) -> (exists u v, edge G u v) ->
  shows_iso G (c_pagerank em G alpha pers max_iter tol nstart dang) (fun o =>
    match o with
    | Returned r => r <> None
    | Raised c => (c = CPowerIterationFailedConvergence /\ never_settled G (pr_round G alpha pers dang) (distr (gnodes G) nstart) tol max_iter) \/
                  (c = CKeyError /\ (foreign G nstart \/ foreign G pers \/ foreign G (used G dang))) \/
                  (c = CZeroDivisionError /\ (sums_to_zero (gnodes G) nstart \/ sums_to_zero (gnodes G) pers \/ sums_to_zero (gnodes G) (used G dang))) \/
                  (c = CValueError /\ (no_entries nstart \/ no_entries pers \/ no_entries (used G dang) \/ em = true))
    end).
Proof.
  intros D1 D2 D3 NZ HE. eapply shows_trying_iso; [apply (C57_pagerank G wf em alpha pers nstart dang max_iter tol D1 D2 D3 NZ HE)|].
  intros [[m|]|e] H; [discriminate| |].
  - cbn in H. destruct HE as (u & v & w & Hw). apply weight_nodes in Hw as [Hu _]. unfold node in Hu. rewrite H in Hu. destruct Hu.
  - destruct e; cbn in H |- *; try contradiction; auto. right. right. right. split; [reflexivity|]. destruct H as [H|[H|[H|[H _]]]]; auto.
Qed.
End C90.

(** ** operators *)
(** whatever an operator does, its caller never sees an exception class of the package itself *)
Theorem C90_operators_networkx (o : outcome graph) c : c_op o = Raised c -> ~ internal_class c.
Proof. unfold c_op, translate. destruct o as [R|e]; [discriminate|]. intros E. injection E as <-. rewrite internal_dec. destruct e; vm_compute; discriminate. Qed.
(** a refused argument of union, full_join, difference, symmetric_difference, reverse is a NetworkXError *)
Theorem C90_union orc G H : gwf G -> gwf H -> (g_dir G = false -> g_dir H = false) ->
  match c_op (Model_Operators.union orc G H []) with
  | Returned R => forall k, node G k -> ~ node H k
  | Raised c => c = CNetworkXError /\ exists k, node G k /\ node H k
  end.
Proof.
  intros w1 w2 D. pose proof (C26_union_plain orc G H w1 w2 D) as T. unfold c_op, translate. destruct (Model_Operators.union orc G H []) as [R|e]; [apply T|].
  destruct T as [-> T]. split; [reflexivity|exact T].
Qed.
Theorem C90_full_join orc G H ren : gwf G -> gwf H -> (g_dir G = false -> g_dir H = false) -> rn_ok (prefix1 ren) G -> rn_ok (prefix2 ren) H ->
  match c_op (full_join orc G H ren) with
  | Returned R => forall u v, node G u -> node H v -> rn (prefix1 ren) u <> rn (prefix2 ren) v
  | Raised c => c = CNetworkXError /\ exists u v, node G u /\ node H v /\ rn (prefix1 ren) u = rn (prefix2 ren) v
  end.
Proof.
  intros w1 w2 D R1 R2. pose proof (C32_full_join orc G H ren w1 w2 D R1 R2) as T. unfold c_op, translate. cbv zeta in T.
  destruct (full_join orc G H ren) as [R|e]; [apply T|]. destruct T as [-> T]. split; [reflexivity|exact T].
Qed.
Theorem C90_difference orc G H : gwf G -> gwf H -> (g_dir G = false -> g_dir H = false) ->
  match c_op (difference orc G H) with
  | Returned R => forall k, node G k <-> node H k
  | Raised c => c = CNetworkXError /\ ~ (forall k, node G k <-> node H k)
  end /\
  match c_op (symmetric_difference orc G H) with
  | Returned R => forall k, node G k <-> node H k
  | Raised c => c = CNetworkXError /\ ~ (forall k, node G k <-> node H k)
  end.
Proof.
  intros w1 w2 D. pose proof (C29_difference orc G H w1 w2 D) as T. pose proof (C30_symmetric_difference orc G H w1 w2 D) as T'. unfold c_op, translate. split.
  - destruct (difference orc G H) as [R|e]; [apply T|]. destruct T as [-> T]. split; [reflexivity|exact T].
  - destruct (symmetric_difference orc G H) as [R|e]; [apply T'|]. destruct T' as [-> T']. split; [reflexivity|exact T'].
Qed.
Theorem C90_reverse orc G : gwf G ->
  match c_op (reverse orc G) with
  | Returned R => g_dir G = true
  | Raised c => c = CNetworkXError /\ g_dir G = false
  end.
Proof.
  intros w1. pose proof (C34_reverse orc G w1) as T. unfold c_op, translate. destruct (reverse orc G) as [R|e]; [apply T|].
  destruct T as [-> T]. split; [reflexivity|exact T].
Qed.

(** ** Where the claim fails *)
(** on the same negative cycle single_source_bellman_ford_path_length raises NetworkXUnbounded, but bellman_ford_path_length
    and bellman_ford_path let the package's own Unbounded through, which is no networkx exception *)
Definition g_neg : graph := mkg true 3 [(0, 1, 1%Z); (1, 2, 1%Z); (2, 0, (-3)%Z)].
Theorem C90_unbounded_refuted : exists G u v, gwf G /\ Props_Weighted.iso_has_edge G /\ neg_cycle_from (weight G) u /\
  fst (c_single_source_bf G u st0) = Raised CNetworkXUnbounded /\ networkx_class CNetworkXUnbounded /\
  fst (c_bf_path_length G u v st0) = Raised CUnbounded /\ (forall fuel, fst (c_bf_path fuel G u v st0) = Raised CUnbounded) /\
  internal_class CUnbounded /\ ~ networkx_class CUnbounded.
Proof.
  exists g_neg, (KI 0), (KI 0). split; [apply mkg_wf|]. split; [intros _; exists (KI 0), (KI 1), 1%Z; reflexivity|].
  split.
  { exists (KI 0). split; [apply wreach_refl|]. exists 3, (0 + 1 + 1 + -3)%Z. split; [|reflexivity].
    eapply ww_snoc with (y := KI 2); [eapply ww_snoc with (y := KI 1); [eapply ww_snoc with (y := KI 0); [apply ww_nil|]|]|]; vm_compute; reflexivity. }
  rewrite networkx_dec, networkx_dec, internal_dec.
  repeat split; try (vm_compute; reflexivity); try (intros; vm_compute; reflexivity). vm_compute. discriminate.
Qed.
(** a missing node is a plain KeyError for these functions, where networkx documents an exception of its own; so is a key of
    nstart, personalization, dangling or beta that is not a node, and a nodelist of the right length with a foreign key *)
Theorem C90_key_error_refuted : exists G D u, gwf G /\ g_dir G = false /\ gwf D /\ g_dir D = true /\ ~ node G u /\ ~ node D u /\
  fst (c_efficiency G (KI 0) u st0) = Raised CKeyError /\ fst (c_lowest_common_ancestor D (KI 0) u None st0) = Raised CKeyError /\
  (forall pk, fst (c_fw_numpy pk D (Some [KI 0; u]) true st0) = Raised CKeyError) /\
  (forall sqr fl, fst (c_katz sqr fl D (Q2Qc (1 # 10)) (inr [(u, 1%Qc)]) 10 (Q2Qc (1 # 10)) None true st0) = Raised CKeyError) /\
  ~ networkx_class CKeyError.
Proof.
  exists (mkg false 2 [(0, 1, 1%Z)]), (mkg true 2 [(0, 1, 1%Z)]), (KI 7).
  split; [apply mkg_wf|]. split; [reflexivity|]. split; [apply mkg_wf|]. split; [reflexivity|].
  rewrite networkx_dec. split; [intros H; vm_compute in H; intuition discriminate|]. split; [intros H; vm_compute in H; intuition discriminate|].
  repeat split; try (intros; vm_compute; reflexivity). vm_compute. discriminate.
Qed.

(** ** Non-vacuity *)
Definition g_e : graph := mkg false 3 [(0, 1, 1%Z)].
Definition g_d : graph := mkg true 3 [(0, 1, 1%Z); (1, 0, 1%Z)].
Example C90_ex : gwf g_e /\ gwf g_d /\ Inv g_e st0 /\ Inv g_d st0 /\
  fst (c_has_path g_d (KI 0) (KI 1) st0) = Returned true /\ fst (c_has_path g_d (KI 0) (KI 9) st0) = Raised CNodeNotFound /\
  fst (c_single_source_spl g_d (KI 9) None st0) = Raised CNodeNotFound /\ fst (c_single_target_spl g_d (KI 9) None st0) = Raised CNodeNotFound /\
  fst (c_single_source_bf g_d (KI 9) st0) = Raised CNodeNotFound /\
  fst (c_bf_path_length g_d (KI 0) (KI 2) st0) = Raised CNetworkXNoPath /\ fst (c_bf_path_length g_d (KI 0) (KI 1) st0) = Returned 1%Z /\
  fst (c_bfs_layers g_d (Many [KI 9]) st0) = Raised CNetworkXError /\ fst (c_bfs_layers g_d (One (KI 9)) st0) = Raised CTypeError /\
  fst (c_descendants g_d (KI 9) st0) = Raised CNetworkXError /\ fst (c_ancestors g_d (KI 9) st0) = Raised CNetworkXError /\
  fst (c_descendants_at_distance g_d (KI 9) 1 st0) = Raised CNetworkXError /\
  fst (c_is_connected g_e st0) = Returned false /\ fst (c_is_connected g_d st0) = Raised CNetworkXNotImplemented /\
  fst (c_is_connected (mkg false 0 []) st0) = Raised CNetworkXPointlessConcept /\
  fst (c_is_weakly_connected (mkg true 0 []) st0) = Raised CNetworkXPointlessConcept /\
  fst (c_reciprocity g_d AllOf st0) = Returned (inl (2 # 2)%Q) /\ fst (c_reciprocity g_d (OneOf (KI 2)) st0) = Raised CNetworkXError /\
  fst (c_reciprocity (mkg true 2 []) AllOf st0) = Raised CNetworkXError /\
  fst (c_reciprocity g_d (OneOf (KI 9)) st0) = Raised CTypeError /\ fst (c_reciprocity g_d (SomeOf [KI 9]) st0) = Raised CKeyError /\
  fst (c_reciprocity g_d (OneOf (KS "x")) st0) = Raised CKeyError.
Proof. split; [apply mkg_wf|]. split; [apply mkg_wf|]. split; [apply (Inv_st0 _ true)|]. split; [apply (Inv_st0 _ true)|]. repeat split; vm_compute; reflexivity. Qed.
Example C90_ex_operators : let o := fun _ : mat Z => false in
  c_op (Model_Operators.union o g_e g_e []) = Raised CNetworkXError /\ c_op (reverse o g_e) = Raised CNetworkXError /\
  c_op (difference o g_e (mkg false 2 [])) = Raised CNetworkXError /\ exists R, c_op (reverse o g_d) = Returned R.
Proof. cbv zeta. repeat split; try (vm_compute; reflexivity). eexists. vm_compute. reflexivity. Qed.
Example C90_ex_power : forall sqr,
  fst (c_eigenvector sqr g_d 0 (Q2Qc (1 # 10)) None st0) = Raised CPowerIterationFailedConvergence /\
  fst (c_eigenvector sqr (mkg true 0 []) 5 (Q2Qc (1 # 10)) None st0) = Raised CNetworkXPointlessConcept /\
  fst (c_eigenvector sqr g_d 5 (Q2Qc (1 # 10)) (Some [(KI 0, 0%Qc)]) st0) = Raised CNetworkXError /\
  fst (c_hits g_d 0 (Q2Qc (1 # 10)) None true st0) = Raised CValueError /\
  fst (c_hits (mkg true 3 [(0, 1, 1%Z); (0, 2, 1%Z)]) 1 (Q2Qc (1 # 100)) None true st0) = Raised CArpackNoConvergence /\
  fst (c_pagerank true g_d (Q2Qc (17 # 20)) None 0 (Q2Qc (1 # 10)) None None st0) = Raised CPowerIterationFailedConvergence /\
  fst (c_katz sqr false g_d (Q2Qc (1 # 10)) (inl 1%Qc) 0 (Q2Qc (1 # 10)) None true st0) = Raised CPowerIterationFailedConvergence.
Proof. intros sqr. repeat split; vm_compute; reflexivity. Qed.

Print Assumptions C90_issubclass.
Print Assumptions C90_families.
Print Assumptions C90_members.
Print Assumptions C90_untranslated.
Print Assumptions C90_has_path.
Print Assumptions C90_single_source.
Print Assumptions C90_single_target.
Print Assumptions C90_single_source_bellman_ford.
Print Assumptions C90_all_pairs_bellman_ford.
Print Assumptions C90_bellman_ford_path_length_partial.
Print Assumptions C90_bellman_ford_path_partial.
Print Assumptions C90_bellman_ford_path.
Print Assumptions C90_floyd_warshall_numpy.
Print Assumptions C90_bfs_layers.
Print Assumptions C90_descendants_at_distance.
Print Assumptions C90_descendants.
Print Assumptions C90_ancestors.
Print Assumptions C90_is_connected.
Print Assumptions C90_is_weakly_connected.
Print Assumptions C90_node_connected_component.
Print Assumptions C90_efficiency.
Print Assumptions C90_lowest_common_ancestor.
Print Assumptions C90_reciprocity.
Print Assumptions C90_eigenvector.
Print Assumptions C90_katz.
Print Assumptions C90_hits.
Print Assumptions C90_pagerank.
Print Assumptions C90_operators_networkx.
Print Assumptions C90_union.
Print Assumptions C90_full_join.
Print Assumptions C90_difference.
Print Assumptions C90_reverse.
Print Assumptions C90_unbounded_refuted.
Print Assumptions C90_key_error_refuted.
