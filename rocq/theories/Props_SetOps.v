(** * C88: the operators and methods a NodeSet inherits from python's Set and MutableSet *)
From Verif Require Import Base BaseProofs Model_Graph Model_Keys Spec KeyProofs Spec_Containers Model_Containers ContainerProofs Props_Containers
  Props_Histories Model_Abc.
From Coq Require Import Lia Permutation.

(** ** Specification *)
(** the nodes of the graph a NodeSet belongs to *)
Definition ns_nodes (m : nodeset) : list nkey := map fst (ns_kid m).
(** what the other operand contains *)
Definition o_elem (m : nodeset) (o : other) (k : nkey) : Prop :=
  match o with PList l | PSet l => In k l | PNode x => ns_mem x k | PSelf => ns_mem m k end.
Definition o_ok (o : other) : Prop := match o with PSet l => NoDup l | PNode x => ns_ok x | _ => True end.
Definition no_list (o : other) : Prop := match o with PList _ => False | _ => True end.
(** an element of the other operand that is not a node of the graph *)
Definition foreign (m : nodeset) (o : other) : Prop := exists k, o_elem m o k /\ ~ In k (ns_nodes m).
(** a node of this set that the graph of the other NodeSet does not have *)
Definition unknown (m : nodeset) (o : other) : Prop := exists k x, o = PNode x /\ ns_mem m k /\ ~ In k (ns_nodes x).
Definition subset (P Q : nkey -> Prop) : Prop := forall k, P k -> Q k.
(** the answer is that of a python set, or KeyError for the reason [why] *)
Definition tells (r : outcome bool) (S : Prop) (why : Prop) : Prop :=
  match r with Val b => b = true <-> S | Raise e => e = EKey /\ why end.
(** a new NodeSet of the same graph holding exactly [S], or KeyError for the reason [why] *)
Definition makes (m : nodeset) (r : outcome nodeset) (S : nkey -> Prop) (why : Prop) : Prop :=
  (~ why /\ exists x, r = Val x /\ ns_ok x /\ ns_nodes x = ns_nodes m /\ forall k, ns_mem x k <-> S k) \/ (why /\ r = Raise EKey).
(** the elements of the other operand in the order in which they come *)
Definition comes (m : nodeset) (o : other) (l : list nkey) : Prop :=
  match o with PList l' | PSet l' => l = l' | _ => elems (o_elem m o) l end.
(** the elements before the first one that is not a node were treated; that one raised KeyError *)
Definition treated (m : nodeset) (l pre : list nkey) (r : outcome unit) : Prop :=
  exists post, l = pre ++ post /\ (forall k, In k pre -> In k (ns_nodes m)) /\
    ((post = [] /\ r = Val tt) \/ (exists x post', post = x :: post' /\ ~ In x (ns_nodes m) /\ r = Raise EKey)).

(** ** Proofs *)
Lemma node_dec m k : {In k (ns_nodes m)} + {~ In k (ns_nodes m)}.
Proof. apply in_dec, nkey_dec. Qed.
Lemma ns_contains_foreign m k : ~ In k (ns_nodes m) -> ns_contains m k = Raise EKey.
Proof. intros H. apply dget_none in H. unfold ns_contains. rewrite H. reflexivity. Qed.
Lemma o_iter_ok m o : ns_ok m -> o_ok o -> exists l, o_iter m o = Val l /\ comes m o l /\ (forall k, In k l <-> o_elem m o k) /\ (no_list o -> NoDup l /\ o_len m o = List.length l).
Proof.
  intros ok oo. destruct o as [l|l|x|]; cbn [o_iter comes o_elem no_list o_len].
  - exists l. split; [reflexivity|]. split; [reflexivity|]. split; [reflexivity|]. intros [].
  - exists l. split; [reflexivity|]. split; [reflexivity|]. split; [reflexivity|]. intros _. split; [exact oo|reflexivity].
  - destruct (ns_iter_ok x oo) as (l & E & H & L). exists l. split; [exact E|]. split; [exact H|]. split; [apply H|]. intros _. split; [apply H|exact L].
  - destruct (ns_iter_ok m ok) as (l & E & H & L). exists l. split; [exact E|]. split; [exact H|]. split; [apply H|]. intros _. split; [apply H|exact L].
Qed.
Lemma o_in_ok m o k : ns_ok m -> o_ok o -> In k (ns_nodes m) ->
  match o_in m o k with Val b => b = true <-> o_elem m o k | Raise e => e = EKey /\ exists x, o = PNode x /\ ~ In k (ns_nodes x) end.
Proof.
  intros ok oo Hk. destruct o as [l|l|x|]; cbn [o_in o_elem].
  - rewrite existsb_exists. split; [intros (y & H1 & H2); apply nkey_eqb_eq in H2; congruence|intros H; exists k; split; [exact H|apply nkey_eqb_refl]].
  - rewrite existsb_exists. split; [intros (y & H1 & H2); apply nkey_eqb_eq in H2; congruence|intros H; exists k; split; [exact H|apply nkey_eqb_refl]].
  - destruct (node_dec x k) as [H|H]; [rewrite (ns_contains_node x k H); apply ns_memb_iff|]. rewrite (ns_contains_foreign x k H). eauto.
  - rewrite (ns_contains_node m k Hk). apply ns_memb_iff.
Qed.
Lemma allO_ok {X} (f : X -> outcome bool) b (S : X -> Prop) l : (forall x, In x l -> match f x with Val c => c = true <-> S x | Raise e => e = EKey end) ->
  match allO f b l with
  | Val c => c = true <-> forall x, In x l -> (if b then S x else ~ S x)
  | Raise e => e = EKey /\ exists x, In x l /\ f x = Raise EKey
  end.
Proof.
  induction l as [|x l IH]; intros H; cbn [allO]; [split; [intros _ y []|reflexivity]|].
  pose proof (H x (or_introl eq_refl)) as Hx. destruct (f x) as [c|e] eqn:E; cbn [obind].
  2:{ subst. split; [reflexivity|]. exists x. split; [left; reflexivity|exact E]. }
  specialize (IH (fun y Hy => H y (or_intror Hy))). destruct (Bool.eqb c b) eqn:Eb.
  - apply Bool.eqb_prop in Eb as ->. assert (G : if b then S x else ~ S x) by (destruct b; [apply Hx; reflexivity|intros G; apply Hx in G; discriminate]).
    destruct (allO f b l) as [d|e]; [|destruct IH as [-> (y & A & B)]; split; [reflexivity|]; exists y; split; [right; exact A|exact B]].
    rewrite IH. split; [intros A y [<-|Hy]; [exact G|exact (A y Hy)]|intros A y Hy; apply A; right; exact Hy].
  - split; [discriminate|]. intros A. specialize (A x (or_introl eq_refl)). exfalso. destruct b, c; try discriminate.
    + apply Hx in A. discriminate. + apply A, Hx. reflexivity.
Qed.
Lemma ns_listed m : ns_ok m -> exists l, ns_iter m = Val l /\ NoDup l /\ (forall k, In k l <-> ns_mem m k) /\ ns_len m = List.length l.
Proof. intros ok. destruct (ns_iter_ok m ok) as (l & E & [A B] & L). eauto 10. Qed.

Section C.
Variable m : nodeset.
Hypothesis ok : ns_ok m.
Variable o : other.
Hypothesis oo : o_ok o.

Lemma le_core : no_list o -> ns_le m o = (if o_len m o <? ns_len m then Val false else obind (ns_iter m) (allO (o_in m o) true)).
Proof. destruct o; [intros []|reflexivity|reflexivity|reflexivity]. Qed.
Lemma ge_core : no_list o -> ns_ge m o = (if ns_len m <? o_len m o then Val false else obind (o_iter m o) (allO (ns_contains m) true)).
Proof. destruct o; [intros []|reflexivity|reflexivity|reflexivity]. Qed.
Theorem C88_le : no_list o -> tells (ns_le m o) (subset (ns_mem m) (o_elem m o)) (unknown m o).
Proof.
  intros NL. rewrite (le_core NL). destruct (ns_listed m ok) as (l & E & ND & Hl & L). destruct (o_iter_ok m o ok oo) as (q & Eq & _ & Hq & Hn).
  destruct (Hn NL) as [NDq Lq]. destruct (Nat.ltb_spec (o_len m o) (ns_len m)) as [C|C].
  - unfold tells. split; [discriminate|]. intros S. exfalso. rewrite L, Lq in C. assert (incl l q) by (intros k Hk; apply Hq, S, Hl, Hk).
    pose proof (NoDup_incl_length ND H). lia.
  - rewrite E. cbn [obind]. pose proof (allO_ok (o_in m o) true (o_elem m o) l) as A. unfold tells.
    assert (B : forall x, In x l -> match o_in m o x with Val c => c = true <-> o_elem m o x | Raise e => e = EKey end).
    { intros x Hx. pose proof (o_in_ok m o x ok oo (ns_mem_node m x (proj1 (Hl x) Hx))) as D. destruct (o_in m o x); [exact D|apply D]. }
    specialize (A B). destruct (allO (o_in m o) true l) as [c|e].
    + rewrite A. split; [intros D k Hk; apply D, Hl, Hk|intros D k Hk; apply D, Hl, Hk].
    + destruct A as [-> (x & Hx & Ex)]. split; [reflexivity|]. pose proof (o_in_ok m o x ok oo (ns_mem_node m x (proj1 (Hl x) Hx))) as D. rewrite Ex in D.
      destruct D as [_ (y & -> & Hy)]. exists x, y. split; [reflexivity|]. split; [apply Hl, Hx|exact Hy].
Qed.
Theorem C88_ge : no_list o -> tells (ns_ge m o) (subset (o_elem m o) (ns_mem m)) (foreign m o).
Proof.
  intros NL. rewrite (ge_core NL). destruct (ns_listed m ok) as (l & E & ND & Hl & L). destruct (o_iter_ok m o ok oo) as (q & Eq & _ & Hq & Hn).
  destruct (Hn NL) as [NDq Lq]. destruct (Nat.ltb_spec (ns_len m) (o_len m o)) as [C|C].
  - unfold tells. split; [discriminate|]. intros S. exfalso. rewrite L, Lq in C. assert (incl q l) by (intros k Hk; apply Hl, S, Hq, Hk).
    pose proof (NoDup_incl_length NDq H). lia.
  - rewrite Eq. cbn [obind]. unfold tells.
    assert (B : forall x, In x q -> match ns_contains m x with Val c => c = true <-> ns_mem m x | Raise e => e = EKey end).
    { intros x _. destruct (node_dec m x) as [H|H]; [rewrite (ns_contains_node m x H); apply ns_memb_iff|rewrite (ns_contains_foreign m x H); reflexivity]. }
    pose proof (allO_ok (ns_contains m) true (ns_mem m) q B) as A. destruct (allO (ns_contains m) true q) as [c|e].
    + rewrite A. split; intros D k Hk; apply D, Hq, Hk.
    + destruct A as [-> (x & Hx & Ex)]. split; [reflexivity|]. exists x. split; [apply Hq, Hx|]. intros H. rewrite (ns_contains_node m x H) in Ex. discriminate.
Qed.
Lemma strict_len l q : NoDup l -> NoDup q -> (forall k : nkey, In k l -> In k q) -> (List.length l < List.length q <-> ~ forall k, In k q -> In k l).
Proof.
  intros A B S. pose proof (NoDup_incl_length A S) as L. split.
  - intros H C. pose proof (NoDup_incl_length B C). lia.
  - intros H. assert (D : List.length l <> List.length q); [|lia]. intros D. apply H. intros k. apply (NoDup_length_incl A); [lia|exact S].
Qed.
Theorem C88_lt : no_list o -> tells (ns_lt m o) (subset (ns_mem m) (o_elem m o) /\ ~ subset (o_elem m o) (ns_mem m)) (unknown m o).
Proof.
  intros NL. replace (ns_lt m o) with (if ns_len m <? o_len m o then ns_le m o else Val false) by (destruct o; [destruct NL|reflexivity|reflexivity|reflexivity]).
  pose proof (C88_le NL) as H. destruct (ns_listed m ok) as (l & E & ND & Hl & L). destruct (o_iter_ok m o ok oo) as (q & Eq & _ & Hq & Hn). destruct (Hn NL) as [NDq Lq].
  assert (X : subset (ns_mem m) (o_elem m o) -> (ns_len m < o_len m o <-> ~ subset (o_elem m o) (ns_mem m))).
  { intros S. rewrite L, Lq. rewrite (strict_len l q ND NDq) by (intros k Hk; apply Hq, S, Hl, Hk).
    split; intros A B; apply A; intros k Hk; [apply Hl, B, Hq, Hk|apply Hl, B, Hq, Hk]. }
  destruct (Nat.ltb_spec (ns_len m) (o_len m o)) as [C|C].
  - unfold tells in *. destruct (ns_le m o) as [b|e]; [|exact H]. rewrite H. split; [intros S; split; [exact S|apply X; assumption]|intros [S _]; exact S].
  - unfold tells. split; [discriminate|]. intros [S N]. apply (X S) in N. lia.
Qed.
Theorem C88_gt : no_list o -> tells (ns_gt m o) (subset (o_elem m o) (ns_mem m) /\ ~ subset (ns_mem m) (o_elem m o)) (foreign m o).
Proof.
  intros NL. replace (ns_gt m o) with (if o_len m o <? ns_len m then ns_ge m o else Val false) by (destruct o; [destruct NL|reflexivity|reflexivity|reflexivity]).
  pose proof (C88_ge NL) as H. destruct (ns_listed m ok) as (l & E & ND & Hl & L). destruct (o_iter_ok m o ok oo) as (q & Eq & _ & Hq & Hn). destruct (Hn NL) as [NDq Lq].
  assert (X : subset (o_elem m o) (ns_mem m) -> (o_len m o < ns_len m <-> ~ subset (ns_mem m) (o_elem m o))).
  { intros S. rewrite L, Lq. rewrite (strict_len q l NDq ND) by (intros k Hk; apply Hl, S, Hq, Hk).
    split; intros A B; apply A; intros k Hk; apply Hq, B, Hl, Hk. }
  destruct (Nat.ltb_spec (o_len m o) (ns_len m)) as [C|C].
  - unfold tells in *. destruct (ns_ge m o) as [b|e]; [|exact H]. rewrite H. split; [intros S; split; [exact S|apply X; assumption]|intros [S _]; exact S].
  - unfold tells. split; [discriminate|]. intros [S N]. apply (X S) in N. lia.
Qed.
(** an order comparison with a list is a TypeError, as for a python set *)
Theorem C88_compare_list l : ns_le m (PList l) = Raise EType /\ ns_lt m (PList l) = Raise EType /\ ns_ge m (PList l) = Raise EType /\
  ns_gt m (PList l) = Raise EType /\ ns_equal m (PList l) = Val false.
Proof. repeat split. Qed.
(** [==] with a python set: never an exception, whatever that set contains *)
Theorem C88_equal_set l : o = PSet l -> exists b, ns_equal m o = Val b /\ (b = true <-> forall k, ns_mem m k <-> In k l).
Proof.
  pose proof C88_le as H0. intros ->. cbn [ns_equal]. destruct (ns_listed m ok) as (q & E & ND & Hl & L). destruct (Nat.eqb_spec (ns_len m) (o_len m (PSet l))) as [C|C].
  - pose proof (H0 Logic.I) as H. unfold tells in H. cbn [o_elem] in H. destruct (ns_le m (PSet l)) as [b|e]; [|destruct H as [_ (k & x & H & _)]; discriminate].
    exists b. split; [reflexivity|]. rewrite H. unfold subset. split; [|intros A k; apply A]. intros A k. split; [apply A|]. intros Hk. apply Hl.
    apply (NoDup_length_incl ND (l' := l)); [cbn [o_len] in C; lia|intros y Hy; apply A, Hl, Hy|exact Hk].
  - exists false. split; [reflexivity|]. split; [discriminate|]. intros A. exfalso. apply C. rewrite L. cbn [o_len]. apply Permutation_length, NoDup_Permutation; [exact ND|exact oo|].
    intros k. rewrite Hl. apply A.
Qed.
Theorem C88_isdisjoint : tells (ns_isdisjoint m o) (forall k, ~ (ns_mem m k /\ o_elem m o k)) (foreign m o).
Proof.
  unfold ns_isdisjoint. destruct (o_iter_ok m o ok oo) as (q & Eq & _ & Hq & _). rewrite Eq. cbn [obind]. unfold tells.
  assert (B : forall x, In x q -> match ns_contains m x with Val c => c = true <-> ns_mem m x | Raise e => e = EKey end).
  { intros x _. destruct (node_dec m x) as [H|H]; [rewrite (ns_contains_node m x H); apply ns_memb_iff|rewrite (ns_contains_foreign m x H); reflexivity]. }
  pose proof (allO_ok (ns_contains m) false (ns_mem m) q B) as A. destruct (allO (ns_contains m) false q) as [c|e].
  + rewrite A. split; [intros D k [H1 H2]; exact (D k (proj2 (Hq k) H2) H1)|intros D k Hk Hm; apply (D k); split; [exact Hm|apply Hq, Hk]].
  + destruct A as [-> (x & Hx & Ex)]. split; [reflexivity|]. exists x. split; [apply Hq, Hx|]. intros H. rewrite (ns_contains_node m x H) in Ex. discriminate.
Qed.
(** [isdisjoin] (as the class spells it): the same answer, between NodeSets of one graph without looking at keys *)
Theorem C88_isdisjoin : (forall x, o = PNode x -> forall k, dget (ns_kid m) k = dget (ns_kid x) k) ->
  tells (ns_isdisjoin_o m o) (forall k, ~ (ns_mem m k /\ o_elem m o k)) (foreign m o).
Proof.
  intros H. pose proof C88_isdisjoint as D. destruct o as [l|l|x|]; cbn [ns_isdisjoin_o]; [exact D|exact D| |].
  - apply C61_isdisjoin; [exact ok|exact oo|exact (H x eq_refl)].
  - apply C61_isdisjoin; [exact ok|exact ok|reflexivity].
Qed.

(** ** new sets *)
Lemma foreign_dec l : {exists k, In k l /\ ~ In k (ns_nodes m)} + {forall k, In k l -> In k (ns_nodes m)}.
Proof.
  destruct (Forall_Exists_dec (fun k => In k (ns_nodes m)) (fun k => node_dec m k) l) as [F|X].
  - right. apply Forall_forall. exact F. - left. apply Exists_exists. exact X.
Qed.
Lemma makes_intro r (S : nkey -> Prop) (why : Prop) : ~ why -> (exists x, r = Val x /\ ns_ok x /\ ns_nodes x = ns_nodes m /\ forall k, ns_mem x k <-> S k) -> makes m r S why.
Proof. intros A B. left. auto. Qed.
Lemma from_mk l : (forall k, In k l -> In k (ns_nodes m)) -> exists x, ns_from_iterable m l = Val x /\ ns_ok x /\ ns_nodes x = ns_nodes m /\ forall k, ns_mem x k <-> In k l.
Proof. intros H. destruct (ns_from_ok m l ok H) as (x & E & A & B & C). exists x. unfold ns_nodes. rewrite B. auto. Qed.
Lemma mem_nodes k : ns_mem m k -> In k (ns_nodes m).
Proof. apply ns_mem_node. Qed.
Theorem C88_and : makes m (ns_and_o m o) (fun k => ns_mem m k /\ o_elem m o k) (foreign m o).
Proof.
  unfold ns_and_o. destruct (o_iter_ok m o ok oo) as (q & Eq & _ & Hq & _). rewrite Eq. cbn [obind]. destruct (foreign_dec q) as [(k & H1 & H2)|H].
  - right. split; [exists k; split; [apply Hq, H1|exact H2]|]. unfold ns_and. rewrite (filter_foreign m q k H1 H2). reflexivity.
  - apply makes_intro; [intros (k & H1 & H2); apply H2, H, Hq, H1|]. unfold ns_and. rewrite (filterO_ok _ (ns_memb m)) by (intros k Hk; apply ns_contains_node, H, Hk).
    cbn [obind]. destruct (from_mk (filter (ns_memb m) q)) as (x & E & A & B & C); [intros k Hk; apply filter_In in Hk as [Hk _]; auto|]. exists x.
    split; [exact E|]. split; [exact A|]. split; [exact B|]. intros k. rewrite C, filter_In, ns_memb_iff, Hq. tauto.
Qed.
Theorem C88_or : makes m (ns_or_o m o) (fun k => ns_mem m k \/ o_elem m o k) (foreign m o).
Proof.
  unfold ns_or_o. destruct (o_iter_ok m o ok oo) as (q & Eq & _ & Hq & _). rewrite Eq. cbn [obind]. unfold ns_or. destruct (ns_listed m ok) as (l & E & _ & Hl & _). rewrite E. cbn [obind].
  destruct (foreign_dec q) as [(k & H1 & H2)|H].
  - right. split; [exists k; split; [apply Hq, H1|exact H2]|]. apply (from_iterable_foreign m (l ++ q) k); [apply in_or_app; auto|exact H2].
  - apply makes_intro; [intros (k & H1 & H2); apply H2, H, Hq, H1|]. destruct (from_mk (l ++ q)) as (x & Ex & A & B & C).
    { intros k Hk. apply in_app_or in Hk as [Hk|Hk]; [apply mem_nodes, Hl, Hk|auto]. }
    exists x. split; [exact Ex|]. split; [exact A|]. split; [exact B|]. intros k. rewrite C, in_app_iff, Hl, Hq. tauto.
Qed.
(** [self - other]: a list is looked up in the graph; of another NodeSet's graph this set's nodes are asked for *)
Definition sub_why (m : nodeset) (o : other) : Prop := match o with PList _ => foreign m o | _ => unknown m o end.
Lemma filter_unknown (x : nodeset) l k : In k l -> ~ In k (ns_nodes x) -> filterO (notO (ns_contains x)) l = Raise EKey.
Proof.
  intros Hi Hn. induction l as [|a l IH]; [destruct Hi|]. cbn [filterO]. destruct Hi as [->|Hi].
  - unfold notO. rewrite (ns_contains_foreign x k Hn). reflexivity.
  - unfold notO at 1. destruct (node_dec x a) as [H|H]; [rewrite (ns_contains_node x a H)|rewrite (ns_contains_foreign x a H); reflexivity]. cbn [obind].
    rewrite (IH Hi). reflexivity.
Qed.
Theorem C88_sub : makes m (ns_sub_o m o) (fun k => ns_mem m k /\ ~ o_elem m o k) (sub_why m o).
Proof.
  unfold ns_sub_o. destruct (ns_listed m ok) as (l & E & _ & Hl & _).
  assert (G : forall o' (Q : nkey -> Prop), (forall k, In k l -> exists b, o_in m o' k = Val b /\ (b = true <-> Q k)) ->
    exists x, obind (ns_iter m) (fun l => obind (filterO (notO (o_in m o')) l) (ns_from_iterable m)) = Val x /\ ns_ok x /\ ns_nodes x = ns_nodes m /\
      forall k, ns_mem x k <-> ns_mem m k /\ ~ Q k).
  { intros o' Q H. rewrite E. cbn [obind]. rewrite (filterO_ok _ (fun k => match o_in m o' k with Val b => negb b | Raise _ => false end)).
    2:{ intros k Hk. destruct (H k Hk) as (b & Eb & _). unfold notO. rewrite Eb. reflexivity. }
    cbn [obind]. destruct (from_mk (filter (fun k => match o_in m o' k with Val b => negb b | Raise _ => false end) l)) as (x & Ex & A & B & C).
    { intros k Hk. apply filter_In in Hk as [Hk _]. apply mem_nodes, Hl, Hk. }
    exists x. split; [exact Ex|]. split; [exact A|]. split; [exact B|]. intros k. rewrite C, filter_In, Hl. split.
    - intros [H1 H2]. split; [exact H1|]. destruct (H k (proj2 (Hl k) H1)) as (b & Eb & Hb). rewrite Eb in H2. intros HQ. apply Hb in HQ as ->. discriminate.
    - intros [H1 H2]. split; [exact H1|]. destruct (H k (proj2 (Hl k) H1)) as (b & Eb & Hb). rewrite Eb. destruct b; [destruct H2; apply Hb; reflexivity|reflexivity]. }
  destruct o as [q|q|x|]; cbn [o_set sub_why].
  - destruct (foreign_dec q) as [(k & H1 & H2)|H].
    + right. split; [exists k; auto|]. rewrite (from_iterable_foreign m q k H1 H2). reflexivity.
    + apply makes_intro; [intros (k & H1 & H2); apply H2, H, H1|]. destruct (from_mk q H) as (x & Ex & A & B & C). rewrite Ex. cbn [obind o_elem]. apply G.
      intros k Hk. cbn [o_in]. exists (ns_memb x k). split; [apply ns_contains_node; fold (ns_nodes x); rewrite B; apply mem_nodes, Hl, Hk|]. rewrite ns_memb_iff. apply C.
  - apply makes_intro; [intros (k & x & H & _); discriminate|]. cbn [obind]. apply G. intros k Hk. pose proof (o_in_ok m (PSet q) k ok oo (mem_nodes k (proj1 (Hl k) Hk))) as H.
    cbn [o_in o_elem] in *. eauto.
  - cbn [obind]. destruct (Forall_Exists_dec (fun k => In k (ns_nodes x)) (fun k => node_dec x k) l) as [F|X].
    + rewrite Forall_forall in F. apply makes_intro; [intros (k & y & [= <-] & H1 & H2); apply H2, F, Hl, H1|]. apply G. intros k Hk. exists (ns_memb x k).
      split; [apply ns_contains_node, F, Hk|apply ns_memb_iff].
    + apply Exists_exists in X as (k & H1 & H2). right. split; [exists k, x; split; [reflexivity|]; split; [apply Hl, H1|exact H2]|]. rewrite E. cbn [obind]. change (o_in m (PNode x)) with (ns_contains x).
      rewrite (filter_unknown x l k H1 H2). reflexivity.
  - cbn [obind]. apply makes_intro; [intros (k & x & H & _); discriminate|]. apply G. intros k Hk. exists (ns_memb m k). split; [apply ns_contains_node, mem_nodes, Hl, Hk|apply ns_memb_iff].
Qed.
(** [other - self] for a python set or list *)
Theorem C88_rsub : makes m (ns_rsub m o) (fun k => o_elem m o k /\ ~ ns_mem m k) (foreign m o).
Proof.
  unfold ns_rsub.
  assert (G : forall q (Q : nkey -> Prop), (forall k, In k q <-> Q k) -> (forall k, In k q -> In k (ns_nodes m)) ->
    exists x, obind (filterO (notO (ns_contains m)) q) (ns_from_iterable m) = Val x /\ ns_ok x /\ ns_nodes x = ns_nodes m /\ forall k, ns_mem x k <-> Q k /\ ~ ns_mem m k).
  { intros q Q Hq H. rewrite (filterO_ok _ (fun k => negb (ns_memb m k))) by (intros k Hk; unfold notO; rewrite (ns_contains_node m k (H k Hk)); reflexivity). cbn [obind].
    destruct (from_mk (filter (fun k => negb (ns_memb m k)) q)) as (x & Ex & A & B & C); [intros k Hk; apply filter_In in Hk as [Hk _]; auto|].
    exists x. split; [exact Ex|]. split; [exact A|]. split; [exact B|]. intros k. rewrite C, filter_In, Hq, negb_true_iff, <- ns_memb_iff. destruct (ns_memb m k); intuition congruence. }
  assert (D : forall q, (forall k, In k q <-> o_elem m o k) -> makes m (obind (filterO (notO (ns_contains m)) q) (ns_from_iterable m)) (fun k => o_elem m o k /\ ~ ns_mem m k) (foreign m o)).
  { intros q Hq. destruct (foreign_dec q) as [(k & H1 & H2)|H].
    - right. split; [exists k; split; [apply Hq, H1|exact H2]|]. rewrite (filter_unknown m q k H1 H2). reflexivity.
    - apply makes_intro; [intros (k & H1 & H2); apply H2, H, Hq, H1|]. apply G; assumption. }
  destruct o as [q|q|x|].
  - cbn [o_set]. destruct (foreign_dec q) as [(k & H1 & H2)|H].
    + right. split; [exists k; auto|]. rewrite (from_iterable_foreign m q k H1 H2). reflexivity.
    + apply makes_intro; [intros (k & H1 & H2); apply H2, H, H1|]. destruct (from_mk q H) as (x & Ex & A & B & C). rewrite Ex. cbn [obind o_iter].
      destruct (ns_listed x A) as (q' & E' & _ & Hq' & _). rewrite E'. cbn [obind o_elem].
      destruct (G q' (fun k => In k q)) as (y & Ey & A' & B' & C'); [intros k; rewrite Hq', C; reflexivity|intros k Hk; apply H, C, Hq', Hk|]. exists y. auto.
  - cbn [o_set obind o_iter]. apply D. reflexivity.
  - cbn [o_set obind o_iter]. destruct (ns_listed x oo) as (q & Eq & _ & Hq & _). rewrite Eq. cbn [obind]. apply D. exact Hq.
  - cbn [o_set obind o_iter]. destruct (ns_listed m ok) as (q & Eq & _ & Hq & _). rewrite Eq. cbn [obind]. apply D. exact Hq.
Qed.
End C.

(** [self ^ other]: the symmetric difference; both differences are formed *)
Definition xor_why (m : nodeset) (o : other) : Prop := foreign m o \/ unknown m o.
Theorem C88_xor m o : ns_ok m -> o_ok o ->
  makes m (ns_xor m o) (fun k => (ns_mem m k /\ ~ o_elem m o k) \/ (o_elem m o k /\ ~ ns_mem m k)) (xor_why m o).
Proof.
  intros ok oo.
  assert (G : forall (a b : nodeset) (P Q : nkey -> Prop), ns_ok a -> ns_nodes a = ns_nodes m -> (forall k, ns_mem a k <-> P k) -> ns_ok b ->
     (forall k, ns_mem b k <-> Q k) -> (forall k, Q k -> In k (ns_nodes m)) ->
     exists x, ns_or_o a (PNode b) = Val x /\ ns_ok x /\ ns_nodes x = ns_nodes m /\ forall k, ns_mem x k <-> P k \/ Q k).
  { intros a b P Q Ha Na Pa Hb Qb HQ. destruct (C88_or a Ha (PNode b) Hb) as [[_ (x & E & A & B & C)]|[(k & H1 & H2) _]].
    - exists x. split; [exact E|]. split; [exact A|]. split; [congruence|]. intros k. rewrite C. cbn [o_elem]. rewrite Pa, Qb. reflexivity.
    - exfalso. cbn [o_elem] in H1. apply H2. rewrite Na. apply HQ, Qb, H1. }
  unfold ns_xor. destruct o as [l|l|x|].
  - cbn [o_set]. destruct (foreign_dec m l) as [(k & H1 & H2)|H].
    + right. split; [left; exists k; auto|]. rewrite (from_iterable_foreign m l k H1 H2). reflexivity.
    + left. split; [intros [(k & H1 & H2)|(k & x & H1 & _)]; [exact (H2 (H k H1))|discriminate]|].
      destruct (from_mk m ok l H) as (y & Ey & Hy & Ny & My). rewrite Ey. cbn [obind].
      destruct (C88_sub m ok (PNode y) Hy) as [[_ (a & Ea & Ha & Na & Ma)]|[(k & z & [= <-] & H1 & H2) _]]; [|exfalso; apply H2; rewrite Ny; apply ns_mem_node, H1].
      rewrite Ea. cbn [obind]. destruct (C88_sub y Hy (PNode m) ok) as [[_ (b & Eb & Hb & Nb & Mb)]|[(k & z & [= <-] & H1 & H2) _]]; [|exfalso; apply H2, H, My, H1].
      rewrite Eb. cbn [obind]. destruct (G a b _ _ Ha Na Ma Hb Mb) as (x & Ex & A & B & C); [intros k [H1 _]; apply H, My, H1|].
      exists x. split; [exact Ex|]. split; [exact A|]. split; [exact B|]. intros k. rewrite C. cbn [o_elem]. rewrite My. reflexivity.
  - cbn [o_set obind]. destruct (C88_sub m ok (PSet l) oo) as [[_ (a & Ea & Ha & Na & Ma)]|[(k & z & H1 & _) _]]; [|discriminate].
    rewrite Ea. cbn [obind]. destruct (C88_rsub m ok (PSet l) oo) as [[NF (b & Eb & Hb & Nb & Mb)]|[F Eb]].
    + rewrite Eb. cbn [obind]. left. split; [intros [H|(k & x & H1 & _)]; [exact (NF H)|discriminate]|].
      apply (G a b _ _ Ha Na Ma Hb Mb). intros k [H1 _]. destruct (node_dec m k) as [H|H]; [exact H|]. destruct NF. exists k. auto.
    + rewrite Eb. right. split; [left; exact F|reflexivity].
  - cbn [o_set obind]. destruct (C88_sub m ok (PNode x) oo) as [[NU (a & Ea & Ha & Na & Ma)]|[U Ea]]; [|right; rewrite Ea; split; [right; exact U|reflexivity]].
    rewrite Ea. cbn [obind]. destruct (C88_sub x oo (PNode m) ok) as [[NF (b & Eb & Hb & Nb & Mb)]|[(k & z & [= <-] & H1 & H2) Eb]].
    + rewrite Eb. cbn [obind]. left. split.
      * intros [(k & H1 & H2)|H]; [|exact (NU H)]. apply NF. exists k, m. auto.
      * apply (G a b _ _ Ha Na Ma Hb Mb). intros k [H1 _]. destruct (node_dec m k) as [H|H]; [exact H|]. destruct NF. exists k, m. auto.
    + rewrite Eb. right. split; [left; exists k; auto|reflexivity].
  - cbn [o_set obind]. destruct (C88_sub m ok PSelf oo) as [[_ (a & Ea & Ha & Na & Ma)]|[(k & z & H1 & _) _]]; [|discriminate]. rewrite Ea. cbn [obind].
    left. split; [intros [(k & H1 & H2)|(k & x & H1 & _)]; [apply H2, ns_mem_node, H1|discriminate]|].
    destruct (G a a _ (fun k => ns_mem m k /\ ~ o_elem m PSelf k) Ha Na Ma Ha Ma) as (x & Ex & A & B & C); [intros k [H1 _]; apply ns_mem_node, H1|].
    exists x. split; [exact Ex|]. split; [exact A|]. split; [exact B|]. intros k. rewrite C. cbn [o_elem]. tauto.
Qed.

(** ** in-place operators *)
Lemma step_add m k : ns_ok m -> In k (ns_nodes m) -> exists m', ns_add m k = Val m' /\ ns_ok m' /\ ns_kid m' = ns_kid m /\ forall k', ns_mem m' k' <-> ns_mem m k' \/ k' = k.
Proof.
  intros ok Hk. pose proof (ns_step_ok m (SAdd k) (fst (ns_step m (SAdd k))) (snd (ns_step m (SAdd k))) ok Hk (surjective_pairing _)) as (A & B & C & D).
  cbn [ns_step] in *. destruct (ns_add m k) as [m'|e]; cbn [sobs fst snd] in *; [|discriminate]. exists m'. auto.
Qed.
Lemma step_discard m k : ns_ok m -> In k (ns_nodes m) -> exists m', ns_discard m k = Val m' /\ ns_ok m' /\ ns_kid m' = ns_kid m /\ forall k', ns_mem m' k' <-> ns_mem m k' /\ k' <> k.
Proof.
  intros ok Hk. pose proof (ns_step_ok m (SDiscard k) (fst (ns_step m (SDiscard k))) (snd (ns_step m (SDiscard k))) ok Hk (surjective_pairing _)) as (A & B & C & D).
  cbn [ns_step] in *. destruct (ns_discard m k) as [m'|e]; cbn [sobs fst snd] in *; [|discriminate]. exists m'. auto.
Qed.
Lemma step_toggle m k : ns_ok m -> In k (ns_nodes m) -> exists m', ns_toggle m k = Val m' /\ ns_ok m' /\ ns_kid m' = ns_kid m /\
  forall k', ns_mem m' k' <-> if nkey_dec k' k then ~ ns_mem m k else ns_mem m k'.
Proof.
  intros ok Hk. unfold ns_toggle. rewrite (ns_contains_node m k Hk). cbn [obind]. pose proof (ns_memb_iff m k) as Hm. destruct (ns_memb m k).
  - destruct (step_discard m k ok Hk) as (m' & E & A & B & C). exists m'. split; [exact E|]. split; [exact A|]. split; [exact B|]. intros k'. rewrite C.
    destruct (nkey_dec k' k) as [->|N]; intuition congruence.
  - destruct (step_add m k ok Hk) as (m' & E & A & B & C). exists m'. split; [exact E|]. split; [exact A|]. split; [exact B|]. intros k'. rewrite C.
    destruct (nkey_dec k' k) as [->|N]; [|intuition congruence]. split; [intros _ H; apply Hm in H; discriminate|auto].
Qed.
Lemma foreign_add m k : ~ In k (ns_nodes m) -> ns_add m k = Raise EKey /\ ns_discard m k = Raise EKey /\ ns_toggle m k = Raise EKey.
Proof.
  intros H. split; [|split]; [unfold ns_add; rewrite (proj2 (dget_none _ _) H); reflexivity|unfold ns_discard; rewrite (proj2 (dget_none _ _) H); reflexivity|].
  unfold ns_toggle. rewrite (ns_contains_foreign m k H). reflexivity.
Qed.
(** [f] treats one node so that [R] relates the members before, the key, and the members after *)
Section Each.
Variable f : nodeset -> nkey -> outcome nodeset.
Variable R : (nkey -> Prop) -> list nkey -> nkey -> Prop.
Hypothesis f_node : forall m k, ns_ok m -> In k (ns_nodes m) -> exists m', f m k = Val m' /\ ns_ok m' /\ ns_kid m' = ns_kid m /\ forall k', ns_mem m' k' <-> R (ns_mem m) [k] k'.
Hypothesis f_foreign : forall m k, ~ In k (ns_nodes m) -> f m k = Raise EKey.
Hypothesis R_nil : forall P k, R P [] k <-> P k.
Variable good : list nkey -> Prop.
Hypothesis good_tail : forall k l, good (k :: l) -> good l.
Hypothesis R_cons : forall (P P' : nkey -> Prop) k l l2 k', good (k :: l ++ l2) -> (forall k', P' k' <-> R P [k] k') -> (R P (k :: l) k' <-> R P' l k').
Lemma each_ok l : forall m, ns_ok m -> good l -> exists pre, treated m l pre (fst (each f m l)) /\ ns_ok (snd (each f m l)) /\
  ns_kid (snd (each f m l)) = ns_kid m /\ forall k, ns_mem (snd (each f m l)) k <-> R (ns_mem m) pre k.
Proof.
  induction l as [|x l IH]; intros m ok g; cbn [each fst snd].
  - exists []. split; [exists []; split; [reflexivity|]; split; [intros k []|]; left; auto|]. split; [exact ok|]. split; [reflexivity|]. intros k. symmetry. apply R_nil.
  - destruct (node_dec m x) as [Hx|Hx].
    + destruct (f_node m x ok Hx) as (m' & E & A & B & C). rewrite E. destruct (IH m' A (good_tail _ _ g)) as (pre & (post & Hp & Hn & Ht) & O & K & M).
      assert (Nm : ns_nodes m' = ns_nodes m) by (unfold ns_nodes; rewrite B; reflexivity). rewrite Nm in *.
      exists (x :: pre). split; [exists post; split; [rewrite Hp; reflexivity|]; split; [intros k [<-|Hk]; auto|]|].
      * destruct Ht as [Ht|(y & q & H1 & H2 & H3)]; [left; exact Ht|right; exists y, q; split; [exact H1|]; split; [|exact H3]]. exact H2.
      * split; [exact O|]. split; [rewrite K; exact B|]. intros k. rewrite M. symmetry. apply R_cons with (l2 := post); [rewrite <- Hp; exact g|exact C].
    + rewrite (f_foreign m x Hx). cbn [fst snd]. exists []. split; [exists (x :: l); split; [reflexivity|]; split; [intros k []|]; right; exists x, l; auto|].
      split; [exact ok|]. split; [reflexivity|]. intros k. symmetry. apply R_nil.
Qed.
End Each.
(** [self |= other] adds the elements up to the first one that is not a node *)
Theorem C88_ior m o : ns_ok m -> o_ok o -> exists l pre, comes m o l /\ treated m l pre (fst (ns_ior m o)) /\ ns_ok (snd (ns_ior m o)) /\
  ns_nodes (snd (ns_ior m o)) = ns_nodes m /\ forall k, ns_mem (snd (ns_ior m o)) k <-> ns_mem m k \/ In k pre.
Proof.
  intros ok oo. unfold ns_ior. destruct (o_iter_ok m o ok oo) as (q & Eq & Cq & Hq & _). rewrite Eq. cbn [from_it].
  destruct (each_ok ns_add (fun P l k => P k \/ In k l)) with (good := fun _ : list nkey => True) (l := q) (m := m) as (pre & A & B & C & D); try tauto.
  - intros m0 k H1 H2. destruct (step_add m0 k H1 H2) as (m' & X1 & X2 & X3 & X4). exists m'. split; [exact X1|]. split; [exact X2|]. split; [exact X3|]. intros k'. rewrite X4. cbn [In]. intuition congruence.
  - intros m0 k H. apply (foreign_add m0 k H).
  - intros P k. cbn [In]. tauto.
  - intros P P' k l l2 k' _ H. rewrite H. cbn [In]. tauto.
  - exists q, pre. unfold ns_nodes. rewrite C. auto.
Qed.
(** [self -= other] likewise removes; from itself, everything *)
Theorem C88_isub m o : ns_ok m -> o_ok o -> o <> PSelf -> exists l pre, comes m o l /\ treated m l pre (fst (ns_isub m o)) /\ ns_ok (snd (ns_isub m o)) /\
  ns_nodes (snd (ns_isub m o)) = ns_nodes m /\ forall k, ns_mem (snd (ns_isub m o)) k <-> ns_mem m k /\ ~ In k pre.
Proof.
  intros ok oo NS. replace (ns_isub m o) with (from_it m (o_iter m o) (each ns_discard m)) by (destruct o; [reflexivity|reflexivity|reflexivity|destruct (NS eq_refl)]).
  destruct (o_iter_ok m o ok oo) as (q & Eq & Cq & Hq & _). rewrite Eq. cbn [from_it].
  destruct (each_ok ns_discard (fun P l k => P k /\ ~ In k l)) with (good := fun _ : list nkey => True) (l := q) (m := m) as (pre & A & B & C & D); try tauto.
  - intros m0 k H1 H2. destruct (step_discard m0 k H1 H2) as (m' & X1 & X2 & X3 & X4). exists m'. split; [exact X1|]. split; [exact X2|]. split; [exact X3|]. intros k'. rewrite X4. cbn [In]. intuition congruence.
  - intros m0 k H. apply (foreign_add m0 k H).
  - intros P P' k l l2 k' _ H. rewrite H. cbn [In]. tauto.
  - exists q, pre. unfold ns_nodes. rewrite C. auto.
Qed.
(** [self &= other] keeps the common elements; if it raises nothing was changed *)
Theorem C88_iand m o : ns_ok m -> o_ok o ->
  (~ sub_why m o /\ fst (ns_iand m o) = Val tt /\ ns_ok (snd (ns_iand m o)) /\ ns_nodes (snd (ns_iand m o)) = ns_nodes m /\
     forall k, ns_mem (snd (ns_iand m o)) k <-> ns_mem m k /\ o_elem m o k) \/
  (sub_why m o /\ ns_iand m o = (Raise EKey, m)).
Proof.
  intros ok oo. unfold ns_iand. destruct (C88_sub m ok o oo) as [[NW (x & E & A & B & C)]|[W E]]; rewrite E; cbn [obind from_it]; [|right; auto]. left.
  destruct (ns_listed x A) as (q & Eq & _ & Hq & _). rewrite Eq. cbn [from_it].
  destruct (each_ok ns_discard (fun P l k => P k /\ ~ In k l)) with (good := fun _ : list nkey => True) (l := q) (m := m) as (pre & (post & Hp & Hn & Ht) & B' & C' & D); try tauto.
  - intros m0 k H1 H2. destruct (step_discard m0 k H1 H2) as (m' & X1 & X2 & X3 & X4). exists m'. split; [exact X1|]. split; [exact X2|]. split; [exact X3|]. intros k'. rewrite X4. cbn [In]. intuition congruence.
  - intros m0 k H. apply (foreign_add m0 k H).
  - intros P P' k l l2 k' _ H. rewrite H. cbn [In]. tauto.
  - split; [exact NW|]. destruct Ht as [[-> Hr]|(y & q' & -> & H2 & _)].
    + split; [exact Hr|]. split; [exact B'|]. split; [unfold ns_nodes; rewrite C'; reflexivity|]. intros k. rewrite D. rewrite app_nil_r in Hp. subst q. rewrite Hq, C.
      split; [|tauto]. intros [H1 H2]. split; [exact H1|].
      destruct (o_iter_ok m o ok oo) as (q & _ & _ & Ho & _). destruct (in_dec nkey_dec k q) as [H|H]; [apply Ho, H|]. destruct H2. split; [exact H1|]. intros H2. apply H, Ho, H2.
    + exfalso. apply H2. rewrite <- B. apply ns_mem_node, Hq. rewrite Hp. apply in_or_app. right. left. reflexivity.
Qed.
(** [self ^= other]: the elements up to the first one that is not a node change sides; a list is checked first *)
Theorem C88_ixor m o : ns_ok m -> o_ok o -> o <> PSelf ->
  (exists l, o = PList l /\ foreign m o /\ ns_ixor m o = (Raise EKey, m)) \/
  exists l pre, (match o with PList q => elems (fun k => In k q) l | _ => comes m o l end) /\ treated m l pre (fst (ns_ixor m o)) /\ ns_ok (snd (ns_ixor m o)) /\
    ns_nodes (snd (ns_ixor m o)) = ns_nodes m /\ (forall k, ns_mem (snd (ns_ixor m o)) k <-> ((In k pre /\ ~ ns_mem m k) \/ (~ In k pre /\ ns_mem m k))).
Proof.
  intros ok oo NS. replace (ns_ixor m o) with (from_it m (obind (o_set m o) (o_iter m)) (each ns_toggle m)) by (destruct o; [reflexivity|reflexivity|reflexivity|destruct (NS eq_refl)]).
  assert (G : forall q, NoDup q -> exists pre, treated m q pre (fst (each ns_toggle m q)) /\ ns_ok (snd (each ns_toggle m q)) /\
    ns_kid (snd (each ns_toggle m q)) = ns_kid m /\ (forall k, ns_mem (snd (each ns_toggle m q)) k <-> ((In k pre /\ ~ ns_mem m k) \/ (~ In k pre /\ ns_mem m k)))).
  { intros q ND. apply (each_ok ns_toggle (fun P l k => (In k l /\ ~ P k) \/ (~ In k l /\ P k))) with (good := @NoDup nkey); [| | | | |exact ok|exact ND].
    - intros m0 k H1 H2. destruct (step_toggle m0 k H1 H2) as (m' & X1 & X2 & X3 & X4). exists m'. split; [exact X1|]. split; [exact X2|]. split; [exact X3|].
      intros k'. rewrite X4. cbn [In]. destruct (nkey_dec k' k) as [->|N]; intuition congruence.
    - intros m0 k H. apply (foreign_add m0 k H).
    - intros P k. cbn [In]. tauto.
    - intros k l H. inversion H. assumption.
    - intros P P' k l l2 k' H HP. cbn [In] in *. rewrite HP. destruct (nkey_dec k' k) as [->|N].
      + assert (~ In k l) by (inversion H as [|? ? H1 H2]; subst; intros H3; apply H1, in_or_app; left; exact H3). intuition congruence.
      + intuition congruence. }
  destruct o as [l|l|x|]; [| | |destruct (NS eq_refl)].
  - cbn [o_set]. destruct (foreign_dec m l) as [(k & H1 & H2)|H].
    + left. exists l. split; [reflexivity|]. split; [exists k; auto|]. rewrite (from_iterable_foreign m l k H1 H2). reflexivity.
    + right. destruct (from_mk m ok l H) as (y & Ey & Hy & Ny & My). rewrite Ey. cbn [obind o_iter]. destruct (ns_listed y Hy) as (q & Eq & ND & Hq & _). rewrite Eq. cbn [from_it].
      destruct (G q ND) as (pre & A & B & C & D). exists q, pre. split; [split; [exact ND|intros k; rewrite Hq; apply My]|]. unfold ns_nodes. rewrite C. auto.
  - right. cbn [o_set obind o_iter from_it]. destruct (G l oo) as (pre & A & B & C & D). exists l, pre. unfold ns_nodes. rewrite C. split; [reflexivity|]. auto.
  - right. cbn [o_set obind o_iter]. destruct (ns_listed x oo) as (q & Eq & ND & Hq & _). rewrite Eq. cbn [from_it]. destruct (G q ND) as (pre & A & B & C & D).
    exists q, pre. unfold ns_nodes. rewrite C. split; [split; assumption|]. auto.
Qed.
Theorem C88_inplace_self m : ns_ok m -> (forall k, ~ ns_mem (snd (ns_isub m PSelf)) k) /\ (forall k, ~ ns_mem (snd (ns_ixor m PSelf)) k) /\
  fst (ns_isub m PSelf) = Val tt /\ fst (ns_ixor m PSelf) = Val tt.
Proof.
  intros _. cbn [ns_isub ns_ixor fst snd]. assert (H : forall k, ~ ns_mem (ns_clear m) k) by (intros k (i & _ & H); unfold ns_clear in H; cbn [ns_v] in H; rewrite vget_vempty in H; discriminate).
  auto.
Qed.
(** [union] gives a python set and accepts anything *)
Lemma pyset_add_ok q : forall l, NoDup l -> NoDup (fold_left pyset_add q l) /\ forall k, In k (fold_left pyset_add q l) <-> In k l \/ In k q.
Proof.
  induction q as [|x q IH]; intros l ND; cbn [fold_left]; [split; [exact ND|intros k; cbn [In]; tauto]|].
  assert (H : NoDup (pyset_add l x) /\ forall k, In k (pyset_add l x) <-> In k l \/ k = x).
  { unfold pyset_add. destruct (existsb (nkey_eqb x) l) eqn:E.
    - split; [exact ND|]. apply existsb_exists in E as (y & H1 & H2). apply nkey_eqb_eq in H2 as <-. intros k. split; [auto|intros [H|H]; [exact H|subst; exact H1]].
    - split; [|intros k; rewrite in_app_iff; cbn [In]; intuition congruence].
      apply (Permutation_NoDup (Permutation_cons_append l x)). constructor; [|exact ND]. intros Hin. assert (Y : existsb (nkey_eqb x) l = true); [|congruence].
      apply existsb_exists. exists x. split; [exact Hin|apply nkey_eqb_refl]. }
  destruct H as [H1 H2]. destruct (IH _ H1) as [A B]. split; [exact A|]. intros k. rewrite B, H2. cbn [In]. intuition congruence.
Qed.
Theorem C88_union m os : ns_ok m -> Forall o_ok os -> exists l, ns_union m os = Val l /\ elems (fun k => ns_mem m k \/ exists o, In o os /\ o_elem m o k) l.
Proof.
  intros ok F. unfold ns_union. destruct (ns_listed m ok) as (l0 & E & ND & Hl & _). rewrite E. cbn [obind].
  assert (G : forall os l, Forall o_ok os -> NoDup l -> exists q,
    fold_left (fun acc o => obind acc (fun l => obind (o_iter m o) (fun k => Val (fold_left pyset_add k l)))) os (Val l) = Val q /\ NoDup q /\
    forall k, In k q <-> In k l \/ exists o, In o os /\ o_elem m o k).
  { clear os F. induction os as [|o os IH]; intros l F NDl; cbn [fold_left]; [exists l; split; [reflexivity|]; split; [exact NDl|]; intros k; split; [auto|intros [H|(o & [] & _)]; exact H]|].
    inversion F as [|? ? F1 F2]; subst. destruct (o_iter_ok m o ok F1) as (q & Eq & _ & Hq & _). cbn [obind]. rewrite Eq. cbn [obind].
    destruct (pyset_add_ok q l NDl) as [A B]. destruct (IH _ F2 A) as (r & Er & C & D). exists r. split; [exact Er|]. split; [exact C|]. intros k. rewrite D, B, Hq. split.
    - intros [[H|H]|(o' & H1 & H2)]; [left; exact H|right; exists o; split; [left; reflexivity|exact H]|right; exists o'; split; [right; exact H1|exact H2]].
    - intros [H|(o' & [<-|H1] & H2)]; [left; left; exact H|left; right; exact H2|right; exists o'; auto]. }
  destruct (G os l0 F ND) as (q & Eq & A & B). exists q. split; [exact Eq|]. split; [exact A|]. intros k. rewrite B, Hl. reflexivity.
Qed.
Theorem C88_copy m k : ns_mem (ns_copy m) k <-> ns_mem m k.
Proof. reflexivity. Qed.

(** ** Defects *)
(** python's set answers; a NodeSet raises, and [|=] has added what came before *)
Theorem C88_foreign_refuted : exists m l, ns_ok m /\ NoDup l /\
  ns_ge m (PSet [KS "zz"]) = Raise EKey /\ ns_and_o m (PSet l) = Raise EKey /\ ns_or_o m (PSet l) = Raise EKey /\ ns_xor m (PSet l) = Raise EKey /\
  ns_isdisjoint m (PSet l) = Raise EKey /\ ~ ns_mem m (KS "b") /\ fst (ns_ior m (PSet l)) = Raise EKey /\ ns_mem (snd (ns_ior m (PSet l))) (KS "b").
Proof.
  exists (ns3 [0; 2]), [KS "b"; KS "zz"]. split; [exact kid3_ok|]. split; [repeat constructor; cbn; intuition congruence|]. repeat (split; [vm_compute; reflexivity|]).
  split; [intros (i & H & H2); vm_compute in H; injection H as <-; vm_compute in H2; discriminate|]. split; [vm_compute; reflexivity|]. exists 1. split; vm_compute; reflexivity.
Qed.
(** [isdisjoin] of NodeSets of different graphs compares positions: disjoint sets are reported not to be, and
    sets with a common node to be *)
Theorem C88_isdisjoin_numbering_refuted : exists m x, ns_ok m /\ ns_ok x /\ (forall k, ~ (ns_mem m k /\ ns_mem x k)) /\ ns_isdisjoin_o m (PNode x) = Val false /\
  ns_isdisjoint m (PNode x) = Val true.
Proof.
  exists (NS (vscatter 2 [0] true) [(KS "a", 0); (KS "b", 1)]), (NS (vscatter 2 [0] true) [(KS "b", 0); (KS "a", 1)]).
  split; [split; [repeat constructor; simpl; intuition congruence|apply Permutation_refl]|].
  split; [split; [repeat constructor; simpl; intuition congruence|apply Permutation_refl]|].
  split; [|split; vm_compute; reflexivity].
  assert (A : forall k, ns_mem (NS (vscatter 2 [0] true) [(KS "a", 0); (KS "b", 1)]) k -> k = KS "a").
  { intros k (i & H1 & H2). cbn [ns_kid ns_v] in *. pose proof (has_vget_lt _ _ H2) as L. change (i < 2) in L.
    destruct i as [|[|i]]; [|vm_compute in H2; discriminate|lia]. cbn [dget] in H1. destruct (nkey_eqb k (KS "a")) eqn:E; [apply nkey_eqb_eq in E; auto|].
    destruct (nkey_eqb k (KS "b")); [injection H1; discriminate|discriminate]. }
  assert (B : forall k, ns_mem (NS (vscatter 2 [0] true) [(KS "b", 0); (KS "a", 1)]) k -> k = KS "b").
  { intros k (i & H1 & H2). cbn [ns_kid ns_v] in *. pose proof (has_vget_lt _ _ H2) as L. change (i < 2) in L.
    destruct i as [|[|i]]; [|vm_compute in H2; discriminate|lia]. cbn [dget] in H1. destruct (nkey_eqb k (KS "b")) eqn:E; [apply nkey_eqb_eq in E; auto|].
    destruct (nkey_eqb k (KS "a")); [injection H1; discriminate|discriminate]. }
  intros k [H1 H2]. apply A in H1. apply B in H2. congruence.
Qed.

(** ** Non-vacuity *)
Example C88_ex : ns_ok (ns3 [0; 2]) /\
  ns_le (ns3 [0; 2]) (PSet [KS "zz"; KS "c"; KS "a"]) = Val true /\ ns_lt (ns3 [0; 2]) (PNode (ns3 [0; 2])) = Val false /\ ns_ge (ns3 [0; 2]) (PSet [KS "c"]) = Val true /\
  ns_equal (ns3 [0; 2]) (PSet [KS "c"; KS "a"]) = Val true /\ ns_isdisjoint (ns3 [0; 2]) (PList [KS "b"; KS "b"]) = Val true /\
  obind (ns_xor (ns3 [0; 2]) (PList [KS "b"; KS "a"; KS "b"])) ns_iter = Val [KS "b"; KS "c"] /\
  obind (ns_sub_o (ns3 [0; 2]) (PSet [KS "zz"; KS "a"])) ns_iter = Val [KS "c"] /\
  obind (ns_rsub (ns3 [0; 2]) (PSet [KS "b"; KS "a"])) ns_iter = Val [KS "b"] /\
  ns_iter (snd (ns_ixor (ns3 [0; 2]) (PSet [KS "b"; KS "a"]))) = Val [KS "b"; KS "c"] /\
  ns_iter (snd (ns_isub (ns3 [0; 2]) (PSet [KS "b"; KS "a"; KS "zz"; KS "c"]))) = Val [KS "c"] /\
  ns_iter (snd (ns_iand (ns3 [0; 2]) (PSet [KS "b"; KS "a"; KS "zz"]))) = Val [KS "a"] /\
  ns_union (ns3 [0; 2]) [PSet [KS "zz"]; PList [KS "a"; KS "zz"]; PSelf] = Val [KS "a"; KS "c"; KS "zz"].
Proof. split; [exact kid3_ok|]. repeat split; vm_compute; reflexivity. Qed.
Print Assumptions C88_le.
Print Assumptions C88_lt.
Print Assumptions C88_ge.
Print Assumptions C88_gt.
Print Assumptions C88_compare_list.
Print Assumptions C88_equal_set.
Print Assumptions C88_isdisjoint.
Print Assumptions C88_isdisjoin.
Print Assumptions C88_and.
Print Assumptions C88_or.
Print Assumptions C88_sub.
Print Assumptions C88_rsub.
Print Assumptions C88_xor.
Print Assumptions C88_ior.
Print Assumptions C88_isub.
Print Assumptions C88_iand.
Print Assumptions C88_ixor.
Print Assumptions C88_inplace_self.
Print Assumptions C88_union.
Print Assumptions C88_foreign_refuted.
Print Assumptions C88_isdisjoin_numbering_refuted.
