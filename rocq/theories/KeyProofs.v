(** * Facts about keys and ids *)
From Verif Require Import Base BaseProofs Model_Graph Model_Keys Spec.
From Coq Require Import Permutation.

Lemma nkey_eqb_eq a b : nkey_eqb a b = true <-> a = b.
Proof.
  destruct a, b; simpl; try (split; intros; congruence).
  - rewrite Z.eqb_eq. split; congruence.
  - rewrite String.eqb_eq. split; congruence.
Qed.
Lemma nkey_eqb_refl a : nkey_eqb a a = true. Proof. apply nkey_eqb_eq. reflexivity. Qed.
Lemma nkey_dec (a b : nkey) : {a = b} + {a <> b}.
Proof. destruct (nkey_eqb a b) eqn:E; [left; apply nkey_eqb_eq; assumption|right; intros ->; rewrite nkey_eqb_refl in E; discriminate]. Qed.
Lemma nkey_eqb_neq a b : a <> b -> nkey_eqb a b = false.
Proof. destruct (nkey_eqb a b) eqn:E; [apply nkey_eqb_eq in E; congruence|reflexivity]. Qed.

Lemma dget_In {V} (d : list (nkey * V)) k v : dget d k = Some v -> In (k, v) d.
Proof.
  induction d as [|[k' v'] d IH]; simpl; [discriminate|]. destruct (nkey_eqb k k') eqn:E.
  - apply nkey_eqb_eq in E. subst. intros [= <-]. auto.
  - auto.
Qed.
Lemma In_dget {V} (d : list (nkey * V)) k v : NoDup (map fst d) -> In (k, v) d -> dget d k = Some v.
Proof.
  induction d as [|[k' v'] d IH]; simpl; [intros _ []|]. intros H [E|Hin].
  - injection E as -> ->. rewrite nkey_eqb_refl. reflexivity.
  - inversion H as [|? ? H1 H2]; subst. rewrite nkey_eqb_neq; [auto|]. intros ->. apply H1.
    apply in_map_iff. exists (k', v). auto.
Qed.
Lemma dget_none {V} (d : list (nkey * V)) k : dget d k = None <-> ~ In k (map fst d).
Proof.
  induction d as [|[k' v'] d IH]; simpl; [tauto|]. destruct (nkey_eqb k k') eqn:E.
  - apply nkey_eqb_eq in E. subst. split; [discriminate|intros H; destruct H; auto].
  - rewrite IH. assert (k' <> k) by (intros ->; rewrite nkey_eqb_refl in E; discriminate). tauto.
Qed.
Lemma dget_some {V} (d : list (nkey * V)) k : In k (map fst d) <-> exists v, dget d k = Some v.
Proof.
  destruct (dget d k) eqn:E.
  - split; [eauto|]. intros _. apply dget_In in E. apply in_map_iff. exists (k, v). auto.
  - rewrite dget_none in E. split; [tauto|intros [? ?]; discriminate].
Qed.
Lemma ikey_In d i k : ikey d i = Some k -> In (k, i) d.
Proof.
  induction d as [|[k' v'] d IH]; simpl; [discriminate|]. destruct (ikey d i) eqn:E.
  - intros [= ->]. auto.
  - destruct (Nat.eqb_spec v' i); [|discriminate]. intros [= ->]. subst. auto.
Qed.
Lemma In_ikey d i k : NoDup (map snd d) -> In (k, i) d -> ikey d i = Some k.
Proof.
  induction d as [|[k' v'] d IH]; simpl; [intros _ []|]. intros H [E|Hin].
  - injection E as -> ->. inversion H as [|? ? H1 H2]; subst. destruct (ikey d i) eqn:E.
    + apply ikey_In in E. destruct H1. apply in_map_iff. exists (n, i). auto.
    + rewrite Nat.eqb_refl. reflexivity.
  - inversion H as [|? ? H1 H2]; subst. rewrite (IH H2 Hin). reflexivity.
Qed.

Section D.
Variable d : kidmap.
Variable n : nat.
Hypothesis ok : kok d n.
Lemma kok_nd_snd : NoDup (map snd d).
Proof. destruct ok as [_ H]. eapply Permutation_NoDup; [symmetry; exact H|apply seq_NoDup]. Qed.
Lemma kok_inv k i : dget d k = Some i <-> ikey d i = Some k.
Proof.
  split; intros H.
  - apply In_ikey; [apply kok_nd_snd|]. apply dget_In. assumption.
  - apply In_dget; [apply ok|]. apply ikey_In. assumption.
Qed.
Lemma kok_lt k i : dget d k = Some i -> i < n.
Proof.
  intros H. apply dget_In in H. destruct ok as [_ P].
  assert (In i (map snd d)) by (apply in_map_iff; exists (k, i); auto).
  eapply Permutation_in in H0; [|exact P]. apply in_seq in H0. lia.
Qed.
Lemma kok_ikey i : i < n -> exists k, ikey d i = Some k.
Proof.
  intros H. destruct ok as [_ P].
  assert (In i (map snd d)) by (eapply Permutation_in; [symmetry; exact P|apply in_seq; lia]).
  apply in_map_iff in H0 as ([k i'] & E & Hin). simpl in E. subst. exists k. apply In_ikey; [apply kok_nd_snd|assumption].
Qed.
Lemma kok_key i : i < n -> exists k, dget d k = Some i.
Proof. intros H. destruct (kok_ikey i H) as [k Hk]. exists k. apply kok_inv. assumption. Qed.
Lemma kok_inj k k' i : dget d k = Some i -> dget d k' = Some i -> k = k'.
Proof. intros H H'. apply kok_inv in H, H'. congruence. Qed.
Lemma kok_len : List.length d = n.
Proof. destruct ok as [_ P]. apply Permutation_length in P. rewrite map_length, seq_length in P. assumption. Qed.
Lemma kok_ikey_none i : n <= i -> ikey d i = None.
Proof.
  intros H. destruct (ikey d i) eqn:E; [|reflexivity]. apply kok_inv in E. apply kok_lt in E. lia.
Qed.
End D.

Lemma mapO_some {X Y} (f : X -> option Y) l ys :
  mapO f l = Some ys <-> Forall2 (fun x y => f x = Some y) l ys.
Proof.
  revert ys. induction l as [|x l IH]; intros ys; simpl.
  - split; [intros [= <-]; constructor|intros H; inversion H; reflexivity].
  - destruct (f x) as [y|] eqn:E; [destruct (mapO f l) as [ys'|]|].
    + split.
      * intros [= <-]. constructor; [assumption|]. apply IH. reflexivity.
      * intros H. inversion H as [|? ? ? ? H1 H2]; subst. rewrite E in H1. injection H1 as ->. apply IH in H2. congruence.
    + split; [discriminate|]. intros H. inversion H as [|? ? ? ? H1 H2]; subst. apply IH in H2. discriminate.
    + split; [discriminate|]. intros H. inversion H as [|? ? ? ? H1 H2]; subst. congruence.
Qed.
Lemma mapO_none {X Y} (f : X -> option Y) l : mapO f l = None <-> exists x, In x l /\ f x = None.
Proof.
  induction l as [|x l IH]; simpl.
  - split; [discriminate|intros (? & [] & _)].
  - destruct (f x) as [y|] eqn:E.
    + destruct (mapO f l).
      * split; [discriminate|]. intros (x' & [<-|H] & H'); [congruence|].
        assert (Some l0 = None) by (apply IH; eauto). discriminate.
      * split; [|reflexivity]. intros _. destruct (proj1 IH eq_refl) as (x' & H & H'). eauto.
    + split; [|reflexivity]. intros _. eauto.
Qed.
Lemma mapO_total {X Y} (f : X -> option Y) l : (forall x, In x l -> exists y, f x = Some y) -> exists ys, mapO f l = Some ys.
Proof.
  intros H. destruct (mapO f l) eqn:E; [eauto|]. apply mapO_none in E as (x & Hx & E).
  destruct (H x Hx) as [y Hy]. congruence.
Qed.
Lemma mapO_in {X Y} (f : X -> option Y) l ys : mapO f l = Some ys ->
  forall y, In y ys <-> exists x, In x l /\ f x = Some y.
Proof.
  intros H. apply mapO_some in H. induction H; intros z; simpl.
  - split; [intros []|intros (? & [] & _)].
  - rewrite IHForall2. split.
    + intros [<-|(x' & H1 & H2)]; [exists x; auto|exists x'; auto].
    + intros (x' & [<-|H1] & H2); [left; congruence|right; eauto].
Qed.
Lemma mapO_length {X Y} (f : X -> option Y) l ys : mapO f l = Some ys -> List.length ys = List.length l.
Proof. intros H. apply mapO_some in H. induction H; simpl; congruence. Qed.
Lemma mapO_nth {X Y} (f : X -> option Y) l ys : mapO f l = Some ys ->
  forall a x, nth_error l a = Some x -> exists y, nth_error ys a = Some y /\ f x = Some y.
Proof.
  intros H. apply mapO_some in H. induction H; intros [|a] z Hz; try discriminate; simpl in *.
  - injection Hz as <-. eauto.
  - eauto.
Qed.
Lemma vget_vscatter {V} n l (x : V) i : vget (vscatter n l x) i = if (i <? n) && existsb (Nat.eqb i) l then Some x else None.
Proof. unfold vscatter. rewrite vget_vbuild. destruct (i <? n); reflexivity. Qed.
Lemma existsb_eqb l i : existsb (Nat.eqb i) l = true <-> In i l.
Proof.
  rewrite existsb_exists. split; [intros (x & H & E); apply Nat.eqb_eq in E; congruence|intros H; exists i; rewrite Nat.eqb_refl; auto].
Qed.

Section G.
Variable G : graph.
Hypothesis wf : gwf G.
Notation n := (nrows (g_A G)).
Lemma gkok : kok (g_kid G) n.
Proof. split; [apply wf|]. apply wf. Qed.
Lemma kid_inv k i : kid G k = Some i <-> ikey (g_kid G) i = Some k.
Proof. apply (kok_inv _ _ gkok). Qed.
Lemma kid_lt k i : kid G k = Some i -> i < n.
Proof. apply (kok_lt _ _ gkok). Qed.
Lemma kid_inj k k' i : kid G k = Some i -> kid G k' = Some i -> k = k'.
Proof. apply (kok_inj _ _ gkok). Qed.
Lemma kid_key i : i < n -> exists k, kid G k = Some i.
Proof. apply (kok_key _ _ gkok). Qed.
Lemma node_kid u : node G u <-> exists i, kid G u = Some i.
Proof. unfold node, gnodes, kid. rewrite dget_some. reflexivity. Qed.
Lemma node_in_graph u : node G u <-> in_graph G u = true.
Proof. rewrite node_kid. unfold in_graph. rewrite has_true. reflexivity. Qed.
Lemma iedge_lt i j : iedge G i j -> i < n /\ j < n.
Proof.
  intros [w H]. destruct wf. split.
  - eapply mget_some_lt; eassumption.
  - rewrite <- gw_sq. eapply mget_some_lt; eassumption.
Qed.
Lemma edge_iedge u v : edge G u v <-> exists i j, kid G u = Some i /\ kid G v = Some j /\ iedge G i j.
Proof.
  unfold edge, weight, iedge. split.
  - intros [w H]. destruct (kid G u), (kid G v); try discriminate. eauto 6.
  - intros (i & j & -> & -> & [w H]). eauto.
Qed.
(** walks on keys are walks on ids, for any relation transported along the numbering *)
Definition lifted (E : nkey -> nkey -> Prop) (F : nat -> nat -> Prop) : Prop :=
  (forall u v, E u v -> exists i j, kid G u = Some i /\ kid G v = Some j /\ F i j) /\
  (forall i j, F i j -> exists u v, kid G u = Some i /\ kid G v = Some j /\ E u v).
Lemma lifted_edge : lifted (edge G) (iedge G).
Proof.
  split.
  - intros u v H. apply edge_iedge in H. assumption.
  - intros i j H. destruct (iedge_lt _ _ H) as [Hi Hj]. destruct (kid_key i Hi) as [u Hu], (kid_key j Hj) as [v Hv].
    exists u, v. split; [assumption|]. split; [assumption|]. apply edge_iedge. eauto.
Qed.
Lemma lifted_rev E F : lifted E F -> lifted (rev E) (rev F).
Proof.
  intros [H1 H2]. split.
  - intros u v H. destruct (H1 _ _ H) as (i & j & ? & ? & ?). unfold rev. eauto 6.
  - intros i j H. destruct (H2 _ _ H) as (u & v & ? & ? & ?). unfold rev. eauto 6.
Qed.
Lemma lifted_sym E F : lifted E F -> lifted (sym E) (sym F).
Proof.
  intros [H1 H2]. split.
  - intros u v [H|H]; destruct (H1 _ _ H) as (i & j & ? & ? & ?); unfold sym; eauto 8.
  - intros i j [H|H]; destruct (H2 _ _ H) as (u & v & ? & ? & ?); unfold sym; eauto 8.
Qed.
Lemma walk_lift E F u i d v : lifted E F -> kid G u = Some i ->
  (walk E u d v <-> exists j, kid G v = Some j /\ walk F i d j).
Proof.
  intros [H1 H2] Hu. revert v. induction d as [|d IH]; intros v.
  - split.
    + intros H. inversion H; subst. exists i. split; [assumption|constructor].
    + intros (j & Hj & H). inversion H; subst. rewrite (kid_inj _ _ _ Hu Hj). constructor.
  - split.
    + intros H. inversion H as [|? y z Hy HE]; subst. destruct (H1 _ _ HE) as (a & j & Ha & Hj & HF).
      apply IH in Hy as (a' & Ha' & Hw). exists j. split; [assumption|]. econstructor; [exact Hw|].
      assert (a = a') by congruence. subst. assumption.
    + intros (j & Hj & H). inversion H as [|? y z Hy HE]; subst. destruct (H2 _ _ HE) as (a & b & Ha & Hb & HF).
      assert (b = v) by (eapply kid_inj; eassumption). subst. econstructor; [|exact HF]. apply IH. eauto.
Qed.
Lemma reach_lift E F u i v : lifted E F -> kid G u = Some i ->
  (reach E u v <-> exists j, kid G v = Some j /\ reach F i j).
Proof.
  intros HL Hu. unfold reach. split.
  - intros [d H]. apply (walk_lift E F u i d v HL Hu) in H as (j & Hj & H). eauto.
  - intros (j & Hj & d & H). exists d. apply (walk_lift E F u i d v HL Hu). eauto.
Qed.
Lemma dist_lift E F u i v d : lifted E F -> kid G u = Some i ->
  (dist E u v d <-> exists j, kid G v = Some j /\ dist F i j d).
Proof.
  intros HL Hu. unfold dist. split.
  - intros [H1 H2]. apply (walk_lift E F u i d v HL Hu) in H1 as (j & Hj & H1). exists j. split; [assumption|]. split; [assumption|].
    intros d' Hd'. apply H2. apply (walk_lift E F u i d' v HL Hu). eauto.
  - intros (j & Hj & H1 & H2). split; [apply (walk_lift E F u i d v HL Hu); eauto|].
    intros d' Hd'. apply (walk_lift E F u i d' v HL Hu) in Hd' as (j' & Hj' & Hd'). apply H2. congruence.
Qed.
Lemma dist_from_lift E F (S : list nkey) ids v d : lifted E F -> mapO (kid G) S = Some ids ->
  (dist_from E (fun u => In u S) v d <-> exists j, kid G v = Some j /\ dist_from F (fun i => In i ids) j d).
Proof.
  intros HL HS. pose proof (mapO_in _ _ _ HS) as Hin. unfold dist_from. split.
  - intros [(u & Hu & Hw) Hmin].
    assert (Hk : exists i, kid G u = Some i).
    { destruct (kid G u) eqn:E0; [eauto|]. assert (mapO (kid G) S = None) by (apply mapO_none; eauto). congruence. }
    destruct Hk as [i Hi]. apply (walk_lift E F u i d v HL Hi) in Hw as (j & Hj & Hw). exists j. split; [assumption|].
    split; [exists i; split; [apply Hin; eauto|assumption]|].
    intros i' d' Hi' Hw'. apply Hin in Hi' as (u' & Hu' & Hi'). apply (Hmin u'); [assumption|].
    apply (walk_lift E F u' i' d' v HL Hi'). eauto.
  - intros (j & Hj & (i & Hi & Hw) & Hmin). apply Hin in Hi as (u & Hu & Hi). split.
    + exists u. split; [assumption|]. apply (walk_lift E F u i d v HL Hi). eauto.
    + intros u' d' Hu' Hw'.
      assert (Hk : exists i, kid G u' = Some i).
      { destruct (kid G u') eqn:E0; [eauto|]. assert (mapO (kid G) S = None) by (apply mapO_none; eauto). congruence. }
      destruct Hk as [i' Hi']. pose proof (proj1 (walk_lift E F u' i' d' v HL Hi') Hw') as (j' & Hj' & Hw2).
      apply (Hmin i'); [apply Hin; eauto|]. congruence.
Qed.
(** reading a result container at a node *)
Lemma nm_getitem_iff {V} (v : vec V) u x :
  nm_getitem (to_nodemap G v) u = Val x <-> exists i, kid G u = Some i /\ vget v i = Some x.
Proof.
  unfold nm_getitem, to_nodemap. simpl. fold (kid G u). destruct (kid G u) as [i|].
  - destruct (vget v i) eqn:E; split.
    + intros [= <-]. eauto.
    + intros (j & [= <-] & H). congruence.
    + discriminate.
    + intros (j & [= <-] & H). congruence.
  - split; [discriminate|intros (? & ? & _); discriminate].
Qed.
Lemma ns_contains_iff (v : vec bool) u :
  ns_contains (to_nodeset G v) u = Val true <-> exists i, kid G u = Some i /\ has (vget v i) = true.
Proof.
  unfold ns_contains, to_nodeset. simpl. fold (kid G u). destruct (kid G u) as [i|].
  - split; [intros [= H]; eauto|intros (j & [= <-] & H); congruence].
  - split; [discriminate|intros (? & ? & _); discriminate].
Qed.
(** keys of the stored entries *)
Lemma indices_keys {V} (v : vec V) : vsize v <= n ->
  exists l, mapO (ikey (g_kid G)) (vindices v) = Some l /\ NoDup l /\ List.length l = nvals v /\
    forall k, In k l <-> exists i, kid G k = Some i /\ has (vget v i) = true.
Proof.
  intros Hs. destruct (mapO_total (ikey (g_kid G)) (vindices v)) as [l Hl].
  { intros i Hi. apply in_vindices in Hi. destruct (kok_ikey _ _ gkok i) as [k Hk]; [|eauto].
    apply has_vget_lt in Hi. lia. }
  exists l. split; [assumption|].
  assert (Hin : forall k, In k l <-> exists i, kid G k = Some i /\ has (vget v i) = true).
  { intros k. rewrite (mapO_in _ _ _ Hl). split.
    - intros (i & Hi & Hk). exists i. split; [apply kid_inv; assumption|apply in_vindices; assumption].
    - intros (i & Hk & Hi). exists i. split; [apply in_vindices; assumption|apply kid_inv; assumption]. }
  split; [|split; [|assumption]].
  - assert (Hinj : forall i j k, ikey (g_kid G) i = Some k -> ikey (g_kid G) j = Some k -> i = j).
    { intros i j k Hi Hj. apply kid_inv in Hi, Hj. congruence. }
    revert l Hl Hin. pose proof (NoDup_vindices v) as ND. revert ND. generalize (vindices v) as il.
    intros il ND l Hl _. revert l Hl. induction ND as [|i il Hni ND IH]; intros l Hl; simpl in Hl.
    + injection Hl as <-. constructor.
    + destruct (ikey (g_kid G) i) as [k|] eqn:Ei; [|discriminate]. destruct (mapO (ikey (g_kid G)) il) as [ks|] eqn:Ek; [|discriminate].
      injection Hl as <-. constructor; [|apply IH; reflexivity]. intros Hc.
      apply (mapO_in _ _ _ Ek) in Hc as (j & Hj & Hjk). apply Hni. rewrite (Hinj i j k Ei Hjk). assumption.
  - rewrite (mapO_length _ _ _ Hl), length_vindices. reflexivity.
Qed.
Lemma is_set_intro (v : vec bool) (P : nkey -> Prop) : vsize v <= n ->
  (forall k, P k <-> exists i, kid G k = Some i /\ has (vget v i) = true) -> is_set (to_nodeset G v) P.
Proof.
  intros Hs HP. split.
  - intros k. rewrite ns_contains_iff, HP. reflexivity.
  - destruct (indices_keys v Hs) as (l & Hl & ND & Hn & Hin). exists l.
    split; [unfold ns_iter; simpl; rewrite Hl; reflexivity|]. split; [assumption|]. split; [symmetry; exact Hn|].
    intros k. rewrite Hin, HP. reflexivity.
Qed.
Lemma is_map_intro {V} (v : vec V) (R : nkey -> V -> Prop) : vsize v <= n ->
  (forall k x, R k x <-> exists i, kid G k = Some i /\ vget v i = Some x) -> is_map (to_nodemap G v) R.
Proof.
  intros Hs HR. split.
  - intros k x. rewrite nm_getitem_iff, HR. reflexivity.
  - destruct (indices_keys v Hs) as (l & Hl & ND & Hn & Hin). exists l.
    split; [unfold nm_iter; simpl; rewrite Hl; reflexivity|]. split; [assumption|]. split; [symmetry; exact Hn|].
    intros k. rewrite Hin. split.
    + intros (i & Hk & Hi). apply has_true in Hi as [x Hx]. exists x. apply HR. eauto.
    + intros [x Hx]. apply HR in Hx as (i & Hk & Hi). exists i. rewrite Hi. auto.
Qed.
(** NodeMap with a fill value: every node is a key *)
Lemma is_map_fill {V} (v : vec V) (fill : V) (f : nkey -> V) :
  (forall k i, kid G k = Some i -> f k = oget fill (vget v i)) ->
  is_map (to_nodemap_fill G fill v) (fun k x => node G k /\ x = f k).
Proof.
  intros Hf. split.
  - intros k x. unfold nm_getitem, to_nodemap_fill. simpl. fold (kid G k). rewrite node_kid. destruct (kid G k) as [i|] eqn:Ek.
    + rewrite (Hf k i Ek). destruct (vget v i); simpl; split.
      all: try (intros [= <-]; split; [eauto|reflexivity]). all: intros [_ ->]; reflexivity.
    + split; [discriminate|]. intros [[i Hi] _]. discriminate.
  - exists (gnodes G). split; [reflexivity|]. split; [apply (gw_keys G wf)|]. split; [unfold nm_len, gnodes; simpl; rewrite map_length; reflexivity|].
    intros k. split; [intros H; exists (f k); auto|]. intros (x & H & _). assumption.
Qed.
End G.

Lemma is_set_ext S (P Q : nkey -> Prop) : (forall k, P k <-> Q k) -> is_set S P -> is_set S Q.
Proof.
  intros E [H1 (l & H2 & H3 & H4 & H5)]. split; [intros k; rewrite H1; apply E|]. exists l. repeat split; try assumption.
  - intros H. apply E, H5. assumption.
  - intros H. apply H5, E. assumption.
Qed.
Lemma is_map_ext {V} (m : nodemap V) (P Q : nkey -> V -> Prop) : (forall k x, P k x <-> Q k x) -> is_map m P -> is_map m Q.
Proof.
  intros E [H1 (l & H2 & H3 & H4 & H5)]. split; [intros k x; rewrite H1; apply E|]. exists l. repeat split; try assumption.
  - intros H. apply H5 in H as [x H]. exists x. apply E. assumption.
  - intros [x H]. apply H5. exists x. apply E. assumption.
Qed.
