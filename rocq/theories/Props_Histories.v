(** * C60, C61, C62 without restriction on the operations: what the containers do in every history *)
From Verif Require Import Base BaseProofs Model_Graph Model_Keys Spec Spec_Containers Model_Containers KeyProofs ContainerProofs Props_Containers.
From Coq Require Import Permutation.

(** [run_of step s os rs]: from [s] the operations [os] give the results [rs], each step as [step] says *)
Inductive run_of {S O R} (step : S -> O -> R -> S -> Prop) : S -> list O -> list R -> Prop :=
| run_nil s : run_of step s [] []
| run_cons s o r s' os rs : step s o r s' -> run_of step s' os rs -> run_of step s (o :: os) (r :: rs).

(** the key an operation names *)
Definition named {K V} (o : dop K V) : option K :=
  match o with OGet k | OGetD k _ | OSet k _ | ODel k | OIn k | OSetdefault k _ | OPop k _ => Some k | _ => None end.

(** ** NodeMap: the nodes [ns] are fixed; an object holds the entries [st] that were stored and a fill value *)
Definition shown {V} (ns : list nkey) (st : dict nkey V) (fl : option V) : dict nkey V := fun k =>
  match st k with Some x => Some x | None => if in_dec nkey_dec k ns then fl else None end.
Definition nodemap_step {V} (ns : list nkey) (s : dict nkey V * option V) (o : dop nkey V) (r : dresp nkey V) (s' : dict nkey V * option V) : Prop :=
  let (st, fl) := s in let (st', fl') := s' in let d := shown ns st fl in
  (* something that is not a node: KeyError, except that pop with a default returns the default *)
  (exists k, named o = Some k /\ ~ In k ns /\ same st st' /\ fl' = fl /\ r = match o with OPop _ (Some x) => RVal (Some x) | _ => RExn EKey end) \/
  ((forall k, named o = Some k -> In k ns) /\
   match o with
   | OClear => r = RDone /\ (forall k, st' k = None) /\ fl' = None
   | _ => fl' = fl /\
     match o with
     | OGet k => same st st' /\ r = match d k with Some x => RVal (Some x) | None => RExn EKey end
     | OGetD k x => same st st' /\ r = RVal (match d k with Some y => Some y | None => x end)
     | OSet k x => r = RDone /\ put st k (Some x) st'
     | ODel k => r = RDone /\ put st k None st'                       (* back to the fill value, if there is one *)
     | OIn k => same st st' /\ r = RBool (has (d k))
     | OLen => same st st' /\ exists l, keys_are d l /\ r = RNat (List.length l)
     | OIter => same st st' /\ exists l, keys_are d l /\ r = RKeys l
     | OPopitem => (exists k x, st k = Some x /\ r = RItem k x /\ put st k None st') \/ ((forall k, st k = None) /\ r = RExn EKey /\ same st st')
     | OSetdefault k x => match d k with Some y => r = RVal (Some y) /\ same st st' | None => r = RVal (Some x) /\ put st k (Some x) st' end
     | OPop k x => match d k with Some y => r = RVal (Some y) /\ put st k None st' | None => same st st' /\ r = match x with Some _ => RVal x | None => RExn EKey end end
     | OClear => True
     end
   end).
(** the entries stored in a NodeMap *)
Definition stored {V} (m : nodemap V) : dict nkey V := fun k => match dget (nm_kid m) k with Some i => vget (nm_v m) i | None => None end.

Section NodeMap.
Context {V : Type}.
Implicit Type m : nodemap V.
Lemma shown_dict m : forall k, shown (map fst (nm_kid m)) (stored m) (nm_fill m) k = nm_dict m k.
Proof.
  intros k. unfold shown, stored, nm_dict. destruct (dget (nm_kid m) k) as [i|] eqn:E.
  - destruct (vget (nm_v m) i); [reflexivity|]. destruct (in_dec _ _ _) as [_|H]; [reflexivity|]. apply dget_none in H. congruence.
  - destruct (in_dec _ _ _) as [H|_]; [|reflexivity]. apply dget_some in H as [i H]. congruence.
Qed.
Lemma stored_put m k i o : nm_ok m -> dget (nm_kid m) k = Some i ->
  put (stored m) k o (stored (NM (match o with Some x => vset (nm_v m) i x | None => vdel (nm_v m) i end) (nm_kid m) (nm_fill m))).
Proof.
  intros ok Hk. split.
  - unfold stored. simpl. rewrite Hk. pose proof (kok_lt _ _ ok _ _ Hk) as L. destruct o as [x|]; [apply vget_vset_eq; assumption|apply vget_vdel_eq].
  - intros k' Hne. unfold stored. simpl. destruct (dget (nm_kid m) k') as [i'|] eqn:Hk'; [|reflexivity].
    assert (i' <> i) by (intros ->; apply Hne; eapply kok_inj; eassumption). destruct o as [x|]; [apply vget_vset_ne; assumption|apply vget_vdel_ne; assumption].
Qed.
Lemma named_op m (o : dop nkey V) : op_node (nm_kid m) o <-> forall k, named o = Some k -> In k (map fst (nm_kid m)).
Proof. destruct o; simpl; split; intros H; try (intros ? [= <-]; exact H); try (apply H; reflexivity); try exact Logic.I; intros ? [=]. Qed.
Lemma nodemap_step_ok m o r m' : nm_ok m -> nm_step m o = (r, m') ->
  nm_ok m' /\ nm_kid m' = nm_kid m /\ nodemap_step (map fst (nm_kid m)) (stored m, nm_fill m) o r (stored m', nm_fill m').
Proof.
  intros ok E. assert (SAME : same (stored m) (stored m)) by (intros k; reflexivity).
  destruct (named o) as [k|] eqn:En.
  - destruct (in_dec nkey_dec k (map fst (nm_kid m))) as [Hi|Hi].
    + assert (Hn : forall k0, named o = Some k0 -> In k0 (map fst (nm_kid m))) by (intros k0; rewrite En; intros [= <-]; exact Hi).
      pose proof (proj1 (dget_some _ _) Hi) as [i Hk]. unfold nodemap_step. 
      destruct o as [k0|k0 x|k0 x|k0|k0| | | | |k0 x|k0 x]; try discriminate En; injection En as ->; simpl in E.
      * unfold nm_getitem in E. rewrite Hk in E. assert (D := shown_dict m k). unfold nm_dict in D. rewrite Hk in D. 
        destruct (vget (nm_v m) i) as [y|]; [|destruct (nm_fill m) eqn:F]; simpl in E; injection E as <- <-; (split; [assumption|split; [reflexivity|]]);
          right; (split; [exact Hn|]); rewrite ?F, D; auto.
      * unfold nm_get in E. rewrite Hk in E. simpl in E. injection E as <- <-. split; [assumption|]. split; [reflexivity|]. right. split; [exact Hn|]. split; [reflexivity|]. split; [exact SAME|].
        rewrite shown_dict. unfold nm_dict. rewrite Hk. destruct (vget (nm_v m) i); [reflexivity|]. destruct (nm_fill m); reflexivity.
      * unfold nm_setitem in E. rewrite Hk in E. simpl in E. injection E as <- <-. split; [unfold nm_ok; simpl; rewrite vsize_vset; assumption|]. split; [reflexivity|].
        right. split; [exact Hn|]. split; [reflexivity|]. split; [reflexivity|]. apply (stored_put m k i (Some x)); assumption.
      * unfold nm_delitem in E. rewrite Hk in E. simpl in E. injection E as <- <-. split; [unfold nm_ok; simpl; rewrite vsize_vdel; assumption|]. split; [reflexivity|].
        right. split; [exact Hn|]. split; [reflexivity|]. split; [reflexivity|]. apply (stored_put m k i None); assumption.
      * unfold nm_contains in E. rewrite Hk in E. simpl in E. injection E as <- <-. split; [assumption|]. split; [reflexivity|]. right. split; [exact Hn|]. split; [reflexivity|]. split; [exact SAME|].
        rewrite shown_dict. unfold nm_dict. rewrite Hk. destruct (vget (nm_v m) i); [rewrite orb_true_r; reflexivity|]. rewrite orb_false_r. reflexivity.
      * unfold nm_setdefault in E. rewrite Hk in E. assert (D := shown_dict m k). unfold nm_dict in D. rewrite Hk in D. cbv zeta.
        rewrite D. destruct (vget (nm_v m) i) as [y|]; [simpl in E; injection E as <- <-; split; [assumption|]; split; [reflexivity|]; right; auto|].
        destruct (nm_fill m) as [f|] eqn:F; simpl in E; injection E as <- <-.
        { rewrite F. split; [assumption|]. split; [reflexivity|]. right. auto. }
        split; [unfold nm_ok; simpl; rewrite vsize_vset; assumption|]. split; [reflexivity|]. right. split; [exact Hn|]. split; [reflexivity|]. split; [reflexivity|].
        assert (X := stored_put m k i (Some x) ok Hk). rewrite F in X. exact X.
      * unfold nm_pop, nm_getitem, nm_delitem in E. rewrite Hk in E. assert (D := shown_dict m k). unfold nm_dict in D. rewrite Hk in D. cbv zeta. rewrite D.
        assert (P := stored_put m k i None ok Hk). cbv iota in P.
        destruct (vget (nm_v m) i) as [y|]; [|destruct (nm_fill m) as [f|] eqn:F].
        -- simpl in E. injection E as <- <-. split; [unfold nm_ok; simpl; rewrite vsize_vdel; assumption|]. split; [reflexivity|]. right. auto.
        -- simpl in E. injection E as <- <-. split; [unfold nm_ok; simpl; rewrite vsize_vdel; assumption|]. split; [reflexivity|]. right. auto.
        -- destruct x; simpl in E; injection E as <- <-; rewrite F; (split; [assumption|]; split; [reflexivity|]; right; auto).
    + assert (Hno : ~ op_node (nm_kid m) o) by (rewrite named_op; intros H; exact (Hi (H k En))).
      assert (X : (forall k x, o = OPop k (Some x) -> False) \/ exists x, o = OPop k (Some x)).
      { destruct o as [k0|k0 x|k0 x|k0|k0| | | | |k0 x|k0 [x|]]; try discriminate En; injection En as ->; try (left; intros ? ? [=]; fail). right. eauto. }
      destruct X as [X|[x ->]].
      * rewrite (C60_foreign_key m o Hno X) in E. injection E as <- <-. split; [assumption|]. split; [reflexivity|]. left. exists k. split; [exact En|]. split; [exact Hi|]. split; [exact SAME|]. split; [reflexivity|].
        destruct o; try reflexivity. destruct x; [|reflexivity]. destruct (X _ _ eq_refl).
      * simpl in E. apply dget_none in Hi as Hd. unfold nm_pop, nm_getitem in E. rewrite Hd in E. simpl in E. injection E as <- <-.
        split; [assumption|]. split; [reflexivity|]. left. exists k. auto.
  - assert (Hn : forall k, named o = Some k -> In k (map fst (nm_kid m))) by (intros k; rewrite En; discriminate).
    destruct (nm_keys m ok) as (l & Hl & Hkk & Hlen).
    assert (KA : keys_are (shown (map fst (nm_kid m)) (stored m) (nm_fill m)) l).
    { destruct Hkk as [A B]. split; [exact A|]. intros k. rewrite B, shown_dict. reflexivity. }
    destruct o as [k0|k0 x|k0 x|k0|k0| | | | |k0 x|k0 x]; try discriminate En; simpl in E; unfold nodemap_step.
    + injection E as <- <-. split; [assumption|]. split; [reflexivity|]. right. split; [exact Hn|]. split; [reflexivity|]. split; [exact SAME|]. exists l. rewrite Hlen. auto.
    + rewrite Hl in E. simpl in E. injection E as <- <-. split; [assumption|]. split; [reflexivity|]. right. split; [exact Hn|]. split; [reflexivity|]. split; [exact SAME|]. exists l. auto.
    + injection E as <- <-. split; [unfold nm_ok; simpl; rewrite vsize_vempty; assumption|]. split; [reflexivity|]. right. split; [exact Hn|]. split; [reflexivity|]. split; [|reflexivity].
      intros k. unfold stored. simpl. destruct (dget (nm_kid m) k); [apply vget_vempty|reflexivity].
    + unfold nm_popitem in E. destruct (vcoo (nm_v m)) as [|[i x] l'] eqn:EC.
      * simpl in E. injection E as <- <-. split; [assumption|]. split; [reflexivity|]. right. split; [exact Hn|]. split; [reflexivity|]. right. split; [|auto].
        intros k. unfold stored. destruct (dget (nm_kid m) k) as [i|]; [|reflexivity]. apply (vcoo_nil _ EC).
      * apply vcoo_head in EC. pose proof (vget_some_lt _ _ _ EC) as L. destruct (kok_ikey _ _ ok i L) as [k Hk]. rewrite Hk in E.
        simpl in E. injection E as <- <-. apply (kok_inv _ _ ok) in Hk. split; [unfold nm_ok; simpl; rewrite vsize_vdel; assumption|]. split; [reflexivity|].
        right. split; [exact Hn|]. split; [reflexivity|]. left. exists k, x. split; [unfold stored; rewrite Hk; assumption|]. split; [reflexivity|]. apply (stored_put m k i None ok Hk).
Qed.
(** C60: every history on every NodeMap, with or without fill value, on nodes or other keys *)
Theorem C60_every_history m os : nm_ok m -> run_of (nodemap_step (map fst (nm_kid m))) (stored m, nm_fill m) os (fst (drun nm_step m os)).
Proof.
  revert m. induction os as [|o os IH]; intros m ok; simpl; [constructor|].
  destruct (nm_step m o) as [r m'] eqn:E. destruct (drun nm_step m' os) as [rs m''] eqn:E2. simpl.
  destruct (nodemap_step_ok m o r m' ok E) as (A & B & D). econstructor; [exact D|].
  replace rs with (fst (drun nm_step m' os)) by (rewrite E2; reflexivity). rewrite <- B. apply IH. assumption.
Qed.
End NodeMap.

(** ** NodeMap with values_are_keys=True: keys and values are nodes; naming anything else is a KeyError (a default is not checked) *)
Definition keymap_step (ns : list nkey) (d : dict nkey nkey) (o : dop nkey nkey) (r : dresp nkey nkey) (d' : dict nkey nkey) : Prop :=
  ((exists k, (named o = Some k \/ exists k0, o = OSet k0 k) /\ ~ In k ns) /\ same d d' /\
     r = match o with OPop _ (Some x) => RVal (Some x) | _ => RExn EKey end) \/
  ((forall k, named o = Some k -> In k ns) /\ (forall k x, o = OSet k x -> In x ns) /\ dict_step false true d o r d').
Theorem C60_values_are_keys_every_history (m : nodemap nat) os : km_ok m -> (forall k x, ~ In (OSetdefault k x) os) ->
  run_of (keymap_step (map fst (nm_kid m))) (km_dict m) os (fst (drun km_step m os)).
Proof.
  revert m. induction os as [|o os IH]; intros m ok Hs; simpl; [constructor|].
  destruct (km_step m o) as [r m'] eqn:E. destruct (drun km_step m' os) as [rs m''] eqn:E2. simpl.
  assert (SAME : same (km_dict m) (km_dict m)) by (intros k; reflexivity).
  assert (GOOD : forall P : Prop, (km_op (nm_kid m) o) -> (forall k, named o = Some k -> In k (map fst (nm_kid m))) -> (forall k x, o = OSet k x -> In x (map fst (nm_kid m))) ->
     km_ok m' /\ nm_kid m' = nm_kid m /\ keymap_step (map fst (nm_kid m)) (km_dict m) o r (km_dict m')).
  { intros _ H1 H2 H3. destruct (km_step_ok m o r m' ok H1 E) as (A & B & D). split; [exact A|]. split; [exact B|]. right. auto. }
  assert (H : km_ok m' /\ nm_kid m' = nm_kid m /\ keymap_step (map fst (nm_kid m)) (km_dict m) o r (km_dict m')).
  { assert (BAD : forall k, (named o = Some k \/ exists k0, o = OSet k0 k) -> ~ In k (map fst (nm_kid m)) -> r = match o with OPop _ (Some x) => RVal (Some x) | _ => RExn EKey end -> m' = m ->
       km_ok m' /\ nm_kid m' = nm_kid m /\ keymap_step (map fst (nm_kid m)) (km_dict m) o r (km_dict m')).
    { intros k Hk Hi -> ->. split; [exact ok|]. split; [reflexivity|]. left. split; [eauto|]. auto. }
    destruct (named o) as [k|] eqn:En.
    - destruct (in_dec nkey_dec k (map fst (nm_kid m))) as [Hi|Hi].
      + destruct o as [k0|k0 x|k0 x|k0|k0| | | | |k0 x|k0 x]; try discriminate En; injection En as ->;
          try (apply (GOOD True); [split; [exact Hi|exact Logic.I]|intros ? [= <-]; exact Hi|discriminate]).
        * destruct (in_dec nkey_dec x (map fst (nm_kid m))) as [Hx|Hx].
          -- apply (GOOD True); [split; [exact Hi|exact Hx]|intros ? [= <-]; exact Hi|intros ? ? [= <- <-]; exact Hx].
          -- simpl in E. unfold km_setitem in E. apply dget_some in Hi as [i Hk]. apply dget_none in Hx as Hd. rewrite Hk, Hd in E. simpl in E. injection E as <- <-.
             apply (BAD x); [right; eauto|exact Hx|reflexivity|reflexivity].
        * destruct (Hs k x). left. reflexivity.
      + apply dget_none in Hi as Hd. destruct o as [k0|k0 x|k0 x|k0|k0| | | | |k0 x|k0 x]; try discriminate En; injection En as ->; simpl in E;
          unfold km_getitem, km_get, km_setitem, nm_delitem, nm_contains, km_pop, km_getitem in E; rewrite Hd in E; simpl in E;
          try (injection E as <- <-; apply (BAD k); [left; reflexivity|exact Hi|reflexivity|reflexivity]).
        destruct x; simpl in E; injection E as <- <-; (apply (BAD k); [left; reflexivity|exact Hi|reflexivity|reflexivity]).
    - apply (GOOD True); [|rewrite ?En; discriminate|intros ? ? ->; discriminate En].
      destruct o; try discriminate En; split; exact Logic.I. }
  destruct H as (A & B & D). econstructor; [exact D|]. replace rs with (fst (drun km_step m' os)) by (rewrite E2; reflexivity). rewrite <- B. apply IH; [assumption|].
  intros k x Hin. apply (Hs k x). right. exact Hin.
Qed.
(** and setdefault, which stores its default without translating it (C60_setdefault_keys_refuted), up to that point *)
Theorem C60_setdefault_keys (m : nodemap nat) k x : km_ok m ->
  (~ In k (map fst (nm_kid m)) -> km_step m (OSetdefault k x) = (RExn EKey, m)) /\
  (forall y, km_dict m k = Some y -> km_step m (OSetdefault k x) = (RVal (Some y), m)) /\
  (In k (map fst (nm_kid m)) -> km_dict m k = None -> forall w, x = KS w -> km_step m (OSetdefault k x) = (RExn EType, m)).
Proof.
  intros ok. pose proof ok as (ok1 & _ & R). split; [|split].
  - intros Hi. apply dget_none in Hi. cbn [km_step]. rewrite Hi. reflexivity.
  - intros y Hy. unfold km_dict in Hy. cbn [km_step]. destruct (dget (nm_kid m) k) as [i|]; [|discriminate]. destruct (vget (nm_v m) i) as [j|]; [|discriminate]. rewrite Hy. reflexivity.
  - intros Hi Hn w ->. apply dget_some in Hi as [i Hk]. cbn [km_step]. rewrite Hk. unfold km_dict in Hn. rewrite Hk in Hn.
    destruct (vget (nm_v m) i) as [j|] eqn:Ev; [|reflexivity]. destruct (kok_ikey _ _ ok1 j (R _ _ Ev)) as [k' Hk']. congruence.
Qed.
Example C60_keys_every_ex : km_ok km3 /\
  fst (drun km_step km3 [OSet (KS "a") (KS "nobody"); OSet (KS "a") (KS "b"); OGet (KS "nobody"); OPop (KS "nobody") (Some (KI 5)); OGet (KS "a"); OLen; OSetdefault (KS "c") (KS "x")]) =
  [RExn EKey; RDone; RExn EKey; RVal (Some (KI 5)); RVal (Some (KS "b")); RNat 2; RExn EType].
Proof. split; [apply C60_keys_ex|]. vm_compute. reflexivity. Qed.

(** ** VectorMap: positions 0 .. n-1; others raise IndexError; reading or popping an absent one gives None *)
Definition vectormap_step {V} (n : nat) (d : dict nat V) (o : dop nat V) (r : dresp nat V) (d' : dict nat V) : Prop :=
  (exists k, named o = Some k /\ n <= k /\ same d d' /\ r = RExn EIndex) \/
  ((forall k, named o = Some k -> k < n) /\
   match o with
   | OPop k x => r = RVal (d k) /\ put d k None d'
   | _ => dict_step true true d o r d'
   end).
Theorem C62_vectormap_every_history {V} (v : vec V) os : run_of (vectormap_step (vsize v)) (vget v) os (fst (drun vm_step v os)).
Proof.
  revert v. induction os as [|o os IH]; intros v; simpl; [constructor|].
  destruct (vm_step v o) as [r v'] eqn:E. destruct (drun vm_step v' os) as [rs v''] eqn:E2. simpl.
  assert (H : vsize v' = vsize v /\ vectormap_step (vsize v) (vget v) o r (vget v')).
  { assert (SAME : same (vget v) (vget v)) by (intros k; reflexivity). destruct (named o) as [k|] eqn:En.
    - destruct (Nat.lt_ge_cases k (vsize v)) as [L|L].
      + assert (Hn : forall k0, named o = Some k0 -> k0 < vsize v) by (intros k0; rewrite En; intros [= <-]; exact L).
        destruct o as [k0|k0 x|k0 x|k0|k0| | | | |k0 x|k0 x]; try discriminate En; injection En as ->;
          try (match type of E with vm_step _ ?op = _ => destruct (vm_step_ok v op r v') as [A B]; [exact L|exact E|split; [exact A|right; split; [exact Hn|exact B]]] end).
        simpl in E. unfold vm_pop, vm_getitem, vec_get, vm_delitem in E. rewrite (proj2 (Nat.ltb_lt _ _) L) in E. simpl in E. injection E as <- <-.
        rewrite vsize_vdel. split; [reflexivity|]. right. split; [exact Hn|]. split; [reflexivity|]. split; [apply vget_vdel_eq|]. intros k' Hne. apply vget_vdel_ne. exact Hne.
      + assert (L' : (k <? vsize v) = false) by (apply Nat.ltb_ge; exact L).
        assert (X : r = RExn EIndex /\ v' = v).
        { destruct o as [k0|k0 x|k0 x|k0|k0| | | | |k0 x|k0 x]; try discriminate En; injection En as ->; simpl in E;
            unfold vm_getitem, vec_get, vm_get, vm_setitem, vm_delitem, vm_contains, vm_setdefault, vm_pop, vm_getitem, vec_get in E; rewrite L' in E; simpl in E; injection E as <- <-; auto. }
        destruct X as [-> ->]. split; [reflexivity|]. left. exists k. auto.
    - assert (Hn : forall k, named o = Some k -> k < vsize v) by (intros k; rewrite En; discriminate).
      assert (Ho : vop_ok (vsize v) o) by (destruct o; try discriminate En; exact Logic.I).
      destruct (vm_step_ok v o r v' Ho E) as [A B]. split; [exact A|]. right. split; [exact Hn|]. destruct o; try discriminate En; exact B. }
  destruct H as [A D]. econstructor; [exact D|]. replace rs with (fst (drun vm_step v' os)) by (rewrite E2; reflexivity). rewrite <- A. apply IH.
Qed.

(** ** NodeSet: an operation that mentions something that is not a node raises KeyError and changes nothing *)
Definition mentions (o : sop) : list nkey :=
  match o with SAdd k | SDiscard k | SRemove k | SIn k => [k] | SAnd l | SOr l | SSub l => l | _ => [] end.
Definition nodeset_step (ns : list nkey) (P : nkey -> Prop) (o : sop) (r : sresp) (P' : nkey -> Prop) : Prop :=
  ((exists k, In k (mentions o) /\ ~ In k ns) /\ r = SExn EKey /\ forall k, P' k <-> P k) \/
  ((forall k, In k (mentions o) -> In k ns) /\ set_step P o r P').
Lemma from_iterable_foreign m l k : In k l -> ~ In k (map fst (ns_kid m)) -> ns_from_iterable m l = Raise EKey.
Proof.
  intros Hi Hn. unfold ns_from_iterable, set_to_vector. destruct (mapO (dget (ns_kid m)) l) as [ids|] eqn:E; [|reflexivity]. exfalso.
  apply dget_none in Hn. clear - Hi Hn E. revert ids E. induction l as [|a l IH]; intros ids E; [destruct Hi|]. simpl in E. destruct Hi as [->|Hi]; [rewrite Hn in E; discriminate|].
  destruct (dget (ns_kid m) a); [|discriminate]. destruct (mapO (dget (ns_kid m)) l) as [q|]; [|discriminate]. exact (IH Hi q eq_refl).
Qed.
Lemma filter_foreign m l k : In k l -> ~ In k (map fst (ns_kid m)) -> filterO (ns_contains m) l = Raise EKey.
Proof.
  intros Hi Hn. apply dget_none in Hn. induction l as [|a l IH]; [destruct Hi|]. simpl. destruct Hi as [->|Hi].
  - unfold ns_contains at 1. rewrite Hn. reflexivity.
  - unfold ns_contains at 1. destruct (dget (ns_kid m) a); [|reflexivity]. rewrite (IH Hi). reflexivity.
Qed.
Lemma ns_foreign m o k : ns_ok m -> In k (mentions o) -> ~ In k (map fst (ns_kid m)) -> ns_step m o = (SExn EKey, m).
Proof.
  intros ok Hi Hn. assert (Hd := proj2 (dget_none _ _) Hn).
  destruct o as [k0|k0|k0|k0| | | | |l|l|l]; simpl in Hi; try (destruct Hi as [->|[]]); try (destruct Hi; fail); simpl.
  - unfold ns_add. rewrite Hd. reflexivity.
  - unfold ns_discard. rewrite Hd. reflexivity.
  - unfold ns_remove. rewrite Hd. reflexivity.
  - unfold ns_contains. rewrite Hd. reflexivity.
  - unfold newset, ns_and. rewrite (filter_foreign m l k Hi Hn). reflexivity.
  - unfold newset, ns_or. destruct (ns_iter_ok m ok) as (q & -> & _). simpl. rewrite (from_iterable_foreign m (q ++ l) k); [reflexivity|apply in_or_app; auto|assumption].
  - unfold newset, ns_sub. rewrite (from_iterable_foreign m l k Hi Hn). reflexivity.
Qed.
Theorem C61_every_history m os : ns_ok m -> run_of (nodeset_step (map fst (ns_kid m))) (ns_mem m) os (fst (nsrun m os)).
Proof.
  revert m. induction os as [|o os IH]; intros m ok; simpl; [constructor|].
  destruct (ns_step m o) as [r m'] eqn:E. destruct (nsrun m' os) as [rs m''] eqn:E2. simpl.
  assert (H : ns_ok m' /\ ns_kid m' = ns_kid m /\ nodeset_step (map fst (ns_kid m)) (ns_mem m) o r (ns_mem m')).
  { destruct (Forall_Exists_dec (fun k => In k (map fst (ns_kid m))) (fun k => in_dec nkey_dec k (map fst (ns_kid m))) (mentions o)) as [F|X].
    - rewrite Forall_forall in F. assert (Ho : sop_ok (ns_kid m) o) by (destruct o; simpl in *; auto). destruct (ns_step_ok m o r m' ok Ho E) as (A & B & C).
      split; [exact A|]. split; [exact B|]. right. auto.
    - apply Exists_exists in X as (k & Hi & Hn). rewrite (ns_foreign m o k ok Hi Hn) in E. injection E as <- <-. split; [assumption|]. split; [reflexivity|].
      left. split; [eauto|]. split; [reflexivity|]. reflexivity. }
  destruct H as (A & B & D). econstructor; [exact D|]. replace rs with (fst (nsrun m' os)) by (rewrite E2; reflexivity). rewrite <- B. apply IH. assumption.
Qed.

(** ** VectorNodeMap and NodeNodeMap: the row of something that is not a node: KeyError; NodeNodeMap.get: always None *)
Definition wnamed {R} (o : rop2 R) : option nkey := match o with WGet k | WGetD k | WSet k _ | WDel k | WIn k => Some k | _ => None end.
Definition rows_step {C V R} (rd : R -> C -> option V) (get_none : bool) (ns : list nkey) (d : ddict C V) (o : rop2 R) (r : rresp R) (d' : ddict C V) : Prop :=
  (exists k, wnamed o = Some k /\ ~ In k ns /\ same2 d d' /\ r = WExn EKey) \/
  ((forall k, wnamed o = Some k -> In k ns) /\
   match o with
   | WGetD k => if get_none then same2 d d' /\ r = WNone else ddict_step rd d o r d'
   | _ => ddict_step rd d o r d'
   end).
(** rows that are stored fit: length of a row for VectorNodeMap, a NodeMap of the same graph for NodeNodeMap *)
Definition vnm_row {V} (r : rowmap V) (o : rop2 (vec V)) : Prop := match o with WSet _ v => vsize v = ncols (rm_m r) | _ => True end.
Definition nnm_row {V} (r : rowmap V) (o : rop2 (nodemap V)) : Prop :=
  match o with WSet _ v => vsize (nm_v v) = ncols (rm_m r) /\ nm_kid v = rm_kid r /\ nm_fill v = None | _ => True end.
Section Rows.
Context {V : Type}.
Implicit Type r : rowmap V.
Lemma wnamed_node {R} (d : kidmap) (o : rop2 R) : (forall k, wnamed o = Some k -> In k (map fst d)) -> wop_node d o.
Proof. destruct o; simpl; auto. Qed.
Theorem C62_vectornodemap_every_history r os : rm_ok r -> Forall (vnm_row r) os ->
  run_of (rows_step vget false (map fst (rm_kid r))) (rm_dd r) os (fst (rrun vnm_step r os)).
Proof.
  revert r. induction os as [|o os IH]; intros r ok HF; simpl; [constructor|]. inversion HF as [|? ? H1 H2]; subst.
  destruct (vnm_step r o) as [w r'] eqn:E. destruct (rrun vnm_step r' os) as [ws r''] eqn:E2. simpl.
  assert (H : rm_ok r' /\ stable r r' /\ rows_step vget false (map fst (rm_kid r)) (rm_dd r) o w (rm_dd r')).
  { assert (X : (exists k, wnamed o = Some k /\ ~ In k (map fst (rm_kid r))) \/ (forall k, wnamed o = Some k -> In k (map fst (rm_kid r)))).
    { destruct (wnamed o) as [k|]; [|right; discriminate]. destruct (in_dec nkey_dec k (map fst (rm_kid r))); [right; intros ? [= <-]; assumption|left; eauto]. }
    destruct X as [(k & Hk & Hn)|X].
    - destruct (get_rows_ok r ok) as (OK' & _). destruct (dd_forced r ok) as [SD ST]. assert (Hd := proj2 (dget_none _ _) Hn).
      assert (Y : w = WExn EKey /\ (r' = r \/ r' = rm_forced r)).
      { destruct o; try discriminate Hk; injection Hk as ->; simpl in E; unfold vnm_getitem, vnm_get, rm_setitem, rm_delitem, rm_contains in E; rewrite Hd in E; simpl in E; injection E as <- <-; auto. }
      destruct Y as [-> [->| ->]].
      + split; [assumption|]. split; [split; auto|]. left. exists k. split; [exact Hk|]. split; [exact Hn|]. split; [intros ? ?; reflexivity|reflexivity].
      + split; [assumption|]. split; [assumption|]. left. exists k. auto.
    - destruct (vnm_step_ok r o w r' ok (conj (wnamed_node _ o X) H1) E) as (A & B & D). split; [exact A|]. split; [exact B|]. right. split; [exact X|]. destruct o; exact D. }
  destruct H as (A & (B1 & B2 & B3) & D). econstructor; [exact D|]. replace ws with (fst (rrun vnm_step r' os)) by (rewrite E2; reflexivity). rewrite <- B1. apply IH; [assumption|].
  eapply Forall_impl; [|exact H2]. intros o'. destruct o'; auto. simpl. rewrite B2. auto.
Qed.
Theorem C62_nodenodemap_every_history r os : rm_ok r -> sq r -> Forall (nnm_row r) os ->
  run_of (rows_step nm_dict true (map fst (rm_kid r))) (rm_dd2 r) os (fst (rrun nnm_step r os)).
Proof.
  revert r. induction os as [|o os IH]; intros r ok SQ HF; simpl; [constructor|]. inversion HF as [|? ? H1 H2]; subst.
  destruct (nnm_step r o) as [w r'] eqn:E. destruct (rrun nnm_step r' os) as [ws r''] eqn:E2. simpl.
  assert (H : rm_ok r' /\ stable r r' /\ rows_step nm_dict true (map fst (rm_kid r)) (rm_dd2 r) o w (rm_dd2 r')).
  { destruct (get_rows_ok r ok) as (OK' & _). destruct (dd_forced r ok) as [SD ST].
    assert (SD2 : same2 (rm_dd2 r) (rm_dd2 (rm_forced r))).
    { intros k c. unfold rm_dd2. rewrite (proj1 ST). destruct (dget (rm_kid r) c); [apply SD|reflexivity]. }
    assert (X : (exists k, wnamed o = Some k /\ ~ In k (map fst (rm_kid r))) \/ (forall k, wnamed o = Some k -> In k (map fst (rm_kid r)))).
    { destruct (wnamed o) as [k|]; [|right; discriminate]. destruct (in_dec nkey_dec k (map fst (rm_kid r))); [right; intros ? [= <-]; assumption|left; eauto]. }
    destruct X as [(k & Hk & Hn)|X].
    - assert (Hd := proj2 (dget_none _ _) Hn).
      assert (Y : w = WExn EKey /\ (r' = r \/ r' = rm_forced r)).
      { destruct o; try discriminate Hk; injection Hk as ->; simpl in E; unfold nnm_getitem, nnm_get, rm_setitem, rm_delitem, rm_contains in E; rewrite Hd in E; simpl in E; injection E as <- <-; auto. }
      destruct Y as [-> [->| ->]].
      + split; [assumption|]. split; [split; auto|]. left. exists k. split; [exact Hk|]. split; [exact Hn|]. split; [intros ? ?; reflexivity|reflexivity].
      + split; [assumption|]. split; [assumption|]. left. exists k. auto.
    - assert (Y : (exists k, o = WGetD k) \/ nnm_op r o).
      { assert (Z := wnamed_node (rm_kid r) o X). destruct o; try (right; split; [exact Z|exact H1]). left. eauto. }
      destruct Y as [[k ->]|Y].
      + specialize (X k eq_refl) as Hk. apply dget_some in Hk as [i Hk]. destruct ok as (K1 & K2 & K3 & K4) eqn:Q. clear Q. simpl in E. unfold nnm_get in E. rewrite Hk, K3 in E.
        assert (w = WNone /\ r' = rm_forced r) as [-> ->] by (destruct (has (vget _ _)); simpl in E; injection E as <- <-; auto).
        split; [assumption|]. split; [assumption|]. right. split; [exact X|]. split; [exact SD2|reflexivity].
      + destruct (nnm_step_ok r o w r' ok SQ Y E) as (A & B & D). split; [exact A|]. split; [exact B|]. right. split; [exact X|]. destruct o; try exact D. destruct Y as [_ []]. }
  destruct H as (A & (B1 & B2 & B3) & D). econstructor; [exact D|]. replace ws with (fst (rrun nnm_step r' os)) by (rewrite E2; reflexivity). rewrite <- B1. apply IH; [assumption| |].
  - unfold sq in *. congruence.
  - eapply Forall_impl; [|exact H2]. intros o'. destruct o'; auto. simpl. rewrite B1, B2. auto.
Qed.
End Rows.

(** ** Concrete histories, with a fill value, foreign keys and removals *)
Example C60_every_ex : nm_ok (nm3 (Some 0%Z)) /\
  fst (drun nm_step (nm3 (Some 0%Z)) [OGet (KS "a"); ODel (KS "b"); OGet (KS "b"); OGet (KS "z"); OPop (KS "z") (Some 4%Z); OPopitem; OClear; OIn (KS "a")]) =
  [RVal (Some 0%Z); RDone; RVal (Some 0%Z); RExn EKey; RVal (Some 4%Z); RExn EKey; RDone; RBool false].
Proof. split; [exact kid3_ok|reflexivity]. Qed.
Example C61_every_ex : ns_ok (NS (vbuild 3 (fun i => if i =? 1 then Some true else None)) kid3) /\
  fst (nsrun (NS (vbuild 3 (fun i => if i =? 1 then Some true else None)) kid3) [SAdd (KS "z"); SAdd (KS "a"); SIter; SOr [KS "z"]; SAnd [KS "a"; KS "c"]]) =
  [SExn EKey; SDone; SKeys [KS "a"; KS "b"]; SExn EKey; SSet [KS "a"]].
Proof. split; [exact kid3_ok|reflexivity]. Qed.
Example C62_every_ex : rm_ok rm3 /\ sq rm3 /\ Forall (nnm_row rm3) [WGetD (KS "a"); WGet (KS "z"); WDel (KS "z"); WLen] /\
  exists l, fst (rrun nnm_step rm3 [WGetD (KS "a"); WGet (KS "z"); WDel (KS "z"); WLen]) = [WNone; WExn EKey; WExn EKey; WNat l] /\ l <> 0.
Proof.
  destruct C62_ex as (A & B & _). split; [exact A|]. split; [exact B|]. split; [repeat constructor|]. eexists. split; [vm_compute; reflexivity|]. discriminate.
Qed.
Print Assumptions C60_every_history.
Print Assumptions C61_every_history.
Print Assumptions C62_vectormap_every_history.
Print Assumptions C62_vectornodemap_every_history.
Print Assumptions C62_nodenodemap_every_history.

Print Assumptions C60_values_are_keys_every_history.
Print Assumptions C60_setdefault_keys.
