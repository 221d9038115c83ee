(** * C95: graph attributes *)
From Verif Require Import Base Model_Graph KeyProofs Model_Attrs Spec_Attrs.
From Coq Require Import Lia.
Open Scope nat_scope.
Open Scope list_scope.

Lemma lset_length {X} (l : list X) i x : List.length (lset l i x) = List.length l.
Proof. revert i. induction l as [|y l IH]; intros [|i]; cbn; auto. Qed.
Lemma lset_same {X} (l : list X) i x : i < List.length l -> nth_error (lset l i x) i = Some x.
Proof. revert i. induction l as [|y l IH]; intros [|i] H; cbn in *; try lia; [reflexivity|apply IH; lia]. Qed.
Lemma lset_other {X} (l : list X) i j x : i <> j -> nth_error (lset l i x) j = nth_error l j.
Proof. revert i j. induction l as [|y l IH]; intros [|i] [|j] H; cbn; try reflexivity; [lia|apply IH; lia]. Qed.
Lemma nth_lset {X} (l : list X) i j x d : i < List.length l -> nth j (lset l i x) d = if j =? i then x else nth j l d.
Proof.
  revert i j. induction l as [|y l IH]; intros [|i] [|j] H; cbn in *; try lia; try reflexivity. apply IH. lia.
Qed.

Lemma dget_dset {V} (d : list (nkey * V)) k v k' : dget (dset d k v) k' = if nkey_eqb k' k then Some v else dget d k'.
Proof.
  induction d as [|[k0 v0] d IH]; cbn; [destruct (nkey_eqb k' k); reflexivity|].
  destruct (nkey_eqb k k0) eqn:E; cbn.
  - apply nkey_eqb_eq in E. subst. destruct (nkey_eqb k' k0); reflexivity.
  - rewrite IH. destruct (nkey_eqb k' k0) eqn:E1; [|reflexivity]. apply nkey_eqb_eq in E1. subst.
    destruct (nkey_eqb k0 k) eqn:E2; [|reflexivity]. apply nkey_eqb_eq in E2. subst. rewrite (proj2 (nkey_eqb_eq k k) eq_refl) in E. discriminate.
Qed.
Definition refs (d : list (nkey * aval)) (l : nat) : Prop := exists k, In (k, AList l) d.
Lemma dget_in {V} (d : list (nkey * V)) k v : dget d k = Some v -> exists k', In (k', v) d.
Proof.
  induction d as [|[k' v'] d IH]; cbn; [discriminate|]. destruct (nkey_eqb k k'); [intros H; injection H as ->; eauto|].
  intros H. destruct (IH H) as [k0 H0]. eauto.
Qed.
Lemma refs_dget d k l : dget d k = Some (AList l) -> refs d l.
Proof. intros H. apply dget_in in H as [k' H]. exists k'. assumption. Qed.
Lemma dset_in {V} (d : list (nkey * V)) k v k' v' : In (k', v') (dset d k v) -> In (k', v') d \/ v' = v.
Proof.
  induction d as [|[k0 v0] d IH]; cbn.
  - intros [H|[]]. injection H as <- <-. auto.
  - destruct (nkey_eqb k k0); cbn; intros [H|H]; auto.
    + injection H as <- <-. auto.
    + destruct (IH H); auto.
Qed.
Lemma refs_dset d k v l : refs (dset d k v) l -> refs d l \/ v = AList l.
Proof. intros [k' H]. apply dset_in in H as [H|H]; [left; exists k'; assumption|auto]. Qed.
Lemma refs_dupdate e : forall d l, refs (dupdate d e) l -> refs d l \/ refs e l.
Proof.
  unfold dupdate. induction e as [|[k v] e IH]; intros d l H; cbn in H; [auto|]. apply IH in H as [H|[k' H]].
  - apply refs_dset in H as [H|H]; [auto|]. right. exists k. left. cbn in H. subst. reflexivity.
  - right. exists k'. right. assumption.
Qed.
Lemma dget_dupdate {V} (e : list (nkey * V)) : NoDup (map fst e) -> forall d k, dget (dupdate d e) k = match dget e k with Some v => Some v | None => dget d k end.
Proof.
  unfold dupdate. induction e as [|[k0 v0] e IH]; intros N d k; cbn; [reflexivity|]. cbn in N. inversion N as [|? ? N1 N2]; subst.
  rewrite (IH N2), dget_dset. destruct (nkey_eqb k k0) eqn:E; [|reflexivity].
  apply nkey_eqb_eq in E. subst. destruct (dget e k0) eqn:E; [|reflexivity]. exfalso. apply N1.
  clear -E. induction e as [|[k w] e IH]; cbn in *; [discriminate|]. destruct (nkey_eqb k0 k) eqn:E1; [apply nkey_eqb_eq in E1; auto|auto].
Qed.

(** ** objects of a group [A] that share no list with the others *)
Section Apart.
Variable A : nat -> Prop.
Definition goodloc (h : aheap) (l : nat) : Prop :=
  l < List.length (a_lists h) /\ forall a oa, A a -> nth_error (a_objs h) a = Some oa -> ~ refs (a_dict oa) l.
Definition gd h (v : aval) := forall l, v = AList l -> goodloc h l.
Definition gdd h (d : list (nkey * aval)) := forall l, refs d l -> goodloc h l.
Record apart (h : aheap) : Prop := {
  ap_wf : forall g o l, nth_error (a_objs h) g = Some o -> refs (a_dict o) l -> l < List.length (a_lists h);
  ap_good : forall g o, ~ A g -> nth_error (a_objs h) g = Some o -> gdd h (a_dict o);
  ap_bound : forall g, A g -> g < List.length (a_objs h) }.
Record keeps (h h' : aheap) : Prop := {
  kp_obj : forall a, A a -> nth_error (a_objs h') a = nth_error (a_objs h) a;
  kp_len : List.length (a_lists h) <= List.length (a_lists h');
  kp_list : forall a oa l, A a -> nth_error (a_objs h) a = Some oa -> refs (a_dict oa) l -> nth l (a_lists h') [] = nth l (a_lists h) [] }.
Lemma keeps_refl h : keeps h h. Proof. constructor; auto. Qed.
Lemma keeps_trans h1 h2 h3 : keeps h1 h2 -> keeps h2 h3 -> keeps h1 h3.
Proof.
  intros [a b c] [a' b' c']. constructor.
  - intros x Hx. rewrite a', a; auto.
  - lia.
  - intros x o l Hx Ho Hl. rewrite (c' x o l); auto; [eauto|]. rewrite a; auto.
Qed.
Lemma good_keeps h h' l : keeps h h' -> goodloc h l -> goodloc h' l.
Proof. intros K [L H]. split; [pose proof (kp_len _ _ K); lia|]. intros a oa Ha Ho. rewrite (kp_obj _ _ K a Ha) in Ho. eauto. Qed.
Lemma gdd_keeps h h' d : keeps h h' -> gdd h d -> gdd h' d.
Proof. intros K H l Hl. eapply good_keeps; eauto. Qed.
Definition tr {X} (m : AM X) (h : aheap) (R : X -> aheap -> Prop) : Prop :=
  apart (snd (m h)) /\ keeps h (snd (m h)) /\ forall x, fst (m h) = Val x -> R x (snd (m h)).
Lemma tr_bind {X Y} (m : AM X) (f : X -> AM Y) h R Q : tr m h R -> (forall x h', apart h' -> keeps h h' -> R x h' -> tr (f x) h' Q) ->
  tr (abind m f) h Q.
Proof.
  intros (S1 & K1 & R1) H. unfold tr, abind. destruct (m h) as [[x|e] h'] eqn:E; cbn [fst snd] in *.
  - destruct (H x h' S1 K1 (R1 x eq_refl)) as (S2 & K2 & R2). split; [assumption|]. split; [eapply keeps_trans; eauto|assumption].
  - split; [assumption|]. split; [assumption|discriminate].
Qed.
Lemma tr_ret {X} (x : X) h (R : X -> aheap -> Prop) : apart h -> R x h -> tr (aret x) h R.
Proof. intros S H. split; [assumption|]. split; [apply keeps_refl|]. cbn. intros y E. injection E as <-. assumption. Qed.
Lemma tr_raise {X} e h (R : X -> aheap -> Prop) : apart h -> tr (araise e) h R.
Proof. intros S. split; [assumption|]. split; [apply keeps_refl|discriminate]. Qed.
Lemma tr_object g h (R : aobj -> aheap -> Prop) : apart h -> (forall o, nth_error (a_objs h) g = Some o -> R o h) -> tr (aobject g) h R.
Proof.
  intros S H. unfold tr, aobject. destruct (nth_error (a_objs h) g) as [o|] eqn:E; cbn [fst snd].
  - split; [assumption|]. split; [apply keeps_refl|]. intros x Ex. injection Ex as <-. auto.
  - split; [assumption|]. split; [apply keeps_refl|discriminate].
Qed.
Lemma keeps_more h ls : apart h -> keeps h {| a_objs := a_objs h; a_lists := a_lists h ++ ls |}.
Proof.
  intros S. constructor; cbn [a_objs a_lists]; [reflexivity|rewrite app_length; lia|].
  intros a oa l Ha Ho Hl. apply app_nth1. apply (ap_wf _ S _ _ _ Ho Hl).
Qed.
Lemma apart_more h ls : apart h -> apart {| a_objs := a_objs h; a_lists := a_lists h ++ ls |}.
Proof.
  intros S. pose proof (keeps_more h ls S) as K. destruct S as [W G B]. constructor; cbn [a_objs a_lists].
  - intros g o l Ho Hl. rewrite app_length. specialize (W g o l Ho Hl). lia.
  - intros g o Ng Ho. eapply gdd_keeps; [exact K|]. eauto.
  - assumption.
Qed.
(** a new location is good *)
Lemma good_new h ls l : apart h -> List.length (a_lists h) <= l < List.length (a_lists h) + List.length ls ->
  goodloc {| a_objs := a_objs h; a_lists := a_lists h ++ ls |} l.
Proof.
  intros S H. split; cbn [a_objs a_lists]; [rewrite app_length; lia|]. intros a oa Ha Ho Hl. pose proof (ap_wf _ S _ _ _ Ho Hl). lia.
Qed.
Lemma tr_new k d h (R : ares -> aheap -> Prop) : apart h -> gdd h d -> (forall x h', R x h') -> tr (anew k d) h R.
Proof.
  intros S D HR. unfold tr, anew. cbn [fst snd]. set (h' := {| a_objs := _; a_lists := _ |}).
  assert (E : forall a, a < List.length (a_objs h) -> nth_error (a_objs h') a = nth_error (a_objs h) a) by (intros; cbn; apply nth_error_app1; assumption).
  assert (K : keeps h h').
  { constructor; [|reflexivity|reflexivity]. intros a Ha. apply E. apply (ap_bound _ S _ Ha). }
  split; [|split; [exact K|auto]]. destruct S as [W G B].
  assert (C : forall g o, nth_error (a_objs h') g = Some o -> nth_error (a_objs h) g = Some o \/ (~ A g /\ o = {| a_kind := k; a_dict := d |})).
  { intros g o H. destruct (Nat.lt_ge_cases g (List.length (a_objs h))) as [L|L]; [left; rewrite <- E; assumption|right].
    cbn in H. rewrite nth_error_app2 in H by assumption. destruct (g - List.length (a_objs h)) as [|n] eqn:En; [|destruct n; discriminate].
    cbn in H. injection H as <-. split; [|reflexivity]. intros Ag. apply B in Ag. lia. }
  constructor.
  - intros g o l Ho Hl. apply C in Ho as [Ho|[_ ->]]; [apply (W g o l Ho Hl)|]. apply (D l Hl).
  - intros g o Ng Ho. apply (gdd_keeps h h' _ K). apply C in Ho as [Ho|[_ ->]]; [eauto|exact D].
  - intros g Ag. cbn. rewrite app_length. specialize (B g Ag). lia.
Qed.
Lemma tr_write g d h (R : ares -> aheap -> Prop) : apart h -> ~ A g -> gdd h d -> (forall x h', R x h') -> tr (awrite g d) h R.
Proof.
  intros S Ng D HR. unfold awrite. apply tr_bind with (R := fun o h' => h' = h /\ nth_error (a_objs h) g = Some o); [apply tr_object; auto|].
  intros o h1 _ _ [-> Ho]. unfold tr. cbn [fst snd]. set (h' := {| a_objs := _; a_lists := _ |}).
  assert (L : g < List.length (a_objs h)) by (apply nth_error_Some; congruence).
  assert (K : keeps h h').
  { constructor; [|reflexivity|reflexivity]. intros a Ha. cbn. apply lset_other. intros ->. contradiction. }
  split; [|split; [exact K|auto]]. destruct S as [W G B].
  assert (C : forall b o', nth_error (a_objs h') b = Some o' -> (b <> g /\ nth_error (a_objs h) b = Some o') \/ (b = g /\ o' = {| a_kind := a_kind o; a_dict := d |})).
  { intros b o' H. cbn in H. destruct (Nat.eq_dec b g) as [->|Nb].
    - rewrite lset_same in H by assumption. injection H as <-. auto.
    - rewrite lset_other in H by auto. auto. }
  constructor.
  - intros b o' l Hb Hl. apply C in Hb as [[_ Hb]|[_ ->]]; [apply (W b o' l Hb Hl)|apply (D l Hl)].
  - intros b o' Nb Hb. apply (gdd_keeps h h' _ K). apply C in Hb as [[_ Hb]|[_ ->]]; [eauto|exact D].
  - intros b Ab. cbn. rewrite lset_length. auto.
Qed.
Lemma tr_lists l x h (R : ares -> aheap -> Prop) : apart h -> goodloc h l -> (forall y h', R y h') ->
  tr (fun h => (Val RNone, {| a_objs := a_objs h; a_lists := lset (a_lists h) l x |})) h R.
Proof.
  intros S [L H] HR. unfold tr. cbn [fst snd]. set (h' := {| a_objs := _; a_lists := _ |}).
  assert (K : keeps h h').
  { constructor; cbn; [reflexivity|rewrite lset_length; reflexivity|]. intros a oa m Ha Ho Hm. rewrite nth_lset by assumption.
    destruct (Nat.eqb_spec m l) as [->|]; [|reflexivity]. exfalso. eapply H; eauto. }
  split; [|split; [exact K|auto]]. destruct S as [W G B]. constructor; cbn.
  - intros g o m Ho Hm. rewrite lset_length. eauto.
  - intros g o Ng Ho. apply (gdd_keeps h h' _ K). eauto.
  - assumption.
Qed.
Lemma tr_eval x h : apart h -> (forall g, In g (arg_mentions x) -> ~ A g) -> tr (aeval x) h (fun v h' => gd h' v).
Proof.
  intros S HM. destruct x as [v|l|g k]; cbn [aeval].
  - apply tr_ret; [assumption|]. intros l E. discriminate.
  - unfold tr. cbn [fst snd]. split; [apply apart_more; assumption|]. split; [apply keeps_more; assumption|].
    intros v E. injection E as <-. intros m Em. injection Em as <-. apply good_new; [assumption|cbn; lia].
  - eapply tr_bind; [apply tr_object with (R := fun o h' => h' = h /\ nth_error (a_objs h) g = Some o); auto|].
    intros o h1 S1 _ [-> Ho]. destruct (dget (a_dict o) k) as [v|] eqn:E; [|apply tr_raise; assumption].
    apply tr_ret; [assumption|]. intros l ->. apply (ap_good _ S g o); [apply HM; cbn; auto|assumption|]. eapply refs_dget; eauto.
Qed.
Lemma tr_evals xs : forall h, apart h -> (forall g, In g (flat_map (fun kx => arg_mentions (snd kx)) xs) -> ~ A g) ->
  tr (aevals xs) h (fun vs h' => gdd h' vs).
Proof.
  induction xs as [|[k x] xs IH]; intros h S HM; cbn [aevals].
  - apply tr_ret; [assumption|]. intros l [k []].
  - eapply tr_bind; [apply tr_eval; [assumption|intros g Hg; apply HM; cbn; apply in_or_app; auto]|]. cbn beta.
    intros v h1 S1 K1 Hv. eapply tr_bind with (R := fun vs h' => gdd h' vs /\ gd h' v).
    + destruct (IH h1 S1) as (S2 & K2 & R2); [intros g Hg; apply HM; cbn; apply in_or_app; auto|]. split; [assumption|]. split; [assumption|].
      intros vs E. split; [apply R2; assumption|]. intros l El. eapply good_keeps; [exact K2|]. auto.
    + intros vs h2 S2 _ [Hvs Hv2]. apply tr_ret; [assumption|]. intros l [k' [E|H]]; [injection E as _ ->; apply Hv2; reflexivity|apply Hvs; exists k'; assumption].
Qed.
Lemma gdd_dupdate h e : gdd h e -> gdd h (dupdate [] e).
Proof. intros H l Hl. apply refs_dupdate in Hl as [[k []]|Hl]. auto. Qed.
Lemma gdd_nil h : gdd h []. Proof. intros l [k []]. Qed.
Lemma gdd_dset h d k v : gdd h d -> gd h v -> gdd h (dset d k v).
Proof. intros H Hv l Hl. apply refs_dset in Hl as [Hl|Hl]; auto. Qed.
Lemma tr_obj g h : apart h -> ~ A g -> tr (aobject g) h (fun o h' => h' = h /\ nth_error (a_objs h) g = Some o /\ gdd h (a_dict o)).
Proof. intros S Ng. apply tr_object; [assumption|]. intros o Ho. split; [reflexivity|]. split; [assumption|]. apply (ap_good _ S g o Ng Ho). Qed.
Lemma apos_lt l ls : In l ls -> apos l ls < List.length ls.
Proof. induction ls as [|m ls IH]; cbn; [intros []|]. destruct (Nat.eqb_spec l m) as [->|N]; [lia|]. intros [E|E]; [congruence|]. specialize (IH E). lia. Qed.
Lemma alocs_in d l : In l (alocs d) <-> refs d l.
Proof.
  unfold alocs. rewrite nodup_In, in_flat_map. split.
  - intros ([k v] & Hin & Hl). cbn in Hl. destruct v as [w|m]; [destruct Hl|]. destruct Hl as [->|[]]. exists k. assumption.
  - intros [k H]. exists (k, AList l). split; [assumption|]. left. reflexivity.
Qed.
Lemma tr_deepcopy d h : apart h -> tr (adeepcopy d) h (fun d' h' => gdd h' d').
Proof.
  intros S. unfold tr, adeepcopy. cbn [fst snd]. split; [apply apart_more; assumption|]. split; [apply keeps_more; assumption|].
  intros d' E. injection E as <-. intros l [k H]. apply in_map_iff in H as ([k' v] & E & Hin). cbn [fst snd] in E. destruct v as [w|m]; [discriminate|].
  injection E as _ <-. apply good_new; [assumption|]. rewrite map_length. assert (R : apos m (alocs d) < List.length (alocs d)) by (apply apos_lt, alocs_in; exists k'; assumption). lia.
Qed.
Lemma tr_step o h : apart h -> (forall g, In g (mentions o) -> ~ A g) -> tr (astep o) h (fun _ _ => True).
Proof.
  intros S HM. destruct o as [k attrs|g|g s|g k x|g k|g k x|g|g|g more|n p|g]; cbn [astep].
  - unfold a_init. eapply tr_bind; [apply tr_evals; [assumption|exact HM]|]. intros vs h1 S1 _ Hvs. apply tr_new; auto. apply gdd_dupdate. assumption.
  - eapply tr_bind with (R := fun _ _ => True).
    + unfold a_name. eapply tr_bind; [apply tr_obj; [assumption|apply HM; cbn; auto]|]. intros o h1 S1 _ _. apply tr_ret; auto.
    + intros v h1 S1 _ _. split; [assumption|]. split; [apply keeps_refl|auto].
  - unfold a_setname. eapply tr_bind; [apply tr_obj; [assumption|apply HM; cbn; auto]|]. intros o h1 S1 _ (-> & Ho & D). apply tr_write; auto.
    + apply HM. cbn. auto.
    + apply gdd_dset; [assumption|]. intros l E. discriminate.
  - unfold a_set. assert (Ng : ~ A g) by (apply HM; cbn; auto).
    eapply tr_bind; [apply tr_obj; [assumption|assumption]|]. intros _ h1 S1 _ (-> & _ & _).
    eapply tr_bind; [apply tr_eval; [assumption|intros g' Hg'; apply HM; cbn; auto]|]. cbn beta. intros v h1 S2 _ Hv.
    eapply tr_bind; [apply tr_obj; [assumption|assumption]|]. intros o h2 S3 _ (-> & Ho & D). apply tr_write; auto. apply gdd_dset; assumption.
  - unfold a_get. eapply tr_bind; [apply tr_obj; [assumption|apply HM; cbn; auto]|]. intros o h1 S1 _ _. destruct (dget (a_dict o) k); [|apply tr_raise; assumption].
    split; [assumption|]. split; [apply keeps_refl|auto].
  - unfold a_append. eapply tr_bind; [apply tr_obj; [assumption|apply HM; cbn; auto]|]. intros o h1 S1 _ (-> & Ho & D).
    destruct (dget (a_dict o) k) as [[v|l]|] eqn:E; [apply tr_raise; assumption| |apply tr_raise; assumption].
    apply (tr_lists l (nth l (a_lists h) [] ++ [x])%list h); auto. apply D. eapply refs_dget; eauto.
  - unfold a_reverse. eapply tr_bind; [apply tr_obj; [assumption|apply HM; cbn; auto]|]. intros o h1 S1 _ (-> & Ho & D).
    destruct (a_kind o) as [[|]|]; try (apply tr_raise; assumption).
    eapply tr_bind; [apply tr_deepcopy; assumption|]. cbn beta. intros d h1 S2 _ Hd. apply tr_new; auto. apply gdd_dupdate. assumption.
  - unfold a_to_undirected. eapply tr_bind; [apply tr_obj; [assumption|apply HM; cbn; auto]|]. intros o h1 S1 _ (-> & Ho & D).
    destruct (a_kind o) as [[|]|]; try (apply tr_raise; assumption). apply tr_new; auto. apply gdd_nil.
  - unfold a_operator. eapply tr_bind; [apply tr_obj; [assumption|apply HM; cbn; auto]|]. intros o h1 S1 _ (-> & Ho & D).
    destruct (a_kind o); try (apply tr_raise; assumption). apply tr_new; auto. apply gdd_nil.
  - unfold a_convert. eapply tr_bind; [apply tr_obj; [assumption|apply HM; cbn; auto]|]. intros o h1 S1 _ (-> & Ho & D).
    destruct (a_kind o); [apply tr_raise; assumption|]. apply tr_new; auto. destruct p; [apply gdd_dupdate; assumption|apply gdd_nil].
  - unfold a_to_nx. eapply tr_bind; [apply tr_obj; [assumption|apply HM; cbn; auto]|]. intros o h1 S1 _ (-> & Ho & D).
    destruct (a_kind o); try (apply tr_raise; assumption). apply tr_new; auto. apply gdd_nil.
Qed.
Lemma arun_apart os : forall h, apart h -> (forall o g, In o os -> In g (mentions o) -> ~ A g) -> apart (arun os h) /\ keeps h (arun os h).
Proof.
  unfold arun. induction os as [|o os IH]; intros h S HM; cbn; [split; [assumption|apply keeps_refl]|].
  destruct (tr_step o h S) as (S1 & K1 & _); [intros g Hg; apply (HM o); cbn; auto|].
  destruct (IH (snd (astep o h)) S1) as (S2 & K2); [intros o' g Ho; apply HM; cbn; auto|]. split; [assumption|eapply keeps_trans; eauto].
Qed.
Lemma keeps_attr h h' a k : keeps h h' -> A a -> attr h' a k = attr h a k.
Proof.
  intros K Ha. unfold attr. rewrite (kp_obj _ _ K a Ha). destruct (nth_error (a_objs h) a) as [o|] eqn:Eo; [|reflexivity].
  destruct (dget (a_dict o) k) as [[v|l]|] eqn:E; [reflexivity| |reflexivity]. cbn [alook]. do 2 f_equal.
  apply (kp_list _ _ K a o l Ha Eo). eapply refs_dget; eauto.
Qed.
End Apart.

(** ** what one operation does to the objects and lists *)
Lemma aobject_eq g h : aobject g h = match nth_error (a_objs h) g with Some o => (Val o, h) | None => (Raise EIndex, h) end.
Proof. reflexivity. Qed.
Definition longer (h h' : aheap) : Prop := List.length (a_lists h) <= List.length (a_lists h') /\
  forall l, l < List.length (a_lists h) -> exists t, nth l (a_lists h') [] = nth l (a_lists h) [] ++ t.
Lemma longer_refl h : longer h h.
Proof. split; [lia|]. intros l _. exists []. symmetry. apply app_nil_r. Qed.
Lemma longer_trans a b c : longer a b -> longer b c -> longer a c.
Proof.
  intros [L1 H1] [L2 H2]. split; [lia|]. intros l Hl. destruct (H1 l Hl) as [t1 E1]. destruct (H2 l) as [t2 E2]; [lia|].
  exists (t1 ++ t2). rewrite E2, E1, app_assoc. reflexivity.
Qed.
Lemma longer_more h os ls : longer h {| a_objs := os; a_lists := a_lists h ++ ls |}.
Proof. split; cbn; [rewrite app_length; lia|]. intros l Hl. exists []. rewrite app_nil_r. apply app_nth1. assumption. Qed.
Lemma longer_objs h os : longer h {| a_objs := os; a_lists := a_lists h |}.
Proof. split; cbn; [lia|]. intros l Hl. exists []. rewrite app_nil_r. reflexivity. Qed.
(** evaluating an argument creates at most one list and shows what the argument shows *)
Lemma aeval_ok x h : exists ls, snd (aeval x h) = {| a_objs := a_objs h; a_lists := a_lists h ++ ls |} /\
  match fst (aeval x h) with
  | Val v => forall ls', Some (alook {| a_objs := a_objs h; a_lists := (a_lists h ++ ls) ++ ls' |} v) =
      match x with VOf g k => match nth_error (a_objs h) g with Some o => option_map (alook {| a_objs := a_objs h; a_lists := (a_lists h ++ ls) ++ ls' |}) (dget (a_dict o) k) | None => None end
                 | VImm w => Some (WImm w) | VNew l => Some (WList l) end
  | Raise _ => exists g k, x = VOf g k /\ attr h g k = None
  end.
Proof.
  destruct x as [v|l|g k]; cbn [aeval].
  - exists []. cbn. rewrite app_nil_r. destruct h; split; [reflexivity|]. reflexivity.
  - exists [l]. cbn. split; [reflexivity|]. intros ls'. do 2 f_equal. rewrite <- app_assoc, app_nth2 by lia. rewrite Nat.sub_diag. reflexivity.
  - exists []. unfold abind, aobject, attr. rewrite app_nil_r. destruct (nth_error (a_objs h) g) as [o|] eqn:Eo; cbn [fst snd].
    + destruct (dget (a_dict o) k) as [v|] eqn:Ed; cbn [aret araise fst snd].
      * split; [destruct h; reflexivity|]. rewrite ?Ed. reflexivity.
      * split; [destruct h; reflexivity|]. exists g, k. rewrite Eo, Ed. auto.
    + split; [destruct h; reflexivity|]. exists g, k. rewrite Eo. auto.
Qed.
Lemma aevals_objs xs : forall h, exists ls, snd (aevals xs h) = {| a_objs := a_objs h; a_lists := a_lists h ++ ls |}.
Proof.
  induction xs as [|[k x] xs IH]; intros h; cbn [aevals].
  - exists []. rewrite app_nil_r. destruct h; reflexivity.
  - unfold abind. destruct (aeval_ok x h) as (ls & E & _). destruct (aeval x h) as [[v|e] h1]; cbn [fst snd] in *; subst h1; [|exists ls; reflexivity].
    destruct (IH {| a_objs := a_objs h; a_lists := a_lists h ++ ls |}) as [ls2 E2]. cbn [a_objs a_lists] in E2.
    destruct (aevals xs _) as [[vs|e] h2]; cbn [fst snd aret] in *; subst h2; exists (ls ++ ls2); rewrite app_assoc; reflexivity.
Qed.
Definition keys_ok (h : aheap) : Prop := forall g o, nth_error (a_objs h) g = Some o -> NoDup (map fst (a_dict o)).
Lemma dset_keys {V} (d : list (nkey * V)) k v k' : In k' (map fst (dset d k v)) -> In k' (map fst d) \/ k' = k.
Proof.
  induction d as [|[k0 v0] d IH]; cbn; [intros [H|[]]; auto|]. destruct (nkey_eqb k k0); cbn; intros [H|H]; auto. destruct (IH H); auto.
Qed.
Lemma dset_nodup {V} (d : list (nkey * V)) k v : NoDup (map fst d) -> NoDup (map fst (dset d k v)).
Proof.
  induction d as [|[k0 v0] d IH]; cbn; intros N.
  - constructor; [intros []|constructor].
  - inversion N as [|? ? N1 N2]; subst. destruct (nkey_eqb k k0) eqn:E; cbn; constructor; auto.
    intros H. apply dset_keys in H as [H|H]; [contradiction|]. subst. rewrite (proj2 (nkey_eqb_eq k k) eq_refl) in E. discriminate.
Qed.
Lemma dupdate_nodup {V} (e : list (nkey * V)) : forall d, NoDup (map fst d) -> NoDup (map fst (dupdate d e)).
Proof. unfold dupdate. induction e as [|[k v] e IH]; intros d N; cbn; [assumption|]. apply IH, dset_nodup, N. Qed.
(** one operation: objects are added at the end or (if mentioned) get another dict of the same class; lists only grow *)
Lemma step_frame o h : keys_ok h -> keys_ok (snd (astep o h)) /\ longer h (snd (astep o h)) /\
  forall g, alive h g -> ~ In g (mentions o) -> nth_error (a_objs (snd (astep o h))) g = nth_error (a_objs h) g.
Proof.
  intros K.
  assert (N : forall k d os ls, os = a_objs h -> NoDup (map fst d) -> let h' := {| a_objs := os ++ [{| a_kind := k; a_dict := d |}]; a_lists := a_lists h ++ ls |} in
     keys_ok h' /\ longer h h' /\ forall g, alive h g -> ~ In g (mentions o) -> nth_error (a_objs h') g = nth_error (a_objs h) g).
  { intros k d os ls -> Nd h'. split; [|split; [apply longer_more|]].
    - intros g ob H. cbn in H. destruct (Nat.lt_ge_cases g (List.length (a_objs h))) as [L|L].
      + rewrite nth_error_app1 in H by assumption. eauto.
      + rewrite nth_error_app2 in H by assumption. destruct (g - List.length (a_objs h)) as [|n]; [|destruct n; discriminate]. injection H as <-. assumption.
    - intros g L _. cbn. apply nth_error_app1. assumption. }
  assert (Same : keys_ok h /\ longer h h /\ forall g, alive h g -> ~ In g (mentions o) -> nth_error (a_objs h) g = nth_error (a_objs h) g) by (split; [assumption|]; split; [apply longer_refl|auto]).
  assert (New : forall k d, NoDup (map fst d) -> let h' := {| a_objs := a_objs h ++ [{| a_kind := k; a_dict := d |}]; a_lists := a_lists h |} in
     keys_ok h' /\ longer h h' /\ forall g, alive h g -> ~ In g (mentions o) -> nth_error (a_objs h') g = nth_error (a_objs h) g).
  { intros k d Nd. pose proof (N k d (a_objs h) [] eq_refl Nd) as X. rewrite app_nil_r in X. exact X. }
  assert (W : forall g ob d ls, nth_error (a_objs h) g = Some ob -> In g (mentions o) -> NoDup (map fst d) ->
     let h' := {| a_objs := lset (a_objs h) g {| a_kind := a_kind ob; a_dict := d |}; a_lists := a_lists h ++ ls |} in
     keys_ok h' /\ longer h h' /\ forall g, alive h g -> ~ In g (mentions o) -> nth_error (a_objs h') g = nth_error (a_objs h) g).
  { intros g ob d ls Ho Hm Nd h'. assert (L : g < List.length (a_objs h)) by (apply nth_error_Some; congruence). split; [|split; [apply longer_more|]].
    - intros b ob' H. cbn in H. destruct (Nat.eq_dec g b) as [<-|Nb]; [rewrite lset_same in H by assumption; injection H as <-; assumption|].
      rewrite lset_other in H by assumption. eauto.
    - intros b Lb Nm. cbn. apply lset_other. intros ->. contradiction. }
  destruct o as [k attrs|g|g s|g k x|g k|g k x|g|g|g more|n p|g]; cbn [astep].
  - unfold a_init, abind. destruct (aevals_objs attrs h) as [ls E]. destruct (aevals attrs h) as [[vs|e] h1]; cbn [fst snd] in *; subst h1.
    + unfold anew. cbn [snd a_objs a_lists]. apply N; [reflexivity|]. apply dupdate_nodup. constructor.
    + split; [exact K|]. split; [apply longer_more|auto].
  - unfold abind, a_name, aobject, abind. destruct (nth_error (a_objs h) g); exact Same.
  - unfold a_setname, awrite, abind, aobject. destruct (nth_error (a_objs h) g) as [ob|] eqn:E; [|exact Same]. rewrite E. cbn [snd].
    pose proof (W g ob (dset (a_dict ob) (KS "name") (AImm s)) [] E ltac:(cbn; auto) (dset_nodup _ _ _ (K g ob E))) as X. rewrite app_nil_r in X. exact X.
  - unfold a_set, awrite, abind, aobject. destruct (nth_error (a_objs h) g) as [ob|] eqn:E; [|exact Same].
    destruct (aeval_ok x h) as (ls & E1 & _). destruct (aeval x h) as [[v|e] h1]; cbn [fst snd] in *; subst h1.
    + cbn [a_objs]. rewrite E. cbn [a_objs]. rewrite E. cbn [snd a_objs a_lists]. apply (W g ob); [assumption|cbn; auto|]. apply dset_nodup. eauto.
    + split; [exact K|]. split; [apply longer_more|auto].
  - unfold a_get, abind, aobject. destruct (nth_error (a_objs h) g) as [ob|]; [|exact Same]. destruct (dget (a_dict ob) k); exact Same.
  - unfold a_append, abind, aobject. destruct (nth_error (a_objs h) g) as [ob|]; [|exact Same]. destruct (dget (a_dict ob) k) as [[v|l]|]; try exact Same.
    cbn [snd]. split; [exact K|]. split; [|auto]. split; cbn; [rewrite lset_length; lia|]. intros m Hm.
    destruct (Nat.lt_ge_cases l (List.length (a_lists h))) as [Ll|Ll].
    + rewrite nth_lset by assumption. destruct (Nat.eqb_spec m l) as [->|]; [eauto|]. exists []. symmetry. apply app_nil_r.
    + exists []. rewrite app_nil_r. clear -Ll. generalize (nth l (a_lists h) [] ++ [x]). revert l m Ll. generalize (a_lists h). induction l as [|y l IH]; intros [|i] [|m] H z; cbn in *; try reflexivity; try lia. apply IH. lia.
  - unfold a_reverse, abind, aobject. destruct (nth_error (a_objs h) g) as [ob|] eqn:E; [|exact Same]. destruct (a_kind ob) as [[|]|]; try exact Same.
    unfold adeepcopy, anew. cbn [snd a_objs a_lists]. apply N; [reflexivity|]. apply dupdate_nodup. constructor.
  - unfold a_to_undirected, abind, aobject. destruct (nth_error (a_objs h) g) as [ob|] eqn:E; [|exact Same]. destruct (a_kind ob) as [[|]|]; try exact Same. apply New. constructor.
  - unfold a_operator, abind, aobject. destruct (nth_error (a_objs h) g) as [ob|] eqn:E; [|exact Same]. destruct (a_kind ob); try exact Same. apply New. constructor.
  - unfold a_convert, abind, aobject. destruct (nth_error (a_objs h) n) as [ob|] eqn:E; [|exact Same]. destruct (a_kind ob); try exact Same. apply New.
    destruct p; [apply dupdate_nodup|]; constructor.
  - unfold a_to_nx, abind, aobject. destruct (nth_error (a_objs h) g) as [ob|] eqn:E; [|exact Same]. destruct (a_kind ob); try exact Same. apply New. constructor.
Qed.
Definition hgood (h : aheap) : Prop := keys_ok h /\ forall g o l, nth_error (a_objs h) g = Some o -> refs (a_dict o) l -> l < List.length (a_lists h).
Lemma step_good o h : hgood h -> hgood (snd (astep o h)).
Proof.
  intros [K W]. split; [apply (step_frame o h K)|].
  assert (S : apart (fun _ => False) h).
  { constructor; [assumption| |intros ? []]. intros g ob _ Ho l Hl. split; [eauto|]. intros a oa []. }
  destruct (tr_step _ o h S) as (S' & _); [auto|]. intros g ob l. apply (ap_wf _ _ S').
Qed.
Lemma run_good os : forall h, hgood h -> hgood (arun os h).
Proof. unfold arun. induction os as [|o os IH]; intros h H; cbn; [assumption|]. apply IH, step_good, H. Qed.
Lemma reached_good h : areached h -> hgood h.
Proof. intros [os ->]. apply run_good. split; [intros g o H; destruct g; discriminate|intros g o l H; destruct g; discriminate]. Qed.

(** ** the theorems *)
(** [G.graph[k]] and [G.name] show the attribute; unnamed graphs have the name "" *)
Theorem C95_read (h : aheap) (g : nat) (k : nkey) : alive h g ->
  astep (OGet g k) h = (match attr h g k with Some v => Val (RVal v) | None => Raise EKey end, h) /\
  astep (OName g) h = (Val (RVal (match attr h g (KS "name") with Some v => v | None => WImm (KS "") end)), h).
Proof.
  intros L. unfold alive in L. unfold attr. cbn [astep]. unfold a_get, a_name, abind, aobject.
  destruct (nth_error (a_objs h) g) as [o|] eqn:E; [|apply nth_error_None in E; lia]. split.
  - destruct (dget (a_dict o) k); reflexivity.
  - cbn [aret]. destruct (dget (a_dict o) (KS "name")); reflexivity.
Qed.
(** an operation that does not name a graph leaves its attributes, except that a list in them may get longer *)
Theorem C95_untouched (h : aheap) (g : nat) (os : list aop) : areached h -> alive h g -> (forall o, In o os -> ~ In g (mentions o)) ->
  alive (arun os h) g /\ forall k, grown (attr h g k) (attr (arun os h) g k).
Proof.
  intros Hr L HM. apply reached_good in Hr.
  assert (F : hgood (arun os h) /\ longer h (arun os h) /\ nth_error (a_objs (arun os h)) g = nth_error (a_objs h) g).
  { revert h Hr L HM. unfold arun. induction os as [|o os IH]; intros h Hr L HM; cbn; [split; [assumption|]; split; [apply longer_refl|reflexivity]|].
    destruct (step_frame o h (proj1 Hr)) as (_ & L1 & F1). specialize (F1 g L (HM o (or_introl eq_refl))).
    assert (L' : alive (snd (astep o h)) g) by (unfold alive in *; apply nth_error_Some; rewrite F1; apply nth_error_Some; assumption).
    destruct (IH _ (step_good o h Hr) L') as (H2 & L2 & F2); [intros o' Ho'; apply HM; right; assumption|].
    split; [assumption|]. split; [eapply longer_trans; eauto|]. rewrite F2. assumption. }
  destruct F as (_ & [_ Lg] & F). split; [unfold alive in *; apply nth_error_Some; rewrite F; apply nth_error_Some; assumption|].
  intros k. unfold attr. rewrite F. destruct (nth_error (a_objs h) g) as [ob|] eqn:Eo; [|exact I].
  destruct (dget (a_dict ob) k) as [[v|l]|] eqn:Ed; cbn; [reflexivity| |exact I]. apply Lg. apply (proj2 Hr g ob l Eo). eapply refs_dget; eauto.
Qed.
(** [G.name = s] and [G.graph[k] = x]: the attribute has the new value; the others, and those of other graphs, are as before *)
Theorem C95_set_name (h : aheap) (g : nat) (s : nkey) : alive h g -> exists h', astep (OSetName g s) h = (Val RNone, h') /\
  forall g' k, attr h' g' k = if (g' =? g) && nkey_eqb k (KS "name") then Some (WImm s) else attr h g' k.
Proof.
  intros L. unfold alive in L. destruct (nth_error (a_objs h) g) as [o|] eqn:E; [|apply nth_error_None in E; lia].
  eexists. cbn [astep]. unfold a_setname, awrite, abind, aobject. rewrite E, E. split; [reflexivity|]. intros g' k. unfold attr. cbn [a_objs].
  destruct (Nat.eqb_spec g' g) as [->|N]; cbn [andb].
  - rewrite lset_same by assumption. cbn [a_dict]. rewrite dget_dset, E. destruct (nkey_eqb k (KS "name")); [reflexivity|]. destruct (dget (a_dict o) k); reflexivity.
  - rewrite lset_other by auto. destruct (nth_error (a_objs h) g'); [|reflexivity]. destruct (dget (a_dict a) k); reflexivity.
Qed.
Lemma attr_more h ls g k : hgood h -> attr {| a_objs := a_objs h; a_lists := a_lists h ++ ls |} g k = attr h g k.
Proof.
  intros [_ W]. unfold attr. cbn [a_objs]. destruct (nth_error (a_objs h) g) as [o|] eqn:E; [|reflexivity].
  destruct (dget (a_dict o) k) as [[v|l]|] eqn:Ed; [reflexivity| |reflexivity]. cbn. do 2 f_equal. apply app_nth1. apply (W g o l E). eapply refs_dget; eauto.
Qed.
Theorem C95_set (h : aheap) (g : nat) (k : nkey) (x : aarg) : areached h -> alive h g ->
  match arg_view h x with
  | Some v => exists h', astep (OSet g k x) h = (Val RNone, h') /\
      forall g' k', attr h' g' k' = if (g' =? g) && nkey_eqb k' k then Some v else attr h g' k'
  | None => exists e h', astep (OSet g k x) h = (Raise e, h') /\ forall g' k', attr h' g' k' = attr h g' k'
  end.
Proof.
  intros Hr L. apply reached_good in Hr. unfold alive in L. destruct (nth_error (a_objs h) g) as [o|] eqn:E; [|apply nth_error_None in E; lia].
  cbn [astep]. unfold a_set, awrite, abind, aobject. rewrite E.
  destruct (aeval_ok x h) as (ls & E1 & E2). destruct (aeval x h) as [[v|e] h1]; cbn [fst snd] in *; subst h1.
  - specialize (E2 []). rewrite app_nil_r in E2.
    assert (EV : arg_view h x = Some (alook {| a_objs := a_objs h; a_lists := a_lists h ++ ls |} v)).
    { rewrite E2. destruct x as [w|w|g1 k1]; [reflexivity|reflexivity|]. cbn [arg_view]. rewrite <- (attr_more h ls g1 k1 Hr). unfold attr. cbn [a_objs].
      destruct (nth_error (a_objs h) g1); [|reflexivity]. destruct (dget (a_dict a) k1); reflexivity. }
    rewrite EV. eexists. cbn [a_objs]. rewrite E. cbn [a_objs]. rewrite E. split; [reflexivity|]. intros g' k'. rewrite <- (attr_more h ls g' k' Hr). unfold attr. cbn [a_objs].
    destruct (Nat.eqb_spec g' g) as [->|N]; cbn [andb].
    + rewrite lset_same by assumption. cbn [a_dict]. rewrite dget_dset, E. destruct (nkey_eqb k' k); [reflexivity|]. destruct (dget (a_dict o) k'); reflexivity.
    + rewrite lset_other by auto. destruct (nth_error (a_objs h) g') as [o'|]; [|reflexivity]. destruct (dget (a_dict o') k'); reflexivity.
  - destruct E2 as (g1 & k1 & -> & Hn). cbn [arg_view]. rewrite Hn. exists e. eexists. split; [reflexivity|]. intros g' k'. apply attr_more. assumption.
Qed.
(** [Graph(A, **attr)]: the new graph has the attributes given and no others *)
Theorem C95_constructor (h : aheap) (kd : akind) (attrs : list (nkey * aarg)) : areached h -> NoDup (map fst attrs) ->
  (forall k x, In (k, x) attrs -> arg_view h x <> None) ->
  exists g h', astep (OInit kd attrs) h = (Val (RObj g), h') /\ ~ alive h g /\ is_graph h' g kd /\
    (forall k, attr h' g k = match dget attrs k with Some x => arg_view h x | None => None end) /\
    forall g' k, alive h g' -> attr h' g' k = attr h g' k.
Proof.
  intros Hr Nd HV. apply reached_good in Hr. exists (List.length (a_objs h)).
  assert (EV0 : forall h0, (exists l0, h0 = {| a_objs := a_objs h; a_lists := a_lists h ++ l0 |}) -> exists vs ls,
    aevals attrs h0 = (Val vs, {| a_objs := a_objs h; a_lists := a_lists h0 ++ ls |}) /\ map fst vs = map fst attrs /\
    forall ls' k, option_map (alook {| a_objs := a_objs h; a_lists := (a_lists h0 ++ ls) ++ ls' |}) (dget vs k) = match dget attrs k with Some x => arg_view h x | None => None end).
  { clear Nd. induction attrs as [|[k x] attrs IH]; intros h0 [l0 ->]; cbn [aevals a_objs a_lists].
    - exists [], []. rewrite app_nil_r. split; [reflexivity|]. split; reflexivity.
    - set (h0 := {| a_objs := a_objs h; a_lists := a_lists h ++ l0 |}). unfold abind. destruct (aeval_ok x h0) as (ls & E1 & E2).
      assert (Hx : arg_view h x <> None) by (apply (HV k); left; reflexivity).
      destruct (aeval x h0) as [[v|e] h1]; cbn [fst snd] in *; subst h1.
      + destruct (IH ltac:(intros k' x' H; apply (HV k'); right; assumption) {| a_objs := a_objs h0; a_lists := a_lists h0 ++ ls |}) as (vs & ls2 & E3 & E4 & E5);
          [exists (l0 ++ ls); cbn; rewrite app_assoc; reflexivity|].
        rewrite E3. cbn [aret]. exists ((k, v) :: vs), (ls ++ ls2). cbn [a_objs a_lists h0] in *. split; [rewrite !app_assoc; reflexivity|]. split; [cbn; rewrite E4; reflexivity|].
        intros ls' k'. cbn [dget]. rewrite !app_assoc in *. destruct (nkey_eqb k' k); [|apply E5]. cbn [option_map].
        specialize (E2 (ls2 ++ ls')). rewrite !app_assoc in E2. rewrite E2. destruct x as [w|w|g1 k1]; [reflexivity|reflexivity|]. cbn [arg_view].
        rewrite <- (attr_more h (((l0 ++ ls) ++ ls2) ++ ls') g1 k1 Hr). unfold attr. cbn [a_objs]. rewrite !app_assoc.
        destruct (nth_error (a_objs h) g1) as [o1|]; [|reflexivity]. destruct (dget (a_dict o1) k1); reflexivity.
      + destruct E2 as (g1 & k1 & -> & Hn). exfalso. apply Hx. cbn [arg_view]. rewrite <- (attr_more h l0 g1 k1 Hr). exact Hn. }
  destruct (EV0 h) as (vs & ls & E1 & E2 & E3); [exists []; rewrite app_nil_r; destruct h; reflexivity|]. specialize (E3 []). rewrite app_nil_r in E3. eexists. cbn [astep]. unfold a_init, abind. rewrite E1. unfold anew. cbn [a_objs a_lists].
  split; [reflexivity|]. split; [unfold alive; lia|]. split; [|split].
  - exists (dupdate [] vs). cbn. rewrite nth_error_app2, Nat.sub_diag by lia. reflexivity.
  - intros k. rewrite <- E3. unfold attr. cbn [a_objs]. rewrite nth_error_app2, Nat.sub_diag by lia. cbn [nth_error a_dict].
    rewrite dget_dupdate by (rewrite E2; assumption). destruct (dget vs k); reflexivity.
  - intros g' k L. rewrite <- (attr_more h ls g' k Hr). unfold attr. cbn [a_objs]. rewrite nth_error_app1 by assumption. reflexivity.
Qed.
(** assigning an attribute of one graph to another graph assigns the object itself: a list is then one list *)
Theorem C95_set_shares (h : aheap) (g g' : nat) (k k' : nkey) (h' : aheap) (x : Z) : astep (OSet g k (VOf g' k')) h = (Val RNone, h') ->
  let h1 := snd (astep (OAppend g k x) h') in
  attr h1 g k = attr h1 g' k' /\ astep (OAppend g' k' x) h' = astep (OAppend g k x) h'.
Proof.
  intros E0. cbn [astep] in E0. unfold a_set, awrite, abind, aobject, aeval in E0.
  destruct (nth_error (a_objs h) g) as [o|] eqn:E; [|discriminate]. unfold abind, aobject in E0.
  destruct (nth_error (a_objs h) g') as [o'|] eqn:E'; [|discriminate]. destruct (dget (a_dict o') k') as [v|] eqn:Ed; [|discriminate].
  cbn [aret araise] in E0. rewrite E in E0. rewrite E in E0. injection E0 as <-. set (h' := {| a_objs := _; a_lists := _ |}).
  assert (L : g < List.length (a_objs h)) by (apply nth_error_Some; congruence).
  assert (Eg : nth_error (a_objs h') g = Some {| a_kind := a_kind o; a_dict := dset (a_dict o) k v |}) by (cbn; apply lset_same; assumption).
  assert (Dg : dget (dset (a_dict o) k v) k = Some v) by (rewrite dget_dset, (proj2 (nkey_eqb_eq k k) eq_refl); reflexivity).
  assert (Eg' : exists o2, nth_error (a_objs h') g' = Some o2 /\ dget (a_dict o2) k' = Some v).
  { destruct (Nat.eq_dec g' g) as [->|N].
    - eexists. split; [exact Eg|]. cbn [a_dict]. rewrite dget_dset. destruct (nkey_eqb k' k); [reflexivity|]. congruence.
    - exists o'. split; [cbn; rewrite lset_other by auto; assumption|assumption]. }
  destruct Eg' as (o2 & E2 & D2).
  assert (A : forall ls, attr {| a_objs := a_objs h'; a_lists := ls |} g k = attr {| a_objs := a_objs h'; a_lists := ls |} g' k').
  { intros ls. unfold attr. cbn [a_objs]. cbn [a_objs h'] in *. rewrite Eg, E2. cbn [a_dict]. rewrite Dg, D2. destruct v; reflexivity. }
  assert (B : astep (OAppend g' k' x) h' = astep (OAppend g k x) h').
  { cbn [astep]. unfold a_append, abind, aobject. rewrite Eg, E2. cbn [a_dict]. rewrite Dg, D2. reflexivity. }
  split; [|exact B]. assert (C : exists ls, snd (astep (OAppend g k x) h') = {| a_objs := a_objs h'; a_lists := ls |}).
  { cbn [astep]. unfold a_append, abind, aobject. rewrite Eg. cbn [a_dict]. rewrite Dg. destruct v; eexists; reflexivity. }
  destruct C as [ls ->]. apply A.
Qed.
Lemma apos_nth l ls : In l ls -> nth (apos l ls) ls 0 = l.
Proof. induction ls as [|m ls IH]; cbn; [intros []|]. destruct (Nat.eqb_spec l m) as [->|N]; [reflexivity|]. intros [E|E]; [congruence|auto]. Qed.
Lemma dget_map {V W} (f : V -> W) (d : list (nkey * V)) k : dget (map (fun kv => (fst kv, f (snd kv))) d) k = option_map f (dget d k).
Proof. induction d as [|[k0 v0] d IH]; cbn; [reflexivity|]. destruct (nkey_eqb k k0); [reflexivity|assumption]. Qed.
Lemma attr_new_old h k d ls g x : hgood h -> alive h g -> attr {| a_objs := a_objs h ++ [{| a_kind := k; a_dict := d |}]; a_lists := a_lists h ++ ls |} g x = attr h g x.
Proof. intros Hr L. rewrite <- (attr_more h ls g x Hr). unfold attr. cbn [a_objs]. rewrite nth_error_app1 by assumption. reflexivity. Qed.
Lemma attr_new_new h k d ls x : attr {| a_objs := a_objs h ++ [{| a_kind := k; a_dict := d |}]; a_lists := a_lists h ++ ls |} (List.length (a_objs h)) x =
  option_map (fun v => match v with AImm w => WImm w | AList l => WList (nth l (a_lists h ++ ls) []) end) (dget d x).
Proof. unfold attr. cbn [a_objs]. rewrite nth_error_app2, Nat.sub_diag by lia. cbn. destruct (dget d x) as [[w|l]|]; reflexivity. Qed.
Definition copied (n : nat) (ls : list nat) (v : aval) : aval := match v with AImm w => AImm w | AList l => AList (n + apos l ls) end.
Lemma reverse_eq h g d : hgood h -> nth_error (a_objs h) g = Some {| a_kind := KLib true; a_dict := d |} ->
  exists d', astep (OReverse g) h = (Val (RObj (List.length (a_objs h))),
    {| a_objs := a_objs h ++ [{| a_kind := KLib true; a_dict := d' |}]; a_lists := a_lists h ++ map (fun l => nth l (a_lists h) []) (alocs d) |}) /\
    (forall k, dget d' k = option_map (copied (List.length (a_lists h)) (alocs d)) (dget d k)) /\
    forall l, refs d' l -> exists m, refs d m /\ l = List.length (a_lists h) + apos m (alocs d).
Proof.
  intros [K _] E. eexists. split; [|split].
  - cbn [astep]. unfold a_reverse, abind, aobject. rewrite E. cbn [a_kind a_dict]. unfold adeepcopy, anew. cbn [a_objs a_lists]. reflexivity.
  - intros k. change (map _ d) with (map (fun kv => (fst kv, copied (List.length (a_lists h)) (alocs d) (snd kv))) d).
    rewrite dget_dupdate; [rewrite dget_map; destruct (dget d k); reflexivity|]. rewrite map_map. cbn [fst]. exact (K g _ E).
  - intros l Hl. apply refs_dupdate in Hl as [[k []]|[k Hl]]. apply in_map_iff in Hl as ([k' v] & E1 & Hin). cbn [fst snd] in E1.
    destruct v as [w|m]; [discriminate|]. injection E1 as _ <-. exists m. split; [exists k'; assumption|reflexivity].
Qed.
(** [G.reverse()] has the attributes of G, in a DiGraph of its own *)
Theorem C95_reverse (h : aheap) (g : nat) : areached h -> is_graph h g (KLib true) ->
  exists r h', astep (OReverse g) h = (Val (RObj r), h') /\ ~ alive h r /\ is_graph h' r (KLib true) /\
    (forall k, attr h' r k = attr h g k) /\ forall g' k, alive h g' -> attr h' g' k = attr h g' k.
Proof.
  intros Hr [d E]. apply reached_good in Hr. destruct (reverse_eq h g d Hr E) as (d' & E1 & E2 & _).
  do 2 eexists. split; [exact E1|]. split; [unfold alive; lia|]. split; [|split].
  - exists d'. cbn. rewrite nth_error_app2, Nat.sub_diag by lia. reflexivity.
  - intros k. rewrite attr_new_new, E2. unfold attr. rewrite E. cbn [a_dict]. destruct (dget d k) as [[w|l]|] eqn:Ed; cbn; [reflexivity| |reflexivity].
    do 2 f_equal. assert (Hl : In l (alocs d)) by (apply alocs_in; eapply refs_dget; eauto).
    rewrite app_nth2 by lia. replace (_ + _ - _) with (apos l (alocs d)) by lia.
    rewrite (nth_indep _ [] ((fun l => nth l (a_lists h) []) 0)) by (rewrite map_length; apply apos_lt; assumption).
    rewrite (map_nth (fun l => nth l (a_lists h) [])). rewrite apos_nth by assumption. reflexivity.
  - intros g' k L. apply attr_new_old; assumption.
Qed.
(** afterwards the attributes of the reversed graph and those of all the graphs there were are independent, lists included *)
Theorem C95_reverse_apart (h : aheap) (g r : nat) (h' : aheap) : areached h -> astep (OReverse g) h = (Val (RObj r), h') ->
  (forall os, (forall o, In o os -> ~ In r (mentions o)) -> forall k, attr (arun os h') r k = attr h g k) /\
  (forall os, (forall o g', In o os -> In g' (mentions o) -> ~ alive h g') -> forall g' k, alive h g' -> attr (arun os h') g' k = attr h g' k).
Proof.
  intros Hr E0. assert (Hg : is_graph h g (KLib true)).
  { cbn [astep] in E0. unfold a_reverse, abind, aobject in E0. unfold is_graph. destruct (nth_error (a_objs h) g) as [[[[|]|] d]|]; try discriminate. eauto. }
  pose proof (C95_reverse h g Hr Hg) as (r0 & h0 & E0' & _ & _ & Same & Old). rewrite E0 in E0'. injection E0' as <- <-.
  destruct Hg as [d E]. apply reached_good in Hr. destruct (reverse_eq h g d Hr E) as (d' & E1 & _ & E3). rewrite E0 in E1. injection E1 as -> ->.
  set (n := List.length (a_objs h)) in *. set (h' := {| a_objs := _; a_lists := _ |}) in *.
  assert (G' : hgood h') by (pose proof (step_good (OReverse g) h Hr) as X; rewrite E0 in X; exact X).
  assert (C : forall b ob, nth_error (a_objs h') b = Some ob -> (b < n /\ nth_error (a_objs h) b = Some ob) \/ (b = n /\ a_dict ob = d')).
  { intros b ob Hb. cbn in Hb. destruct (Nat.lt_ge_cases b n) as [L|L]; [left; rewrite nth_error_app1 in Hb by assumption; auto|right].
    rewrite nth_error_app2 in Hb by assumption. fold n in Hb. destruct (b - n) as [|x] eqn:Ex; [|destruct x; discriminate]. injection Hb as <-. split; [lia|reflexivity]. }
  assert (Lo : forall b ob l, b < n -> nth_error (a_objs h) b = Some ob -> refs (a_dict ob) l -> l < List.length (a_lists h)) by (intros b ob l _; apply (proj2 Hr)).
  assert (Hi : forall l, refs d' l -> List.length (a_lists h) <= l < List.length (a_lists h')).
  { intros l Hl. split; [apply E3 in Hl as (m & _ & ->); lia|]. apply (proj2 G' n {| a_kind := KLib true; a_dict := d' |}); [|exact Hl].
    cbn. unfold n. rewrite nth_error_app2, Nat.sub_diag by lia. reflexivity. }
  split.
  - intros os HM k. rewrite <- Same. apply (keeps_attr (eq n)); [|reflexivity]. apply arun_apart.
    + constructor.
      * apply (proj2 G').
      * intros b ob Nb Hb l Hl. split; [eapply (proj2 G'); eauto|]. intros a oa <- Ha Hl'.
        apply C in Hb as [[Lb Hb]|[-> _]]; [|congruence]. apply C in Ha as [[La _]|[_ Ha]]; [lia|]. rewrite Ha in Hl'. specialize (Lo b ob l Lb Hb Hl). apply Hi in Hl'. lia.
      * intros b <-. cbn. rewrite app_length. cbn. fold n. lia.
    + intros o b Ho Hb <-. exact (HM o Ho Hb).
  - intros os HM g' k L. rewrite <- (Old g' k L). apply (keeps_attr (alive h)); [|assumption]. apply arun_apart; [|assumption].
    constructor.
    + apply (proj2 G').
    + intros b ob Nb Hb l Hl. split; [eapply (proj2 G'); eauto|]. intros a oa La Ha Hl'.
      apply C in Hb as [[Lb _]|[-> Hb]]; [unfold alive in Nb; fold n in Nb; lia|]. rewrite Hb in Hl. apply Hi in Hl.
      apply C in Ha as [[La' Ha]|[-> _]]; [|unfold alive in La; fold n in La; lia]. specialize (Lo a oa l La' Ha Hl'). lia.
    + intros b Lb. cbn. rewrite app_length. unfold alive in Lb. lia.
Qed.
Lemma apos_inj l m ls : In l ls -> apos l ls = apos m ls -> l = m.
Proof.
  induction ls as [|x ls IH]; cbn; [intros []|]. destruct (Nat.eqb_spec l x) as [->|N], (Nat.eqb_spec m x) as [->|N']; try (intros; lia); auto.
  intros [H|H] E; [congruence|]. apply IH; [assumption|lia].
Qed.
Lemma append_eq h g k x d l : nth_error (a_objs h) g = Some d -> dget (a_dict d) k = Some (AList l) ->
  astep (OAppend g k x) h = (Val RNone, {| a_objs := a_objs h; a_lists := lset (a_lists h) l (nth l (a_lists h) [] ++ [x]) |}).
Proof. intros E1 E2. cbn [astep]. unfold a_append, abind, aobject. rewrite E1, E2. reflexivity. Qed.
(** a list that is the value of two attributes is one list in the reversed graph as well, and different lists stay different *)
Theorem C95_reverse_sharing (h : aheap) (g r : nat) (h' : aheap) (k1 k2 : nkey) (x : Z) : areached h -> astep (OReverse g) h = (Val (RObj r), h') ->
  attr (snd (astep (OAppend r k1 x) h')) r k2 = attr (snd (astep (OAppend g k1 x) h)) g k2.
Proof.
  intros Hr E0. assert (Hg : is_graph h g (KLib true)).
  { cbn [astep] in E0. unfold a_reverse, abind, aobject in E0. unfold is_graph. destruct (nth_error (a_objs h) g) as [[[[|]|] d]|]; try discriminate. eauto. }
  pose proof (C95_reverse h g Hr Hg) as (r0 & h0 & E0' & _ & _ & Same & _). rewrite E0 in E0'. injection E0' as <- <-.
  destruct Hg as [d E]. pose proof (reached_good h Hr) as Hh. destruct (reverse_eq h g d Hh E) as (d' & E1 & E2 & _). rewrite E0 in E1. injection E1 as -> Eh.
  assert (En : nth_error (a_objs h') (List.length (a_objs h)) = Some {| a_kind := KLib true; a_dict := d' |}) by (rewrite Eh; cbn; rewrite nth_error_app2, Nat.sub_diag by lia; reflexivity).
  destruct (dget d k1) as [[w|l]|] eqn:Ed1.
  - transitivity (attr h' (List.length (a_objs h)) k2); [|rewrite Same].
    + cbn [astep]. unfold a_append, abind, aobject. rewrite En. cbn [a_dict]. rewrite E2, Ed1. reflexivity.
    + cbn [astep]. unfold a_append, abind, aobject. rewrite E. cbn [a_dict]. rewrite Ed1. reflexivity.
  - rewrite (append_eq h g k1 x _ l E Ed1). assert (Ed1' : dget d' k1 = Some (AList (List.length (a_lists h) + apos l (alocs d)))) by (rewrite E2, Ed1; reflexivity).
    rewrite (append_eq h' _ k1 x _ _ En Ed1'). cbn [snd].
    assert (Ll : l < List.length (a_lists h)) by (apply (proj2 Hh g _ l E); eapply refs_dget; eauto).
    pose proof (step_good (OReverse g) h Hh) as G'. rewrite E0 in G'. cbn [snd] in G'.
    assert (Ll' : List.length (a_lists h) + apos l (alocs d) < List.length (a_lists h')) by (apply (proj2 G' _ _ _ En); eapply refs_dget; exact Ed1').
    unfold attr. cbn [a_objs a_lists]. rewrite E, En. cbn [a_dict]. rewrite E2. pose proof (Same k2) as S2. pose proof (Same k1) as S1. unfold attr in S1, S2.
    rewrite E, En in S1, S2. cbn [a_dict] in S1, S2. rewrite E2 in S1, S2. rewrite Ed1 in S1. destruct (dget d k2) as [[w|m]|] eqn:Ed2; cbn [option_map copied alook a_lists] in *; [reflexivity| |reflexivity].
    injection S1 as S1. injection S2 as S2. do 2 f_equal. rewrite !nth_lset by assumption. rewrite S1, S2.
    destruct (Nat.eqb_spec m l) as [->|N]; [rewrite Nat.eqb_refl; reflexivity|]. destruct (Nat.eqb_spec (List.length (a_lists h) + apos m (alocs d)) (List.length (a_lists h) + apos l (alocs d))) as [X|]; [|reflexivity].
    exfalso. apply N. apply (apos_inj m l (alocs d)); [apply alocs_in; eapply refs_dget; eauto|lia].
  - transitivity (attr h' (List.length (a_objs h)) k2); [|rewrite Same].
    + cbn [astep]. unfold a_append, abind, aobject. rewrite En. cbn [a_dict]. rewrite E2, Ed1. reflexivity.
    + cbn [astep]. unfold a_append, abind, aobject. rewrite E. cbn [a_dict]. rewrite Ed1. reflexivity.
Qed.
(** convert_from_nx: with preserve_graph_attrs the attributes of the networkx graph, otherwise none *)
Theorem C95_convert (h : aheap) (n : nat) (dir preserve : bool) : areached h -> is_graph h n (KNx dir) ->
  exists g h', astep (OConvert n preserve) h = (Val (RObj g), h') /\ ~ alive h g /\ is_graph h' g (KLib dir) /\
    (forall k, attr h' g k = if preserve then attr h n k else None) /\ forall g' k, alive h g' -> attr h' g' k = attr h g' k.
Proof.
  intros Hr [d E]. apply reached_good in Hr. exists (List.length (a_objs h)). eexists. cbn [astep]. unfold a_convert, abind, aobject. rewrite E. cbn [a_kind a_dict].
  unfold anew. rewrite <- (app_nil_r (a_lists h)) at 1. split; [reflexivity|]. split; [unfold alive; lia|]. split; [|split].
  - eexists. cbn. rewrite nth_error_app2, Nat.sub_diag by lia. reflexivity.
  - intros k. rewrite attr_new_new, app_nil_r. destruct preserve; [|reflexivity]. rewrite dget_dupdate by (apply (proj1 Hr n _ E)).
    unfold attr. rewrite E. cbn [a_dict dget]. destruct (dget d k) as [[w|l]|]; reflexivity.
  - intros g' k L. apply attr_new_old; assumption.
Qed.
(** but a list among them is the same object in both graphs: what is appended through one shows in the other *)
Theorem C95_convert_shares (h : aheap) (n g : nat) (h' : aheap) (k k' : nkey) (x : Z) : areached h -> astep (OConvert n true) h = (Val (RObj g), h') ->
  attr (snd (astep (OAppend n k x) h')) g k' = attr (snd (astep (OAppend n k x) h')) n k' /\
  attr (snd (astep (OAppend g k x) h')) g k' = attr (snd (astep (OAppend g k x) h')) n k' /\
  snd (astep (OAppend g k x) h') = snd (astep (OAppend n k x) h').
Proof.
  intros Hr E0. apply reached_good in Hr. cbn [astep] in E0. unfold a_convert, abind, aobject in E0.
  destruct (nth_error (a_objs h) n) as [[[dir|dir] d]|] eqn:E; try discriminate. cbn [a_kind a_dict] in E0. unfold anew in E0. injection E0 as <- <-.
  set (h' := {| a_objs := _; a_lists := _ |}). set (g := List.length (a_objs h)).
  assert (En : nth_error (a_objs h') n = Some {| a_kind := KNx dir; a_dict := d |}) by (cbn; rewrite nth_error_app1; [assumption|apply nth_error_Some; congruence]).
  assert (Eg : nth_error (a_objs h') g = Some {| a_kind := KLib dir; a_dict := dupdate [] d |}) by (cbn; unfold g; rewrite nth_error_app2, Nat.sub_diag by lia; reflexivity).
  assert (Ed : forall k, dget (dupdate [] d) k = dget d k).
  { intros k0. rewrite dget_dupdate by (apply (proj1 Hr n _ E)). destruct (dget d k0); reflexivity. }
  assert (A : forall ls, attr {| a_objs := a_objs h'; a_lists := ls |} g k' = attr {| a_objs := a_objs h'; a_lists := ls |} n k') by (intros; unfold attr; cbn [a_objs]; rewrite En, Eg; cbn [a_dict]; rewrite Ed; reflexivity).
  assert (B : snd (astep (OAppend g k x) h') = snd (astep (OAppend n k x) h')).
  { cbn [astep]. unfold a_append, abind, aobject. rewrite En, Eg. cbn [a_dict]. rewrite Ed. destruct (dget d k) as [[w|l]|]; reflexivity. }
  rewrite B. assert (C : exists ls, snd (astep (OAppend n k x) h') = {| a_objs := a_objs h'; a_lists := ls |}).
  { cbn [astep]. unfold a_append, abind, aobject. rewrite En. cbn [a_dict]. destruct (dget d k) as [[w|l]|]; eexists; reflexivity. }
  destruct C as [ls ->]. auto.
Qed.
(** graphs computed by the library, and networkx graphs converted back, have no attributes *)
Theorem C95_lost (h : aheap) (g : nat) (dir : bool) (more : list nat) : areached h -> is_graph h g (KLib dir) ->
  (exists r h', astep (OOperator g more) h = (Val (RObj r), h') /\ is_graph h' r (KLib dir) /\ forall k, attr h' r k = None) /\
  (exists r h', astep (OToNx g) h = (Val (RObj r), h') /\ is_graph h' r (KNx dir) /\ forall k, attr h' r k = None) /\
  (dir = true -> exists r h', astep (OToUndirected g) h = (Val (RObj r), h') /\ is_graph h' r (KLib false) /\ forall k, attr h' r k = None).
Proof.
  intros Hr [d E].
  assert (N : forall k, is_graph {| a_objs := a_objs h ++ [{| a_kind := k; a_dict := [] |}]; a_lists := a_lists h |} (List.length (a_objs h)) k /\
    forall x, attr {| a_objs := a_objs h ++ [{| a_kind := k; a_dict := [] |}]; a_lists := a_lists h |} (List.length (a_objs h)) x = None).
  { intros k. split; [exists []; cbn; rewrite nth_error_app2, Nat.sub_diag by lia; reflexivity|]. intros x. unfold attr. cbn [a_objs]. rewrite nth_error_app2, Nat.sub_diag by lia. reflexivity. }
  cbn [astep]. unfold a_operator, a_to_nx, a_to_undirected, abind, aobject. rewrite E. cbn [a_kind]. unfold anew. repeat apply conj.
  - do 2 eexists. split; [reflexivity|]. apply N.
  - do 2 eexists. split; [reflexivity|]. apply N.
  - intros ->. do 2 eexists. split; [reflexivity|]. apply N.
Qed.
(** C95's claim that attributes survive a conversion to the library and back fails: also with preserve_graph_attrs *)
Theorem C95_round_trip_refuted : exists os n r h', h' = arun os {| a_objs := []; a_lists := [] |} /\
  os = [OInit (KNx true) [(KS "name", VImm (KS "roads"))]; OConvert n true; OToNx 1] /\ r = 2 /\
  attr h' n (KS "name") = Some (WImm (KS "roads")) /\ is_graph h' r (KNx true) /\ attr h' r (KS "name") = None.
Proof.
  exists [OInit (KNx true) [(KS "name", VImm (KS "roads"))]; OConvert 0 true; OToNx 1], 0, 2. eexists. split; [reflexivity|]. split; [reflexivity|]. split; [reflexivity|].
  split; [reflexivity|]. split; [exists []; reflexivity|reflexivity].
Qed.
(** a digraph with a name and a list under two keys: reversed, then the list of the original grows *)
Example C95_ex : let os := [OInit (KLib true) [(KS "name", VImm (KS "g")); (KS "a", VNew [1; 2]%Z)]; OSet 0 (KS "b") (VOf 0 (KS "a"))] in
  let h := arun os {| a_objs := []; a_lists := [] |} in areached h /\ is_graph h 0 (KLib true) /\
  exists h', astep (OReverse 0) h = (Val (RObj 1), h') /\
  attr (arun [OAppend 0 (KS "a") 3%Z] h') 0 (KS "b") = Some (WList [1; 2; 3]%Z) /\
  attr (arun [OAppend 0 (KS "a") 3%Z] h') 1 (KS "b") = Some (WList [1; 2]%Z) /\
  attr (arun [OAppend 1 (KS "a") 3%Z] h') 1 (KS "b") = Some (WList [1; 2; 3]%Z).
Proof.
  intros os h. split; [exists os; reflexivity|]. split; [eexists; vm_compute; reflexivity|]. eexists. split; [vm_compute; reflexivity|]. repeat apply conj; vm_compute; reflexivity.
Qed.
Example C95_convert_ex : let h := arun [OInit (KNx false) [(KS "a", VNew [7]%Z)]] {| a_objs := []; a_lists := [] |} in
  areached h /\ is_graph h 0 (KNx false) /\ exists h', astep (OConvert 0 true) h = (Val (RObj 1), h') /\
  attr (arun [OAppend 0 (KS "a") 8%Z] h') 1 (KS "a") = Some (WList [7; 8]%Z).
Proof.
  intros h. split; [eexists; reflexivity|]. split; [eexists; vm_compute; reflexivity|]. eexists. split; vm_compute; reflexivity.
Qed.
Print Assumptions C95_read.
Print Assumptions C95_untouched.
Print Assumptions C95_set_name.
Print Assumptions C95_set.
Print Assumptions C95_set_shares.
Print Assumptions C95_constructor.
Print Assumptions C95_reverse.
Print Assumptions C95_reverse_apart.
Print Assumptions C95_reverse_sharing.
Print Assumptions C95_convert.
Print Assumptions C95_convert_shares.
Print Assumptions C95_lost.
Print Assumptions C95_round_trip_refuted.
