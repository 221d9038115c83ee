(** * A checker for in-place updates, and its soundness *)
From Coq Require Import List String Arith Bool Lia.
From Verif Require Import Model_Effects.
Import ListNotations.

(** What is known of a name: [Own]: made by this call and not in the graph's
    cache; [Trk]: made by this call, or held by the graph. *)
Inductive tag := Own | Trk.
Definition tags := list (var * tag).

Definition tmin (a b : tag) : tag := match a, b with Own, Own => Own | _, _ => Trk end.
Definition tle (a b : tag) : bool := match a, b with Own, Trk => false | _, _ => true end.

(** Forget a name. *)
Fixpoint drop (T : tags) (x : var) : tags :=
  match T with
  | [] => []
  | (y, t) :: r => if String.eqb x y then drop r x else (y, t) :: drop r x
  end.
Definition set (T : tags) (x : var) (o : option tag) : tags :=
  match o with Some t => (x, t) :: drop T x | None => drop T x end.
Definition weak (T : tags) : tags := map (fun p => (fst p, Trk)) T.
Fixpoint meet (T U : tags) : tags :=
  match T with
  | [] => []
  | (x, t) :: r => match look U x with Some u => (x, tmin t u) :: meet r U | None => meet r U end
  end.
(** [tsub T U]: everything [T] says, [U] says. *)
Fixpoint tsub (T U : tags) : bool :=
  match T with
  | [] => true
  | (x, t) :: r => match look U x with Some u => tle t u && tsub r U | None => false end
  end.

Fixpoint stores (s : stmt) : bool :=
  match s with
  | Store _ _ => true
  | Seq a b => stores a || stores b
  | If a b => stores a || stores b
  | Loop a => stores a
  | Call _ _ a _ => stores a
  | _ => false
  end.

Fixpoint gives (s : stmt) : bool :=
  match s with
  | Give _ => true
  | GiveNew => true
  | Seq a b => gives a || gives b
  | If a b => gives a || gives b
  | Loop a => gives a
  | Call _ _ a _ => gives a
  | _ => false
  end.

Fixpoint ptags (T : tags) (b : list (var * var)) : tags :=
  match b with
  | [] => []
  | (p, a) :: r => match look T a with Some t => (p, t) :: drop (ptags T r) p | None => drop (ptags T r) p end
  end.

Section Chk.
Variable chk : stmt -> tags -> option tags.
Fixpoint iter_loop (n : nat) (a : stmt) (T : tags) : option tags :=
  match n with
  | 0 => None
  | S k => match chk a T with
           | None => None
           | Some U => if tsub T U then Some T else iter_loop k a (meet T U)
           end
  end.
End Chk.

Fixpoint chk (s : stmt) (T : tags) : option tags :=
  match s with
  | Skip => Some T
  | New x => Some (set T x (Some Own))
  | View x y => Some (set T x (look T y))
  | Adj x => Some (set T x (Some Trk))
  | Cached x _ => Some (set T x (Some Trk))
  | GetP x _ => Some (set T x (Some Trk))
  | Mut x => match look T x with Some Own => Some T | _ => None end
  | Store _ x => match look T x with Some _ => Some (weak T) | None => None end
  | Give x => match look T x with Some Own => Some (weak T) | _ => None end
  | GiveNew => Some T
  | Seq a b => match chk a T with Some U => chk b U | None => None end
  | If a b => match chk a T, chk b T with Some U, Some V => Some (meet U V) | _, _ => None end
  | Loop a => iter_loop chk 20 a T
  | Call x bs a r =>
      match chk a (ptags T bs) with
      | Some U => Some (set (if stores a || gives a then weak T else T) x (look U r))
      | None => None
      end
  end.

Definition getter_ok (g : getter) : bool :=
  negb (gives g) &&
  match chk g [] with Some T => match look T "ret"%string with Some _ => true | None => false end | None => false end.
Definition func_ok (f : func) : bool :=
  negb (stores (f_body f) && gives (f_body f)) &&
  match chk (f_body f) [] with
  | Some T => forallb (fun r => match look T r with Some Own => true | _ => false end) (f_res f)
  | None => false
  end.

(** ** Soundness *)
Definition prot (st : est) (l : loc) : Prop := In l (held st) \/ In l (given st).

Definition tag_ok (n0 : nat) (st : est) (l : loc) (t : tag) : Prop :=
  match t with Own => n0 <= l /\ ~ prot st l | Trk => n0 <= l \/ In l (held st) end.

Definition tags_ok (n0 : nat) (T : tags) (st : est) : Prop :=
  forall x t, look T x = Some t -> forall l, look (env st) x = Some l -> tag_ok n0 st l t.

(** [m]: the call yields nothing (then it may write to the cache). *)
Record core (m : bool) (n0 : nat) (h0 : loc -> nat) (H0 G0 : list loc) (st : est) : Prop := mkcore {
  co_next : n0 <= next st;
  co_env : forall x l, look (env st) x = Some l -> l < next st;
  co_held : forall l, In l (held st) -> l < next st;
  co_keep : forall l, In l H0 -> In l (held st);
  co_new : forall l, In l (held st) -> In l H0 \/ n0 <= l;
  co_heap : forall l, l < n0 -> heap st l = h0 l;
  co_given : forall l, In l (given st) -> l < next st;
  co_disj : forall l, In l (given st) -> ~ In l (held st);
  co_gkeep : forall l, In l G0 -> In l (given st);
  co_gnew : forall l, In l (given st) -> In l G0 \/ n0 <= l;
  co_mode : m = true -> forall l, In l (given st) -> l < n0
}.
Definition mode_ok (m : bool) (s : stmt) : Prop :=
  if m then gives s = false else stores s = false.

Lemma look_drop_eq : forall T x, look (drop T x) x = None.
Proof.
  induction T as [|[y t] r IH]; intros x; simpl; auto.
  destruct (String.eqb x y) eqn:E; auto. simpl. rewrite E. auto.
Qed.
Lemma look_drop_ne : forall T x y, x <> y -> look (drop T x) y = look T y.
Proof.
  induction T as [|[z t] r IH]; intros x y Hn; simpl; auto.
  destruct (String.eqb x z) eqn:E.
  - apply String.eqb_eq in E. subst z. rewrite IH by auto.
    destruct (String.eqb y x) eqn:E2; auto. apply String.eqb_eq in E2. congruence.
  - simpl. rewrite IH by auto. auto.
Qed.
Lemma look_set_eq : forall T x o, look (set T x o) x = o.
Proof.
  intros T x [t|]; simpl.
  - now rewrite String.eqb_refl.
  - apply look_drop_eq.
Qed.
Lemma look_set_ne : forall T x y o, x <> y -> look (set T x o) y = look T y.
Proof.
  intros T x y [t|] Hn; simpl.
  - destruct (String.eqb y x) eqn:E; [apply String.eqb_eq in E; congruence|]. now apply look_drop_ne.
  - now apply look_drop_ne.
Qed.
Lemma look_weak : forall T x t, look (weak T) x = Some t -> t = Trk /\ exists u, look T x = Some u.
Proof.
  induction T as [|[y u] r IH]; intros x t; simpl; [discriminate|].
  destruct (String.eqb x y); [intros E; injection E as <-; eauto|]. apply IH.
Qed.
Lemma look_meet : forall T U x t, look (meet T U) x = Some t ->
  exists a b, look T x = Some a /\ look U x = Some b /\ t = tmin a b.
Proof.
  induction T as [|[y u] r IH]; intros U x t; simpl; [discriminate|].
  destruct (String.eqb x y) eqn:E.
  - apply String.eqb_eq in E. subst y.
    destruct (look U x) as [w|] eqn:Ew.
    + simpl. rewrite String.eqb_refl. intros E; injection E as <-. exists u, w. auto.
    + intros Hr. destruct (IH _ _ _ Hr) as (a & b & _ & Hb & _). congruence.
  - destruct (look U y); simpl; [rewrite E|]; apply IH.
Qed.
Lemma tsub_look : forall T U x t, tsub T U = true -> look T x = Some t ->
  exists u, look U x = Some u /\ tle t u = true.
Proof.
  induction T as [|[y u] r IH]; intros U x t; simpl; [discriminate|].
  destruct (look U y) as [w|] eqn:Ew; [|discriminate].
  intros Hs. apply andb_true_iff in Hs. destruct Hs as [Hl Hs].
  destruct (String.eqb x y) eqn:E.
  - apply String.eqb_eq in E. subst y. intros E; injection E as <-. eauto.
  - apply IH; auto.
Qed.

Lemma tag_le : forall n0 st l t u, tle t u = true -> tag_ok n0 st l u -> tag_ok n0 st l t.
Proof. intros n0 h l [|] [|]; simpl; intuition congruence. Qed.
Lemma tag_min_l : forall n0 st l a b, tag_ok n0 st l a -> tag_ok n0 st l (tmin a b).
Proof. intros n0 h l [|] [|]; simpl; tauto. Qed.
Lemma tag_min_r : forall n0 st l a b, tag_ok n0 st l b -> tag_ok n0 st l (tmin a b).
Proof. intros n0 h l [|] [|]; simpl; tauto. Qed.
Lemma tag_trk : forall n0 st l t, tag_ok n0 st l t -> tag_ok n0 st l Trk.
Proof. intros n0 h l [|]; simpl; tauto. Qed.
(** Growing the held set by objects made later keeps every tag. *)
Lemma tag_mono : forall n0 st st' l t, l < next st ->
  (forall k, In k (held st) -> In k (held st')) ->
  (forall k, prot st' k -> prot st k \/ next st <= k) ->
  tag_ok n0 st l t -> tag_ok n0 st' l t.
Proof.
  intros n0 st st' l [|] Hl H1 H2; simpl.
  - intros [Ha Hb]. split; auto. intros Hc. destruct (H2 _ Hc); [auto|lia].
  - intuition.
Qed.

Lemma params_look : forall e bs e' p l, params e bs = Some e' -> look e' p = Some l ->
  exists a, look e a = Some l.
Proof.
  induction bs as [|[q a] r IH]; intros e' p l; simpl.
  - intros E; injection E as <-. discriminate.
  - destruct (look e a) as [k|] eqn:Ek; [|discriminate].
    destruct (params e r) as [e1|] eqn:E1; [|discriminate].
    intros E; injection E as <-. simpl.
    destruct (String.eqb p q); [intros E; injection E as <-; eauto|]. intros Hl. eapply IH; eauto.
Qed.
Lemma ptags_ok : forall n0 T st bs e, tags_ok n0 T st -> params (env st) bs = Some e ->
  forall h nx, tags_ok n0 (ptags T bs) (mkE h nx e (held st) (given st)).
Proof.
  intros n0 T st bs. induction bs as [|[q a] r IH]; intros e HT He h nx x t; simpl in *.
  - discriminate.
  - destruct (look (env st) a) as [k|] eqn:Ek; [|discriminate].
    destruct (params (env st) r) as [e1|] eqn:E1; [|discriminate].
    injection He as <-. specialize (IH e1 HT eq_refl h nx).
    destruct (look T a) as [ta|] eqn:Ea; simpl.
    + destruct (String.eqb x q) eqn:E.
      * intros E2; injection E2 as <-. intros l E2; injection E2 as <-. eapply HT; eauto.
      * apply String.eqb_neq in E. rewrite look_drop_ne by congruence. intros Ht l Hl.
        exact (IH x t Ht l Hl).
    + destruct (String.eqb x q) eqn:E.
      * apply String.eqb_eq in E. subst q. rewrite look_drop_eq. discriminate.
      * apply String.eqb_neq in E. rewrite look_drop_ne by congruence. intros Ht l Hl.
        exact (IH x t Ht l Hl).
Qed.

Lemma iter_loop_inv : forall n a T U, iter_loop chk n a T = Some U ->
  (exists V, chk a U = Some V /\ tsub U V = true) /\
  (forall x t, look U x = Some t -> exists u, look T x = Some u /\ tle t u = true).
Proof.
  induction n as [|n IH]; intros a T U; simpl; [discriminate|].
  destruct (chk a T) as [V|] eqn:EV; [|discriminate].
  destruct (tsub T V) eqn:Es.
  - intros E; injection E as <-. split; [eauto|]. intros x t Ht. exists t. split; auto. now destruct t.
  - intros Hi. destruct (IH _ _ _ Hi) as [Ha Hb]. split; auto.
    intros x t Ht. destruct (Hb x t Ht) as (u & Hu & Hle).
    destruct (look_meet _ _ _ _ Hu) as (c & d & Hc & Hd & ->). exists c. split; auto.
    destruct t, c, d; simpl in *; auto.
Qed.

(** The result of one execution, seen from the state it started in. *)
Record step_ok (s : stmt) (st st' : est) : Prop := mkstep {
  so_next : next st <= next st';
  so_keep : forall l, In l (held st) -> In l (held st');
  so_gkeep : forall l, In l (given st) -> In l (given st');
  so_heap : forall l, prot st l -> heap st' l = heap st l;
  so_new : stores s = false -> gives s = false -> forall l, prot st' l -> prot st l \/ next st <= l
}.

Definition envs_from (st st' : est) : Prop :=
  forall x l, look (env st') x = Some l ->
  (exists y, look (env st) y = Some l) \/ next st <= l \/ In l (held st').

Definition sound (s : stmt) (st : est) (b : bool) (st' : est) : Prop :=
  forall m n0 h0 H0 G0 T T', mode_ok m s -> chk s T = Some T' ->
  core m n0 h0 H0 G0 st -> tags_ok n0 T st ->
  core m n0 h0 H0 G0 st' /\ step_ok s st st' /\ envs_from st st' /\ (b = true -> tags_ok n0 T' st').

Section Sound.
Variable gs : list getter.
Hypothesis gs_ok : forallb getter_ok gs = true.

Lemma step_refl : forall s st, step_ok s st st.
Proof. intros. constructor; auto. Qed.
Lemma envs_refl : forall st, envs_from st st.
Proof. intros st x l Hl. eauto. Qed.
Lemma step_seq : forall a b s st st1 st2,
  (stores s = false -> stores a = false /\ stores b = false) ->
  (gives s = false -> gives a = false /\ gives b = false) ->
  step_ok a st st1 -> step_ok b st1 st2 -> step_ok s st st2.
Proof.
  intros a b s st st1 st2 Hs Hg [] []. constructor; auto; try lia.
  - intros l Hl. rewrite so_heap1; [auto|]. destruct Hl; [left|right]; auto.
  - intros H1 H2 l Hl. destruct (Hs H1), (Hg H2).
    destruct (so_new1 ltac:(auto) ltac:(auto) l Hl) as [Hl'|Hl']; [auto|right; lia].
Qed.
Lemma envs_seq : forall st st1 st2, next st <= next st1 ->
  (forall l, In l (held st1) -> In l (held st2)) ->
  envs_from st st1 -> envs_from st1 st2 -> envs_from st st2.
Proof.
  intros st st1 st2 Hn Hh H1 H2 x l Hl.
  destruct (H2 _ _ Hl) as [[z Hz]|[Hz|Hz]]; [|right; left; lia|auto].
  destruct (H1 _ _ Hz) as [Hw|[Hw|Hw]]; auto.
Qed.
Lemma step_sub : forall a s st st',
  (stores s = false -> stores a = false) -> (gives s = false -> gives a = false) ->
  step_ok a st st' -> step_ok s st st'.
Proof. intros a s st st' Hs Hg []. constructor; auto. Qed.

Lemma sound_same : forall s st b, (forall T T', chk s T = Some T' -> b = true -> T' = T) -> sound s st b st.
Proof.
  intros s st b Hb m n0 h0 H0 G0 T T' Hm Hc Hco HT. split; [auto|]. split; [apply step_refl|].
  split; [apply envs_refl|]. intros E. rewrite (Hb _ _ Hc E). auto.
Qed.

Lemma tags_bind : forall n0 T st x l o,
  tags_ok n0 T st -> (forall t, o = Some t -> tag_ok n0 st l t) ->
  tags_ok n0 (set T x o) (bindv st x l).
Proof.
  intros n0 T st x l o HT Ho y t Hy k. simpl.
  destruct (String.eqb y x) eqn:E.
  - apply String.eqb_eq in E. subst y. rewrite look_set_eq in Hy. intros E; injection E as <-.
    exact (Ho t Hy).
  - apply String.eqb_neq in E. rewrite look_set_ne in Hy by congruence. intros Hk.
    exact (HT _ _ Hy _ Hk).
Qed.
Lemma core_bind : forall m n0 h0 H0 G0 st x l,
  core m n0 h0 H0 G0 st -> l < next st -> core m n0 h0 H0 G0 (bindv st x l).
Proof.
  intros m n0 h0 H0 G0 st x l [] Hl. constructor; simpl; auto.
  intros y k. destruct (String.eqb y x); [intros E; injection E as <-; auto|eauto].
Qed.
Lemma bind_ok : forall s st x l o,
  (forall T, chk s T = Some (set T x (o T))) ->
  (forall m n0 h0 H0 G0 T, core m n0 h0 H0 G0 st -> tags_ok n0 T st ->
     l < next st /\ forall t, o T = Some t -> tag_ok n0 st l t) ->
  ((exists y, look (env st) y = Some l) \/ In l (held st)) ->
  sound s st true (bindv st x l).
Proof.
  intros s st x l o Hc Ho Hl m n0 h0 H0 G0 T T' Hm Hch Hco HT.
  rewrite Hc in Hch. injection Hch as <-. destruct (Ho _ _ _ _ _ _ Hco HT) as [Hlt Ht].
  split; [now apply core_bind|]. split; [|split].
  - constructor; simpl; auto.
  - intros y k. simpl. destruct (String.eqb y x); [intros E; injection E as <-; tauto|eauto].
  - intros _. now apply tags_bind.
Qed.

Lemma exec_sound : forall s st b st', exec gs s st b st' -> sound s st b st'.
Proof.
  intros s st b st' He. induction He.
  - (* raise *) apply sound_same. intros; discriminate.
  - (* skip *) apply sound_same. simpl. congruence.
  - (* new *)
    intros md n0 h0 HH GG T T' Hm Hc [] HT. simpl in Hc. injection Hc as <-.
    assert (Hp : forall l, prot st l -> l < next st) by (intros l [Hl|Hl]; auto).
    split; [|split; [|split]].
    + constructor; simpl; auto; try lia.
      * intros y l. destruct (String.eqb y x); [intros E; injection E as <-; lia|].
        intros Hl. specialize (co_env0 _ _ Hl). lia.
      * intros l Hl. specialize (co_held0 _ Hl). lia.
      * intros l Hl. unfold write. destruct (Nat.eqb l (next st)) eqn:E; auto.
        apply Nat.eqb_eq in E. lia.
      * intros l Hl. specialize (co_given0 _ Hl). lia.
    + constructor; simpl; auto. intros l Hl. unfold write.
      destruct (Nat.eqb l (next st)) eqn:E; auto. apply Nat.eqb_eq in E.
      specialize (Hp _ Hl). lia.
    + intros y l. simpl. destruct (String.eqb y x); [intros E; injection E as <-; auto|eauto].
    + intros _ y t Hy l. simpl. change ((x, Own) :: drop T x) with (set T x (Some Own)) in Hy.
      destruct (String.eqb y x) eqn:E.
      * apply String.eqb_eq in E. subst y. rewrite look_set_eq in Hy. injection Hy as <-.
        intros E; injection E as <-. simpl. split; auto. intros Hl.
        change (prot st (next st)) in Hl. specialize (Hp _ Hl). lia.
      * apply String.eqb_neq in E. rewrite look_set_ne in Hy by congruence. intros Hl.
        exact (HT _ _ Hy _ Hl).
  - (* view *)
    apply bind_ok with (o := fun T => look T y); eauto.
    intros md n0 h0 HH GG T Hco HT. split; [eapply co_env; eauto|]. intros t Ht. eapply HT; eauto.
  - (* adj *)
    apply bind_ok with (o := fun T => Some Trk); eauto.
    intros md n0 h0 HH GG T Hco HT. split; [eapply co_held; eauto|]. intros t Ht.
    injection Ht as <-. simpl. auto.
  - (* cached *)
    apply bind_ok with (o := fun T => Some Trk); eauto.
    intros md n0 h0 HH GG T Hco HT. split; [eapply co_held; eauto|]. intros t Ht.
    injection Ht as <-. simpl. auto.
  - (* prop hit *)
    apply bind_ok with (o := fun T => Some Trk); eauto.
    intros md n0 h0 HH GG T Hco HT. split; [eapply co_held; eauto|]. intros t Ht.
    injection Ht as <-. simpl. auto.
  - (* prop *)
    intros md n0 h0 HH GG T T' Hm Hc Hco HT. simpl in Hc. injection Hc as <-.
    pose proof (proj1 (forallb_forall _ _) gs_ok _ H) as Hg. unfold getter_ok in Hg.
    apply andb_true_iff in Hg. destruct Hg as [Hgg Hg]. apply negb_true_iff in Hgg.
    destruct (chk g []) as [U|] eqn:EU; [|discriminate].
    destruct (look U "ret"%string) as [tr|] eqn:Er; [|discriminate].
    destruct (IHHe true (next st) (heap st) (held st) (given st) [] U Hgg EU) as (Hc1 & Hs1 & He1 & Ht1).
    { destruct Hco. constructor; simpl; auto.
      intros y k. destruct (String.eqb y "mask"%string); [intros E; injection E as <-; auto|discriminate]. }
    { intros y t Hy. discriminate. }
    specialize (Ht1 eq_refl _ tr Er _ H1).
    assert (Hgiv : forall l, In l (given st') -> In l (given st)).
    { intros k Hk. destruct (co_gnew _ _ _ _ _ _ Hc1 _ Hk) as [Hk'|Hk']; auto.
      pose proof (co_mode _ _ _ _ _ _ Hc1 eq_refl _ Hk). lia. }
    assert (Hnew : forall l, prot st' l -> prot st l \/ next st <= l).
    { intros k [Hk|Hk]; [|left; right; auto].
      destruct (co_new _ _ _ _ _ _ Hc1 _ Hk); [left; left; auto|auto]. }
    destruct Hco, Hc1, Hs1. simpl in *. split; [|split; [|split]].
    + constructor; simpl; auto; try lia.
      * intros y k. destruct (String.eqb y x); [intros E; injection E as <-; eauto|].
        intros Hk. specialize (co_env0 _ _ Hk). lia.
      * intros k Hk. destruct (co_new1 _ Hk) as [Hk'|Hk']; [auto|right; lia].
      * intros k Hk. rewrite co_heap1 by lia. auto.
    + constructor; simpl; auto.
    + intros y k. simpl. destruct (String.eqb y x).
      * intros E; injection E as <-. apply tag_trk in Ht1. simpl in Ht1. tauto.
      * eauto.
    + intros _.
      apply (tags_bind n0 T (mkE (heap st') (next st') (env st) (held st') (given st')) x l (Some Trk)).
      * intros y t Hy k Hk. eapply (tag_mono n0 st); eauto.
      * intros t Ht. injection Ht as <-. apply tag_trk in Ht1. simpl in *. intuition lia.
  - (* prop raise *)
    intros md n0 h0 HH GG T T' Hm Hc Hco HT. simpl in Hc. injection Hc as <-.
    pose proof (proj1 (forallb_forall _ _) gs_ok _ H) as Hg. unfold getter_ok in Hg.
    apply andb_true_iff in Hg. destruct Hg as [Hgg Hg]. apply negb_true_iff in Hgg.
    destruct (chk g []) as [U|] eqn:EU; [|discriminate].
    destruct (IHHe true (next st) (heap st) (held st) (given st) [] U Hgg EU) as (Hc1 & Hs1 & He1 & Ht1).
    { destruct Hco. constructor; simpl; auto.
      intros y k. destruct (String.eqb y "mask"%string); [intros E; injection E as <-; auto|discriminate]. }
    { intros y t Hy. discriminate. }
    assert (Hgiv : forall l, In l (given st') -> In l (given st)).
    { intros k Hk. destruct (co_gnew _ _ _ _ _ _ Hc1 _ Hk) as [Hk'|Hk']; auto.
      pose proof (co_mode _ _ _ _ _ _ Hc1 eq_refl _ Hk). lia. }
    assert (Hnew : forall l, prot st' l -> prot st l \/ next st <= l).
    { intros k [Hk|Hk]; [|left; right; auto].
      destruct (co_new _ _ _ _ _ _ Hc1 _ Hk); [left; left; auto|auto]. }
    destruct Hco, Hc1, Hs1. simpl in *. split; [|split; [|split]].
    + constructor; simpl; auto; try lia.
      * intros y k Hk. specialize (co_env0 _ _ Hk). lia.
      * intros k Hk. destruct (co_new1 _ Hk) as [Hk'|Hk']; [auto|right; lia].
      * intros k Hk. rewrite co_heap1 by lia. auto.
    + constructor; simpl; auto.
    + intros y k. simpl. eauto.
    + discriminate.
  - (* mut *)
    intros md n0 h0 HH GG T T' Hm Hc Hco HT. simpl in Hc.
    destruct (look T x) as [[|]|] eqn:Ex; try discriminate. injection Hc as <-.
    pose proof (HT _ _ Ex _ H) as [Hge Hnot]. destruct Hco. split; [|split; [|split]].
    + constructor; simpl; auto. intros k Hk. unfold write.
      destruct (Nat.eqb k l) eqn:E; auto. apply Nat.eqb_eq in E. lia.
    + constructor; simpl; auto. intros k Hk. unfold write.
      destruct (Nat.eqb k l) eqn:E; auto. apply Nat.eqb_eq in E. subst k. contradiction.
    + intros y k. simpl. eauto.
    + intros _. exact HT.
  - (* store *)
    intros md n0 h0 HH GG T T' Hm Hc Hco HT. simpl in Hc.
    destruct (look T x) as [tx|] eqn:Ex; try discriminate. injection Hc as <-.
    pose proof (HT _ _ Ex _ H) as Hx. apply tag_trk in Hx. simpl in Hx.
    destruct md; [|discriminate Hm].
    destruct Hco. split; [|split; [|split]].
    + constructor; simpl; auto.
      * intros k [<-|Hk]; eauto.
      * intros k [<-|Hk]; [destruct Hx as [Hx|Hx]; auto|auto].
      * intros k Hk [<-|Hk']; [|exact (co_disj0 _ Hk Hk')].
        destruct Hx as [Hx|Hx]; [|exact (co_disj0 _ Hk Hx)].
        specialize (co_mode0 eq_refl _ Hk). lia.
    + constructor; simpl; auto. discriminate.
    + intros y k. simpl. eauto.
    + intros _ y t Hy k Hk. simpl in *. destruct (look_weak _ _ _ Hy) as [-> [u Hu]].
      pose proof (HT _ _ Hu _ Hk) as Ht. apply tag_trk in Ht. simpl in *. tauto.
  - (* give *)
    intros md n0 h0 HH GG T T' Hm Hc Hco HT. simpl in Hc.
    destruct (look T x) as [[|]|] eqn:Ex; try discriminate. injection Hc as <-.
    pose proof (HT _ _ Ex _ H) as Hx. destruct Hx as [Hge Hnot].
    destruct md; [discriminate Hm|].
    destruct Hco. split; [|split; [|split]].
    + constructor; simpl; auto.
      * intros k [<-|Hk]; eauto.
      * intros k [<-|Hk]; [|eauto]. intros Hk. apply Hnot. left. auto.
      * intros k [<-|Hk]; auto.
      * discriminate.
    + constructor; simpl; auto. discriminate.
    + intros y k. simpl. eauto.
    + intros _ y t Hy k Hk. simpl in *. destruct (look_weak _ _ _ Hy) as [-> [u Hu]].
      pose proof (HT _ _ Hu _ Hk) as Ht. apply tag_trk in Ht. simpl in *. tauto.
  - (* give new *)
    intros md n0 h0 HH GG T T' Hm Hc Hco HT. simpl in Hc. injection Hc as <-.
    destruct md; [discriminate Hm|].
    assert (Hp : forall l, prot st l -> l < next st) by (destruct Hco; intros l [Hl|Hl]; auto).
    destruct Hco. split; [|split; [|split]].
    + constructor; simpl; auto; try lia.
      * intros y l Hl. specialize (co_env0 _ _ Hl). lia.
      * intros l Hl. specialize (co_held0 _ Hl). lia.
      * intros l Hl. unfold write. destruct (Nat.eqb l (next st)) eqn:E; auto.
        apply Nat.eqb_eq in E. lia.
      * intros l [<-|Hl]; [lia|]. specialize (co_given0 _ Hl). lia.
      * intros l [<-|Hl]; auto. intros Hk. specialize (co_held0 _ Hk). lia.
      * intros l [<-|Hl]; auto.
    + constructor; simpl; auto; try discriminate.
      intros l Hl. unfold write. destruct (Nat.eqb l (next st)) eqn:E; auto.
      apply Nat.eqb_eq in E. specialize (Hp _ Hl). lia.
    + intros y l. simpl. eauto.
    + intros _ y t Hy l Hl. simpl in Hl. pose proof (HT _ _ Hy _ Hl) as Ht.
      specialize (co_env0 _ _ Hl). destruct t; simpl in *; [|tauto].
      destruct Ht as [Hge Hn]. split; auto. unfold prot in *. simpl.
      intros [Hk|[Hk|Hk]]; [tauto|lia|tauto].
  - (* seq *)
    intros md n0 h0 HH GG T T' Hm Hc Hco HT. simpl in Hc.
    assert (Hm2 : mode_ok md s /\ mode_ok md t).
    { destruct md; simpl in *; apply orb_false_iff in Hm; auto. }
    destruct (chk s T) as [U|] eqn:EU; [|discriminate].
    destruct (IHHe1 _ _ _ _ _ _ _ (proj1 Hm2) EU Hco HT) as (Hc1 & Hs1 & He1' & Ht1).
    destruct (IHHe2 _ _ _ _ _ _ _ (proj2 Hm2) Hc Hc1 (Ht1 eq_refl)) as (Hc2 & Hs2 & He2' & Ht2).
    split; [auto|]. split; [|split; [|auto]].
    + apply (step_seq s t _ st st' st''); auto; simpl; intros Hn; now apply orb_false_iff in Hn.
    + destruct Hs1, Hs2. eapply envs_seq; eauto.
  - (* seq raise *)
    intros md n0 h0 HH GG T T' Hm Hc Hco HT. simpl in Hc.
    assert (Hm2 : mode_ok md s) by (destruct md; simpl in *; apply orb_false_iff in Hm; tauto).
    destruct (chk s T) as [U|] eqn:EU; [|discriminate].
    destruct (IHHe _ _ _ _ _ _ _ Hm2 EU Hco HT) as (Hc1 & Hs1 & He1' & Ht1).
    split; [auto|]. split; [|split; [auto|discriminate]].
    apply (step_sub s); auto; simpl; intros Hn; apply orb_false_iff in Hn; tauto.
  - (* if l *)
    intros md n0 h0 HH GG T T' Hm Hc Hco HT. simpl in Hc.
    assert (Hm2 : mode_ok md s) by (destruct md; simpl in *; apply orb_false_iff in Hm; tauto).
    destruct (chk s T) as [U|] eqn:EU; [|discriminate].
    destruct (chk t T) as [V|] eqn:EV; [|discriminate]. injection Hc as <-.
    destruct (IHHe _ _ _ _ _ _ _ Hm2 EU Hco HT) as (Hc1 & Hs1 & He1' & Ht1).
    split; [auto|]. split; [|split; [auto|]].
    + apply (step_sub s); auto; simpl; intros Hn; apply orb_false_iff in Hn; tauto.
    + intros E y k Hy l Hl. destruct (look_meet _ _ _ _ Hy) as (a & c & Ha & Hb & ->).
      apply tag_min_l. eapply Ht1; eauto.
  - (* if r *)
    intros md n0 h0 HH GG T T' Hm Hc Hco HT. simpl in Hc.
    assert (Hm2 : mode_ok md t) by (destruct md; simpl in *; apply orb_false_iff in Hm; tauto).
    destruct (chk s T) as [U|] eqn:EU; [|discriminate].
    destruct (chk t T) as [V|] eqn:EV; [|discriminate]. injection Hc as <-.
    destruct (IHHe _ _ _ _ _ _ _ Hm2 EV Hco HT) as (Hc1 & Hs1 & He1' & Ht1).
    split; [auto|]. split; [|split; [auto|]].
    + apply (step_sub t); auto; simpl; intros Hn; apply orb_false_iff in Hn; tauto.
    + intros E y k Hy l Hl. destruct (look_meet _ _ _ _ Hy) as (a & c & Ha & Hb & ->).
      apply tag_min_r. eapply Ht1; eauto.
  - (* loop end *)
    intros md n0 h0 HH GG T T' Hm Hc Hco HT. change (iter_loop chk 20 s T = Some T') in Hc.
    destruct (iter_loop_inv _ _ _ _ Hc) as [_ Hle].
    split; [auto|]. split; [apply step_refl|]. split; [apply envs_refl|].
    intros _ y t Hy l Hl. destruct (Hle _ _ Hy) as (u & Hu & Hlu). eapply tag_le; eauto.
  - (* loop step *)
    intros md n0 h0 HH GG T T' Hm Hc Hco HT. change (iter_loop chk 20 s T = Some T') in Hc.
    destruct (iter_loop_inv _ _ _ _ Hc) as [(V & HV & Hsub) Hle].
    assert (HT' : tags_ok n0 T' st).
    { intros y t Hy l Hl. destruct (Hle _ _ Hy) as (u & Hu & Hlu). eapply tag_le; eauto. }
    assert (Hm2 : mode_ok md s) by (destruct md; exact Hm).
    destruct (IHHe1 _ _ _ _ _ _ _ Hm2 HV Hco HT') as (Hc1 & Hs1 & He1' & Ht1).
    assert (HT1 : tags_ok n0 T' st').
    { intros y t Hy l Hl. destruct (tsub_look _ _ _ _ Hsub Hy) as (u & Hu & Hlu).
      eapply tag_le; eauto. eapply Ht1; eauto. }
    assert (Hloop : chk (Loop s) T' = Some T').
    { change (iter_loop chk 20 s T' = Some T'). unfold iter_loop. rewrite HV, Hsub. reflexivity. }
    destruct (IHHe2 _ _ _ _ _ _ _ Hm Hloop Hc1 HT1) as (Hc2 & Hs2 & He2' & Ht2).
    split; [auto|]. split; [|split; [|auto]].
    + apply (step_seq s (Loop s) _ st st' st''); auto.
    + destruct Hs1, Hs2. eapply envs_seq; eauto.
  - (* loop raise *)
    intros md n0 h0 HH GG T T' Hm Hc Hco HT. change (iter_loop chk 20 s T = Some T') in Hc.
    destruct (iter_loop_inv _ _ _ _ Hc) as [(V & HV & Hsub) Hle].
    assert (HT' : tags_ok n0 T' st).
    { intros y t Hy l Hl. destruct (Hle _ _ Hy) as (u & Hu & Hlu). eapply tag_le; eauto. }
    assert (Hm2 : mode_ok md s) by (destruct md; exact Hm).
    destruct (IHHe _ _ _ _ _ _ _ Hm2 HV Hco HT') as (Hc1 & Hs1 & He1' & Ht1).
    split; [auto|]. split; [|split; [auto|discriminate]]. apply (step_sub s); auto.
  - (* call *)
    intros md n0 h0 HH GG T T' Hm Hc Hco HT. simpl in Hc.
    destruct (chk s (ptags T bs)) as [U|] eqn:EU; [|discriminate]. injection Hc as <-.
    assert (Hce : core md n0 h0 HH GG (mkE (heap st) (next st) e (held st) (given st))).
    { destruct Hco. constructor; simpl; auto. intros y k Hk.
      destruct (params_look _ _ _ _ _ H Hk) as [a Ha]. eauto. }
    assert (Hm2 : mode_ok md s) by (destruct md; exact Hm).
    destruct (IHHe _ _ _ _ _ _ _ Hm2 EU Hce (ptags_ok _ _ _ _ _ HT H _ _)) as (Hc1 & Hs1 & He1 & Ht1).
    specialize (Ht1 eq_refl).
    assert (Hret : (exists y, look (env st) y = Some l) \/ next st <= l \/ In l (held st')).
    { destruct (He1 _ _ H0) as [[y Hy]|Hy]; auto. left. eapply params_look; eauto. }
    assert (HT2 : tags_ok n0 (if stores s || gives s then weak T else T)
                    (mkE (heap st') (next st') (env st) (held st') (given st'))).
    { intros y t Hy k Hk. simpl in *. destruct (stores s || gives s) eqn:Es.
      - destruct (look_weak _ _ _ Hy) as [-> [u Hu]]. pose proof (HT _ _ Hu _ Hk) as Ht.
        apply tag_trk in Ht. simpl in *. destruct Ht; auto. right. destruct Hs1. auto.
      - apply orb_false_iff in Es. destruct Es as [E1 E2].
        destruct Hs1. eapply (tag_mono n0 st); eauto. eapply co_env; eauto. }
    destruct Hco, Hc1, Hs1. simpl in *. split; [|split; [|split]].
    + constructor; simpl; auto.
      intros y k. destruct (String.eqb y x); [intros E; injection E as <-; eauto|].
      intros Hk. specialize (co_env0 _ _ Hk). lia.
    + constructor; simpl; auto.
    + intros y k. simpl. destruct (String.eqb y x); [intros E; injection E as <-; auto|eauto].
    + intros _.
      apply (tags_bind n0 _ (mkE (heap st') (next st') (env st) (held st') (given st')) x l (look U r)); auto.
      intros t Ht. exact (Ht1 _ _ Ht _ H0).
  - (* call raise *)
    intros md n0 h0 HH GG T T' Hm Hc Hco HT. simpl in Hc.
    destruct (chk s (ptags T bs)) as [U|] eqn:EU; [|discriminate]. injection Hc as <-.
    assert (Hce : core md n0 h0 HH GG (mkE (heap st) (next st) e (held st) (given st))).
    { destruct Hco. constructor; simpl; auto. intros y k Hk.
      destruct (params_look _ _ _ _ _ H Hk) as [a Ha]. eauto. }
    assert (Hm2 : mode_ok md s) by (destruct md; exact Hm).
    destruct (IHHe _ _ _ _ _ _ _ Hm2 EU Hce (ptags_ok _ _ _ _ _ HT H _ _)) as (Hc1 & Hs1 & He1 & Ht1).
    destruct Hco, Hc1, Hs1. simpl in *. split; [|split; [|split]].
    + constructor; simpl; auto.
      intros y k Hk. specialize (co_env0 _ _ Hk). lia.
    + constructor; simpl; auto.
    + intros y k. simpl. eauto.
    + discriminate.
Qed.

(** ** One call *)
Lemma call_ok : forall f st b st',
  func_ok f = true -> given st = [] ->
  (forall x l, look (env st) x = Some l -> l < next st) ->
  (forall l, In l (held st) -> l < next st) ->
  exec gs (f_body f) st b st' ->
  next st <= next st' /\
  (forall l, l < next st -> heap st' l = heap st l) /\
  (forall l, In l (held st) -> In l (held st')) /\
  (forall l, In l (held st') -> In l (held st) \/ next st <= l < next st') /\
  (forall l, In l (given st') -> next st <= l < next st' /\ ~ In l (held st')) /\
  (b = true -> forall r l, In r (f_res f) -> look (env st') r = Some l ->
     next st <= l < next st' /\ ~ In l (held st') /\ ~ In l (given st')).
Proof.
  intros f st b st' Hf Hg He Hh Hx. unfold func_ok in Hf.
  apply andb_true_iff in Hf. destruct Hf as [Hsg Hf]. apply negb_true_iff in Hsg.
  destruct (chk (f_body f) []) as [T|] eqn:ET; [|discriminate].
  set (md := negb (gives (f_body f))).
  assert (Hm : mode_ok md (f_body f)).
  { unfold md, mode_ok. destruct (gives (f_body f)) eqn:E; simpl; auto.
    now rewrite andb_true_r in Hsg. }
  destruct (exec_sound _ _ _ _ Hx md (next st) (heap st) (held st) [] [] T Hm ET) as (Hc & Hs & Hev & Ht).
  { constructor; auto; rewrite Hg; simpl; tauto. }
  { intros x t Hxt. discriminate. }
  destruct Hc, Hs. split; [auto|]. split; [auto|]. split; [auto|]. split; [|split].
  - intros l Hl. destruct (co_new0 _ Hl); auto.
  - intros l Hl. split; [|auto]. split; [|auto].
    destruct (co_gnew0 _ Hl) as [[]|]; auto.
  - intros -> r l Hr Hl. specialize (Ht eq_refl).
    pose proof (proj1 (forallb_forall _ _) Hf _ Hr) as Hr'. simpl in Hr'.
    destruct (look T r) as [[|]|] eqn:Er; try discriminate.
    destruct (Ht _ _ Er _ Hl) as [Hge Hp]. unfold prot in Hp.
    split; [split; eauto|tauto].
Qed.

(** ** Calls in a row *)
Variable fs : list func.
Hypothesis fs_ok : forallb func_ok fs = true.

(** The user holds no object the graphs hold. *)
Definition apart (u : ustate) : Prop :=
  (forall l, In l (u_held u) -> l < u_next u) /\
  (forall l, In l (u_mine u) -> l < u_next u) /\
  (forall l, In l (u_mine u) -> ~ In l (u_held u)).

Lemma look_combine : forall (xs : list var) (ls : list loc) x l,
  look (combine xs ls) x = Some l -> In l ls.
Proof.
  induction xs as [|y xs IH]; intros [|k ls] x l; simpl; try discriminate.
  destruct (String.eqb x y); [intros E; injection E as <-; auto|]. eauto.
Qed.

Lemma ustep_ok : forall u o u', ustep gs fs u o u' -> apart u ->
  apart u' /\ u_next u <= u_next u' /\
  (forall l, In l (u_held u) -> In l (u_held u')) /\
  (forall l, In l (u_held u) -> u_heap u' l = u_heap u l) /\
  (forall l, l < u_next u -> o <> Some l -> u_heap u' l = u_heap u l) /\
  (forall l, o = Some l -> ~ In l (u_held u)) /\
  (forall l, In l (u_held u') -> In l (u_held u) \/ In l (u_mine u) \/ u_next u <= l).
Proof.
  intros u o u' Hs (A1 & A2 & A3). destruct Hs as [u f ls e st b Hf Hlen Hls He Hx|u l v Hl|u v|u l Hl].
  - pose proof (proj1 (forallb_forall _ _) fs_ok _ Hf) as Hok.
    set (s0 := mkE (u_heap u) (u_next u) e (u_held u) []) in Hx.
    assert (He0 : forall x l, look (env s0) x = Some l -> l < next s0).
    { simpl. intros x l Hl. rewrite He in Hl. apply look_combine in Hl.
      rewrite Forall_forall in Hls. auto. }
    destruct (call_ok f s0 b st Hok eq_refl He0 A1 Hx) as (C1 & C2 & C3 & C4 & C5 & C6).
    simpl in *.
    assert (Hmine : forall l, In l ((if b then flat_map (fun x => match look (env st) x with Some l => [l] | None => [] end)
                                (f_res f) else []) ++ given st ++ u_mine u) ->
              l < next st /\ ~ In l (held st)).
    { intros l Hl. apply in_app_or in Hl. destruct Hl as [Hl|Hl].
      - destruct b; [|contradiction]. apply in_flat_map in Hl. destruct Hl as (r & Hr & Hl).
        destruct (look (env st) r) as [k|] eqn:Ek; [|contradiction].
        destruct Hl as [<-|[]]. destruct (C6 eq_refl _ _ Hr Ek) as ([_ Hlt] & Hn & _). auto.
      - apply in_app_or in Hl. destruct Hl as [Hl|Hl].
        + destruct (C5 _ Hl) as ([_ Hlt] & Hn). auto.
        + specialize (A2 _ Hl). specialize (A3 _ Hl). split; [lia|]. intros Hk.
          destruct (C4 _ Hk) as [Hk'|Hk']; [auto|lia]. }
    split; [|split; [auto|split; [auto|split; [auto|split; [auto|split; [discriminate|]]]]]].
    + split; [|split]; simpl.
      * intros l Hl. destruct (C4 _ Hl) as [Hk|[_ Hk]]; [specialize (A1 _ Hk); lia|auto].
      * intros l Hl. apply Hmine in Hl. tauto.
      * intros l Hl. apply Hmine in Hl. tauto.
    + intros l Hl. destruct (C4 _ Hl) as [Hk|[Hk _]]; auto.
  - simpl. split; [|split; [auto|split; [auto|split; [|split; [|split; [|auto]]]]]].
    + split; [|split]; simpl; auto.
    + intros k Hk. unfold write. destruct (Nat.eqb k l) eqn:E; auto.
      apply Nat.eqb_eq in E. subst k. destruct (A3 _ Hl Hk).
    + intros k Hk Hne. unfold write. destruct (Nat.eqb k l) eqn:E; auto.
      apply Nat.eqb_eq in E. subst k. now destruct Hne.
    + intros k E. injection E as <-. auto.
  - simpl. assert (Hh : forall k, k < u_next u -> write (u_heap u) (u_next u) v k = u_heap u k).
    { intros k Hk. unfold write. destruct (Nat.eqb k (u_next u)) eqn:E; auto.
      apply Nat.eqb_eq in E. lia. }
    split; [|split; [auto|split; [auto|split; [auto|split; [auto|split; [discriminate|auto]]]]]].
    split; [|split]; simpl; auto.
    + intros l Hl. specialize (A1 _ Hl). lia.
    + intros l [<-|Hl]; [lia|]. specialize (A2 _ Hl). lia.
    + intros l [<-|Hl]; auto. intros Hk. specialize (A1 _ Hk). lia.
  - simpl. split; [|split; [auto|split; [auto|split; [auto|split; [auto|split; [discriminate|]]]]]].
    + split; [|split]; simpl; auto.
      * intros k [<-|Hk]; auto.
      * intros k Hk. apply in_remove in Hk. destruct Hk. auto.
      * intros k Hk. apply in_remove in Hk. destruct Hk as [Hk Hne].
        intros [E|Hk']; [congruence|]. exact (A3 _ Hk Hk').
    + intros k [<-|Hk]; auto.
Qed.

Lemma usteps_ok : forall u ms u', usteps gs fs u ms u' -> apart u ->
  apart u' /\ u_next u <= u_next u' /\
  (forall l, In l (u_held u) -> In l (u_held u') /\ u_heap u' l = u_heap u l) /\
  (forall l, l < u_next u -> ~ In l ms -> u_heap u' l = u_heap u l) /\
  (forall l, In l ms -> ~ In l (u_held u)).
Proof.
  intros u ms u' Hs. induction Hs as [u|u o u1 ms u2 H1 H2 IH]; intros Ha.
  { split; [auto|]. split; [auto|]. split; [auto|]. split; auto. }
  destruct (ustep_ok _ _ _ H1 Ha) as (Ha1 & Hn1 & Hk1 & Hh1 & Hf1 & Hm1 & _).
  destruct (IH Ha1) as (Ha2 & Hn2 & Hk2 & Hf2 & Hm2).
  split; [auto|]. split; [lia|]. split; [|split].
  - intros l Hl. destruct (Hk2 _ (Hk1 _ Hl)) as [Hk Hh]. split; auto. rewrite Hh. auto.
  - intros l Hl Hm. rewrite Hf2; [|lia|].
    + apply Hf1; auto. intros ->. apply Hm. now left.
    + intros Hk. apply Hm. destruct o; simpl; auto.
  - intros l Hl. destruct o as [k|]; simpl in Hl; [|intros Hk; exact (Hm2 _ Hl (Hk1 _ Hk))].
    destruct Hl as [<-|Hl]; [auto|]. intros Hk. exact (Hm2 _ Hl (Hk1 _ Hk)).
Qed.
End Sound.
