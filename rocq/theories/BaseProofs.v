(** * Lemmas about the container model of Base.v *)
From Verif Require Import Base.
From Coq Require Import Permutation.

(** ** sequences and folds *)
Lemma seq_snoc n : seq 0 (S n) = seq 0 n ++ [n].
Proof. rewrite seq_S. reflexivity. Qed.

Lemma cnt_0 p : cnt 0 p = 0. Proof. reflexivity. Qed.
Lemma cnt_S n p : cnt (S n) p = cnt n p + (if p n then 1 else 0).
Proof.
  unfold cnt. rewrite seq_snoc, filter_app, app_length. simpl. destruct (p n); reflexivity.
Qed.
Lemma nsum_S n f : nsum (S n) f = nsum n f + f n.
Proof.
  unfold nsum. rewrite seq_snoc, map_app, fold_right_app. simpl.
  rewrite Nat.add_0_r. generalize (map f (seq 0 n)). induction l; simpl; lia.
Qed.
Lemma zsum_S n f : zsum (S n) f = (zsum n f + f n)%Z.
Proof.
  unfold zsum. rewrite seq_snoc, map_app, fold_right_app. simpl.
  rewrite Z.add_0_r. generalize (map f (seq 0 n)). induction l; simpl; lia.
Qed.
Lemma nsum_0 f : nsum 0 f = 0. Proof. reflexivity. Qed.
Lemma zsum_0 f : zsum 0 f = 0%Z. Proof. reflexivity. Qed.
Global Opaque cnt nsum zsum.

Definition b2n (b : bool) : nat := if b then 1 else 0.

Lemma cnt_ext n p q : (forall i, i < n -> p i = q i) -> cnt n p = cnt n q.
Proof.
  induction n; intros H; [reflexivity|]. rewrite !cnt_S, IHn by (intros; apply H; lia).
  rewrite H by lia. reflexivity.
Qed.
Lemma nsum_ext n f g : (forall i, i < n -> f i = g i) -> nsum n f = nsum n g.
Proof.
  induction n; intros H; [reflexivity|]. rewrite !nsum_S, IHn by (intros; apply H; lia).
  rewrite H by lia. reflexivity.
Qed.
Lemma zsum_ext n f g : (forall i, i < n -> f i = g i) -> zsum n f = zsum n g.
Proof.
  induction n; intros H; [reflexivity|]. rewrite !zsum_S, IHn by (intros; apply H; lia).
  rewrite H by lia. reflexivity.
Qed.
Lemma ored_ext {V} (op : V -> V -> V) n f g :
  (forall i, i < n -> f i = g i) -> ored op n f = ored op n g.
Proof.
  induction n; intros H; [reflexivity|]. simpl. rewrite IHn by (intros; apply H; lia).
  rewrite H by lia. reflexivity.
Qed.
Lemma cnt_nsum n p : cnt n p = nsum n (fun i => b2n (p i)).
Proof. induction n; [reflexivity|]. rewrite cnt_S, nsum_S, IHn. reflexivity. Qed.
Lemma nsum_zsum n f : Z.of_nat (nsum n f) = zsum n (fun i => Z.of_nat (f i)).
Proof. induction n; [reflexivity|]. rewrite nsum_S, zsum_S. lia. Qed.
Lemma cnt_zsum n p : Z.of_nat (cnt n p) = zsum n (fun i => if p i then 1%Z else 0%Z).
Proof.
  induction n; [reflexivity|]. rewrite cnt_S, zsum_S. destruct (p n); lia.
Qed.
Lemma nsum_add n f g : nsum n (fun i => f i + g i) = nsum n f + nsum n g.
Proof. induction n; [reflexivity|]. rewrite !nsum_S. lia. Qed.
Lemma zsum_add n f g : zsum n (fun i => f i + g i)%Z = (zsum n f + zsum n g)%Z.
Proof. induction n; [reflexivity|]. rewrite !zsum_S. lia. Qed.
Lemma zsum_sub n f g : zsum n (fun i => f i - g i)%Z = (zsum n f - zsum n g)%Z.
Proof. induction n; [reflexivity|]. rewrite !zsum_S. lia. Qed.
Lemma zsum_scale n c f : zsum n (fun i => c * f i)%Z = (c * zsum n f)%Z.
Proof. induction n; [rewrite !zsum_0; lia|]. rewrite !zsum_S, IHn. lia. Qed.
Lemma zsum_scale_r n c f : zsum n (fun i => f i * c)%Z = (zsum n f * c)%Z.
Proof. induction n; [rewrite !zsum_0; lia|]. rewrite !zsum_S, IHn. lia. Qed.
Lemma nsum_scale n c f : nsum n (fun i => c * f i) = c * nsum n f.
Proof. induction n; [rewrite !nsum_0; lia|]. rewrite !nsum_S, IHn. lia. Qed.
Lemma nsum_const n c : nsum n (fun _ => c) = n * c.
Proof. induction n; [reflexivity|]. rewrite nsum_S, IHn. lia. Qed.
Lemma zsum_const n c : zsum n (fun _ => c) = (Z.of_nat n * c)%Z.
Proof. induction n; [rewrite zsum_0; lia|]. rewrite zsum_S, IHn. lia. Qed.
Lemma nsum_zero n f : (forall i, i < n -> f i = 0) -> nsum n f = 0.
Proof. intros H. rewrite (nsum_ext n f (fun _ => 0)) by assumption. rewrite nsum_const. lia. Qed.
Lemma zsum_zero n f : (forall i, i < n -> f i = 0%Z) -> zsum n f = 0%Z.
Proof. intros H. rewrite (zsum_ext n f (fun _ => 0%Z)) by assumption. rewrite zsum_const. lia. Qed.
Lemma nsum_swap n m f :
  nsum n (fun i => nsum m (fun j => f i j)) = nsum m (fun j => nsum n (fun i => f i j)).
Proof.
  induction n.
  - rewrite nsum_0. symmetry. apply nsum_zero. reflexivity.
  - rewrite nsum_S, IHn. rewrite <- nsum_add. apply nsum_ext. intros j _.
    rewrite nsum_S. reflexivity.
Qed.
Lemma zsum_swap n m f :
  zsum n (fun i => zsum m (fun j => f i j)) = zsum m (fun j => zsum n (fun i => f i j)).
Proof.
  induction n.
  - rewrite zsum_0. symmetry. apply zsum_zero. reflexivity.
  - rewrite zsum_S, IHn. rewrite <- zsum_add. apply zsum_ext. intros j _.
    rewrite zsum_S. reflexivity.
Qed.
Lemma nsum_le n f g : (forall i, i < n -> f i <= g i) -> nsum n f <= nsum n g.
Proof.
  induction n; intros H; [reflexivity|]. rewrite !nsum_S.
  specialize (IHn (fun i Hi => H i ltac:(lia))). specialize (H n ltac:(lia)). lia.
Qed.
Lemma zsum_le n f g : (forall i, i < n -> (f i <= g i)%Z) -> (zsum n f <= zsum n g)%Z.
Proof.
  induction n; intros H; [reflexivity|]. rewrite !zsum_S.
  specialize (IHn (fun i Hi => H i ltac:(lia))). specialize (H n ltac:(lia)). lia.
Qed.
Lemma nsum_lt n f g k :
  (forall i, i < n -> f i <= g i) -> k < n -> f k < g k -> nsum n f < nsum n g.
Proof.
  induction n; intros H Hk Hlt; [lia|]. rewrite !nsum_S.
  destruct (Nat.eq_dec k n) as [->|].
  - pose proof (nsum_le n f g ltac:(intros; apply H; lia)). lia.
  - specialize (IHn (fun i Hi => H i ltac:(lia)) ltac:(lia) Hlt). specialize (H n ltac:(lia)). lia.
Qed.
Lemma nsum_zero_inv n f : nsum n f = 0 -> forall i, i < n -> f i = 0.
Proof.
  induction n; intros H i Hi; [lia|]. rewrite nsum_S in H.
  destruct (Nat.eq_dec i n) as [->|]; [lia|]. apply IHn; lia.
Qed.
Lemma nsum_ge_term n f k : k < n -> f k <= nsum n f.
Proof.
  induction n; intros Hk; [lia|]. rewrite nsum_S.
  destruct (Nat.eq_dec k n) as [->|]; [lia|]. specialize (IHn ltac:(lia)). lia.
Qed.
(** a single non-zero term *)
Lemma nsum_single n f k : k < n -> (forall i, i < n -> i <> k -> f i = 0) -> nsum n f = f k.
Proof.
  induction n; intros Hk H; [lia|]. rewrite nsum_S.
  destruct (Nat.eq_dec k n) as [->|].
  - rewrite nsum_zero by (intros; apply H; lia). lia.
  - rewrite IHn by (try lia; intros; apply H; lia). rewrite (H n) by lia. lia.
Qed.
Lemma zsum_single n f k : k < n -> (forall i, i < n -> i <> k -> f i = 0%Z) -> zsum n f = f k.
Proof.
  induction n; intros Hk H; [lia|]. rewrite zsum_S.
  destruct (Nat.eq_dec k n) as [->|].
  - rewrite zsum_zero by (intros; apply H; lia). lia.
  - rewrite IHn by (try lia; intros; apply H; lia). rewrite (H n) by lia. lia.
Qed.

(** counting *)
Lemma cnt_le_n n p : cnt n p <= n.
Proof. induction n; [rewrite cnt_0; lia|]. rewrite cnt_S. destruct (p n); lia. Qed.
Lemma cnt_mono n p q : (forall i, i < n -> p i = true -> q i = true) -> cnt n p <= cnt n q.
Proof.
  intros H. rewrite !cnt_nsum. apply nsum_le. intros i Hi. specialize (H i Hi).
  destruct (p i), (q i); simpl; lia.
Qed.
Lemma cnt_zero n p : cnt n p = 0 <-> (forall i, i < n -> p i = false).
Proof.
  rewrite cnt_nsum. split; intros H.
  - intros i Hi. pose proof (nsum_zero_inv _ _ H i Hi) as E. simpl in E.
    destruct (p i); [discriminate|reflexivity].
  - apply nsum_zero. intros i Hi. rewrite H by assumption. reflexivity.
Qed.
Lemma cnt_pos n p : 0 < cnt n p <-> exists i, i < n /\ p i = true.
Proof.
  split.
  - induction n; intros H; [rewrite cnt_0 in H; lia|]. rewrite cnt_S in H.
    destruct (p n) eqn:E; [exists n; split; [lia|assumption]|].
    destruct IHn as (i & Hi & Hp); [lia|]. exists i. split; [lia|assumption].
  - intros (i & Hi & Hp). destruct (Nat.eq_dec (cnt n p) 0) as [E|]; [|lia].
    rewrite cnt_zero in E. rewrite E in Hp by assumption. discriminate.
Qed.
Lemma cnt_all n p : cnt n p = n <-> (forall i, i < n -> p i = true).
Proof.
  induction n; [split; [intros; lia|intros; reflexivity]|].
  rewrite cnt_S. pose proof (cnt_le_n n p). split.
  - intros H1 i Hi. assert (Hn : p n = true) by (destruct (p n); [reflexivity|lia]).
    rewrite Hn in H1. destruct (Nat.eq_dec i n) as [->|]; [assumption|]. apply IHn; lia.
  - intros H1. rewrite (H1 n) by lia. rewrite (proj2 IHn); [lia|]. intros; apply H1; lia.
Qed.
Lemma cnt_negb n p : cnt n p + cnt n (fun i => negb (p i)) = n.
Proof. induction n; [reflexivity|]. rewrite !cnt_S. destruct (p n); simpl; lia. Qed.
Lemma cnt_andb_split n p q :
  cnt n p = cnt n (fun i => p i && q i) + cnt n (fun i => p i && negb (q i)).
Proof. induction n; [reflexivity|]. rewrite !cnt_S. destruct (p n), (q n); simpl; lia. Qed.
Lemma cnt_orb n p q :
  cnt n (fun i => p i || q i) + cnt n (fun i => p i && q i) = cnt n p + cnt n q.
Proof. induction n; [reflexivity|]. rewrite !cnt_S. destruct (p n), (q n); simpl; lia. Qed.
Lemma cnt_false n : cnt n (fun _ => false) = 0.
Proof. apply cnt_zero. reflexivity. Qed.
Lemma cnt_single n k p : k < n -> (forall i, i < n -> p i = true -> i = k) -> cnt n p = b2n (p k).
Proof.
  intros Hk H. rewrite cnt_nsum. rewrite nsum_single with (k := k); auto.
  intros i Hi Hne. destruct (p i) eqn:E; [|reflexivity]. exfalso; auto.
Qed.
Lemma cnt_eqb n k : cnt n (fun i => i =? k) = if k <? n then 1 else 0.
Proof.
  destruct (Nat.ltb_spec k n).
  - rewrite cnt_single with (k := k); [rewrite Nat.eqb_refl; reflexivity|assumption|].
    intros i _ E. apply Nat.eqb_eq in E. assumption.
  - apply cnt_zero. intros i Hi. apply Nat.eqb_neq. lia.
Qed.
Lemma cnt_strict n p q k :
  (forall i, i < n -> p i = true -> q i = true) -> k < n -> p k = false -> q k = true ->
  cnt n p < cnt n q.
Proof.
  intros H Hk Hp Hq. rewrite !cnt_nsum. apply nsum_lt with (k := k); auto.
  - intros i Hi. specialize (H i Hi). destruct (p i); [rewrite H by reflexivity; simpl; lia|simpl; lia].
  - rewrite Hp, Hq. simpl. lia.
Qed.
Lemma cnt_eq_mono n p q :
  (forall i, i < n -> p i = true -> q i = true) -> cnt n p = cnt n q ->
  forall i, i < n -> q i = p i.
Proof.
  intros H E i Hi. destruct (p i) eqn:Ep; [apply H; assumption|].
  destruct (q i) eqn:Eq; [|reflexivity].
  pose proof (cnt_strict n p q i H Hi Ep Eq). lia.
Qed.
(** permuting the index set *)
Lemma cnt_in_list n p l :
  NoDup l -> (forall i, In i l <-> i < n /\ p i = true) -> length l = cnt n p.
Proof.
  intros Hnd H. Local Transparent cnt. unfold cnt. Local Opaque cnt.
  apply Permutation_length. apply NoDup_Permutation; [assumption|apply NoDup_filter, seq_NoDup|].
  intros i. rewrite filter_In, in_seq, H. split; intros [? ?]; split; auto; lia.
Qed.
Lemma nsum_list n f l : Permutation l (seq 0 n) -> fold_right Nat.add 0 (map f l) = nsum n f.
Proof.
  intros H. Local Transparent nsum. unfold nsum. Local Opaque nsum.
  induction H; simpl; lia.
Qed.
Lemma zsum_list n f l : Permutation l (seq 0 n) -> fold_right Z.add 0%Z (map f l) = zsum n f.
Proof.
  intros H. Local Transparent zsum. unfold zsum. Local Opaque zsum.
  induction H; simpl; lia.
Qed.
Lemma filter_map_len {A B} (f : A -> B) p l :
  length (filter p (map f l)) = length (filter (fun x => p (f x)) l).
Proof. induction l; simpl; [reflexivity|]. destruct (p (f a)); simpl; lia. Qed.
Lemma Permutation_filter_len {A} (p : A -> bool) l l' :
  Permutation l l' -> length (filter p l) = length (filter p l').
Proof.
  induction 1; simpl; auto; try lia.
  - destruct (p x); simpl; lia.
  - destruct (p x), (p y); simpl; lia.
Qed.
Lemma cnt_perm n f p :
  Permutation (map f (seq 0 n)) (seq 0 n) -> cnt n (fun i => p (f i)) = cnt n p.
Proof.
  intros H. Local Transparent cnt. unfold cnt. Local Opaque cnt.
  rewrite <- (Permutation_filter_len p _ _ H), filter_map_len. reflexivity.
Qed.
Lemma nsum_perm n f g :
  Permutation (map f (seq 0 n)) (seq 0 n) -> nsum n (fun i => g (f i)) = nsum n g.
Proof.
  intros H. rewrite <- (nsum_list n g _ H), map_map.
  rewrite <- (nsum_list n (fun i => g (f i)) (seq 0 n)) by reflexivity. reflexivity.
Qed.
Lemma zsum_perm n f g :
  Permutation (map f (seq 0 n)) (seq 0 n) -> zsum n (fun i => g (f i)) = zsum n g.
Proof.
  intros H. rewrite <- (zsum_list n g _ H), map_map.
  rewrite <- (zsum_list n (fun i => g (f i)) (seq 0 n)) by reflexivity. reflexivity.
Qed.

(** ** ored *)
Lemma has_omerge {V} (op : V -> V -> V) a b : has (omerge op a b) = has a || has b.
Proof. destruct a, b; reflexivity. Qed.
Lemma has_oboth {V W X} (op : V -> W -> X) a b : has (oboth op a b) = has a && has b.
Proof. destruct a, b; reflexivity. Qed.
Lemma has_omap {V W} (f : V -> W) a : has (omap f a) = has a.
Proof. destruct a; reflexivity. Qed.
Lemma has_ored {V} (op : V -> V -> V) n f : has (ored op n f) = negb (cnt n (fun i => has (f i)) =? 0).
Proof.
  induction n; [reflexivity|]. simpl. rewrite has_omerge, IHn, cnt_S.
  destruct (has (f n)); [|rewrite Nat.add_0_r, orb_false_r; reflexivity].
  rewrite orb_true_r. rewrite Nat.add_1_r. reflexivity.
Qed.
Lemma has_true {V} (o : option V) : has o = true <-> exists x, o = Some x.
Proof. destruct o; simpl; split; intros H; [eauto|reflexivity|discriminate|destruct H; discriminate]. Qed.
Lemma has_false {V} (o : option V) : has o = false <-> o = None.
Proof. destruct o; simpl; split; intros H; try discriminate; reflexivity. Qed.
Lemma has_ored_true {V} (op : V -> V -> V) n f :
  has (ored op n f) = true <-> exists i, i < n /\ has (f i) = true.
Proof.
  rewrite has_ored, negb_true_iff, Nat.eqb_neq. rewrite <- cnt_pos. lia.
Qed.
Lemma ored_none {V} (op : V -> V -> V) n f :
  ored op n f = None <-> forall i, i < n -> f i = None.
Proof.
  rewrite <- has_false, has_ored, negb_false_iff, Nat.eqb_eq, cnt_zero.
  split; intros H i Hi; [apply has_false, H, Hi|rewrite H by assumption; reflexivity].
Qed.
Lemma oz_omerge a b : oz (omerge Z.add a b) = (oz a + oz b)%Z.
Proof. destruct a, b; simpl; lia. Qed.
Lemma oz_ored_plus n f : oz (ored Z.add n f) = zsum n (fun i => oz (f i)).
Proof. induction n; [reflexivity|]. simpl. rewrite oz_omerge, IHn, zsum_S. reflexivity. Qed.
Lemma ored_plus n f :
  ored Z.add n f = if cnt n (fun i => has (f i)) =? 0 then None else Some (zsum n (fun i => oz (f i))).
Proof.
  rewrite <- oz_ored_plus. pose proof (has_ored Z.add n f) as H.
  destruct (ored Z.add n f) as [z|], (cnt n (fun i => has (f i)) =? 0); simpl in *; try discriminate;
    reflexivity.
Qed.
(** sum of ones = count *)
Lemma ored_plus_ones n (p : nat -> bool) :
  ored Z.add n (fun i => if p i then Some 1%Z else None)
  = if cnt n p =? 0 then None else Some (Z.of_nat (cnt n p)).
Proof.
  rewrite ored_plus. rewrite (cnt_ext n _ p) by (intros; destruct (p i); reflexivity).
  destruct (cnt n p =? 0); [reflexivity|]. f_equal. rewrite cnt_zsum.
  apply zsum_ext. intros i _. destruct (p i); reflexivity.
Qed.
Definition is_min_of (n : nat) (f : nat -> option Z) (m : Z) : Prop :=
  (exists i, i < n /\ f i = Some m) /\ forall i x, i < n -> f i = Some x -> (m <= x)%Z.
Lemma ored_min_some n f m : ored Z.min n f = Some m <-> is_min_of n f m.
Proof.
  unfold is_min_of. revert m. induction n; intros m; simpl.
  - split; [discriminate|]. intros [(i & Hi & _) _]. lia.
  - destruct (ored Z.min n f) as [a|] eqn:Ea; destruct (f n) as [b|] eqn:Eb; simpl.
    + specialize (IHn a). destruct IHn as [IH1 _]. specialize (IH1 eq_refl).
      destruct IH1 as [(i & Hi & Hfi) Hle].
      split.
      * intros E. injection E as E. split.
        -- destruct (Z.min_spec a b) as [[? E']|[? E']]; rewrite E' in E; subst m.
           ++ exists i. split; [lia|assumption].
           ++ exists n. split; [lia|assumption].
        -- intros k x Hk Hx. destruct (Nat.eq_dec k n) as [->|].
           ++ rewrite Eb in Hx. injection Hx as ->. lia.
           ++ specialize (Hle k x ltac:(lia) Hx). lia.
      * intros [(k & Hk & Hfk) Hall]. f_equal. apply Z.le_antisymm.
        -- destruct (Nat.eq_dec k n) as [->|].
           ++ rewrite Eb in Hfk. injection Hfk as ->. lia.
           ++ specialize (Hle k m ltac:(lia) Hfk). lia.
        -- apply Z.min_glb.
           ++ apply (Hall i); [lia|assumption].
           ++ apply (Hall n); [lia|assumption].
    + rewrite IHn. split; intros [(i & Hi & Hfi) Hall]; split.
      * exists i; split; [lia|assumption].
      * intros k x Hk Hx. destruct (Nat.eq_dec k n) as [->|]; [congruence|]. apply (Hall k); [lia|assumption].
      * destruct (Nat.eq_dec i n) as [->|]; [congruence|]. exists i; split; [lia|assumption].
      * intros k x Hk Hx. apply (Hall k); [lia|assumption].
    + rewrite ored_none in Ea. split.
      * intros E. injection E as ->. split.
        -- exists n. split; [lia|assumption].
        -- intros k x Hk Hx. destruct (Nat.eq_dec k n) as [->|].
           ++ rewrite Eb in Hx. injection Hx as ->. lia.
           ++ rewrite Ea in Hx by lia. discriminate.
      * intros [(k & Hk & Hfk) Hall]. f_equal.
        destruct (Nat.eq_dec k n) as [->|]; [congruence|]. rewrite Ea in Hfk by lia. discriminate.
    + rewrite ored_none in Ea. split; [discriminate|].
      intros [(k & Hk & Hfk) Hall]. destruct (Nat.eq_dec k n) as [->|]; [congruence|].
      rewrite Ea in Hfk by lia. discriminate.
Qed.
Lemma is_min_of_fun n f a b : is_min_of n f a -> is_min_of n f b -> a = b.
Proof.
  intros [(i & Hi & Ei) Ha] [(j & Hj & Ej) Hb].
  specialize (Ha j b Hj Ej). specialize (Hb i a Hi Ei). lia.
Qed.

(** AC operators: reductions can be reorganised *)
Lemma omerge_assoc {V} (op : V -> V -> V) (Ha : forall x y z, op x (op y z) = op (op x y) z) a b c :
  omerge op a (omerge op b c) = omerge op (omerge op a b) c.
Proof. destruct a, b, c; simpl; try reflexivity. rewrite Ha. reflexivity. Qed.
Lemma omerge_comm {V} (op : V -> V -> V) (Hc : forall x y, op x y = op y x) a b :
  omerge op a b = omerge op b a.
Proof. destruct a, b; simpl; try reflexivity. rewrite Hc. reflexivity. Qed.
Lemma omerge_none_r {V} (op : V -> V -> V) a : omerge op a None = a.
Proof. destruct a; reflexivity. Qed.
Lemma ored_merge {V} (op : V -> V -> V) (Ha : forall x y z, op x (op y z) = op (op x y) z)
  (Hc : forall x y, op x y = op y x) n f g :
  ored op n (fun i => omerge op (f i) (g i)) = omerge op (ored op n f) (ored op n g).
Proof.
  induction n; [reflexivity|]. simpl. rewrite IHn.
  rewrite <- !(omerge_assoc op Ha). f_equal.
  rewrite !(omerge_assoc op Ha). f_equal. apply omerge_comm; assumption.
Qed.
Lemma ored_all_none {V} (op : V -> V -> V) n : ored op n (fun _ => None) = None.
Proof. apply ored_none. reflexivity. Qed.
Lemma ored_swap {V} (op : V -> V -> V) (Ha : forall x y z, op x (op y z) = op (op x y) z)
  (Hc : forall x y, op x y = op y x) n m f :
  ored op n (fun i => ored op m (fun j => f i j)) = ored op m (fun j => ored op n (fun i => f i j)).
Proof.
  induction n; simpl.
  - symmetry. apply ored_all_none.
  - rewrite IHn, <- (ored_merge op Ha Hc). reflexivity.
Qed.

(** ** vectors *)
Lemma vbuild_length {V} n (f : nat -> option V) : length (vbuild n f) = n.
Proof. unfold vbuild. rewrite map_length, seq_length. reflexivity. Qed.
Lemma vsize_vbuild {V} n (f : nat -> option V) : vsize (vbuild n f) = n.
Proof. apply vbuild_length. Qed.
Lemma vget_vbuild {V} n (f : nat -> option V) i :
  vget (vbuild n f) i = if i <? n then f i else None.
Proof.
  unfold vget, vbuild. destruct (Nat.ltb_spec i n).
  - rewrite nth_indep with (d' := f 0) by (rewrite map_length, seq_length; assumption).
    rewrite map_nth, seq_nth by assumption. reflexivity.
  - apply nth_overflow. rewrite map_length, seq_length. assumption.
Qed.
Lemma vget_vbuild_lt {V} n (f : nat -> option V) i : i < n -> vget (vbuild n f) i = f i.
Proof. intros H. rewrite vget_vbuild. apply Nat.ltb_lt in H. rewrite H. reflexivity. Qed.
Lemma vget_out {V} (v : vec V) i : vsize v <= i -> vget v i = None.
Proof. intros H. apply nth_overflow. assumption. Qed.
Lemma vget_some_lt {V} (v : vec V) i x : vget v i = Some x -> i < vsize v.
Proof.
  intros H. destruct (Nat.lt_ge_cases i (vsize v)); [assumption|].
  rewrite vget_out in H by assumption. discriminate.
Qed.
Lemma has_vget_lt {V} (v : vec V) i : has (vget v i) = true -> i < vsize v.
Proof. intros H. apply has_true in H as [x H]. eapply vget_some_lt; eassumption. Qed.
Lemma vec_ext {V} (u v : vec V) :
  vsize u = vsize v -> (forall i, i < vsize u -> vget u i = vget v i) -> u = v.
Proof. intros H H1. apply nth_ext with (d := None) (d' := None); [exact H|exact H1]. Qed.
Lemma vbuild_ext {V} n (f g : nat -> option V) :
  (forall i, i < n -> f i = g i) -> vbuild n f = vbuild n g.
Proof.
  intros H. apply map_ext_in. intros i Hi. apply H. apply in_seq in Hi. lia.
Qed.
Lemma vbuild_vget {V} (v : vec V) : vbuild (vsize v) (vget v) = v.
Proof.
  apply vec_ext; rewrite vsize_vbuild; [reflexivity|]. intros i Hi. apply vget_vbuild_lt. assumption.
Qed.
Lemma vget_vrestrict {V} m (v : vec V) i : vget (vrestrict m v) i = if m i then vget v i else None.
Proof.
  unfold vrestrict. rewrite vget_vbuild. destruct (Nat.ltb_spec i (vsize v)); [reflexivity|].
  rewrite vget_out by assumption. destruct (m i); reflexivity.
Qed.
Lemma vget_vwrite {V} m r (C T : vec V) i :
  vget (vwrite m r C T) i =
  if i <? vsize C then if m i then vget T i else if r then None else vget C i else None.
Proof. apply vget_vbuild. Qed.
Lemma vget_vassign {V} m x (C : vec V) i :
  vget (vassign m x C) i = if i <? vsize C then if m i then Some x else vget C i else None.
Proof. apply vget_vbuild. Qed.
Lemma vget_vempty {V} n i : vget (vempty n : vec V) i = None.
Proof. unfold vempty. rewrite vget_vbuild. destruct (i <? n); reflexivity. Qed.
Lemma vget_vset {V} (v : vec V) i x j :
  vget (vset v i x) j = if j <? vsize v then if j =? i then Some x else vget v j else None.
Proof. apply vget_vbuild. Qed.
Lemma vget_vdel {V} (v : vec V) i j : vget (vdel v i) j = if j =? i then None else vget v j.
Proof.
  unfold vdel. rewrite vget_vbuild. destruct (Nat.ltb_spec j (vsize v)); [reflexivity|].
  rewrite vget_out by assumption. destruct (j =? i); reflexivity.
Qed.
Lemma vget_vmap {V W} (f : V -> W) v i : vget (vmap f v) i = omap f (vget v i).
Proof.
  unfold vmap. rewrite vget_vbuild. destruct (Nat.ltb_spec i (vsize v)); [reflexivity|].
  rewrite vget_out by assumption. reflexivity.
Qed.
Lemma vget_vunion {V} (op : V -> V -> V) u v i :
  vsize u = vsize v -> vget (vunion op u v) i = omerge op (vget u i) (vget v i).
Proof.
  intros E. unfold vunion. rewrite vget_vbuild. destruct (Nat.ltb_spec i (vsize u)); [reflexivity|].
  rewrite !vget_out by lia. reflexivity.
Qed.
Lemma vget_vinter {U V W} (op : U -> V -> W) u v i :
  vsize u = vsize v -> vget (vinter op u v) i = oboth op (vget u i) (vget v i).
Proof.
  intros E. unfold vinter. rewrite vget_vbuild. destruct (Nat.ltb_spec i (vsize u)); [reflexivity|].
  rewrite !vget_out by lia. reflexivity.
Qed.
Lemma vsize_vrestrict {V} m (v : vec V) : vsize (vrestrict m v) = vsize v.
Proof. apply vsize_vbuild. Qed.
Lemma vsize_vwrite {V} m r (C T : vec V) : vsize (vwrite m r C T) = vsize C.
Proof. apply vsize_vbuild. Qed.
Lemma vsize_vassign {V} m x (C : vec V) : vsize (vassign m x C) = vsize C.
Proof. apply vsize_vbuild. Qed.
Lemma vsize_vset {V} i x (C : vec V) : vsize (vset C i x) = vsize C.
Proof. apply vsize_vbuild. Qed.
Lemma vsize_vdel {V} i (C : vec V) : vsize (vdel C i) = vsize C.
Proof. apply vsize_vbuild. Qed.
Lemma vsize_vmap {V W} (f : V -> W) v : vsize (vmap f v) = vsize v.
Proof. apply vsize_vbuild. Qed.
Lemma vsize_vunion {V} (op : V -> V -> V) u v : vsize (vunion op u v) = vsize u.
Proof. apply vsize_vbuild. Qed.
Lemma vsize_vinter {U V W} (op : U -> V -> W) u v : vsize (vinter op u v) = vsize u.
Proof. apply vsize_vbuild. Qed.
Lemma vsize_vempty {V} n : vsize (vempty n : vec V) = n.
Proof. apply vsize_vbuild. Qed.
Lemma nvals_zero {V} (v : vec V) : nvals v = 0 <-> forall i, vget v i = None.
Proof.
  unfold nvals. rewrite cnt_zero. split; intros H i.
  - destruct (Nat.lt_ge_cases i (vsize v)); [apply has_false, H; assumption|apply vget_out; assumption].
  - intros _. rewrite H. reflexivity.
Qed.
Lemma nvals_pos {V} (v : vec V) : 0 < nvals v <-> exists i x, vget v i = Some x.
Proof.
  unfold nvals. rewrite cnt_pos. split.
  - intros (i & _ & H). apply has_true in H as [x H]. eauto.
  - intros (i & x & H). exists i. split; [eapply vget_some_lt; eassumption|rewrite H; reflexivity].
Qed.
Lemma in_vcoo {V} (v : vec V) i x : In (i, x) (vcoo v) <-> vget v i = Some x.
Proof.
  unfold vcoo. rewrite in_flat_map. split.
  - intros (j & _ & H). destruct (vget v j) eqn:E; [|destruct H].
    destruct H as [H|[]]. injection H as <- <-. assumption.
  - intros H. exists i. split.
    + apply in_seq. apply vget_some_lt in H. lia.
    + rewrite H. left. reflexivity.
Qed.
Lemma in_vindices {V} (v : vec V) i : In i (vindices v) <-> has (vget v i) = true.
Proof.
  unfold vindices. rewrite in_map_iff. split.
  - intros ([j x] & <- & H). apply in_vcoo in H. simpl. rewrite H. reflexivity.
  - intros H. apply has_true in H as [x H]. exists (i, x). split; [reflexivity|]. apply in_vcoo, H.
Qed.
Lemma vindices_filter {V} (v : vec V) :
  vindices v = filter (fun i => has (vget v i)) (seq 0 (vsize v)).
Proof.
  unfold vindices, vcoo. induction (seq 0 (vsize v)) as [|i l IH]; [reflexivity|].
  simpl. rewrite map_app, IH. destruct (vget v i); reflexivity.
Qed.
Lemma NoDup_vindices {V} (v : vec V) : NoDup (vindices v).
Proof. rewrite vindices_filter. apply NoDup_filter, seq_NoDup. Qed.
Lemma length_vindices {V} (v : vec V) : length (vindices v) = nvals v.
Proof.
  unfold nvals. apply cnt_in_list; [apply NoDup_vindices|].
  intros i. rewrite in_vindices. split; [intros H; split; [apply has_vget_lt|]; assumption|intros [_ H]; assumption].
Qed.
Lemma length_vcoo {V} (v : vec V) : length (vcoo v) = nvals v.
Proof. rewrite <- length_vindices. unfold vindices. rewrite map_length. reflexivity. Qed.

(** ** matrices *)
Lemma nrows_mbuild {V} nr nc (f : nat -> nat -> option V) : nrows (mbuild nr nc f) = nr.
Proof. unfold nrows, mbuild. simpl. rewrite map_length, seq_length. reflexivity. Qed.
Lemma ncols_mbuild {V} nr nc (f : nat -> nat -> option V) : ncols (mbuild nr nc f) = nc.
Proof. reflexivity. Qed.
Lemma mrow_mbuild {V} nr nc (f : nat -> nat -> option V) i :
  i < nr -> mrow (mbuild nr nc f) i = vbuild nc (f i).
Proof.
  intros H. unfold mrow, mbuild. simpl.
  rewrite nth_indep with (d' := vbuild nc (f 0)) by (rewrite map_length, seq_length; assumption).
  rewrite (map_nth (fun i => vbuild nc (f i))), seq_nth by assumption. reflexivity.
Qed.
Lemma mget_mbuild {V} nr nc (f : nat -> nat -> option V) i j :
  mget (mbuild nr nc f) i j = if (i <? nr) && (j <? nc) then f i j else None.
Proof.
  unfold mget. destruct (Nat.ltb_spec i nr); simpl.
  - rewrite mrow_mbuild by assumption. apply vget_vbuild.
  - unfold mrow. rewrite nth_overflow; [destruct j; reflexivity|].
    simpl. rewrite map_length, seq_length. assumption.
Qed.
Lemma mget_mbuild_lt {V} nr nc (f : nat -> nat -> option V) i j :
  i < nr -> j < nc -> mget (mbuild nr nc f) i j = f i j.
Proof.
  intros Hi Hj. rewrite mget_mbuild. apply Nat.ltb_lt in Hi, Hj. rewrite Hi, Hj. reflexivity.
Qed.
Lemma mwf_mbuild {V} nr nc (f : nat -> nat -> option V) : mwf (mbuild nr nc f).
Proof.
  unfold mwf, mbuild. simpl. apply Forall_forall. intros r H. apply in_map_iff in H as (i & <- & _).
  apply vbuild_length.
Qed.
Lemma mrow_length {V} (m : mat V) i : mwf m -> i < nrows m -> length (mrow m i) = ncols m.
Proof.
  intros H Hi. unfold mwf in H. rewrite Forall_forall in H. apply H. apply nth_In. assumption.
Qed.
Lemma mget_out {V} (m : mat V) i j : mwf m -> nrows m <= i \/ ncols m <= j -> mget m i j = None.
Proof.
  intros Hw H. unfold mget. destruct (Nat.lt_ge_cases i (nrows m)) as [Hi|Hi].
  - apply vget_out. unfold vsize. rewrite mrow_length by assumption. lia.
  - unfold mrow. rewrite nth_overflow by assumption. destruct j; reflexivity.
Qed.
Lemma mget_some_lt {V} (m : mat V) i j x :
  mwf m -> mget m i j = Some x -> i < nrows m /\ j < ncols m.
Proof.
  intros Hw H. destruct (Nat.lt_ge_cases i (nrows m)), (Nat.lt_ge_cases j (ncols m)); auto;
    rewrite mget_out in H by (auto; lia); discriminate.
Qed.
Lemma mat_ext {V} (a b : mat V) :
  mwf a -> mwf b -> nrows a = nrows b -> ncols a = ncols b ->
  (forall i j, i < nrows a -> j < ncols a -> mget a i j = mget b i j) -> a = b.
Proof.
  intros Ha Hb Hr Hc H. destruct a as [ca ra], b as [cb rb]. simpl in *. subst cb. f_equal.
  apply nth_ext with (d := []) (d' := []); [exact Hr|].
  intros i Hi. apply nth_ext with (d := None) (d' := None).
  - pose proof (mrow_length _ i Ha Hi) as E1. pose proof (mrow_length _ i Hb ltac:(unfold nrows in *; simpl in *; lia)) as E2.
    unfold mrow in *. simpl in *. congruence.
  - intros j Hj. apply H; [exact Hi|]. pose proof (mrow_length _ i Ha Hi) as E1. unfold mrow in E1. simpl in E1. lia.
Qed.
Lemma mbuild_ext {V} nr nc (f g : nat -> nat -> option V) :
  (forall i j, i < nr -> j < nc -> f i j = g i j) -> mbuild nr nc f = mbuild nr nc g.
Proof.
  intros H. unfold mbuild. f_equal. apply map_ext_in. intros i Hi. apply in_seq in Hi.
  apply vbuild_ext. intros j Hj. apply H; lia.
Qed.
Lemma mbuild_mget {V} (m : mat V) : mwf m -> mbuild (nrows m) (ncols m) (mget m) = m.
Proof.
  intros H. apply mat_ext; auto using mwf_mbuild; rewrite ?nrows_mbuild; try reflexivity.
  intros i j Hi Hj. apply mget_mbuild_lt; assumption.
Qed.
Lemma mget_mtrans {V} (m : mat V) i j : mwf m -> mget (mtrans m) i j = mget m j i.
Proof.
  intros Hw. unfold mtrans. rewrite mget_mbuild.
  destruct (Nat.ltb_spec i (ncols m)), (Nat.ltb_spec j (nrows m)); simpl; try reflexivity;
    rewrite mget_out; auto.
Qed.
Lemma mget_mselect {V} p (m : mat V) i j :
  mwf m -> mget (mselect p m) i j = if p i j then mget m i j else None.
Proof.
  intros Hw. unfold mselect. rewrite mget_mbuild.
  destruct (Nat.ltb_spec i (nrows m)), (Nat.ltb_spec j (ncols m)); simpl; try reflexivity;
    rewrite mget_out; auto; destruct (p i j); reflexivity.
Qed.
Lemma mget_mselectv {V} p (m : mat V) i j :
  mwf m -> mget (mselectv p m) i j =
    match mget m i j with Some x => if p x then Some x else None | None => None end.
Proof.
  intros Hw. unfold mselectv. rewrite mget_mbuild.
  destruct (Nat.ltb_spec i (nrows m)), (Nat.ltb_spec j (ncols m)); simpl; try reflexivity;
    rewrite mget_out; auto.
Qed.
Lemma mget_mmap {V W} (f : V -> W) m i j : mwf m -> mget (mmap f m) i j = omap f (mget m i j).
Proof.
  intros Hw. unfold mmap. rewrite mget_mbuild.
  destruct (Nat.ltb_spec i (nrows m)), (Nat.ltb_spec j (ncols m)); simpl; try reflexivity;
    rewrite mget_out; auto.
Qed.
Lemma mget_munion {V} (op : V -> V -> V) a b i j :
  mwf a -> mwf b -> nrows a = nrows b -> ncols a = ncols b ->
  mget (munion op a b) i j = omerge op (mget a i j) (mget b i j).
Proof.
  intros Ha Hb Hr Hc. unfold munion. rewrite mget_mbuild.
  destruct (Nat.ltb_spec i (nrows a)), (Nat.ltb_spec j (ncols a)); simpl; try reflexivity;
    rewrite !mget_out; auto; try (left; lia); try (right; lia).
Qed.
Lemma mget_minter {U V W} (op : U -> V -> W) a b i j :
  mwf a -> mget (minter op a b) i j = oboth op (mget a i j) (mget b i j).
Proof.
  intros Ha. unfold minter. rewrite mget_mbuild.
  destruct (Nat.ltb_spec i (nrows a)), (Nat.ltb_spec j (ncols a)); simpl; try reflexivity;
    rewrite (mget_out a) by auto; reflexivity.
Qed.
Lemma mget_vm_inter {U V W} (op : U -> V -> W) v m i j :
  mwf m -> mget (vm_inter op v m) i j = oboth op (vget v i) (mget m i j).
Proof.
  intros Ha. unfold vm_inter. rewrite mget_mbuild.
  destruct (Nat.ltb_spec i (nrows m)), (Nat.ltb_spec j (ncols m)); simpl; try reflexivity;
    rewrite (mget_out m) by auto; destruct (vget v i); reflexivity.
Qed.
Lemma mget_mv_inter {U V W} (op : U -> V -> W) m v i j :
  mwf m -> mget (mv_inter op m v) i j = oboth op (mget m i j) (vget v j).
Proof.
  intros Ha. unfold mv_inter. rewrite mget_mbuild.
  destruct (Nat.ltb_spec i (nrows m)), (Nat.ltb_spec j (ncols m)); simpl; try reflexivity;
    rewrite (mget_out m) by auto; reflexivity.
Qed.
Lemma mget_mwrite {V} m r (C T : mat V) i j :
  mget (mwrite m r C T) i j =
  if (i <? nrows C) && (j <? ncols C)
  then if m i j then mget T i j else if r then None else mget C i j else None.
Proof. apply mget_mbuild. Qed.
Lemma mget_massign {V} m x (C : mat V) i j :
  mget (massign m x C) i j =
  if (i <? nrows C) && (j <? ncols C) then if m i j then Some x else mget C i j else None.
Proof. apply mget_mbuild. Qed.
Lemma mget_mempty {V} nr nc i j : mget (mempty nr nc : mat V) i j = None.
Proof. unfold mempty. rewrite mget_mbuild. destruct (_ && _); reflexivity. Qed.
Lemma vget_mdiag {V} (m : mat V) i : mwf m -> vget (mdiag m) i = mget m i i.
Proof.
  intros Hw. unfold mdiag. rewrite vget_vbuild. destruct (Nat.ltb_spec i (nrows m)); [reflexivity|].
  rewrite mget_out; auto.
Qed.
Lemma vget_mred_row {V} (op : V -> V -> V) m i :
  mwf m -> vget (mred_row op m) i = ored op (ncols m) (fun j => mget m i j).
Proof.
  intros Hw. unfold mred_row. rewrite vget_vbuild. destruct (Nat.ltb_spec i (nrows m)); [reflexivity|].
  symmetry. apply ored_none. intros j Hj. apply mget_out; auto.
Qed.
Lemma vget_mred_col {V} (op : V -> V -> V) m j :
  mwf m -> vget (mred_col op m) j = ored op (nrows m) (fun i => mget m i j).
Proof.
  intros Hw. unfold mred_col. rewrite vget_vbuild. destruct (Nat.ltb_spec j (ncols m)); [reflexivity|].
  symmetry. apply ored_none. intros i Hi. apply mget_out; auto.
Qed.
Lemma vget_vxm {U V W} (add : W -> W -> W) (mul : U -> V -> W) v m j :
  mwf m -> vget (vxm add mul v m) j = ored add (nrows m) (fun k => oboth mul (vget v k) (mget m k j)).
Proof.
  intros Hw. unfold vxm. rewrite vget_vbuild. destruct (Nat.ltb_spec j (ncols m)); [reflexivity|].
  symmetry. apply ored_none. intros i Hi. rewrite mget_out; auto. destruct (vget v i); reflexivity.
Qed.
Lemma vget_mxv {U V W} (add : W -> W -> W) (mul : U -> V -> W) m v i :
  mwf m -> vget (mxv add mul m v) i = ored add (ncols m) (fun k => oboth mul (mget m i k) (vget v k)).
Proof.
  intros Hw. unfold mxv. rewrite vget_vbuild. destruct (Nat.ltb_spec i (nrows m)); [reflexivity|].
  symmetry. apply ored_none. intros k Hk. rewrite mget_out; auto.
Qed.
Lemma mget_mxm {U V W} (add : W -> W -> W) (mul : U -> V -> W) a b i j :
  mwf a -> mwf b ->
  mget (mxm add mul a b) i j = ored add (ncols a) (fun k => oboth mul (mget a i k) (mget b k j)).
Proof.
  intros Ha Hb. unfold mxm. rewrite mget_mbuild.
  destruct (Nat.ltb_spec i (nrows a)), (Nat.ltb_spec j (ncols b)); simpl; try reflexivity;
    symmetry; apply ored_none; intros k Hk.
  - rewrite (mget_out b); auto. destruct (mget a i k); reflexivity.
  - rewrite (mget_out a); auto.
  - rewrite (mget_out a); auto.
Qed.
Lemma nrows_mtrans {V} (m : mat V) : nrows (mtrans m) = ncols m.
Proof. apply nrows_mbuild. Qed.
Lemma ncols_mtrans {V} (m : mat V) : ncols (mtrans m) = nrows m.
Proof. reflexivity. Qed.
Lemma nrows_mselect {V} p (m : mat V) : nrows (mselect p m) = nrows m.
Proof. apply nrows_mbuild. Qed.
Lemma ncols_mselect {V} p (m : mat V) : ncols (mselect p m) = ncols m.
Proof. reflexivity. Qed.
Lemma mwf_mselect {V} p (m : mat V) : mwf (mselect p m).
Proof. apply mwf_mbuild. Qed.
Lemma mwf_mtrans {V} (m : mat V) : mwf (mtrans m).
Proof. apply mwf_mbuild. Qed.
Lemma mnvals_nsum {V} (m : mat V) :
  mnvals m = nsum (nrows m) (fun i => nsum (ncols m) (fun j => b2n (has (mget m i j)))).
Proof. unfold mnvals. apply nsum_ext. intros i _. apply cnt_nsum. Qed.
Lemma mnvals_zero {V} (m : mat V) : mwf m -> mnvals m = 0 <-> forall i j, mget m i j = None.
Proof.
  intros Hw. unfold mnvals. split.
  - intros H i j. destruct (Nat.lt_ge_cases i (nrows m)); [|apply mget_out; auto].
    destruct (Nat.lt_ge_cases j (ncols m)); [|apply mget_out; auto].
    pose proof (nsum_zero_inv _ _ H i ltac:(assumption)) as E. simpl in E.
    rewrite cnt_zero in E. apply has_false, E. assumption.
  - intros H. apply nsum_zero. intros i Hi. apply cnt_zero. intros j Hj. rewrite H. reflexivity.
Qed.
Lemma in_mcoo {V} (m : mat V) i j x : mwf m -> In (i, j, x) (mcoo m) <-> mget m i j = Some x.
Proof.
  intros Hw. unfold mcoo. rewrite in_flat_map. split.
  - intros (a & Ha & H). apply in_flat_map in H as (b & Hb & H).
    destruct (mget m a b) eqn:E; [|destruct H]. destruct H as [H|[]].
    injection H as <- <- <-. assumption.
  - intros H. destruct (mget_some_lt _ _ _ _ Hw H). exists i. split; [apply in_seq; lia|].
    apply in_flat_map. exists j. split; [apply in_seq; lia|]. rewrite H. left. reflexivity.
Qed.
