(** * Lemmas about the operator model *)
From Verif Require Import Base BaseProofs Model_Graph Model_Keys Spec KeyProofs Model_Operators.
From Coq Require Import Permutation Sorting.Sorted.

(** ** dicts *)
Lemma dget_app {V} (a b : list (nkey * V)) k :
  dget (a ++ b) k = match dget a k with Some x => Some x | None => dget b k end.
Proof. induction a as [|[k' v] a IH]; simpl; [reflexivity|]. destruct (nkey_eqb k k'); auto. Qed.
Lemma dset_new {V} (d : list (nkey * V)) k v : ~ In k (map fst d) -> dset d k v = d ++ [(k, v)].
Proof.
  induction d as [|[k' v'] d IH]; simpl; intros H; [reflexivity|]. rewrite nkey_eqb_neq by (intros ->; tauto). rewrite IH by tauto. reflexivity.
Qed.
Lemma dupdate_app {V} (d l : list (nkey * V)) : NoDup (map fst (d ++ l)) -> dupdate d l = d ++ l.
Proof.
  unfold dupdate. revert d. induction l as [|[k v] l IH]; intros d H; simpl; [rewrite app_nil_r; reflexivity|].
  rewrite dset_new.
  - rewrite IH by (rewrite <- app_assoc; exact H). rewrite <- app_assoc. reflexivity.
  - rewrite map_app in H. simpl in H. apply NoDup_remove in H as [_ H]. rewrite in_app_iff in H. tauto.
Qed.
Lemma dget_mapkv {V W} (f : V -> W) (d : list (nkey * V)) k :
  dget (map (fun kv => (fst kv, f (snd kv))) d) k = omap f (dget d k).
Proof. induction d as [|[k' v] d IH]; simpl; [reflexivity|]. destruct (nkey_eqb k k'); auto. Qed.
Lemma dget_mapk {V} (f : nkey -> nkey) (d : list (nkey * V)) k :
  (forall k', In k' (map fst d) -> f k = f k' -> k = k') ->
  dget (map (fun kv => (f (fst kv), snd kv)) d) (f k) = dget d k.
Proof.
  induction d as [|[k' v] d IH]; simpl; intros H; [reflexivity|]. destruct (nkey_eqb k k') eqn:E.
  - apply nkey_eqb_eq in E. subst. rewrite nkey_eqb_refl. reflexivity.
  - rewrite nkey_eqb_neq; [apply IH; intros; apply H; auto|]. intros E'.
    apply H in E'; [|auto]. subst. rewrite nkey_eqb_refl in E. discriminate.
Qed.
Lemma inb_true {V} k (d : list (nkey * V)) : inb k d = true <-> In k (map fst d).
Proof. unfold inb. rewrite has_true, dget_some. reflexivity. Qed.
Lemma keys_disjoint_true a b : keys_disjoint a b = true <-> forall k, In k (map fst a) -> ~ In k (map fst b).
Proof.
  unfold keys_disjoint. rewrite forallb_forall. split.
  - intros H k Hk Hb. apply in_map_iff in Hk as (kv & <- & Hk). apply H in Hk. apply inb_true in Hb. rewrite Hb in Hk. discriminate.
  - intros H kv Hk. apply negb_true_iff. destruct (inb (fst kv) b) eqn:E; [|reflexivity].
    apply inb_true in E. edestruct H; [|exact E]. apply in_map. assumption.
Qed.
Lemma keys_eqb_true a b : keys_eqb a b = true <-> forall k, In k (map fst a) <-> In k (map fst b).
Proof.
  unfold keys_eqb. rewrite andb_true_iff, !forallb_forall. split.
  - intros [H1 H2] k. split; intros Hk; apply in_map_iff in Hk as (kv & <- & Hk); apply inb_true; auto.
  - intros H. split; intros kv Hk; apply inb_true, H, in_map; assumption.
Qed.
Lemma keys_eqb_false_node G H : keys_eqb (g_kid G) (g_kid H) = false -> ~ forall k, node G k <-> node H k.
Proof. intros E Hf. assert (keys_eqb (g_kid G) (g_kid H) = true) by (apply keys_eqb_true; exact Hf). congruence. Qed.

Lemma NoDup_app_intro {X} (a b : list X) : NoDup a -> NoDup b -> (forall x, In x a -> ~ In x b) -> NoDup (a ++ b).
Proof.
  intros Ha Hb Hd. induction Ha as [|x a Hx Ha IH]; simpl; [assumption|]. constructor.
  - rewrite in_app_iff. intros [H|H]; [contradiction|]. apply (Hd x); simpl; auto.
  - apply IH. intros y Hy. apply Hd. simpl. auto.
Qed.
Lemma seq_shift_add s n k : map (fun x => x + k) (seq s n) = seq (s + k) n.
Proof. revert s. induction n as [|n IH]; intros s; simpl; [reflexivity|]. rewrite IH. reflexivity. Qed.

(** ** sorting *)
Lemma insert_by_perm f k l : Permutation (insert_by f k l) (k :: l).
Proof.
  induction l as [|x l IH]; simpl; [apply Permutation_refl|]. destruct (f k <=? f x); [apply Permutation_refl|].
  rewrite IH. apply perm_swap.
Qed.
Lemma sort_by_perm f l : Permutation (sort_by f l) l.
Proof. induction l as [|x l IH]; simpl; [constructor|]. rewrite insert_by_perm, IH. apply Permutation_refl. Qed.
Lemma insert_by_sorted f k l : StronglySorted le (map f l) -> StronglySorted le (map f (insert_by f k l)).
Proof.
  induction l as [|x l IH]; simpl; intros H; [repeat constructor|]. inversion H as [|? ? H1 H2]; subst.
  destruct (Nat.leb_spec (f k) (f x)); simpl.
  - constructor; [assumption|]. constructor; [assumption|]. eapply Forall_impl; [|exact H2]. simpl. lia.
  - constructor; [apply IH; assumption|]. rewrite insert_by_perm. simpl. constructor; [lia|assumption].
Qed.
Lemma sort_by_sorted f l : StronglySorted le (map f (sort_by f l)).
Proof. induction l as [|x l IH]; simpl; [constructor|]. apply insert_by_sorted. assumption. Qed.
Lemma sorted_perm_eq (a b : list nat) : StronglySorted le a -> StronglySorted le b -> Permutation a b -> a = b.
Proof.
  revert b. induction a as [|x a IH]; intros b Ha Hb P.
  - apply Permutation_nil in P. congruence.
  - destruct b as [|y b]; [symmetry in P; apply Permutation_nil in P; discriminate|].
    inversion Ha as [|? ? H1 H2]; inversion Hb as [|? ? H3 H4]; subst.
    assert (x = y).
    { assert (In x (y :: b)) by (eapply Permutation_in; [exact P|left; reflexivity]).
      assert (In y (x :: a)) by (eapply Permutation_in; [symmetry; exact P|left; reflexivity]).
      rewrite Forall_forall in H2, H4. destruct H as [->|H]; [reflexivity|]. destruct H0 as [->|H0]; [reflexivity|].
      apply H2 in H0. apply H4 in H. lia. }
    subst. apply Permutation_cons_inv in P. f_equal. auto.
Qed.
Lemma seq_sorted s n : StronglySorted le (seq s n).
Proof.
  revert s. induction n as [|n IH]; intros s; simpl; constructor; [apply IH|]. apply Forall_forall. intros x H. apply in_seq in H. lia.
Qed.

Lemma nth_error_ext {X} (a b : list X) : (forall n, nth_error a n = nth_error b n) -> a = b.
Proof.
  revert b. induction a as [|x a IH]; intros [|y b] H; [reflexivity|specialize (H 0); discriminate|specialize (H 0); discriminate|].
  pose proof (H 0) as H0. injection H0 as ->. f_equal. apply IH. intros n. exact (H (S n)).
Qed.

(** ** positions and blocks *)
Lemma pos_seq s n i : pos (seq s n) i = if (s <=? i) && (i <? s + n) then Some (i - s) else None.
Proof.
  revert s. induction n as [|n IH]; intros s; simpl.
  - destruct (s <=? i) eqn:A; simpl; [|reflexivity]. destruct (Nat.ltb_spec i (s + 0)); [apply Nat.leb_le in A; lia|reflexivity].
  - destruct (Nat.eqb_spec s i).
    + subst. rewrite Nat.leb_refl. destruct (Nat.ltb_spec i (i + S n)); [|lia]. simpl. rewrite Nat.sub_diag. reflexivity.
    + rewrite IH. destruct (Nat.leb_spec (S s) i), (Nat.leb_spec s i); simpl; try lia; try reflexivity.
      destruct (Nat.ltb_spec i (S (s + n))), (Nat.ltb_spec i (s + S n)); simpl; try lia; [f_equal; lia|reflexivity].
Qed.
Lemma pos_some l i a : NoDup l -> (pos l i = Some a <-> nth_error l a = Some i).
Proof.
  intros ND. revert a. induction l as [|x l IH]; intros a; simpl.
  - destruct a; split; discriminate.
  - inversion ND as [|? ? H1 H2]; subst. destruct (Nat.eqb_spec x i).
    + subst. split; [intros [= <-]; reflexivity|]. destruct a; [reflexivity|]. simpl. intros H. apply nth_error_In in H. contradiction.
    + destruct a; simpl.
      * split; [destruct (pos l i); discriminate|intros [= ?]; contradiction].
      * rewrite <- IH by assumption. destruct (pos l i); simpl; split; intros [= ?]; subst; reflexivity.
Qed.
Lemma mget_mput {V} (C : mat V) I J D i j :
  mget (mput C I J D) i j = if (i <? nrows C) && (j <? ncols C)
    then match pos I i, pos J j with Some a, Some b => mget D a b | _, _ => mget C i j end else None.
Proof. unfold mput. apply mget_mbuild. Qed.
Lemma mget_mputs {V} (C : mat V) I J x i j :
  mget (mputs C I J x) i j = if (i <? nrows C) && (j <? ncols C)
    then match pos I i, pos J j with Some _, Some _ => Some x | _, _ => mget C i j end else None.
Proof. unfold mputs. apply mget_mbuild. Qed.
Lemma nrows_mput {V} (C : mat V) I J D : nrows (mput C I J D) = nrows C. Proof. apply nrows_mbuild. Qed.
Lemma ncols_mput {V} (C : mat V) I J D : ncols (mput C I J D) = ncols C. Proof. apply ncols_mbuild. Qed.
Lemma nrows_mputs {V} (C : mat V) I J D : nrows (mputs C I J D) = nrows C. Proof. apply nrows_mbuild. Qed.
Lemma ncols_mputs {V} (C : mat V) I J D : ncols (mputs C I J D) = ncols C. Proof. apply ncols_mbuild. Qed.
Lemma nrows_mempty {V} a b : nrows (mempty a b : mat V) = a. Proof. apply nrows_mbuild. Qed.
Lemma ncols_mempty {V} a b : ncols (mempty a b : mat V) = b. Proof. apply ncols_mbuild. Qed.
Lemma nrows_block A B : nrows (block_diag A B) = nrows A + nrows B.
Proof. unfold block_diag, mput, mempty. rewrite !nrows_mbuild. reflexivity. Qed.
Lemma ncols_block A B : ncols (block_diag A B) = ncols A + ncols B.
Proof. unfold block_diag, mput, mempty. rewrite !ncols_mbuild. reflexivity. Qed.
Lemma mget_block A B i j : mwf A -> mwf B -> ncols A = nrows A -> ncols B = nrows B ->
  mget (block_diag A B) i j =
    if (i <? nrows A) && (j <? nrows A) then mget A i j
    else if (nrows A <=? i) && (nrows A <=? j) then mget B (i - nrows A) (j - nrows A) else None.
Proof.
  intros wA wB sA sB. unfold block_diag. rewrite !mget_mput. unfold mput at 1 2, mempty. rewrite !nrows_mbuild, !ncols_mbuild.
  rewrite sA, sB, mget_mbuild, !pos_seq. simpl. rewrite !Nat.sub_0_r.
  destruct (Nat.ltb_spec i (nrows A)), (Nat.ltb_spec j (nrows A)), (Nat.leb_spec (nrows A) i), (Nat.leb_spec (nrows A) j),
    (Nat.ltb_spec i (nrows A + nrows B)), (Nat.ltb_spec j (nrows A + nrows B)); cbn [andb];
    try lia; try reflexivity.
  all: rewrite mget_out by (assumption || lia); reflexivity.
Qed.
Lemma mwf_block A B : mwf (block_diag A B). Proof. apply mwf_mbuild. Qed.
Lemma mget_mextract {V} (m : mat V) I J a b i j : nth_error I a = Some i -> nth_error J b = Some j -> mget (mextract m I J) a b = mget m i j.
Proof.
  intros Hi Hj. unfold mextract. rewrite mget_mbuild.
  assert (a < List.length I) by (apply nth_error_Some; congruence).
  assert (b < List.length J) by (apply nth_error_Some; congruence).
  destruct (Nat.ltb_spec a (List.length I)); [|lia]. destruct (Nat.ltb_spec b (List.length J)); [|lia]. simpl.
  rewrite (nth_error_nth _ _ _ Hi), (nth_error_nth _ _ _ Hj). reflexivity.
Qed.

(** ** constructing graphs *)
Lemma constb_ok m : mwf m -> constb m = true -> forall i j k l x y,
  mget m i j = Some x -> mget m k l = Some y -> x = y.
Proof.
  intros wf H i j k l x y Hx Hy. apply in_mcoo in Hx, Hy; try assumption. unfold constb in H.
  destruct (mcoo m) as [|[[a b] w] L]; [destruct Hx|]. rewrite forallb_forall in H.
  assert (E : forall c d z, In (c, d, z) ((a, b, w) :: L) -> z = w).
  { intros c d z [[= -> -> ->]|Hin]; [reflexivity|]. apply H in Hin. simpl in Hin. apply Z.eqb_eq in Hin. assumption. }
  rewrite (E _ _ _ Hx), (E _ _ _ Hy). reflexivity.
Qed.
Lemma new_graph_wf orc dir A dt d : mwf A -> ncols A = nrows A ->
  (dir = false -> forall i j, mget A i j = mget A j i) ->
  (nonneg_dtype dt = true -> forall i j x, mget A i j = Some x -> (0 <= x)%Z) ->
  NoDup (map fst d) -> Permutation (map snd d) (seq 0 (nrows A)) -> gwf (new_graph orc dir A dt d).
Proof.
  intros H1 H2 H3 H4 H5 H6. constructor; simpl; auto.
  intros E. apply andb_true_iff in E as [_ E]. apply constb_ok; assumption.
Qed.
Lemma unify_nonneg a b : nonneg_dtype (unify a b) = true -> nonneg_dtype a = true /\ nonneg_dtype b = true.
Proof. destruct a, b; simpl; auto. Qed.
Lemma range_kid_fst n : NoDup (map fst (range_kid n)).
Proof.
  unfold range_kid. rewrite map_map. simpl. apply FinFun.Injective_map_NoDup; [|apply seq_NoDup]. intros a b [= H]. apply Nat2Z.inj. assumption.
Qed.
Lemma range_kid_snd n : map snd (range_kid n) = seq 0 n.
Proof. unfold range_kid. rewrite map_map, map_id. reflexivity. Qed.
Lemma range_kid_get n k i : dget (range_kid n) k = Some i <-> k = KI (Z.of_nat i) /\ i < n.
Proof.
  split.
  - intros H. apply dget_In in H. unfold range_kid in H. apply in_map_iff in H as (a & [= <- <-] & H). apply in_seq in H. split; [reflexivity|lia].
  - intros [-> H]. apply In_dget; [apply range_kid_fst|]. unfold range_kid. apply in_map_iff. exists i. split; [reflexivity|apply in_seq; lia].
Qed.
Lemma sq_nrows G : gwf G -> ncols (g_A G) = nrows (g_A G). Proof. intros []. assumption. Qed.

(** [weight] in terms of ids *)
Lemma weight_kid G u v i j : kid G u = Some i -> kid G v = Some j -> weight G u v = mget (g_A G) i j.
Proof. intros Hi Hj. unfold weight. rewrite Hi, Hj. reflexivity. Qed.
Lemma weight_nodes G u v w : weight G u v = Some w -> node G u /\ node G v.
Proof.
  unfold weight. intros H. split; apply node_kid; destruct (kid G u), (kid G v); try discriminate; eauto.
Qed.
Lemma weight_none_l G u v : ~ node G u -> weight G u v = None.
Proof. intros H. destruct (weight G u v) eqn:E; [|reflexivity]. apply weight_nodes in E. tauto. Qed.
Lemma weight_none_r G u v : ~ node G v -> weight G u v = None.
Proof. intros H. destruct (weight G u v) eqn:E; [|reflexivity]. apply weight_nodes in E. tauto. Qed.
Lemma kid_none G u : ~ node G u -> kid G u = None.
Proof. intros H. destruct (kid G u) eqn:E; [|reflexivity]. destruct H. apply node_kid. eauto. Qed.
Lemma node_dec G u : {node G u} + {~ node G u}.
Proof. unfold node. apply in_dec, nkey_dec. Qed.
