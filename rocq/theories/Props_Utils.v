(** * C66, C67: partitions and chunk sizes *)
From Verif Require Import Base BaseProofs Model_Graph Model_Utils UtilsProofs.
From Coq Require Import QArith Qround String Ascii Lia Lqa.
Open Scope nat_scope.
Open Scope list_scope.

(** C66: split_evenly(k, L) loses, duplicates and reorders nothing, for every k *)
Theorem C66_split_evenly_concat {X} (k : Z) (L : list X) : List.concat (split_evenly k L) = L.
Proof.
  destruct (Z.le_gt_cases k 1) as [H|H].
  - unfold split_evenly. destruct (Nat.eqb_spec (List.length L) 0) as [H0|H0].
    + destruct L; [reflexivity|discriminate].
    + apply Z.leb_le in H. rewrite H. simpl. apply app_nil_r.
  - destruct (Nat.eq_dec (List.length L) 0) as [H0|H0].
    + destruct L; [reflexivity|discriminate].
    + replace k with (Z.of_nat (Z.to_nat k)) by lia. apply split_concat; lia.
Qed.
(** ... the chunks are non-empty and as even as possible *)
Theorem C66_split_evenly_even {X} (k : nat) (L : list X) ch : 1 <= k -> In ch (split_evenly (Z.of_nat k) L) ->
  1 <= List.length ch /\ List.length L / k <= List.length ch <= cdiv (List.length L) k.
Proof.
  intros Hk H. destruct (Nat.eq_dec (List.length L) 0) as [H0|H0].
  - unfold split_evenly in H. rewrite H0 in H. destruct H.
  - destruct (Nat.eq_dec k 1) as [->|H1].
    + unfold split_evenly in H. apply Nat.eqb_neq in H0 as H0'. rewrite H0' in H. simpl in H. destruct H as [<-|[]].
      unfold cdiv. rewrite !Nat.div_1_r. lia.
    + apply split_size; [lia|lia|assumption].
Qed.
(** ... and there are exactly k of them when the list is long enough *)
Theorem C66_split_evenly_count {X} (k : nat) (L : list X) : 1 <= k <= List.length L ->
  List.length (split_evenly (Z.of_nat k) L) = k.
Proof.
  intros Hk. destruct (Nat.eq_dec k 1) as [->|H1].
  - unfold split_evenly. assert (H0 : List.length L <> 0) by lia. apply Nat.eqb_neq in H0. rewrite H0. reflexivity.
  - apply split_count; lia.
Qed.
Lemma cdiv_mul a c : 0 < c -> cdiv (a * c) c = a.
Proof. intros H. unfold cdiv. symmetry. apply Nat.div_unique with (r := c - 1); lia. Qed.
Lemma cdiv_bound N c : 0 < c -> N <= cdiv N c * c.
Proof.
  intros H. unfold cdiv. pose proof (Nat.div_mod (N + c - 1) c ltac:(lia)). pose proof (Nat.mod_upper_bound (N + c - 1) c ltac:(lia)). nia.
Qed.
(** C66: pairwise (used by partition; itertools.pairwise where there is one) yields the pairs of neighbouring elements, in
    order *)
Theorem C66_pairwise {X} (l : list X) : List.length (pairwise l) = List.length l - 1 /\
  forall i a b, nth_error (pairwise l) i = Some (a, b) <-> nth_error l i = Some a /\ nth_error l (S i) = Some b.
Proof.
  assert (K : forall l (x : X), List.length (pairwise_inner x l) = List.length l /\
    forall i a b, nth_error (pairwise_inner x l) i = Some (a, b) <-> nth_error (x :: l) i = Some a /\ nth_error l i = Some b).
  { clear l. induction l as [|y l IH]; intros x; cbn [pairwise_inner List.length].
    - split; [reflexivity|]. intros [|i] a b; cbn; (split; [discriminate|intros [_ H]; discriminate]).
    - destruct (IH y) as [L N]. split; [rewrite L; reflexivity|]. intros [|i] a b.
      + cbn. split; [intros H; injection H as <- <-; auto|intros [H1 H2]; congruence].
      + cbn [nth_error]. apply N. }
  destruct l as [|x l]; cbn [pairwise].
  - split; [reflexivity|]. intros [|i] a b; cbn; (split; [discriminate|intros [H _]; discriminate]).
  - destruct (K l x) as [L N]. split; [rewrite L; cbn; lia|]. exact N.
Qed.
Example C66_pairwise_ex : pairwise [5; 7; 9; 4] = [(5, 7); (7, 9); (9, 4)].
Proof. reflexivity. Qed.
Lemma pairwise_range N c : pairwise (range0 N c) = map (fun t => (t * c, t * c + c)) (seq 0 (cdiv N c - 1)).
Proof.
  unfold range0. assert (K : forall n s, pairwise (map (fun t => t * c) (seq s n)) = map (fun t => (t * c, t * c + c)) (seq s (n - 1))).
  { induction n as [|n IH]; intros s; [reflexivity|]. destruct n as [|n]; [reflexivity|].
    specialize (IH (S s)). cbn [seq map pairwise pairwise_inner Nat.sub] in *. rewrite Nat.sub_0_r in IH. rewrite IH. f_equal. f_equal. lia. }
  apply K.
Qed.
(** C66: partition(chunksize, L) with chunksize <> 1 yields consecutive slices that concatenate to L, all of
    size at least 1 and, for a positive chunksize, at most chunksize *)
Theorem C66_partition {X} (c : Z) (L : list X) (evenly : bool) : c <> 1%Z ->
  exists chunks, partition c L evenly = map Chunk chunks /\ List.concat chunks = L /\
    forall ch, In ch chunks -> 1 <= List.length ch /\ ((0 < c)%Z -> (Z.of_nat (List.length ch) <= c)%Z).
Proof.
  intros Hc. unfold partition. destruct (Nat.eqb_spec (List.length L) 0) as [H0|H0].
  - exists []. split; [reflexivity|]. split; [destruct L; [reflexivity|discriminate]|intros ? []].
  - destruct (Z.leb_spec c 0) as [H1|H1]; [|destruct (Z.geb_spec c (Z.of_nat (List.length L))) as [H2|H2]]; cbn [orb].
    + exists [L]. split; [reflexivity|]. split; [simpl; apply app_nil_r|]. intros ? [<-|[]]. lia.
    + exists [L]. split; [reflexivity|]. split; [simpl; apply app_nil_r|]. intros ? [<-|[]]. lia.
    + destruct (Z.eqb_spec c 1); [contradiction|]. set (cc := Z.to_nat c). set (N := List.length L).
      assert (Hcc : 2 <= cc /\ cc < N) by lia.
      assert (Hb : N <= cdiv N cc * cc) by (apply cdiv_bound; lia).
      assert (Hk2 : 2 <= cdiv N cc) by nia.
      destruct (evenly && negb (cdiv N cc * cc =? N)) eqn:Ee.
      * exists (split_evenly (Z.of_nat (cdiv N cc)) L). split; [reflexivity|]. split; [apply C66_split_evenly_concat|].
        intros ch Hch. apply C66_split_evenly_even in Hch; [|lia]. split; [lia|]. intros _.
        destruct Hch as (_ & _ & Hch). fold N in Hch. assert (cdiv N (cdiv N cc) <= cc); [|lia].
        unfold cdiv at 1. set (k := cdiv N cc) in *. assert (N <= k * cc) by lia.
        assert ((N + k - 1) / k < S cc); [|lia]. apply Nat.div_lt_upper_bound; nia.
      * exists (map (fun t => slice (t * cc) (t * cc + cc) L) (seq 0 (cdiv (N + cc) cc - 1))).
        split; [rewrite pairwise_range, !map_map; reflexivity|].
        assert (Hm : cdiv (N + cc) cc - 1 = cdiv N cc).
        { unfold cdiv. replace (N + cc + cc - 1) with (N + cc - 1 + 1 * cc) by lia. rewrite Nat.div_add by lia. lia. }
        rewrite Hm. split.
        -- transitivity (List.concat (map (fun t => slice (t * cc) (S t * cc) L) (seq 0 (cdiv N cc)))).
           { f_equal. apply map_ext. intros t. f_equal. lia. }
           rewrite (concat_slices (fun t => t * cc) L); [|reflexivity|intros; simpl; lia].
           apply firstn_all2. exact Hb.
        -- intros ch Hch. apply in_map_iff in Hch as (t & <- & Ht). apply in_seq in Ht.
           assert (Ht' : t * cc < N).
           { unfold cdiv in Ht. pose proof (Nat.div_mod (N + cc - 1) cc ltac:(lia)). pose proof (Nat.mod_upper_bound (N + cc - 1) cc ltac:(lia)). nia. }
           unfold slice. rewrite firstn_length, skipn_length. fold N. lia.
Qed.
(** as few chunks as possible; with evenly (the default) their sizes differ by at most one, without it only the last chunk
    may be smaller than chunksize *)
Theorem C66_partition_sizes {X} (c : nat) (L : list X) (evenly : bool) : 1 < c < List.length L ->
  exists chunks, partition (Z.of_nat c) L evenly = map Chunk chunks /\
    (List.length chunks - 1) * c < List.length L <= List.length chunks * c /\
    (evenly = true -> forall a b, In a chunks -> In b chunks -> List.length a <= List.length b + 1) /\
    (evenly = false -> forall i ch, nth_error chunks i = Some ch -> i < List.length chunks - 1 -> List.length ch = c).
Proof.
  intros Hc. set (N := List.length L) in *. unfold partition. fold N.
  destruct (Nat.eqb_spec N 0) as [H0|H0]; [lia|]. destruct (Z.leb_spec (Z.of_nat c) 0) as [H1|H1]; [lia|].
  destruct (Z.geb_spec (Z.of_nat c) (Z.of_nat N)) as [H2|H2]; [lia|]. cbn [orb]. destruct (Z.eqb_spec (Z.of_nat c) 1); [lia|].
  rewrite Nat2Z.id. set (k := cdiv N c).
  assert (Hb : N <= k * c) by (apply cdiv_bound; lia).
  assert (Hl : (k - 1) * c < N).
  { unfold k, cdiv. pose proof (Nat.div_mod (N + c - 1) c ltac:(lia)). nia. }
  assert (Hk2 : 2 <= k) by nia.
  destruct (evenly && negb (k * c =? N)) eqn:Ee.
  - apply andb_prop in Ee as [-> Ee]. exists (split_evenly (Z.of_nat k) L). split; [reflexivity|].
    assert (EL : List.length (split_evenly (Z.of_nat k) L) = k) by (apply C66_split_evenly_count; fold N; nia). rewrite EL.
    split; [lia|]. split; [|discriminate]. intros _ a b Ha Hb'.
    apply C66_split_evenly_even in Ha; [|lia]. apply C66_split_evenly_even in Hb'; [|lia]. fold N in Ha, Hb'.
    assert (cdiv N k <= N / k + 1); [|lia]. unfold cdiv. replace (N / k + 1) with ((N + 1 * k) / k) by (rewrite Nat.div_add; lia).
    apply Nat.div_le_mono; lia.
  - exists (map (fun t => slice (t * c) (t * c + c) L) (seq 0 (cdiv (N + c) c - 1))).
    split; [rewrite pairwise_range, !map_map; reflexivity|].
    assert (Hm : cdiv (N + c) c - 1 = k).
    { unfold k, cdiv. replace (N + c + c - 1) with (N + c - 1 + 1 * c) by lia. rewrite Nat.div_add by lia. lia. }
    rewrite Hm, map_length, seq_length. split; [lia|]. split.
    + intros -> a b Ha Hb'. apply Bool.andb_false_iff in Ee as [Ee|Ee]; [discriminate|]. apply Bool.negb_false_iff, Nat.eqb_eq in Ee.
      assert (F : forall ch, In ch (map (fun t => slice (t * c) (t * c + c) L) (seq 0 k)) -> List.length ch = c).
      { intros ch Hch. apply in_map_iff in Hch as (t & <- & Ht). apply in_seq in Ht. unfold slice. rewrite firstn_length, skipn_length. fold N. nia. }
      rewrite (F a Ha), (F b Hb'). lia.
    + intros -> i ch Hi Li. rewrite nth_error_map in Hi. destruct (nth_error (seq 0 k) i) as [t|] eqn:Et; [|discriminate].
      injection Hi as <-. assert (Lt : i < List.length (seq 0 k)) by (apply nth_error_Some; congruence). rewrite seq_length in Lt.
      apply (nth_error_nth _ _ 0) in Et. rewrite seq_nth in Et by assumption. subst t. unfold slice. rewrite firstn_length, skipn_length. fold N. nia.
Qed.
Example C66_sizes_ex : partition 4 [1;2;3;4;5;6;7;8;9] true = map Chunk [[1;2;3];[4;5;6];[7;8;9]] /\
  partition 4 [1;2;3;4;5;6;7;8;9] false = map Chunk [[1;2;3;4];[5;6;7;8];[9]].
Proof. split; reflexivity. Qed.
(** the property's "every chunk is a list" fails for chunksize 1: the elements themselves are yielded *)
Theorem C66_partition_unit_refuted {X} (L : list X) (evenly : bool) : 2 <= List.length L ->
  partition 1 L evenly = map Elem L /\ ~ exists chunks, partition 1 L evenly = map Chunk chunks.
Proof.
  intros H. assert (E : partition 1 L evenly = map Elem L).
  { unfold partition. destruct (Nat.eqb_spec (List.length L) 0); [lia|].
    destruct (Z.geb_spec 1 (Z.of_nat (List.length L))); [lia|]. reflexivity. }
  split; [assumption|]. intros [chunks Hc]. rewrite E in Hc. destruct L; [simpl in H; lia|]. destruct chunks; discriminate.
Qed.
Example C66_ex : split_evenly 3 [1;2;3;4;5;6;7] = [[1;2;3];[4;5];[6;7]] /\
  partition 4 [1;2;3;4;5;6;7] true = map Chunk [[1;2;3;4];[5;6;7]].
Proof. split; reflexivity. Qed.

(** C67: whatever the argument, a chunk size that is returned is usable: positive and, when the number of items
    is known, smaller than it *)
Theorem C67_usable pyfloat c itemsize N rv :
  normalize_chunksize pyfloat c itemsize N = Val (Some rv) ->
  (0 < rv)%Z /\ forall n, N = Some n -> (rv < n)%Z.
Proof.
  assert (Hc : forall x, clamp x N = Some rv -> (0 < rv)%Z /\ forall n, N = Some n -> (rv < n)%Z).
  { intros x. unfold clamp. destruct (Z.leb_spec x 0); cbn [orb]; [discriminate|]. destruct N as [n|].
    - destruct (Z.geb_spec x n); [discriminate|]. intros [= <-]. split; [assumption|]. intros ? [= <-]. lia.
    - intros [= <-]. split; [assumption|discriminate]. }
  destruct c as [|q|s|]; unfold normalize_chunksize; try discriminate.
  - intros [= H]. eapply Hc; eassumption.
  - destruct (_ || _); [discriminate|].
    destruct (match split_last_digit _ with Some (p, q) => _ | None => _ end) as [[cs prefix] suffix].
    destruct (pyfloat prefix) as [number|]; [|discriminate].
    destruct (asciis_eqb suffix (str "chunk") || asciis_eqb suffix (str "chunks")).
    + destruct (Qle_bool number 1); [discriminate|]. destruct N as [n|] eqn:EN; [|discriminate]. intros [= H]. eapply Hc; eassumption.
    + destruct (unit_scale suffix); [|discriminate]. destruct (last_is_b cs).
      * destruct (itemsize =? 0)%Z; [discriminate|]. intros [= H]. eapply Hc; eassumption.
      * intros [= H]. eapply Hc; eassumption.
Qed.
(** ... and larger numbers ask for larger chunks ([None] meaning no chunking at all) *)
Lemma qtrunc_mono p q : (p <= q)%Q -> (qtrunc p <= qtrunc q)%Z.
Proof.
  intros H. unfold qtrunc. destruct (Qle_bool 0 p) eqn:E1, (Qle_bool 0 q) eqn:E2.
  - apply Qfloor_resp_le. assumption.
  - apply Qle_bool_iff in E1. assert (0 <= q)%Q by lra. apply Qle_bool_iff in H0. congruence.
  - assert (p < 0)%Q. { apply Qnot_le_lt. intros Hx. apply Qle_bool_iff in Hx. congruence. }
    assert (Qceiling p <= 0)%Z. { change 0%Z with (Qceiling 0). apply Qceiling_resp_le. lra. }
    assert (0 <= Qfloor q)%Z. { change 0%Z with (Qfloor 0). apply Qfloor_resp_le. apply Qle_bool_iff. assumption. }
    lia.
  - apply Qceiling_resp_le. assumption.
Qed.
Theorem C67_monotone pyfloat p q itemsize N a b : (p <= q)%Q ->
  normalize_chunksize pyfloat (CANum p) itemsize N = Val (Some a) ->
  normalize_chunksize pyfloat (CANum q) itemsize N = Val (Some b) -> (a <= b)%Z.
Proof.
  intros H. simpl. unfold clamp. pose proof (qtrunc_mono p q H) as Hm.
  destruct (qtrunc p <=? 0)%Z, (qtrunc q <=? 0)%Z; cbn [orb]; try discriminate.
  destruct (match N with Some n0 => (qtrunc p >=? n0)%Z | None => false end); [discriminate|].
  destruct (match N with Some n0 => (qtrunc q >=? n0)%Z | None => false end); [discriminate|]. congruence.
Qed.
(** the only failures on a number are none; on a string: bad number, unknown unit, "k chunks" without N, or a
    byte size for items of size 0 *)
Theorem C67_failures pyfloat c itemsize N e :
  normalize_chunksize pyfloat c itemsize N = Raise e ->
  match c with
  | CANone | CANum _ => False
  | CAStr _ => e = EValue \/ (e = EType /\ N = None) \/ (e = EZeroDiv /\ itemsize = 0%Z)
  | CAOther => e = EType
  end.
Proof.
  destruct c as [|q|s|]; unfold normalize_chunksize; try discriminate.
  - destruct (_ || _); [discriminate|].
    destruct (match split_last_digit _ with Some (p, q) => _ | None => _ end) as [[cs prefix] suffix].
    destruct (pyfloat prefix) as [number|]; [|intros [= <-]; auto].
    destruct (asciis_eqb suffix (str "chunk") || asciis_eqb suffix (str "chunks")).
    + destruct (Qle_bool number 1); [discriminate|]. destruct N as [n|] eqn:EN; [discriminate|]. intros [= <-]. auto.
    + destruct (unit_scale suffix); [|intros [= <-]; auto]. destruct (last_is_b cs).
      * destruct (Z.eqb_spec itemsize 0); [intros [= <-]; auto|discriminate].
      * discriminate.
  - intros [= <-]. reflexivity.
Qed.
(** ** The value a request stands for *)
(** [z] is the integer nearest to [q], the even one of two *)
Definition nearest (q : Q) (z : Z) : Prop :=
  (q - (1 # 2) <= inject_Z z)%Q /\ (inject_Z z <= q + (1 # 2))%Q /\ ((q == inject_Z z + (1 # 2))%Q \/ (q == inject_Z z - (1 # 2))%Q -> Z.even z = true).
(** [z], unless it is not positive or not smaller than the number of items: then no chunking *)
Definition size_or_none (N : option Z) (z : Z) (o : option Z) : Prop :=
  (o = Some z /\ (0 < z)%Z /\ forall n, N = Some n -> (z < n)%Z) \/ (o = None /\ ((z <= 0)%Z \/ exists n, N = Some n /\ (n <= z)%Z)).
(** the units: "" and "b" stand for 1, kb, mb, .. for the powers of 1000, kib, mib, .. for those of 1024 *)
Definition unit_value (u : string) (v : Z) : Prop :=
  (v = 1%Z /\ (u = "" \/ u = "b")%string) \/
  exists i c, nth_error (list_ascii_of_string "kmgtpez") i = Some c /\
    ((u = String c "b" /\ v = (1000 ^ Z.of_nat (S i))%Z) \/ (u = String c "ib" /\ v = (1024 ^ Z.of_nat (S i))%Z)).
(** a digit, an upper-case letter *)
Definition digit (c : ascii) : Prop := exists k, k < 10 /\ c = ascii_of_nat (48 + k).
(** text without spaces, underscores and upper-case letters *)
Definition plain (c : ascii) : Prop := c <> " "%char /\ c <> "_"%char /\ ~ exists k, k < 26 /\ c = ascii_of_nat (65 + k).

Lemma clamp_ok z N : size_or_none N z (clamp z N).
Proof.
  unfold size_or_none, clamp. destruct (Z.leb_spec z 0); cbn [orb]; [right; auto|]. destruct N as [n|].
  - destruct (Z.geb_spec z n); [right; split; [reflexivity|right; exists n; auto with zarith]|]. left. split; [reflexivity|]. split; [assumption|]. intros ? [= <-]. lia.
  - left. split; [reflexivity|]. split; [assumption|]. discriminate.
Qed.
Lemma nearest_qround q : nearest q (qround q).
Proof.
  assert (A := Qfloor_le q). assert (B := Qlt_floor q). unfold nearest, qround. set (f := Qfloor q) in *.
  rewrite inject_Z_plus in B. change (inject_Z 1) with 1%Q in B.
  destruct (Qcompare_spec (q - inject_Z f) (1 # 2)) as [E|E|E].
  - destruct (Z.even f) eqn:Ev.
    + split; [lra|]. split; [lra|]. intros _. assumption.
    + rewrite inject_Z_plus. change (inject_Z 1) with 1%Q. split; [lra|]. split; [lra|]. intros _. rewrite Z.even_add, Ev. reflexivity.
  - split; [lra|]. split; [lra|]. intros [H|H]; exfalso; lra.
  - rewrite inject_Z_plus. change (inject_Z 1) with 1%Q. split; [lra|]. split; [lra|]. intros [H|H]; exfalso; lra.
Qed.
Lemma asciis_eqb_eq a : forall b, asciis_eqb a b = true <-> a = b.
Proof.
  induction a as [|x a IH]; intros [|y b]; cbn; try (split; congruence). rewrite andb_true_iff, Ascii.eqb_eq, IH. split; [intros [-> ->]; reflexivity|]. intros [= -> ->]. auto.
Qed.
Lemma unit_scale_ok u v : unit_scale (str u) = Some v <-> unit_value u v.
Proof.
  split.
  - unfold unit_scale. destruct (find _ bytes_units) as [[w z]|] eqn:E; [|discriminate]. intros [= <-]. apply find_some in E as [Hi He]. apply asciis_eqb_eq in He. cbn [fst] in He.
    assert (w = u). { rewrite <- (string_of_list_ascii_of_string w), <- (string_of_list_ascii_of_string u). unfold str in He. rewrite He. reflexivity. } subst w. clear He. unfold unit_value.
    cbn [bytes_units In] in Hi. destruct Hi as [Hi|[Hi|Hi]]; [left; injection Hi as <- <-; auto..|]. right.
    destruct Hi as [Hi|Hi]; [injection Hi as <- <-; exists 0, "k"%char; split; [reflexivity|left; split; vm_compute; reflexivity]|].
    destruct Hi as [Hi|Hi]; [injection Hi as <- <-; exists 1, "m"%char; split; [reflexivity|left; split; vm_compute; reflexivity]|].
    destruct Hi as [Hi|Hi]; [injection Hi as <- <-; exists 2, "g"%char; split; [reflexivity|left; split; vm_compute; reflexivity]|].
    destruct Hi as [Hi|Hi]; [injection Hi as <- <-; exists 3, "t"%char; split; [reflexivity|left; split; vm_compute; reflexivity]|].
    destruct Hi as [Hi|Hi]; [injection Hi as <- <-; exists 4, "p"%char; split; [reflexivity|left; split; vm_compute; reflexivity]|].
    destruct Hi as [Hi|Hi]; [injection Hi as <- <-; exists 5, "e"%char; split; [reflexivity|left; split; vm_compute; reflexivity]|].
    destruct Hi as [Hi|Hi]; [injection Hi as <- <-; exists 6, "z"%char; split; [reflexivity|left; split; vm_compute; reflexivity]|].
    destruct Hi as [Hi|Hi]; [injection Hi as <- <-; exists 0, "k"%char; split; [reflexivity|right; split; vm_compute; reflexivity]|].
    destruct Hi as [Hi|Hi]; [injection Hi as <- <-; exists 1, "m"%char; split; [reflexivity|right; split; vm_compute; reflexivity]|].
    destruct Hi as [Hi|Hi]; [injection Hi as <- <-; exists 2, "g"%char; split; [reflexivity|right; split; vm_compute; reflexivity]|].
    destruct Hi as [Hi|Hi]; [injection Hi as <- <-; exists 3, "t"%char; split; [reflexivity|right; split; vm_compute; reflexivity]|].
    destruct Hi as [Hi|Hi]; [injection Hi as <- <-; exists 4, "p"%char; split; [reflexivity|right; split; vm_compute; reflexivity]|].
    destruct Hi as [Hi|Hi]; [injection Hi as <- <-; exists 5, "e"%char; split; [reflexivity|right; split; vm_compute; reflexivity]|].
    destruct Hi as [Hi|Hi]; [injection Hi as <- <-; exists 6, "z"%char; split; [reflexivity|right; split; vm_compute; reflexivity]|].
    destruct Hi.
  - intros [[-> [->| ->]]|(i & c & H & K)]; [reflexivity|reflexivity|].
    do 7 (destruct i as [|i]; [injection H as <-; destruct K as [[-> ->]|[-> ->]]; reflexivity|]). destruct i; discriminate.
Qed.
Lemma isdigit_ok c : isdigit c = true <-> digit c.
Proof.
  unfold isdigit, digit. rewrite andb_true_iff, !Nat.leb_le. split.
  - intros H. exists (nat_of_ascii c - 48). split; [lia|]. rewrite <- (ascii_nat_embedding c) at 1. f_equal. lia.
  - intros (k & Hk & ->). rewrite nat_ascii_embedding by lia. lia.
Qed.
Lemma lower_plain c : plain c -> lower c = c.
Proof.
  intros (_ & _ & H). unfold lower. destruct (Nat.leb_spec 65 (nat_of_ascii c)); cbn [andb]; [|reflexivity]. destruct (Nat.leb_spec (nat_of_ascii c) 90); [|reflexivity].
  destruct H. exists (nat_of_ascii c - 65). split; [lia|]. rewrite <- (ascii_nat_embedding c) at 1. f_equal. lia.
Qed.
Lemma clean_plain s : Forall plain s -> clean s = s.
Proof.
  unfold clean. induction 1 as [|c s Hc H IH]; [reflexivity|]. cbn [filter]. destruct Hc as (A & B & C) eqn:Q. clear Q.
  destruct (Ascii.eqb_spec c " "); [contradiction|]. destruct (Ascii.eqb_spec c "_"); [contradiction|]. cbn [orb negb map]. rewrite IH, lower_plain; [reflexivity|]. repeat split; assumption.
Qed.
Lemma no_digit_split u : (forall c, In c u -> ~ digit c) -> split_last_digit u = None.
Proof.
  induction u as [|c u IH]; intros H; [reflexivity|]. cbn [split_last_digit]. rewrite IH by (intros; apply H; right; assumption).
  destruct (isdigit c) eqn:E; [|reflexivity]. apply isdigit_ok in E. destruct (H c); [left; reflexivity|assumption].
Qed.
Lemma last_digit_split p d u : digit d -> (forall c, In c u -> ~ digit c) -> split_last_digit (p ++ d :: u) = Some (p ++ [d], u).
Proof.
  intros Hd Hu. induction p as [|c p IH]; cbn [app split_last_digit].
  - rewrite no_digit_split by assumption. apply isdigit_ok in Hd. rewrite Hd. reflexivity.
  - rewrite IH. reflexivity.
Qed.
Lemma last_b u x : last_is_b (x ++ u) = match u with [] => last_is_b x | _ => last_is_b u end.
Proof.
  destruct u as [|c u]; [rewrite app_nil_r; reflexivity|]. unfold last_is_b. rewrite rev_app_distr. destruct (List.rev (c :: u)) as [|e l] eqn:E; [|reflexivity].
  apply (f_equal (@List.rev ascii)) in E. rewrite rev_involutive in E. discriminate.
Qed.
Lemma unit_b u v : unit_value u v -> u <> ""%string -> last_is_b (str u) = true.
Proof.
  intros [[_ [->| ->]]|(i & c & _ & [[-> _]|[-> _]])] H; [congruence|reflexivity..].
Qed.
(** a number: truncated *)
Theorem C67_number pyfloat q itemsize N o : normalize_chunksize pyfloat (CANum q) itemsize N = Val o ->
  exists z, size_or_none N z o /\ ((0 <= q)%Q -> (inject_Z z <= q)%Q /\ (q < inject_Z z + 1)%Q) /\ ((q < 0)%Q -> (q <= inject_Z z)%Q /\ (inject_Z z - 1 < q)%Q).
Proof.
  intros [= <-]. exists (qtrunc q). split; [apply clamp_ok|]. unfold qtrunc. destruct (Qle_bool 0 q) eqn:E.
  - apply Qle_bool_iff in E. assert (A := Qfloor_le q). assert (B := Qlt_floor q). rewrite inject_Z_plus in B. change (inject_Z 1) with 1%Q in B. split; intros; [auto|exfalso; lra].
  - assert (L : (q < 0)%Q) by (apply Qnot_le_lt; intros X; apply Qle_bool_iff in X; congruence). assert (A := Qle_ceiling q). assert (B := Qceiling_lt q).
    unfold Z.sub in B. rewrite inject_Z_plus in B. change (inject_Z (- (1))) with (-1)%Q in B. split; intros; [exfalso; lra|]. split; [assumption|lra].
Qed.
(** text "<number><unit>", with the number ending in the last digit *)
Theorem C67_string pyfloat p d u itemsize N : Forall plain (p ++ d :: str u) -> digit d -> (forall c, In c (str u) -> ~ digit c) ->
  let o := normalize_chunksize pyfloat (CAStr (p ++ d :: str u)) itemsize N in
  match pyfloat (p ++ [d]) with
  | None => o = Raise EValue
  | Some x =>
      (* k chunks: the least size that makes at most k of them *)
      (u = "chunk" \/ u = "chunks" -> if Qle_bool x 1 then o = Val None else
         match N with None => o = Raise EType | Some n => exists z r, o = Val r /\ size_or_none N z r /\ (inject_Z n <= inject_Z z * x)%Q /\ ((inject_Z z - 1) * x < inject_Z n)%Q end)%string /\
      (* a number of items *)
      (u = ""%string -> exists z r, o = Val r /\ size_or_none N z r /\ nearest x z) /\
      (* a number of bytes: at least one item *)
      (forall v, unit_value u v -> u <> ""%string -> if (itemsize =? 0)%Z then o = Raise EZeroDiv else
         exists y z r, o = Val r /\ size_or_none N z r /\ nearest y z /\ let items := (x * inject_Z v / inject_Z itemsize)%Q in ((1 <= items)%Q -> (y == items)%Q) /\ ((items < 1)%Q -> (y == 1)%Q)) /\
      (u <> "chunk" -> u <> "chunks" -> (forall v, ~ unit_value u v) -> o = Raise EValue)%string
  end.
Proof.
  intros Hp Hd Hu o. subst o. unfold normalize_chunksize. rewrite clean_plain by assumption. rewrite last_digit_split by assumption.
  assert (E1 : asciis_eqb (p ++ d :: str u) [] = false) by (destruct p; reflexivity).
  assert (E2 : asciis_eqb (p ++ d :: str u) (str "all") = false).
  { destruct (asciis_eqb (p ++ d :: str u) (str "all")) eqn:E; [|reflexivity]. apply asciis_eqb_eq in E. exfalso. assert (Hi : In d (str "all")) by (rewrite <- E; apply in_or_app; right; left; reflexivity).
    apply isdigit_ok in Hd. destruct Hi as [<-|[<-|[<-|[]]]]; discriminate. }
  rewrite E1, E2. cbn [orb]. destruct (pyfloat (p ++ [d])) as [x|]; [|reflexivity].
  assert (Es : forall w, asciis_eqb (str u) (str w) = true <-> u = w).
  { intros w. rewrite asciis_eqb_eq. split; [|intros ->; reflexivity]. intros H. rewrite <- (string_of_list_ascii_of_string w), <- (string_of_list_ascii_of_string u). unfold str in H. rewrite H. reflexivity. }
  assert (Nb : forall v, unit_value u v -> asciis_eqb (str u) (str "chunk") || asciis_eqb (str u) (str "chunks") = false).
  { intros v Hv. destruct (_ || _) eqn:E; [|reflexivity]. apply orb_true_iff in E. rewrite !Es in E. apply unit_scale_ok in Hv. destruct E as [->| ->]; discriminate Hv. }
  split; [|split; [|split]].
  - intros H. assert (E : asciis_eqb (str u) (str "chunk") || asciis_eqb (str u) (str "chunks") = true) by (rewrite orb_true_iff, !Es; exact H). rewrite E.
    destruct (Qle_bool x 1) eqn:Ex; [reflexivity|]. destruct N as [n|]; [|reflexivity]. assert (L : (1 < x)%Q) by (apply Qnot_le_lt; intros X; apply Qle_bool_iff in X; congruence).
    eexists _, _. split; [reflexivity|]. split; [apply clamp_ok|]. set (t := (inject_Z n / x)%Q). assert (T : (t * x == inject_Z n)%Q) by (unfold t; field; lra).
    assert (A := Qle_ceiling t). assert (B := Qceiling_lt t). unfold Z.sub in B. rewrite inject_Z_plus in B. change (inject_Z (- (1))) with (-1)%Q in B. set (z := inject_Z (Qceiling t)) in *.
    clearbody z. rewrite <- T. split; [apply Qmult_le_compat_r; [assumption|lra]|]. apply Qmult_lt_compat_r; lra.
  - intros ->. cbn [str list_ascii_of_string]. change (asciis_eqb [] (str "chunk") || asciis_eqb [] (str "chunks")) with false. cbv iota. change (unit_scale []) with (Some 1%Z). cbv iota.
    assert (Lb : last_is_b (p ++ [d]) = false). { unfold last_is_b. rewrite rev_app_distr. cbn. destruct (Ascii.eqb_spec d "b"); [|reflexivity]. subst d. apply isdigit_ok in Hd. discriminate. }
    rewrite Lb. cbv zeta. eexists _, _. split; [reflexivity|]. split; [apply clamp_ok|]. set (y := (x * inject_Z 1)%Q). assert (Y : (y == x)%Q) by (unfold y; change (inject_Z 1) with 1%Q; ring).
    destruct (nearest_qround y) as (A & B & C). split; [rewrite <- Y; exact A|]. split; [rewrite <- Y; exact B|]. rewrite <- Y. exact C.
  - intros v Hv Hne. rewrite (Nb v Hv). assert (Hs := proj2 (unit_scale_ok u v) Hv). rewrite Hs.
    assert (Lb : last_is_b (p ++ d :: str u) = true). { change (p ++ d :: str u) with (p ++ [d] ++ str u). rewrite app_assoc, last_b. assert (X := unit_b u v Hv Hne). destruct (str u); [discriminate X|exact X]. }
    rewrite Lb. destruct (itemsize =? 0)%Z; [reflexivity|]. cbv zeta. eexists _, _, _. split; [reflexivity|]. split; [apply clamp_ok|]. split; [apply nearest_qround|].
    destruct (Qle_bool 1 _) eqn:E.
    + apply Qle_bool_iff in E. split; intros; [reflexivity|exfalso; lra].
    + split; intros; [|reflexivity]. apply Qle_bool_iff in H. congruence.
  - intros N1 N2 N3. assert (E : asciis_eqb (str u) (str "chunk") || asciis_eqb (str u) (str "chunks") = false).
    { destruct (_ || _) eqn:E; [|reflexivity]. apply orb_true_iff in E. rewrite !Es in E. tauto. }
    rewrite E. destruct (unit_scale (str u)) as [v|] eqn:Ev; [|reflexivity]. apply unit_scale_ok in Ev. destruct (N3 v Ev).
Qed.
(** text without a digit means 1 of that unit; nothing and "all" mean no chunking *)
Theorem C67_no_digit pyfloat s itemsize N : Forall plain s -> (forall c, In c s -> ~ digit c) ->
  (s = [] \/ s = list_ascii_of_string "all" -> normalize_chunksize pyfloat (CAStr s) itemsize N = Val None) /\
  (s <> [] -> s <> list_ascii_of_string "all" -> normalize_chunksize pyfloat (CAStr s) itemsize N = normalize_chunksize pyfloat (CAStr ("1"%char :: s)) itemsize N).
Proof.
  intros Hp Hd. split; [intros [->| ->]; reflexivity|]. intros N1 N2. assert (P1 : Forall plain ("1"%char :: s)).
  { constructor; [|assumption]. split; [discriminate|]. split; [discriminate|]. intros (k & Hk & E). apply (f_equal nat_of_ascii) in E. rewrite nat_ascii_embedding in E by lia. cbn in E. lia. }
  unfold normalize_chunksize. rewrite (clean_plain s Hp), (clean_plain _ P1).
  assert (E : asciis_eqb s [] || asciis_eqb s (str "all") = false). { destruct (_ || _) eqn:E; [|reflexivity]. apply orb_true_iff in E. rewrite !asciis_eqb_eq in E. tauto. }
  rewrite E, no_digit_split by assumption.
  assert (D1 : digit "1"%char) by (exists 1; split; [lia|reflexivity]). assert (X := last_digit_split [] "1"%char s D1 Hd). cbn [app] in X. rewrite X. reflexivity.
Qed.
(** spaces, underscores and the case of letters do not matter *)
Theorem C67_spelling pyfloat a b c itemsize N :
  (c = " " \/ c = "_")%char -> normalize_chunksize pyfloat (CAStr (a ++ c :: b)) itemsize N = normalize_chunksize pyfloat (CAStr (a ++ b)) itemsize N.
Proof.
  intros H. unfold normalize_chunksize. assert (E : clean (a ++ c :: b) = clean (a ++ b)); [|rewrite E; reflexivity].
  unfold clean. rewrite !filter_app, !map_app. f_equal. cbn [filter]. destruct H as [->| ->]; reflexivity.
Qed.
Theorem C67_case pyfloat a b k itemsize N : k < 26 ->
  normalize_chunksize pyfloat (CAStr (a ++ ascii_of_nat (65 + k) :: b)) itemsize N = normalize_chunksize pyfloat (CAStr (a ++ ascii_of_nat (97 + k) :: b)) itemsize N.
Proof.
  intros H. unfold normalize_chunksize. assert (E : clean (a ++ ascii_of_nat (65 + k) :: b) = clean (a ++ ascii_of_nat (97 + k) :: b)); [|rewrite E; reflexivity].
  unfold clean. rewrite !filter_app, !map_app. f_equal. do 26 (destruct k as [|k]; [reflexivity|]). lia.
Qed.
Definition pf10 (s : list ascii) : option Q :=
  if asciis_eqb s (str "10") then Some 10%Q else if asciis_eqb s (str "3") then Some 3%Q else None.
Example C67_ex : normalize_chunksize pf10 (CAStr (str "10 MiB")) 4096 (Some 100000%Z) = Val (Some 2560%Z) /\
  normalize_chunksize pf10 (CAStr (str "3 Chunks")) 8 (Some 100%Z) = Val (Some 34%Z) /\
  normalize_chunksize pf10 (CANum 500) 8 (Some 100%Z) = Val None.
Proof. repeat split; reflexivity. Qed.
(** "10mib" is such a text *)
Example C67_string_ex : Forall plain (["1"%char] ++ "0"%char :: str "mib") /\ digit "0"%char /\ (forall c, In c (str "mib") -> ~ digit c) /\ unit_value "mib" (1024 ^ 2) /\
  normalize_chunksize pf10 (CAStr (["1"%char] ++ "0"%char :: str "mib")) 4096 None = Val (Some 2560%Z).
Proof.
  assert (P : forall c, In c (["1"%char] ++ "0"%char :: str "mib") -> plain c).
  { intros c Hc. repeat (destruct Hc as [<-|Hc]; [split; [discriminate|]; split; [discriminate|]; intros (k & Hk & E); apply (f_equal nat_of_ascii) in E; rewrite nat_ascii_embedding in E by lia; cbn in E; lia|]). destruct Hc. }
  split; [apply Forall_forall; exact P|]. split; [exists 0; split; [lia|reflexivity]|]. split.
  - intros c Hc Hd. apply isdigit_ok in Hd. repeat (destruct Hc as [<-|Hc]; [discriminate Hd|]). destruct Hc.
  - split; [|reflexivity]. right. exists 1, "m"%char. split; [reflexivity|]. right. split; reflexivity.
Qed.
(** the default "10 MiB" with items of size 0 (a graph without nodes) is a division by zero *)
Theorem C67_zero_itemsize_refuted N : normalize_chunksize pf10 (CAStr (str "10 MiB")) 0 N = Raise EZeroDiv.
Proof. reflexivity. Qed.

Print Assumptions C66_split_evenly_concat.
Print Assumptions C66_split_evenly_even.
Print Assumptions C66_split_evenly_count.
Print Assumptions C66_partition.
Print Assumptions C66_partition_sizes.
Print Assumptions C66_pairwise.
Print Assumptions C66_partition_unit_refuted.
Print Assumptions C67_usable.
Print Assumptions C67_monotone.
Print Assumptions C67_failures.
Print Assumptions C67_zero_itemsize_refuted.
Print Assumptions C67_number.
Print Assumptions C67_string.
Print Assumptions C67_no_digit.
Print Assumptions C67_spelling.
Print Assumptions C67_case.
