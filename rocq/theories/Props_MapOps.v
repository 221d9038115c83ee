(** * C89: views, equality and update of the returned maps *)
From Verif Require Import Base BaseProofs Model_Graph Model_Keys Spec KeyProofs Spec_Containers Model_Containers ContainerProofs Props_Containers
  Props_Histories Model_AbcMap.
From Coq Require Import Lia Permutation.

(** ** Specification *)
(** the pairs of a dict, each key once, in some order *)
Definition pairs_of {K V} (d : dict K V) (l : list (K * V)) : Prop := NoDup (map fst l) /\ forall k x, In (k, x) l <-> d k = Some x.
(** a python dict given by its pairs shows [d] *)
Definition agrees {K V} (d : dict K V) (l : list (K * V)) : Prop := forall k x, d k = Some x <-> In (k, x) l.
(** [d'] is [d] after the assignments of [l], from left to right *)
Inductive assigned {K V} : dict K V -> list (K * V) -> dict K V -> Prop :=
| as_nil d d' : same d d' -> assigned d [] d'
| as_cons d k x l d1 d' : put d k (Some x) d1 -> assigned d1 l d' -> assigned d ((k, x) :: l) d'.
(** [pre] is what comes before the first pair that is refused, which raised [e] *)
Definition upto {X} (good : X -> Prop) (e : exn) (l pre : list X) (r : outcome unit) : Prop :=
  exists post, l = pre ++ post /\ (forall x, In x pre -> good x) /\
    ((post = [] /\ r = Val tt) \/ (exists x post', post = x :: post' /\ ~ good x /\ r = Raise e)).

(** ** Proofs *)
Section Items.
Context {K V : Type}.
Lemma itemsO_ok (get : K -> outcome V) (d : dict K V) l : (forall k, In k l -> exists x, get k = Val x /\ d k = Some x) ->
  exists q, itemsO get l = Val q /\ map fst q = l /\ forall k x, In (k, x) q -> d k = Some x.
Proof.
  induction l as [|k l IH]; intros H; cbn [itemsO]; [exists []; split; [reflexivity|]; split; [reflexivity|intros k x []]|].
  destruct (H k (or_introl eq_refl)) as (x & E & D). rewrite E. cbn [obind]. destruct (IH (fun k' Hk => H k' (or_intror Hk))) as (q & Eq & Hf & Hd). rewrite Eq. cbn [obind].
  exists ((k, x) :: q). split; [reflexivity|]. split; [cbn; rewrite Hf; reflexivity|]. intros k' x' [H1|H1]; [injection H1 as <- <-; exact D|apply Hd, H1].
Qed.
Lemma items_pairs (get : K -> outcome V) (d : dict K V) l : keys_are d l -> (forall k x, d k = Some x -> get k = Val x) ->
  exists q, itemsO get l = Val q /\ pairs_of d q /\ map fst q = l.
Proof.
  intros [ND Hk] Hg. destruct (itemsO_ok get d l) as (q & E & Hf & Hd).
  - intros k Hin. apply Hk in Hin. destruct (d k) as [x|] eqn:D; [|congruence]. exists x. split; [apply Hg, D|reflexivity].
  - exists q. split; [exact E|]. split; [|exact Hf]. split; [rewrite Hf; exact ND|]. intros k x. split; [apply Hd|]. intros D.
    assert (Hin : In k (map fst q)) by (rewrite Hf; apply Hk; congruence). apply in_map_iff in Hin as ([k' x'] & <- & Hin). pose proof (Hd _ _ Hin) as D'. cbn [fst] in *. congruence.
Qed.
End Items.
Lemma find_key {K W} (keq : K -> K -> bool) (kspec : forall a b, keq a b = true <-> a = b) k (b : list (K * W)) : NoDup (map fst b) ->
  forall e, find (fun e' => keq k (fst e')) b = Some e <-> In e b /\ fst e = k.
Proof.
  intros ND e. split.
  - intros H. apply find_some in H as [H1 H2]. apply kspec in H2. auto.
  - intros [Hin Hk]. destruct (find (fun e' => keq k (fst e')) b) as [e'|] eqn:F.
    + apply find_some in F as [H1 H2]. apply kspec in H2. f_equal. destruct e as [k1 x1], e' as [k2 x2]. cbn [fst] in *. subst.
      assert (forall l : list (K * W), NoDup (map fst l) -> In (k2, x2) l -> In (k2, x1) l -> x2 = x1) as U.
      { induction l as [|[k x] l IH]; cbn; [intros _ []|]. intros N [A|A] [B|B]; inversion N as [|? ? N1 N2]; subst.
        - congruence.
        - injection A as -> ->. destruct N1. apply (in_map fst) in B. exact B.
        - injection B as -> ->. destruct N1. apply (in_map fst) in A. exact A.
        - apply IH; assumption. }
      rewrite (U b ND H1 Hin). reflexivity.
    + exfalso. pose proof (find_none _ _ F e Hin) as H. cbn beta in H. assert (keq k (fst e) = true) by (apply kspec; congruence). congruence.
Qed.
Lemma dict_eqb_ok {K V W} (keq : K -> K -> bool) (kspec : forall a b, keq a b = true <-> a = b) (veq : V -> W -> bool) (R : V -> W -> Prop) (vspec : forall a b, veq a b = true <-> R a b)
  (a : list (K * V)) (b : list (K * W)) : NoDup (map fst a) -> NoDup (map fst b) ->
  (dict_eqb keq veq a b = true <-> (forall k x, In (k, x) a -> exists y, In (k, y) b /\ R x y) /\ (forall k y, In (k, y) b -> exists x, In (k, x) a /\ R x y)).
Proof.
  intros Na Nb. unfold dict_eqb. rewrite andb_true_iff, Nat.eqb_eq, forallb_forall. split.
  - intros [L H]. assert (A : forall k x, In (k, x) a -> exists y, In (k, y) b /\ R x y).
    { intros k x Hin. specialize (H _ Hin). cbn [fst snd] in H. destruct (find (fun e' => keq k (fst e')) b) as [[k' y]|] eqn:F; [|discriminate].
      apply (find_key keq kspec k b Nb) in F as [F1 F2]. cbn [fst] in F2. subst k'. exists y. split; [exact F1|apply vspec, H]. }
    split; [exact A|]. intros k y Hin. assert (Hk : In k (map fst a)).
    { assert (I1 : incl (map fst a) (map fst b)) by (intros z Hz; apply in_map_iff in Hz as ([k1 x1] & <- & Hz); destruct (A _ _ Hz) as (y1 & Hy & _); apply (in_map fst) in Hy; exact Hy).
      assert (I2 : incl (map fst b) (map fst a)) by (apply NoDup_length_incl; [exact Na|rewrite !map_length; lia|exact I1]). apply I2. apply (in_map fst) in Hin. exact Hin. }
    apply in_map_iff in Hk as ([k' x] & E & Hx). cbn [fst] in E. subst k'. destruct (A _ _ Hx) as (y' & Hy & Hr). exists x. split; [exact Hx|].
    pose proof (proj2 (find_key keq kspec k b Nb (k, y)) (conj Hin eq_refl)) as F1. pose proof (proj2 (find_key keq kspec k b Nb (k, y')) (conj Hy eq_refl)) as F2. congruence.
  - intros [A B]. split.
    + rewrite <- (map_length fst a), <- (map_length fst b). apply Nat.le_antisymm; apply NoDup_incl_length; try assumption; intros z Hz; apply in_map_iff in Hz as ([k1 x1] & <- & Hz).
      * destruct (A _ _ Hz) as (y & Hy & _). apply (in_map fst) in Hy. exact Hy.
      * destruct (B _ _ Hz) as (y & Hy & _). apply (in_map fst) in Hy. exact Hy.
    + intros [k x] Hin. cbn [fst snd]. destruct (A _ _ Hin) as (y & Hy & Hr). rewrite (proj2 (find_key keq kspec k b Nb (k, y)) (conj Hy eq_refl)). apply vspec, Hr.
Qed.
Lemma dict_eqb_eq {K V} (keq : K -> K -> bool) (kspec : forall a b, keq a b = true <-> a = b) (veq : V -> V -> bool) (vspec : forall a b, veq a b = true <-> a = b) (d : dict K V) a b :
  pairs_of d a -> NoDup (map fst b) -> (dict_eqb keq veq a b = true <-> agrees d b).
Proof.
  intros [Na Ha] Nb. rewrite (dict_eqb_ok keq kspec veq eq vspec a b Na Nb). unfold agrees. split.
  - intros [A B] k x. rewrite <- Ha. split; [intros H; destruct (A _ _ H) as (y & Hy & <-); exact Hy|intros H; destruct (B _ _ H) as (y & Hy & <-); exact Hy].
  - intros H. split; [intros k x Hin; exists x; split; [apply H, Ha, Hin|reflexivity]|intros k y Hin; exists y; split; [apply Ha, H, Hin|reflexivity]].
Qed.
Lemma vec_isequal_ok {V} (veq : V -> V -> bool) (vspec : forall a b, veq a b = true <-> a = b) (a b : vec V) :
  vec_isequal veq a b = true <-> vsize a = vsize b /\ forall i, vget a i = vget b i.
Proof.
  unfold vec_isequal. rewrite !andb_true_iff, !Nat.eqb_eq, forallb_forall. split.
  - intros [[S L] H]. split; [exact S|].
    assert (A : forall i x, vget a i = Some x -> vget b i = Some x).
    { intros i x Hi. apply in_vcoo in Hi. specialize (H _ Hi). cbn [fst snd] in H. destruct (vget b i) as [y|]; [|discriminate]. apply vspec in H. congruence. }
    assert (B : forall i, has (vget b i) = true -> has (vget a i) = true).
    { intros i Hi. apply in_vindices. assert (I1 : incl (vindices a) (vindices b)) by (intros j Hj; apply in_vindices in Hj; apply has_true in Hj as [x Hj]; apply in_vindices; rewrite (A _ _ Hj); reflexivity).
      assert (I2 : incl (vindices b) (vindices a)) by (apply NoDup_length_incl; [apply NoDup_vindices|rewrite !length_vindices; lia|exact I1]). apply I2, in_vindices, Hi. }
    intros i. destruct (vget a i) as [x|] eqn:Ea; [symmetry; apply A, Ea|]. specialize (B i). rewrite Ea in B. destruct (vget b i); [discriminate (B eq_refl)|reflexivity].
  - intros [S H]. split; [split; [exact S|]|].
    + rewrite <- !length_vcoo. unfold vcoo. rewrite S. f_equal. apply flat_map_ext. intros i. rewrite H. reflexivity.
    + intros [i x] Hin. cbn [fst snd]. apply in_vcoo in Hin. rewrite <- H, Hin. apply vspec. reflexivity.
Qed.
Lemma mat_isequal_ok {V} (veq : V -> V -> bool) (vspec : forall a b, veq a b = true <-> a = b) (a b : mat V) : mwf a -> mwf b ->
  (mat_isequal veq a b = true <-> nrows a = nrows b /\ ncols a = ncols b /\ forall i j, mget a i j = mget b i j).
Proof.
  intros Wa Wb. unfold mat_isequal. rewrite !andb_true_iff, !Nat.eqb_eq, forallb_forall. split.
  - intros [[R C] H]. split; [exact R|]. split; [exact C|]. intros i j. destruct (lt_dec i (nrows a)) as [Li|Li]; [destruct (lt_dec j (ncols a)) as [Lj|Lj]|].
    + specialize (H i). rewrite in_seq in H. specialize (H ltac:(lia)). rewrite forallb_forall in H. specialize (H j). rewrite in_seq in H. specialize (H ltac:(lia)).
      destruct (mget a i j), (mget b i j); try discriminate; [|reflexivity]. apply vspec in H. congruence.
    + rewrite !mget_out by (try assumption; lia). reflexivity.
    + rewrite !mget_out by (try assumption; lia). reflexivity.
  - intros (R & C & H). split; [auto|]. intros i _. apply forallb_forall. intros j _. rewrite H. destruct (mget b i j); [apply vspec|]; reflexivity.
Qed.
Lemma kid_eqb_ok a b n n' : kok a n -> kok b n' -> (kid_eqb a b = true <-> forall k, dget a k = dget b k).
Proof.
  intros ka kb. unfold kid_eqb. rewrite andb_true_iff, Nat.eqb_eq, forallb_forall. split.
  - intros [L H]. assert (A : forall k i, dget a k = Some i -> dget b k = Some i).
    { intros k i Hi. apply dget_In in Hi. specialize (H _ Hi). cbn [fst snd] in H. destruct (dget b k) as [j|]; [|discriminate]. apply Nat.eqb_eq in H. congruence. }
    intros k. destruct (dget a k) as [i|] eqn:E; [symmetry; apply A, E|]. destruct (dget b k) as [j|] eqn:E'; [|reflexivity]. exfalso.
    assert (I1 : incl (map fst a) (map fst b)) by (intros z Hz; apply dget_some in Hz as [i Hz]; apply dget_some; exists i; apply A, Hz).
    assert (I2 : incl (map fst b) (map fst a)) by (apply NoDup_length_incl; [apply ka|rewrite !map_length; lia|exact I1]).
    apply dget_none in E. apply E, I2, dget_some. eauto.
  - intros H. split.
    + rewrite <- (map_length fst a), <- (map_length fst b). apply Permutation_length, NoDup_Permutation; [apply ka|apply kb|]. intros k. rewrite !dget_some, H. reflexivity.
    + intros [k i] Hin. cbn [fst snd]. rewrite <- H, (In_dget _ _ _ (proj1 ka) Hin). apply Nat.eqb_refl.
Qed.
Lemma nm_get_dict {V} (m : nodemap V) k : nm_getitem m k = match nm_dict m k with Some x => Val x | None => Raise EKey end.
Proof. unfold nm_getitem, nm_dict. destruct (dget (nm_kid m) k) as [i|]; [|reflexivity]. destruct (vget (nm_v m) i); [reflexivity|]. destruct (nm_fill m); reflexivity. Qed.
Lemma km_get_dict m k : km_getitem m k = match km_dict m k with Some x => Val x | None => Raise EKey end.
Proof. unfold km_getitem, km_dict. destruct (dget (nm_kid m) k) as [i|]; [|reflexivity]. destruct (vget (nm_v m) i) as [j|]; [|reflexivity]. destruct (ikey (nm_kid m) j); reflexivity. Qed.

(** ** keys, items and values *)
Theorem C89_items {V} (m : nodemap V) : nm_ok m -> exists l, nm_items m = Val l /\ pairs_of (nm_dict m) l /\
  nm_iter m = Val (map fst l) /\ nm_values m = Val (map snd l) /\ nm_len m = List.length l.
Proof.
  intros ok. destruct (nm_keys m ok) as (l & E & H & L). unfold nm_values, nm_items. rewrite E. cbn [obind].
  destruct (items_pairs (nm_getitem m) (nm_dict m) l H) as (q & Eq & Hq & Hf); [intros k x D; rewrite nm_get_dict, D; reflexivity|].
  exists q. rewrite Eq. cbn [obind]. subst l. rewrite map_length in L. auto.
Qed.
Theorem C89_items_keys m : km_ok m -> exists l, km_items m = Val l /\ pairs_of (km_dict m) l /\ nm_iter m = Val (map fst l).
Proof.
  intros ok. destruct (km_keys m ok) as (l & E & H & L). unfold km_items. rewrite E. cbn [obind].
  destruct (items_pairs (km_getitem m) (km_dict m) l H) as (q & Eq & Hq & Hf); [intros k x D; rewrite km_get_dict, D; reflexivity|].
  exists q. subst l. auto.
Qed.
(** a VectorMap never lists None *)
Theorem C89_vectormap_items {V} (v : vec V) : exists l, vm_items v = Val (map (fun e => (fst e, Some (snd e))) l) /\ pairs_of (vget v) l /\ vm_iter v = map fst l.
Proof.
  exists (vcoo v). split; [|split; [split; [apply NoDup_vindices|intros k x; apply in_vcoo]|reflexivity]].
  unfold vm_items, vm_iter, vindices. assert (H : forall e, In e (vcoo v) -> vget v (fst e) = Some (snd e)) by (intros [i x] Hin; apply in_vcoo, Hin).
  induction (vcoo v) as [|[i x] l IH]; [reflexivity|]. cbn [map fst snd itemsO]. unfold vm_getitem, vec_get at 1. pose proof (H _ (or_introl eq_refl)) as E. cbn [fst snd] in E.
  rewrite (proj2 (Nat.ltb_lt _ _) (vget_some_lt _ _ _ E)), E. cbn [obind]. change (fun i0 : nat => vec_get v i0) with (vm_getitem v); rewrite IH by (intros e He; apply H; right; exact He). reflexivity.
Qed.
(** [(k, x) in m.items()] answers for any key; [k in m.keys()] is [k in m] of C60 *)
Theorem C89_item_in {V} (veq : V -> V -> bool) (m : nodemap V) k x : (forall a b, veq a b = true <-> a = b) ->
  exists b, nm_item_in veq m k x = Val b /\ (b = true <-> nm_dict m k = Some x).
Proof.
  intros vs. unfold nm_item_in. rewrite nm_get_dict. destruct (nm_dict m k) as [y|].
  - exists (veq y x). split; [reflexivity|]. rewrite vs. split; congruence.
  - exists false. split; [reflexivity|]. split; discriminate.
Qed.
Theorem C89_value_in {V} (veq : V -> V -> bool) (m : nodemap V) x : nm_ok m -> (forall a b, veq a b = true <-> a = b) ->
  exists b, nm_value_in veq m x = Val b /\ (b = true <-> exists k, nm_dict m k = Some x).
Proof.
  intros ok vs. unfold nm_value_in. destruct (C89_items m ok) as (l & _ & [_ Hl] & _ & E & _). rewrite E. cbn [obind]. eexists. split; [reflexivity|].
  rewrite existsb_exists. split.
  - intros (y & H1 & H2). apply vs in H2. subst y. apply in_map_iff in H1 as ([k y] & <- & H1). exists k. apply Hl, H1.
  - intros [k Hk]. exists x. split; [|apply vs; reflexivity]. apply Hl in Hk. apply (in_map snd) in Hk. exact Hk.
Qed.

(** ** == *)
Theorem C89_eq_dict {V} (veq : V -> V -> bool) (m : nodemap V) d : nm_ok m -> NoDup (map fst d) -> (forall a b, veq a b = true <-> a = b) ->
  exists b, nm_eq_dict veq m d = Val b /\ (b = true <-> agrees (nm_dict m) d).
Proof.
  intros ok ND vs. destruct (C89_items m ok) as (l & E & Hl & _). unfold nm_eq_dict. rewrite E. cbn [obind]. eexists. split; [reflexivity|].
  apply (dict_eqb_eq nkey_eqb nkey_eqb_eq veq vs); assumption.
Qed.
Theorem C89_eq_dict_keys m d : km_ok m -> NoDup (map fst d) -> exists b, km_eq_dict m d = Val b /\ (b = true <-> agrees (km_dict m) d).
Proof.
  intros ok ND. destruct (C89_items_keys m ok) as (l & E & Hl & _). unfold km_eq_dict. rewrite E. cbn [obind]. eexists. split; [reflexivity|].
  apply (dict_eqb_eq nkey_eqb nkey_eqb_eq nkey_eqb nkey_eqb_eq); assumption.
Qed.
(** two NodeMaps: same numbering, same fill value and the same entries that are not the fill value's *)
Definition unfilled {V} (m : nodemap V) : nodemap V := NM (nm_v m) (nm_kid m) None.
Theorem C89_eq_exact {V} (veq : V -> V -> bool) (a b : nodemap V) : nm_ok a -> nm_ok b -> (forall x y, veq x y = true <-> x = y) ->
  (nm_eq veq a b = true <-> (forall k, dget (nm_kid a) k = dget (nm_kid b) k) /\ nm_fill a = nm_fill b /\ forall k, nm_dict (unfilled a) k = nm_dict (unfilled b) k).
Proof.
  intros oa ob vs. unfold nm_eq. rewrite !andb_true_iff, (vec_isequal_ok veq vs), (kid_eqb_ok _ _ _ _ oa ob).
  assert (F : opt_eqb veq (nm_fill a) (nm_fill b) = true <-> nm_fill a = nm_fill b).
  { unfold opt_eqb. destruct (nm_fill a), (nm_fill b); try (split; [discriminate|congruence]); [rewrite vs; split; congruence|tauto]. }
  rewrite F. unfold nm_dict, unfilled. cbn [nm_v nm_kid nm_fill]. split.
  - intros [[H1 [H2 H3]] H4]. split; [exact H4|]. split; [exact H1|]. intros k. rewrite H4. destruct (dget (nm_kid b) k); [rewrite H3|]; reflexivity.
  - intros (H1 & H2 & H3). assert (LS : vsize (nm_v a) = vsize (nm_v b)).
    { rewrite <- (kok_len _ _ oa), <- (kok_len _ _ ob), <- (map_length fst (nm_kid a)), <- (map_length fst (nm_kid b)). apply Permutation_length, NoDup_Permutation; [apply oa|apply ob|]. intros k. rewrite !dget_some, H1. reflexivity. }
    split; [|exact H1]. split; [exact H2|]. split; [exact LS|]. intros i. destruct (lt_dec i (vsize (nm_v a))) as [L|L].
    + destruct (kok_key _ _ oa i L) as [k Hk]. specialize (H3 k). rewrite <- H1, Hk in H3. destruct (vget (nm_v a) i), (vget (nm_v b) i); congruence.
    + destruct (vget (nm_v a) i) eqn:Ea; [apply vget_some_lt in Ea; lia|]. destruct (vget (nm_v b) i) eqn:Eb; [apply vget_some_lt in Eb; lia|]. reflexivity.
Qed.
(** so equal NodeMaps show the same dict ... *)
Theorem C89_eq_sound {V} (veq : V -> V -> bool) (a b : nodemap V) : nm_ok a -> nm_ok b -> (forall x y, veq x y = true <-> x = y) ->
  nm_eq veq a b = true -> forall k, nm_dict a k = nm_dict b k.
Proof.
  intros oa ob vs H k. apply (C89_eq_exact veq a b oa ob vs) in H as (H1 & H2 & H3). specialize (H3 k). unfold nm_dict, unfilled in *. cbn [nm_v nm_kid nm_fill] in *. rewrite <- H1, <- H2 in *.
  destruct (dget (nm_kid a) k); [|reflexivity]. destruct (vget (nm_v a) _), (vget (nm_v b) _); congruence.
Qed.
(** ... and NodeMaps of the same graph without fill values are equal exactly when they show the same dict *)
Theorem C89_eq {V} (veq : V -> V -> bool) (a b : nodemap V) : nm_ok a -> nm_ok b -> (forall x y, veq x y = true <-> x = y) ->
  (forall k, dget (nm_kid a) k = dget (nm_kid b) k) -> nm_fill a = None -> nm_fill b = None ->
  (nm_eq veq a b = true <-> forall k, nm_dict a k = nm_dict b k).
Proof.
  intros oa ob vs K Fa Fb. split; [apply C89_eq_sound; assumption|]. intros H. apply (C89_eq_exact veq a b oa ob vs). split; [exact K|]. split; [congruence|].
  intros k. specialize (H k). unfold nm_dict, unfilled in *. cbn [nm_v nm_kid nm_fill] in *. rewrite Fa, Fb in H. exact H.
Qed.
Theorem C89_vectormap_eq {V} (veq : V -> V -> bool) (a b : vec V) : (forall x y, veq x y = true <-> x = y) -> vsize a = vsize b ->
  (vm_eq veq a b = true <-> forall i, vget a i = vget b i).
Proof. intros vs S. unfold vm_eq. rewrite (vec_isequal_ok veq vs). tauto. Qed.
(** the dict of a VectorMap, keyed by python ints *)
Definition vm_dict {V} (v : vec V) : dict nkey V := fun k => match k with KI z => if (0 <=? z)%Z then vget v (Z.to_nat z) else None | KS _ => None end.
Lemma vm_dict_iff {V} (v : vec V) k x : vm_dict v k = Some x <-> exists i, k = KI (Z.of_nat i) /\ vget v i = Some x.
Proof.
  unfold vm_dict. split.
  - destruct k as [z|s]; [|discriminate]. destruct (Z.leb_spec 0 z); [|discriminate]. intros H1. exists (Z.to_nat z). split; [rewrite Z2Nat.id by lia; reflexivity|exact H1].
  - intros (i & -> & H). rewrite Nat2Z.id. destruct (Z.leb_spec 0 (Z.of_nat i)); [exact H|lia].
Qed.
Lemma vm_pairs {V} (v : vec V) : exists l, vm_items v = Val l /\ NoDup (map fst (map vkey l)) /\ (forall k o, In (k, o) (map vkey l) <-> exists x, o = Some x /\ vm_dict v k = Some x).
Proof.
  destruct (C89_vectormap_items v) as (q & E & [ND Hq] & _). eexists. split; [exact E|]. split.
  - rewrite !map_map. unfold vkey. cbn [fst]. rewrite <- (map_map fst (fun i => KI (Z.of_nat i))). apply FinFun.Injective_map_NoDup; [|exact ND]. intros i j H. injection H as H. lia.
  - intros k o. rewrite map_map. rewrite in_map_iff. unfold vkey. cbn [fst snd]. split.
    + intros ([i x] & [= <- <-] & Hin). exists x. split; [reflexivity|]. apply vm_dict_iff. exists i. split; [reflexivity|]. apply Hq, Hin.
    + intros (x & -> & H). apply vm_dict_iff in H as (i & -> & H). exists (i, x). split; [reflexivity|]. apply Hq, H.
Qed.
Theorem C89_vectormap_eq_dict {V} (veq : V -> V -> bool) (v : vec V) d : NoDup (map fst d) -> (forall x y, veq x y = true <-> x = y) ->
  exists b, vm_eq_dict veq v d = Val b /\ (b = true <-> agrees (vm_dict v) d).
Proof.
  intros ND vs. destruct (vm_pairs v) as (l & E & N & H). unfold vm_eq_dict. rewrite E. cbn [obind]. eexists. split; [reflexivity|].
  rewrite (dict_eqb_ok nkey_eqb nkey_eqb_eq (oeq veq) (fun o x => o = Some x)); [|intros [x|] y; cbn [oeq]; [rewrite vs; split; congruence|split; discriminate]|exact N|exact ND].
  unfold agrees. split.
  - intros [A B] k x. split.
    + intros D. destruct (A k (Some x)) as (y & Hy & [= <-]); [apply H; eauto|]. exact Hy.
    + intros Hin. destruct (B k x Hin) as (o & Ho & ->). apply H in Ho as (y & [= <-] & Hy). exact Hy.
  - intros A. split.
    + intros k o Ho. apply H in Ho as (x & -> & Hx). exists x. split; [apply A, Hx|reflexivity].
    + intros k y Hin. exists (Some y). split; [apply H; exists y; split; [reflexivity|apply A, Hin]|reflexivity].
Qed.
(** a NodeMap on the left of a VectorMap is compared as a dict *)
Theorem C89_eq_vectormap {V} (veq : V -> V -> bool) (m : nodemap V) (v : vec V) : nm_ok m -> (forall x y, veq x y = true <-> x = y) ->
  exists b, nm_eq_vm veq m v = Val b /\ (b = true <-> forall k, nm_dict m k = vm_dict v k).
Proof.
  intros ok vs. destruct (C89_items m ok) as (q & Eq & [Nq Hq] & _). destruct (vm_pairs v) as (l & E & N & H). unfold nm_eq_vm. rewrite Eq. cbn [obind]. rewrite E. cbn [obind]. eexists. split; [reflexivity|].
  rewrite (dict_eqb_ok nkey_eqb nkey_eqb_eq _ (fun x o => o = Some x)); [|intros x [y|]; cbn [oeq]; [rewrite vs; split; congruence|split; discriminate]|exact Nq|exact N].
  split.
  - intros [A B] k. destruct (nm_dict m k) as [x|] eqn:D.
    + apply Hq in D. destruct (A _ _ D) as (o & Ho & ->). apply H in Ho as (y & [= <-] & Hy). congruence.
    + destruct (vm_dict v k) as [x|] eqn:D'; [|reflexivity]. destruct (B k (Some x)) as (y & Hy & [= <-]); [apply H; eauto|]. apply Hq in Hy. congruence.
  - intros A. split.
    + intros k x Hin. exists (Some x). split; [|reflexivity]. apply H. exists x. split; [reflexivity|]. rewrite <- A. apply Hq, Hin.
    + intros k o Ho. apply H in Ho as (x & -> & Hx). exists x. split; [|reflexivity]. apply Hq. rewrite A. exact Hx.
Qed.
(** on the right, the numbering must be the identity and the fill value is ignored *)
Lemma ident_kok n : kok (map (fun i => (KI (Z.of_nat i), i)) (seq 0 n)) n.
Proof.
  split; rewrite map_map; cbn [fst snd]; [|rewrite map_id; apply Permutation_refl]. apply FinFun.Injective_map_NoDup; [|apply seq_NoDup]. intros i j H. injection H as H. lia.
Qed.
Lemma ident_get n k i : dget (map (fun i => (KI (Z.of_nat i), i)) (seq 0 n)) k = Some i <-> k = KI (Z.of_nat i) /\ i < n.
Proof.
  split.
  - intros H. apply dget_In, in_map_iff in H as (j & [= <- <-] & H). apply in_seq in H. split; [reflexivity|lia].
  - intros [-> L]. apply In_dget; [apply ident_kok|]. apply in_map_iff. exists i. split; [reflexivity|]. apply in_seq. lia.
Qed.
Theorem C89_vectormap_eq_nodemap {V} (veq : V -> V -> bool) (v : vec V) (m : nodemap V) : nm_ok m -> (forall x y, veq x y = true <-> x = y) ->
  (vm_eq_nm veq v m = true <-> (forall k i, dget (nm_kid m) k = Some i <-> k = KI (Z.of_nat i) /\ i < vsize v) /\ forall k, nm_dict (unfilled m) k = vm_dict v k).
Proof.
  intros ok vs. unfold vm_eq_nm. rewrite andb_true_iff, (vec_isequal_ok veq vs), (kid_eqb_ok _ _ _ _ ok (ident_kok (vsize v))).
  assert (KI' : (forall k, dget (nm_kid m) k = dget (map (fun i => (KI (Z.of_nat i), i)) (seq 0 (vsize v))) k) <-> (forall k i, dget (nm_kid m) k = Some i <-> k = KI (Z.of_nat i) /\ i < vsize v)).
  { split; [intros H k i; rewrite H; apply ident_get|]. intros H k. destruct (dget (map _ _) k) as [i|] eqn:E; [apply H, ident_get, E|].
    destruct (dget (nm_kid m) k) as [i|] eqn:E'; [|reflexivity]. apply H, ident_get in E'. congruence. }
  rewrite KI'. unfold nm_dict, unfilled. cbn [nm_v nm_kid nm_fill].
  assert (D : forall k i, k = KI (Z.of_nat i) -> vm_dict v k = vget v i) by (intros k i ->; unfold vm_dict; rewrite Nat2Z.id; destruct (Z.leb_spec 0 (Z.of_nat i)); [reflexivity|lia]).
  split.
  - intros [[S H] Hk]. split; [exact Hk|]. intros k. destruct (dget (nm_kid m) k) as [i|] eqn:E.
    + apply Hk in E as [-> L]. rewrite (D _ i eq_refl), H. destruct (vget (nm_v m) i); reflexivity.
    + destruct (vm_dict v k) as [x|] eqn:E'; [|reflexivity]. apply vm_dict_iff in E' as (i & -> & Hi). apply vget_some_lt in Hi. assert (dget (nm_kid m) (KI (Z.of_nat i)) = Some i) by (apply Hk; auto). congruence.
  - intros [Hk H]. split; [|exact Hk].
    assert (LS : vsize v = vsize (nm_v m)).
    { rewrite <- (kok_len _ _ ok), <- (kok_len _ _ (ident_kok (vsize v))), <- (map_length fst (nm_kid m)), <- (map_length fst (map _ _)).
      apply Permutation_length, NoDup_Permutation; [apply (ident_kok (vsize v))|apply ok|]. intros k. rewrite !dget_some. split; intros [i Hi]; exists i; [apply Hk, ident_get, Hi|apply ident_get, Hk, Hi]. }
    split; [exact LS|]. intros i. destruct (lt_dec i (vsize v)) as [L|L].
    + specialize (H (KI (Z.of_nat i))). rewrite (proj2 (Hk (KI (Z.of_nat i)) i) (conj eq_refl L)), (D _ i eq_refl) in H. destruct (vget (nm_v m) i), (vget v i); congruence.
    + destruct (vget v i) eqn:Ea; [apply vget_some_lt in Ea; lia|]. destruct (vget (nm_v m) i) eqn:Eb; [apply vget_some_lt in Eb; lia|]. reflexivity.
Qed.

(** ** maps of rows *)
Section RowMaps.
Context {V : Type}.
Implicit Type r : rowmap V.
(** items of a VectorNodeMap: every key that has a row once, with its row *)
Lemma row_items {R} r (get : nkey -> outcome R) (rd : R -> dict nat V) l : elems (present (rm_dd r)) l ->
  (forall k, present (rm_dd r) k -> exists x, get k = Val x /\ forall c, rd x c = rm_dd r k c) ->
  exists q, itemsO get l = Val q /\ map fst q = l /\ forall k x, In (k, x) q -> forall c, rd x c = rm_dd r k c.
Proof.
  intros [ND Hl] Hg. assert (forall k, In k l -> exists x, get k = Val x /\ forall c, rd x c = rm_dd r k c) as H by (intros k Hk; apply Hg, Hl, Hk). clear ND Hl Hg.
  induction l as [|k l IH]; cbn [itemsO]; [exists []; split; [reflexivity|]; split; [reflexivity|intros k x []]|].
  destruct (H k (or_introl eq_refl)) as (x & E & D). rewrite E. cbn [obind]. destruct (IH (fun k' Hk => H k' (or_intror Hk))) as (q & Eq & Hf & Hd). rewrite Eq. cbn [obind].
  exists ((k, x) :: q). split; [reflexivity|]. split; [cbn; rewrite Hf; reflexivity|]. intros k' x' [H1|H1]; [injection H1 as <- <-; exact D|apply Hd, H1].
Qed.
Lemma vnm_get_present r k : rm_ok r -> present (rm_dd r) k -> exists i, dget (rm_kid r) k = Some i /\ vnm_getitem r k = Val (mrow (rm_m r) i, rm_forced r).
Proof.
  intros ok P. pose proof (get_rows_ok r ok) as (_ & _ & _ & E3 & _ & H). assert (exists i, dget (rm_kid r) k = Some i) as [i Hk].
  { destruct P as (c & x & P). unfold rm_dd in P. destruct (dget (rm_kid r) k); [eauto|discriminate]. }
  exists i. split; [exact Hk|]. unfold vnm_getitem. rewrite Hk, E3. rewrite (proj2 (H i)); [reflexivity|]. apply (rm_present r k i Hk), P.
Qed.
Theorem C89_vectornodemap_items r : rm_ok r -> exists l, vnm_items r = Val l /\ elems (present (rm_dd r)) (map fst l) /\ forall k v, In (k, v) l -> forall c, vget v c = rm_dd r k c.
Proof.
  intros ok. destruct (rm_elems r ok) as (l & E & Hl & _). unfold vnm_items. rewrite E. cbn [obind].
  destruct (row_items r (fun k => obind (vnm_getitem r k) (fun p => Val (fst p))) vget l Hl) as (q & Eq & Hf & Hd).
  - intros k P. destruct (vnm_get_present r k ok P) as (i & Hk & E'). rewrite E'. cbn [obind fst]. eexists. split; [reflexivity|]. intros c. unfold rm_dd. rewrite Hk. reflexivity.
  - exists q. rewrite Hf. auto.
Qed.
Theorem C89_nodenodemap_items r : rm_ok r -> sq r -> exists l, nnm_items r = Val l /\ elems (present (rm_dd2 r)) (map fst l) /\ forall k m, In (k, m) l -> nm_ok m /\ forall c, nm_dict m c = rm_dd2 r k c.
Proof.
  intros ok SQ. destruct (rm_elems r ok) as (l & E & Hl & _). unfold nnm_items. rewrite E. cbn [obind]. pose proof ok as (kk & W & F & _).
  destruct (row_items r (fun k => obind (nnm_getitem r k) (fun p => Val (fst p))) (fun m => vget (nm_v m)) l Hl) as (q & Eq & Hf & Hd).
  - intros k P. destruct (vnm_get_present r k ok P) as (i & Hk & E'). unfold nnm_getitem. unfold vnm_getitem in E'. rewrite Hk in *. rewrite F.
    destruct (rm_get_rows r) as [rows r']. destruct (has (vget rows i)); [|discriminate]. cbn [obind fst]. eexists. split; [reflexivity|]. intros c. unfold rm_dd. rewrite Hk. reflexivity.
  - exists q. rewrite Hf. split; [exact Eq|]. split; [apply (elems_ext _ _ _ (fun k => iff_sym (present2 r k ok SQ))), Hl|].
    intros k m Hin. specialize (Hd k m Hin).
    assert (X : exists i, dget (rm_kid r) k = Some i /\ m = NM (mrow (rm_m r) i) (rm_kid r) None).
    { clear - Eq Hin F. revert q Eq Hin. induction l as [|k' l IH]; cbn [itemsO]; intros q Eq Hin; [injection Eq as <-; destruct Hin|].
      destruct (nnm_getitem r k') as [[y r']|] eqn:G; cbn [obind fst] in Eq; [|discriminate]. destruct (itemsO _ l) as [q'|]; cbn [obind] in Eq; [|discriminate]. injection Eq as <-.
      destruct Hin as [Hin|Hin]; [|apply (IH q' eq_refl Hin)]. injection Hin as -> ->. unfold nnm_getitem in G. destruct (dget (rm_kid r) k) as [i|]; [|discriminate]. rewrite F in G.
      destruct (rm_get_rows r) as [rows r'']. destruct (has (vget rows i)); [|discriminate]. injection G as <- _. exists i. auto. }
    destruct X as (i & Hk & ->). split; [|apply row2, Hk]. unfold nm_ok. cbn [nm_v nm_kid]. replace (vsize (mrow (rm_m r) i)) with (nrows (rm_m r)); [exact kk|].
    rewrite <- SQ. symmetry. apply mrow_length; [exact W|]. apply (kok_lt _ _ kk _ _ Hk).
Qed.
Variable veq : V -> V -> bool.
Hypothesis vspec : forall x y, veq x y = true <-> x = y.
Theorem C89_vectornodemap_eq r r' : rm_ok r -> rm_ok r' -> (forall k, dget (rm_kid r) k = dget (rm_kid r') k) -> ncols (rm_m r) = ncols (rm_m r') ->
  (vnm_eq veq r r' = true <-> forall k c, rm_dd r k c = rm_dd r' k c).
Proof.
  intros ok ok' K C. pose proof ok as (kk & W & _). pose proof ok' as (kk' & W' & _). unfold vnm_eq. rewrite andb_true_iff, (mat_isequal_ok veq vspec _ _ W W'), (kid_eqb_ok _ _ _ _ kk kk').
  assert (LS : nrows (rm_m r) = nrows (rm_m r')).
  { rewrite <- (kok_len _ _ kk), <- (kok_len _ _ kk'), <- (map_length fst (rm_kid r)), <- (map_length fst (rm_kid r')). apply Permutation_length, NoDup_Permutation; [apply kk|apply kk'|]. intros k. rewrite !dget_some, K. reflexivity. }
  unfold rm_dd. split.
  - intros [(_ & _ & H) _] k c. rewrite K. destruct (dget (rm_kid r') k); [apply H|reflexivity].
  - intros H. split; [|exact K]. split; [exact LS|]. split; [exact C|]. intros i j. destruct (lt_dec i (nrows (rm_m r))) as [L|L].
    + destruct (kok_key _ _ kk i L) as [k Hk]. specialize (H k j). rewrite <- K, Hk in H. exact H.
    + rewrite !mget_out by (try assumption; lia). reflexivity.
Qed.
Theorem C89_nodenodemap_eq r r' : rm_ok r -> rm_ok r' -> sq r -> sq r' -> (forall k, dget (rm_kid r) k = dget (rm_kid r') k) ->
  (nnm_eq veq r r' = true <-> forall k c, rm_dd2 r k c = rm_dd2 r' k c).
Proof.
  intros ok ok' SQ SQ' K. pose proof ok as (kk & W & F & _). pose proof ok' as (kk' & W' & F' & _).
  assert (LS : nrows (rm_m r) = nrows (rm_m r')).
  { rewrite <- (kok_len _ _ kk), <- (kok_len _ _ kk'), <- (map_length fst (rm_kid r)), <- (map_length fst (rm_kid r')). apply Permutation_length, NoDup_Permutation; [apply kk|apply kk'|]. intros k. rewrite !dget_some, K. reflexivity. }
  unfold nnm_eq. rewrite F, F'. cbn [opt_eqb andb]. change (vnm_eq veq r r' = true <-> forall k c, rm_dd2 r k c = rm_dd2 r' k c).
  rewrite (C89_vectornodemap_eq r r' ok ok' K) by (unfold sq in *; congruence). unfold rm_dd2. split.
  - intros H k c. rewrite K. destruct (dget (rm_kid r') c); [apply H|reflexivity].
  - intros H k j. destruct (lt_dec j (nrows (rm_m r))) as [L|L].
    + destruct (kok_key _ _ kk j L) as [c Hc]. specialize (H k c). rewrite <- K, Hc in H. exact H.
    + unfold rm_dd. rewrite K. destruct (dget (rm_kid r') k); [|reflexivity]. unfold sq in *. rewrite !mget_out by (try assumption; lia). reflexivity.
Qed.
End RowMaps.

(** ** update *)
Section Update.
Context {S K V : Type}.
Variable f : S -> K * V -> outcome S.
Variable view : S -> dict K V.
Variable ok : S -> Prop.
Variable good : S -> K * V -> Prop.
Variable ex : exn.
Hypothesis f_good : forall s k x, ok s -> good s (k, x) -> exists s', f s (k, x) = Val s' /\ ok s' /\ (forall e, good s' e <-> good s e) /\ put (view s) k (Some x) (view s').
Hypothesis f_bad : forall s e, ok s -> ~ good s e -> f s e = Raise ex.
Hypothesis good_dec : forall s e, good s e \/ ~ good s e.
Lemma each_of_ok l : forall s, ok s -> exists pre, upto (good s) ex l pre (fst (each_of f s l)) /\ ok (snd (each_of f s l)) /\ assigned (view s) pre (view (snd (each_of f s l))).
Proof.
  induction l as [|[k x] l IH]; intros s o; cbn [each_of fst snd].
  - exists []. split; [exists []; split; [reflexivity|]; split; [intros y []|auto]|]. split; [exact o|]. constructor. intros k. reflexivity.
  - destruct (good_dec s (k, x)) as [Hg|Hg].
    + destruct (f_good s k x o Hg) as (s' & E & o' & G & P). rewrite E. destruct (IH s' o') as (pre & (post & Hp & Hpre & Ht) & A & B).
      exists ((k, x) :: pre). split; [|split; [exact A|apply (as_cons _ k x _ _ _ P B)]].
      exists post. split; [rewrite Hp; reflexivity|]. split; [intros y [<-|Hy]; [exact Hg|apply G, Hpre, Hy]|].
      destruct Ht as [Ht|(y & q & H1 & H2 & H3)]; [left; exact Ht|right; exists y, q; split; [exact H1|]; split; [rewrite <- G; exact H2|exact H3]].
    + rewrite (f_bad s (k, x) o Hg). cbn [fst snd]. exists []. split; [exists ((k, x) :: l); split; [reflexivity|]; split; [intros y []|right; exists (k, x), l; auto]|].
      split; [exact o|]. constructor. intros k'. reflexivity.
Qed.
End Update.
Theorem C89_update {V} (m : nodemap V) l : nm_ok m -> exists pre, upto (fun e => In (fst e) (map fst (nm_kid m))) EKey l pre (fst (nm_update m l)) /\
  nm_ok (snd (nm_update m l)) /\ assigned (nm_dict m) pre (nm_dict (snd (nm_update m l))).
Proof.
  intros ok. unfold nm_update. apply (each_of_ok _ nm_dict nm_ok (fun m e => In (fst e) (map fst (nm_kid m))) EKey); [| | |exact ok].
  - intros s k x o H. cbn [fst snd] in *. pose proof H as Hk. apply dget_some in Hk as [i Hk].
    pose proof (nm_step_ok s (OSet k x) (fst (nm_step s (OSet k x))) (snd (nm_step s (OSet k x))) o H (fun _ => Logic.I) (surjective_pairing _)) as (A & B & C & D).
    cbn [nm_step] in *. unfold nm_setitem in *. rewrite Hk in *. cbn [obs fst snd dict_step] in *. eexists. split; [reflexivity|]. split; [exact A|]. split; [intros e; rewrite B; reflexivity|]. apply D.
  - intros s e _ H. apply dget_none in H. unfold nm_setitem. rewrite H. reflexivity.
  - intros s e. destruct (in_dec nkey_dec (fst e) (map fst (nm_kid s))); auto.
Qed.
Theorem C89_update_keys m l : km_ok m -> exists pre, upto (fun e => In (fst e) (map fst (nm_kid m)) /\ In (snd e) (map fst (nm_kid m))) EKey l pre (fst (km_update m l)) /\
  km_ok (snd (km_update m l)) /\ assigned (km_dict m) pre (km_dict (snd (km_update m l))).
Proof.
  intros ok. unfold km_update. apply (each_of_ok _ km_dict km_ok (fun m e => In (fst e) (map fst (nm_kid m)) /\ In (snd e) (map fst (nm_kid m))) EKey); [| | |exact ok].
  - intros s k x o [H1 H2]. cbn [fst snd] in *. pose proof H1 as Hk. apply dget_some in Hk as [i Hk]. pose proof H2 as Hj. apply dget_some in Hj as [j Hj].
    pose proof (km_step_ok s (OSet k x) (fst (km_step s (OSet k x))) (snd (km_step s (OSet k x))) o (conj H1 H2) (surjective_pairing _)) as (A & B & D).
    cbn [km_step] in *. unfold km_setitem in *. rewrite Hk, Hj in *. cbn [obs fst snd dict_step] in *. eexists. split; [reflexivity|]. split; [exact A|]. split; [intros e; rewrite B; reflexivity|]. apply D.
  - intros s e _ H. unfold km_setitem. destruct (dget (nm_kid s) (fst e)) as [i|] eqn:E1; [|reflexivity]. destruct (dget (nm_kid s) (snd e)) as [j|] eqn:E2; [|reflexivity].
    destruct H. split; apply dget_some; eauto.
  - intros s e. destruct (in_dec nkey_dec (fst e) (map fst (nm_kid s))), (in_dec nkey_dec (snd e) (map fst (nm_kid s))); tauto.
Qed.
Theorem C89_vectormap_update {V} (v : vec V) l : exists pre, upto (fun e => fst e < vsize v) EIndex l pre (fst (vm_update v l)) /\ assigned (vget v) pre (vget (snd (vm_update v l))).
Proof.
  unfold vm_update. destruct (each_of_ok (fun v e => vm_setitem v (fst e) (snd e)) vget (fun _ : vec V => True) (fun (v : vec V) e => fst e < vsize v) EIndex) with (l := l) (s := v) as (pre & A & _ & B); [| | |exact Logic.I|exists pre; auto].
  - intros s k x _ H. cbn [fst snd] in *. unfold vm_setitem. rewrite (proj2 (Nat.ltb_lt _ _) H). eexists. split; [reflexivity|]. split; [exact Logic.I|]. rewrite vsize_vset. split; [reflexivity|].
    split; [apply vget_vset_eq, H|]. intros k' N. apply vget_vset_ne, N.
  - intros s e _ H. unfold vm_setitem. destruct (Nat.ltb_spec (fst e) (vsize s)); [contradiction|reflexivity].
  - intros s e. lia.
Qed.
(** update with VectorMaps: the rows are those of the last pair of each key; what was assigned before a key that is not a node stays *)
Theorem C89_vectornodemap_update {V} (r : rowmap V) (l : list (nkey * vec V)) : rm_ok r -> (forall k v, In (k, v) l -> vsize v = ncols (rm_m r)) ->
  exists pre, upto (fun e => In (fst e) (map fst (rm_kid r))) EKey l pre (fst (vnm_update r l)) /\
    let r' := snd (vnm_update r l) in
    rm_ok r' /\ rm_kid r' = rm_kid r /\ ncols (rm_m r') = ncols (rm_m r) /\
    forall k, (exists p v q, pre = p ++ (k, v) :: q /\ ~ In k (map fst q) /\ forall c, rm_dd r' k c = vget v c) \/
              (~ In k (map fst pre) /\ forall c, rm_dd r' k c = rm_dd r k c).
Proof.
  unfold vnm_update. revert r. induction l as [|[k v] l IH]; intros r OK Hs; cbn [each_of fst snd].
  - exists []. split; [exists []; split; [reflexivity|]; split; [intros x []|left; auto]|]. cbv zeta.
    split; [exact OK|]. split; [reflexivity|]. split; [reflexivity|]. intros k. right. split; [intros []|reflexivity].
  - assert (Sv : vsize v = ncols (rm_m r)) by (apply (Hs k), or_introl; reflexivity).
    destruct (dget (rm_kid r) k) as [i|] eqn:Hk.
    2:{ assert (E : rm_setitem r k v = Raise EKey) by (unfold rm_setitem; rewrite Hk; reflexivity). rewrite E. cbn [fst snd]. exists []. split.
        - exists ((k, v) :: l). split; [reflexivity|]. split; [intros x []|]. right. exists (k, v), l. split; [reflexivity|]. split; [|reflexivity].
          cbn [fst]. apply dget_none, Hk.
        - cbv zeta. split; [exact OK|]. split; [reflexivity|]. split; [reflexivity|]. intros k'. right. split; [intros []|reflexivity]. }
    destruct (rm_setitem r k v) as [r1|e] eqn:E.
    2:{ exfalso. unfold rm_setitem in E. rewrite Hk in E. destruct (nvals v =? 0); discriminate E. }
    destruct (rm_set_ok r k i v r1 OK Hk Sv E) as (OK1 & K1 & N1 & _ & X & Y).
    destruct (IH r1 OK1) as (pre & (post & Hp & Hpre & Ht) & A & B & C & D).
    { intros k' v' H. rewrite N1. apply (Hs k'), or_intror, H. }
    exists ((k, v) :: pre). split.
    + exists post. split; [rewrite Hp; reflexivity|]. split.
      * intros x [<-|Hx]; [cbn [fst]; apply dget_some; eauto|]. rewrite <- K1. apply Hpre, Hx.
      * destruct Ht as [Ht|(x & q & H1 & H2 & H3)]; [left; exact Ht|right; exists x, q; split; [exact H1|]; rewrite <- K1; auto].
    + cbv zeta. split; [exact A|]. split; [rewrite B; exact K1|]. split; [rewrite C; exact N1|]. intros k'.
      destruct (D k') as [(p & v' & q & D1 & D2 & D3)|[D1 D2]].
      * left. exists ((k, v) :: p), v', q. split; [rewrite D1; reflexivity|auto].
      * destruct (nkey_dec k' k) as [->|N].
        -- left. exists [], v, pre. split; [reflexivity|]. split; [exact D1|]. intros c. rewrite D2. apply X.
        -- right. split; [cbn [map fst]; intros [H|H]; [apply N; symmetry; exact H|exact (D1 H)]|]. intros c. rewrite D2. apply Y, N.
Qed.
(** the inherited setdefault of a VectorNodeMap *)
Theorem C89_vectornodemap_setdefault {V} (r : rowmap V) k x : rm_ok r -> (forall v, x = Some v -> vsize v = ncols (rm_m r)) ->
  (~ In k (map fst (rm_kid r)) /\ vnm_setdefault r k x = Raise EKey) \/
  (present (rm_dd r) k /\ exists v r', vnm_setdefault r k x = Val (v, r') /\ rm_ok r' /\ (forall c, vget v c = rm_dd r k c) /\ same2 (rm_dd r) (rm_dd r')) \/
  (In k (map fst (rm_kid r)) /\ ~ present (rm_dd r) k /\
     ((x = None /\ vnm_setdefault r k x = Raise EType) \/
      exists v r', x = Some v /\ vnm_setdefault r k x = Val (v, r') /\ rm_ok r' /\ (forall c, rm_dd r' k c = vget v c) /\ forall k', k' <> k -> forall c, rm_dd r' k' c = rm_dd r k' c)).
Proof.
  intros ok Hx. pose proof (get_rows_ok r ok) as (OK' & E1 & E2 & E3 & S & H). destruct (dd_forced r ok) as [SD ST].
  destruct (in_dec nkey_dec k (map fst (rm_kid r))) as [Hk|Hk].
  - pose proof Hk as Hi. apply dget_some in Hi as [i Hi]. pose proof (rm_present r k i Hi) as P. rewrite <- H in P. unfold vnm_setdefault, vnm_getitem. rewrite Hi, E3.
    destruct (has (vget (fst (rm_get_rows r)) i)).
    + right. left. split; [apply P; reflexivity|]. exists (mrow (rm_m r) i), (rm_forced r). split; [reflexivity|]. split; [exact OK'|]. split; [|exact SD]. intros c. unfold rm_dd. rewrite Hi. reflexivity.
    + right. right. split; [exact Hk|]. split; [rewrite P; discriminate|]. destruct x as [v|]; [|left; auto]. right.
      assert (Hf : dget (rm_kid (rm_forced r)) k = Some i) by (rewrite E2; exact Hi).
      destruct (rm_setitem (rm_forced r) k v) as [r2|] eqn:Es; [|unfold rm_setitem in Es; rewrite Hf in Es; destruct (_ =? _); discriminate].
      destruct (rm_set_ok (rm_forced r) k i v r2 OK' Hf ltac:(rewrite E1; apply Hx; reflexivity) Es) as (A & _ & _ & _ & X & Y).
      exists v, r2. cbn [obind]. split; [reflexivity|]. split; [reflexivity|]. split; [exact A|]. split; [exact X|]. intros k' N c. rewrite (Y k' N c). apply SD.
  - left. split; [exact Hk|]. apply dget_none in Hk. unfold vnm_setdefault, vnm_getitem. rewrite Hk. reflexivity.
Qed.

(** ** Defects *)
(** [VectorMap == NodeMap] ignores the fill value: true although the dicts differ, and the other way round false *)
Theorem C89_fill_refuted : exists (v : vec Z) (m : nodemap Z), nm_ok m /\ vm_eq_nm Z.eqb v m = true /\ nm_eq_vm Z.eqb m v = Val false /\
  nm_dict m (KI 1) = Some 7%Z /\ vm_dict v (KI 1) = None.
Proof.
  exists (vfrom 2 [(0, 5%Z)]), (NM (vfrom 2 [(0, 5%Z)]) [(KI 0, 0); (KI 1, 1)] (Some 7%Z)).
  split; [split; [repeat constructor; simpl; intuition congruence|apply Permutation_refl]|]. repeat (split; [vm_compute; reflexivity|]). vm_compute. reflexivity.
Qed.
(** two NodeMaps of the same graph with the same fill value that show the same dict, and two of graphs that number the
    same nodes differently, compare unequal; each equals the same python dict *)
Theorem C89_same_dict_refuted : exists (a b c : nodemap Z) d, nm_ok a /\ nm_ok b /\ nm_ok c /\ NoDup (map fst d) /\
  (forall k, nm_dict a k = nm_dict b k) /\ nm_kid a = nm_kid b /\ nm_fill a = nm_fill b /\
  nm_eq Z.eqb a b = false /\ nm_eq Z.eqb a c = false /\ nm_eq_dict Z.eqb a d = Val true /\ nm_eq_dict Z.eqb b d = Val true /\ nm_eq_dict Z.eqb c d = Val true.
Proof.
  exists (NM (vfrom 2 [(0, 5%Z)]) [(KS "a", 0); (KS "b", 1)] (Some 0%Z)), (NM (vfrom 2 [(0, 5%Z); (1, 0%Z)]) [(KS "a", 0); (KS "b", 1)] (Some 0%Z)),
    (NM (vfrom 2 [(1, 5%Z)]) [(KS "b", 0); (KS "a", 1)] (Some 0%Z)), [(KS "a", 5%Z); (KS "b", 0%Z)].
  do 3 (split; [split; [repeat constructor; simpl; intuition congruence|apply Permutation_refl]|]).
  split; [repeat constructor; simpl; intuition congruence|].
  split; [|repeat split; vm_compute; reflexivity].
  intros k. unfold nm_dict. cbn [nm_kid nm_v nm_fill dget]. destruct (nkey_eqb k (KS "a")); [vm_compute; reflexivity|]. destruct (nkey_eqb k (KS "b")); vm_compute; reflexivity.
Qed.
(** update stops at the first key that is not a node and keeps what it wrote *)
Theorem C89_update_refuted : exists (m : nodemap Z) l, nm_ok m /\ nm_dict m (KS "a") = None /\ fst (nm_update m l) = Raise EKey /\ nm_dict (snd (nm_update m l)) (KS "a") = Some 3%Z.
Proof.
  exists (NM (vempty 2) [(KS "a", 0); (KS "b", 1)] None), [(KS "a", 3%Z); (KS "zz", 4%Z); (KS "b", 5%Z)].
  split; [split; [repeat constructor; simpl; intuition congruence|apply Permutation_refl]|]. repeat (split; [vm_compute; reflexivity|]). vm_compute. reflexivity.
Qed.

(** ** Non-vacuity *)
Definition ex_nm : nodemap Z := NM (vfrom 3 [(0, 5%Z); (2, 0%Z)]) [(KS "c", 2); (KS "a", 0); (KS "b", 1)] None.
Example C89_ex : nm_ok ex_nm /\ (forall a b, Z.eqb a b = true <-> a = b) /\ nm_items ex_nm = Val [(KS "a", 5%Z); (KS "c", 0%Z)] /\
  nm_eq_dict Z.eqb ex_nm [(KS "c", 0%Z); (KS "a", 5%Z)] = Val true /\ nm_eq_dict Z.eqb ex_nm [(KS "zz", 0%Z); (KS "a", 5%Z)] = Val false /\
  nm_item_in Z.eqb ex_nm (KS "zz") 0%Z = Val false /\ nm_value_in Z.eqb ex_nm 0%Z = Val true /\
  nm_items (snd (nm_update ex_nm [(KS "b", 1%Z); (KS "c", 2%Z); (KS "b", 3%Z)])) = Val [(KS "a", 5%Z); (KS "b", 3%Z); (KS "c", 2%Z)] /\
  nm_items (NM (vfrom 2 [(0, 5%Z)]) [(KS "a", 0); (KS "b", 1)] (Some 9%Z)) = Val [(KS "a", 5%Z); (KS "b", 9%Z)] /\
  km_items (NM (vfrom 2 [(0, 1)]) [(KS "a", 0); (KS "b", 1)] None) = Val [(KS "a", KS "b")] /\
  vm_items (vfrom 3 [(2, 4%Z)]) = Val [(2, Some 4%Z)] /\ vm_eq_dict Z.eqb (vfrom 3 [(2, 4%Z)]) [(KI 2, 4%Z)] = Val true.
Proof.
  split; [split; [repeat constructor; simpl; intuition congruence|]|]; [apply (Permutation_cons_append [0; 1] 2)|].
  split; [apply Z.eqb_eq|]. repeat split; vm_compute; reflexivity.
Qed.

(** ** C62: a NodeNodeMap with a fill value *)
(** the same map without its fill value *)
Definition nofill {V} (r : rowmap V) : rowmap V := RM (rm_m r) (rm_kid r) (rm_rows r) None.
(** well formed, and its fill value is f *)
Definition with_fill {V} (r : rowmap V) (f : V) : Prop := rm_ok (nofill r) /\ sq r /\ rm_fill r = Some f.
(** what the map shows: a value for every pair of nodes *)
Definition full {V} (r : rowmap V) (f : V) : ddict nkey V := fun k c =>
  match dget (rm_kid r) k, dget (rm_kid r) c with
  | Some _, Some _ => match rm_dd2 r k c with Some x => Some x | None => Some f end
  | _, _ => None
  end.
(** every node is a key, once; a row shows the stored values and else f; assigning a row replaces that row only; deleting one makes it a row of f *)
Theorem C62_nodenodemap_fill {V} (r : rowmap V) f : with_fill r f ->
  (exists l, rm_iter r = Val l /\ NoDup l /\ (forall k, In k l <-> In k (map fst (rm_kid r))) /\ rm_len r = List.length l) /\
  (forall k, (In k (map fst (rm_kid r)) -> rm_contains r k = Val true) /\ (~ In k (map fst (rm_kid r)) -> rm_contains r k = Raise EKey /\ nnm_getitem r k = Raise EKey)) /\
  (forall k, In k (map fst (rm_kid r)) -> exists row, nnm_getitem r k = Val (row, r) /\ nm_ok row /\ forall c, nm_dict row c = full r f k c) /\
  (forall k row, In k (map fst (rm_kid r)) -> nm_kid row = rm_kid r -> vsize (nm_v row) = ncols (rm_m r) -> nm_fill row = None ->
     exists r', rm_setitem r k (nm_v row) = Val r' /\ with_fill r' f /\ rm_kid r' = rm_kid r /\
       (forall c, In c (map fst (rm_kid r)) -> full r' f k c = match nm_dict row c with Some x => Some x | None => Some f end) /\
       forall k', k' <> k -> forall c, full r' f k' c = full r f k' c) /\
  (forall k, In k (map fst (rm_kid r)) -> exists r', rm_delitem r k = Val r' /\ with_fill r' f /\ rm_kid r' = rm_kid r /\
       (forall c, In c (map fst (rm_kid r)) -> full r' f k c = Some f) /\
       forall k', k' <> k -> forall c, full r' f k' c = full r f k' c).
Proof.
  intros (OK & SQ & F). pose proof OK as ([ND PM] & W & _ & R). cbn [nofill rm_kid rm_m rm_rows] in *.
  split; [|split; [|split; [|split]]].
  - exists (map fst (rm_kid r)). unfold rm_iter, rm_len. rewrite F. split; [reflexivity|]. split; [exact ND|]. split; [reflexivity|]. rewrite map_length. reflexivity.
  - intros k. split; intros H.
    + apply dget_some in H as [i H]. unfold rm_contains. rewrite H, F. reflexivity.
    + apply dget_none in H. unfold rm_contains, nnm_getitem. rewrite H. auto.
  - intros k H. apply dget_some in H as [i H]. unfold nnm_getitem. rewrite H, F. eexists. split; [reflexivity|]. split.
    + split; [exact ND|]. cbn [nm_kid nm_v]. unfold vsize. rewrite (mrow_length (rm_m r) i W (kok_lt _ _ (conj ND PM) _ _ H)). unfold sq in SQ. rewrite SQ. exact PM.
    + intros c. unfold nm_dict, full, rm_dd2, rm_dd. cbn [nm_kid nm_v nm_fill]. rewrite H. destruct (dget (rm_kid r) c) as [j|]; reflexivity.
  - intros k row H K S NF. apply dget_some in H as [i H].
    assert (E : exists r', rm_setitem (nofill r) k (nm_v row) = Val (nofill r') /\ rm_setitem r k (nm_v row) = Val r' /\ rm_fill r' = Some f).
    { unfold rm_setitem. cbn [nofill rm_kid rm_m rm_rows rm_fill]. rewrite H. destruct (nvals (nm_v row) =? 0); (eexists; split; [|split; [reflexivity|exact F] ]; reflexivity). }
    destruct E as (r' & E0 & E & F'). destruct (rm_set_ok (nofill r) k i (nm_v row) (nofill r') OK H S E0) as (OK' & K' & N & N' & X & Y).
    cbn [nofill rm_kid rm_m rm_rows] in *. exists r'. split; [exact E|]. split; [split; [exact OK'|]; split; [unfold sq; rewrite N, N'; exact SQ|exact F'] |]. split; [exact K'|]. split.
    + intros c Hc. apply dget_some in Hc as [j Hc]. unfold full, rm_dd2, nm_dict. rewrite K', K, H, Hc, NF.
      specialize (X j). unfold rm_dd in *. cbn [nofill rm_kid rm_m] in X. rewrite K', H in *. rewrite X. destruct (vget (nm_v row) j); reflexivity.
    + intros k' Hn c. unfold full, rm_dd2. rewrite K'. destruct (dget (rm_kid r) k') as [i'|] eqn:Hk; [|reflexivity]. destruct (dget (rm_kid r) c) as [j|]; [|reflexivity].
      specialize (Y k' Hn j). unfold rm_dd in *. cbn [nofill rm_kid rm_m] in Y. rewrite K', Hk in *. rewrite Y. reflexivity.
  - intros k H. apply dget_some in H as [i H].
    destruct (rm_del_ok (nofill r) k i (omap (fun v => vdel v i) (rm_rows r)) OK H (or_introl eq_refl)) as [OK' [X Y] ].
    cbn [nofill rm_kid rm_m rm_rows] in *. unfold rm_delitem. rewrite H. eexists. split; [reflexivity|]. split; [split; [exact OK'|]; split; [|exact F] |].
    { unfold sq, mdelrow. cbn [rm_m]. rewrite ncols_mselect, nrows_mselect. exact SQ. }
    cbn [rm_kid]. split; [reflexivity|]. split.
    + intros c Hc. apply dget_some in Hc as [j Hc]. specialize (X j). unfold full, rm_dd2, rm_dd in *. cbn [nofill rm_kid rm_m] in *. rewrite H, Hc in *. rewrite X. reflexivity.
    + intros k' Hn c. unfold full, rm_dd2. cbn [rm_kid]. destruct (dget (rm_kid r) k') as [i'|] eqn:Hk; [|reflexivity]. destruct (dget (rm_kid r) c) as [j|]; [|reflexivity].
      specialize (Y k' Hn j). unfold rm_dd in *. cbn [nofill rm_kid rm_m] in *. rewrite Hk in *. rewrite Y. reflexivity.
Qed.
(** so it is no dict of dicts: a deleted key is still in it, popitem can find no item in a map that is not empty, and clear takes the fill value away *)
Theorem C62_fill_refuted : exists (r : rowmap Z) f k r', with_fill r f /\ rm_delitem r k = Val r' /\ rm_contains r' k = Val true /\
  rm_len r' = rm_len r /\ rm_len r' <> 0 /\ vnm_popitem r' = Raise EKey /\ rm_iter (rm_clear r') = Val [].
Proof.
  exists (RM (mbuild 2 2 (fun a b => match a, b with 0, 1 => Some 4%Z | _, _ => None end)) [(KS "b", 1); (KS "a", 0)] None (Some 9%Z)), 9%Z, (KS "a"). eexists.
  split; [split; [split; [split; [repeat constructor; simpl; intuition congruence|apply perm_swap] |]; split; [apply mwf_mbuild|]; split; [reflexivity|]; intros v C; discriminate C|split; reflexivity] |].
  split; [reflexivity|]. split; [vm_compute; reflexivity|]. split; [vm_compute; reflexivity|]. split; [vm_compute; discriminate|]. split; vm_compute; reflexivity.
Qed.
Definition ex_rm : rowmap Z := RM (mbuild 3 3 (fun a b => match a, b with 0, 1 => Some 4%Z | 2, 2 => Some 5%Z | _, _ => None end)) [(KS "c", 2); (KS "a", 0); (KS "b", 1)] None None.
Example C89_ex_rows : rm_ok ex_rm /\ (forall k v, In (k, v) [(KS "b", vfrom 3 [(0, 7%Z)]); (KS "a", vempty 3); (KS "b", vfrom 3 [(1, 8%Z)]); (KS "zz", vempty 3); (KS "c", vempty 3)] ->
    vsize v = ncols (rm_m ex_rm)) /\
  let u := vnm_update ex_rm [(KS "b", vfrom 3 [(0, 7%Z)]); (KS "a", vempty 3); (KS "b", vfrom 3 [(1, 8%Z)]); (KS "zz", vempty 3); (KS "c", vempty 3)] in
  fst u = Raise EKey /\ map (fun k => map (rm_dd (snd u) k) [0; 1; 2]) [KS "a"; KS "b"; KS "c"] = [[None; None; None]; [None; Some 8%Z; None]; [None; None; Some 5%Z]].
Proof.
  split.
  - split; [split; [repeat constructor; simpl; intuition congruence|apply (Permutation_cons_append [0; 1] 2)]|]. split; [apply mwf_mbuild|]. split; [reflexivity|]. intros v C. discriminate C.
  - split; [|split; vm_compute; reflexivity]. intros k v H. cbn [In] in H. intuition; match goal with h : (_, _) = (_, _) |- _ => injection h as <- <- end; reflexivity.
Qed.
Print Assumptions C62_nodenodemap_fill.
Print Assumptions C62_fill_refuted.
Print Assumptions C89_items.
Print Assumptions C89_items_keys.
Print Assumptions C89_vectormap_items.
Print Assumptions C89_item_in.
Print Assumptions C89_value_in.
Print Assumptions C89_eq_dict.
Print Assumptions C89_eq_dict_keys.
Print Assumptions C89_eq_exact.
Print Assumptions C89_eq_sound.
Print Assumptions C89_eq.
Print Assumptions C89_vectormap_eq.
Print Assumptions C89_vectormap_eq_dict.
Print Assumptions C89_eq_vectormap.
Print Assumptions C89_vectormap_eq_nodemap.
Print Assumptions C89_vectornodemap_items.
Print Assumptions C89_nodenodemap_items.
Print Assumptions C89_vectornodemap_eq.
Print Assumptions C89_nodenodemap_eq.
Print Assumptions C89_update.
Print Assumptions C89_update_keys.
Print Assumptions C89_vectormap_update.
Print Assumptions C89_vectornodemap_update.
Print Assumptions C89_vectornodemap_setdefault.
Print Assumptions C89_fill_refuted.
Print Assumptions C89_same_dict_refuted.
Print Assumptions C89_update_refuted.
