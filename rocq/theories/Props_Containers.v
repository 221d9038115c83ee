(** * C60-C63, C65: the containers and conversions *)
From Verif Require Import Base BaseProofs Model_Graph Model_Keys Spec Spec_Containers Model_Containers KeyProofs ContainerProofs OperatorProofs Concrete.
From Coq Require Import Permutation Sorted.

(** ** C60: NodeMap *)
(** the maps handed out by the algorithms meet the hypothesis of the theorems below *)
Theorem C60_returned_maps G {V} (v : vec V) fill : gwf G -> vsize v = glen G -> nm_ok (NM v (g_kid G) fill).
Proof. intros wf E. unfold nm_ok. simpl. rewrite E. apply gkok. assumption. Qed.

(** every history of operations on nodes is answered as by a dict, except that deleting an absent key does nothing *)
Theorem C60_nodemap {V} (m : nodemap V) os : nm_ok m -> nm_fill m = None -> Forall (op_node (nm_kid m)) os ->
  dict_run false true (nm_dict m) os (fst (drun nm_step m os)).
Proof. intros ok F H. apply nm_run_ok; auto. intros N. congruence. Qed.
(** with a fill value: every node is a key, as long as no key is removed *)
Theorem C60_nodemap_fill {V} (m : nodemap V) os : nm_ok m -> Forall (op_node (nm_kid m)) os -> Forall no_removal os ->
  dict_run false true (nm_dict m) os (fst (drun nm_step m os)).
Proof. intros. apply nm_run_ok; auto. Qed.
(** values_are_keys, without setdefault *)
Theorem C60_values_are_keys (m : nodemap nat) os : km_ok m -> Forall (km_op (nm_kid m)) os ->
  dict_run false true (km_dict m) os (fst (drun km_step m os)).
Proof. apply km_run_ok. Qed.
(** an operation on something that is not a node raises KeyError and changes nothing *)
Theorem C60_foreign_key {V} (m : nodemap V) o : ~ op_node (nm_kid m) o ->
  (forall k x, o = OPop k (Some x) -> False) -> nm_step m o = (RExn EKey, m).
Proof.
  intros H P. destruct o as [k|k x|k x|k|k| | | | |k x|k x]; simpl in H; try (exfalso; apply H; exact I);
    apply dget_none in H; simpl; unfold nm_getitem, nm_get, nm_setitem, nm_delitem, nm_contains, nm_setdefault, nm_pop, nm_getitem; rewrite H; try reflexivity.
  destruct x; [destruct (P k v eq_refl)|reflexivity].
Qed.

Definition kid3 : kidmap := [(KS "a", 0); (KS "b", 1); (KS "c", 2)].
Lemma kid3_ok : kok kid3 3.
Proof. split; [repeat constructor; simpl; intuition congruence|]. simpl. apply Permutation_refl. Qed.
Definition nm3 (f : option Z) : nodemap Z := NM (vbuild 3 (fun i => if i =? 1 then Some 7%Z else None)) kid3 f.
Example C60_ex : nm_ok (nm3 None) /\
  Forall (op_node kid3) [OSet (KS "a") 5%Z; OGet (KS "a"); OIter; OLen; OPop (KS "b") None; OIn (KS "b"); ODel (KS "c")] /\
  fst (drun nm_step (nm3 None) [OSet (KS "a") 5%Z; OGet (KS "a"); OIter; OLen; OPop (KS "b") None; OIn (KS "b"); ODel (KS "c")]) =
  [RDone; RVal (Some 5%Z); RKeys [KS "a"; KS "b"]; RNat 2; RVal (Some 7%Z); RBool false; RDone].
Proof.
  split; [exact kid3_ok|]. split; [apply Forall_forall; intros o Ho; simpl in Ho; intuition (subst; simpl; auto)|]. vm_compute. reflexivity.
Qed.
Definition km3 : nodemap nat := NM (vbuild 3 (fun i => if i =? 1 then Some 2 else None)) kid3 None.
Example C60_keys_ex : km_ok km3 /\
  fst (drun km_step km3 [OSet (KS "a") (KS "b"); OGet (KS "a"); OPopitem; OGet (KS "b")]) =
  [RDone; RVal (Some (KS "b")); RItem (KS "a") (KS "b"); RVal (Some (KS "c"))].
Proof.
  split; [|vm_compute; reflexivity]. split; [exact kid3_ok|]. split; [reflexivity|]. intros i j. simpl. rewrite vget_vbuild.
  destruct (i <? 3); [|discriminate]. destruct (i =? 1); [|discriminate]. intros [= <-]. lia.
Qed.
(** with a fill value, [del m[k]] leaves k in the map *)
Theorem C60_del_fill_refuted : exists (m m' : nodemap Z) k,
  nm_ok m /\ nm_contains m k = Val true /\ nm_delitem m k = Val m' /\ nm_contains m' k = Val true /\ nm_getitem m' k = Val 0%Z.
Proof. exists (nm3 (Some 0%Z)). eexists. exists (KS "b"). split; [exact kid3_ok|]. repeat split; vm_compute; reflexivity. Qed.
(** a dict answers False, and a default; a NodeMap raises KeyError *)
Theorem C60_in_foreign_refuted : exists (m : nodemap Z) k,
  nm_ok m /\ nm_dict m k = None /\ nm_contains m k = Raise EKey /\ nm_get m k (Some 3%Z) = Raise EKey.
Proof. exists (nm3 None), (KS "zz"). split; [exact kid3_ok|]. repeat split; vm_compute; reflexivity. Qed.
(** a dict raises KeyError for deleting an absent key *)
Theorem C60_del_absent_refuted : exists (m m' : nodemap Z) k,
  nm_ok m /\ nm_dict m k = None /\ nm_delitem m k = Val m'.
Proof. exists (nm3 None). eexists. exists (KS "a"). split; [exact kid3_ok|]. repeat split; vm_compute; reflexivity. Qed.
(** values_are_keys: setdefault stores the number it is given as an id; the node KI 0 has id 1 here *)
Definition kmi : nodemap nat := NM (vempty 2) [(KI 1, 0); (KI 0, 1)] None.
Theorem C60_setdefault_keys_refuted : exists m',
  km_step kmi (OSetdefault (KI 0) (KI 0)) = (RVal (Some (KI 0)), m') /\ km_getitem m' (KI 0) = Val (KI 1).
Proof. eexists. split; vm_compute; reflexivity. Qed.

(** ** C61: NodeSet *)
Theorem C61_returned_sets G v : gwf G -> vsize v = glen G -> ns_ok (NS v (g_kid G)).
Proof. intros wf E. unfold ns_ok. simpl. rewrite E. apply gkok. assumption. Qed.
Theorem C61_nodeset m os : ns_ok m -> Forall (sop_ok (ns_kid m)) os -> set_run (ns_mem m) os (fst (nsrun m os)).
Proof. apply ns_run_ok. Qed.
(** [==] and [isdisjoin] between NodeSets of one numbering *)
Lemma ns_sub_iff m m' : ns_ok m -> ns_ok m' -> (forall k, dget (ns_kid m) k = dget (ns_kid m') k) -> vsize (ns_v m) = vsize (ns_v m') ->
  ((forall k, ns_mem m k -> ns_mem m' k) <-> forall i, i < vsize (ns_v m) -> has (vget (ns_v m) i) = true -> has (vget (ns_v m') i) = true).
Proof.
  intros ok ok' E S. split.
  - intros H i L Hi. destruct (kok_key _ _ ok i L) as [k Hk]. destruct (H k) as (j & Hj & X); [exists i; auto|]. rewrite <- E in Hj. congruence.
  - intros H k (i & Hk & Hi). exists i. rewrite <- E. split; [assumption|]. apply H; [apply has_vget_lt in Hi|]; assumption.
Qed.
Lemma dot_pair (a b : vec bool) : oz (vdot Z.add op_pairz a b) = Z.of_nat (cnt (vsize a) (fun i => has (vget a i) && has (vget b i))).
Proof.
  unfold vdot. rewrite oz_ored_plus, cnt_zsum. apply zsum_ext. intros i _. destruct (vget a i), (vget b i); reflexivity.
Qed.
Theorem C61_eq m m' : ns_ok m -> ns_ok m' -> (forall k, dget (ns_kid m) k = dget (ns_kid m') k) ->
  (ns_eq m m' = true <-> forall k, ns_mem m k <-> ns_mem m' k).
Proof.
  intros ok ok' E.
  assert (LK : List.length (ns_kid m) = List.length (ns_kid m')).
  { rewrite <- (map_length fst (ns_kid m)), <- (map_length fst (ns_kid m')). apply Permutation_length. apply NoDup_Permutation; [apply ok|apply ok'|].
    intros k. rewrite !dget_some, E. reflexivity. }
  assert (LS : vsize (ns_v m) = vsize (ns_v m')) by (rewrite <- (kok_len _ _ ok), <- (kok_len _ _ ok'); exact LK).
  assert (KE : kid_eqb (ns_kid m) (ns_kid m') = true).
  { unfold kid_eqb. rewrite LK, Nat.eqb_refl. simpl. apply forallb_forall. intros [k i] Hin. simpl. rewrite <- E, (In_dget _ _ _ (proj1 ok) Hin).
    apply Nat.eqb_refl. }
  unfold ns_eq. rewrite KE, andb_true_r, LS, Nat.eqb_refl. simpl. rewrite dot_pair, LS.
  pose proof (ns_sub_iff m m' ok ok' E LS) as S1. pose proof (ns_sub_iff m' m ok' ok (fun k => eq_sym (E k)) (eq_sym LS)) as S2.
  rewrite LS in S1. set (n := vsize (ns_v m')) in *. rewrite andb_true_iff, Nat.eqb_eq, Z.eqb_eq, Nat2Z.inj_iff. unfold nvals. rewrite LS. fold n.
  set (p := fun i => has (vget (ns_v m) i)). set (q := fun i => has (vget (ns_v m') i)). change (fun i => has (vget (ns_v m) i) && has (vget (ns_v m') i)) with (fun i => p i && q i).
  split.
  - intros [H1 H2] k.
    assert (X : forall i, i < n -> p i = p i && q i) by (apply cnt_eq_mono; [intros i _ Hi; apply andb_true_iff in Hi; tauto|assumption]).
    assert (Y : forall i, i < n -> q i = p i && q i) by (apply cnt_eq_mono; [intros i _ Hi; apply andb_true_iff in Hi; tauto|congruence]).
    split.
    + apply S1. intros i L Hi. specialize (X i L). fold (p i) in Hi. rewrite Hi in X. fold (q i). destruct (q i); [reflexivity|discriminate].
    + apply S2. intros i L Hi. specialize (Y i L). fold (q i) in Hi. rewrite Hi in Y. fold (p i). destruct (p i); [reflexivity|discriminate].
  - intros H. assert (PQ : forall i, i < n -> p i = q i).
    { intros i L. apply Bool.eq_true_iff_eq. split; [apply S1; [intros k; apply H|assumption]|apply S2; [intros k; apply H|assumption]]. }
    split; [apply cnt_ext; assumption|]. apply cnt_ext. intros i L. rewrite (PQ i L), andb_diag. reflexivity.
Qed.
Theorem C61_isdisjoin m m' : ns_ok m -> ns_ok m' -> (forall k, dget (ns_kid m) k = dget (ns_kid m') k) ->
  (ns_isdisjoin m m' = true <-> forall k, ~ (ns_mem m k /\ ns_mem m' k)).
Proof.
  intros ok ok' E. unfold ns_isdisjoin, vdot. rewrite negb_true_iff.
  assert (X : has (ored op_any (vsize (ns_v m)) (fun k => oboth op_pairb (vget (ns_v m) k) (vget (ns_v m') k))) = true <-> exists k, ns_mem m k /\ ns_mem m' k).
  { rewrite has_ored_true. split.
    - intros (i & L & H). destruct (kok_key _ _ ok i L) as [k Hk]. exists k.
      destruct (vget (ns_v m) i) eqn:E1, (vget (ns_v m') i) eqn:E2; try discriminate. split; exists i; [rewrite E1|rewrite <- E, E2]; auto.
    - intros (k & (i & Hk & Hi) & (j & Hj & H)). rewrite <- E in Hj. assert (j = i) by congruence. subst j. exists i. split; [eapply has_vget_lt; eassumption|].
      destruct (vget (ns_v m) i), (vget (ns_v m') i); try discriminate. reflexivity. }
  split.
  - intros H k Hk. rewrite (proj2 X) in H; [discriminate|eauto].
  - intros H. match type of X with ?b = true <-> _ => destruct b eqn:Eb end; [|reflexivity]. destruct (proj1 X eq_refl) as [k Hk]. destruct (H k Hk).
Qed.
Definition ns3 (l : list nat) : nodeset := NS (vscatter 3 l true) kid3.
Example C61_ex : ns_ok (ns3 [0; 2]) /\
  fst (nsrun (ns3 [0; 2]) [SAdd (KS "b"); SLen; SRemove (KS "a"); SRemove (KS "a"); SAnd [KS "a"; KS "b"]; SOr [KS "a"]; SSub [KS "c"]; SPop; SIter]) =
  [SDone; SNat 3; SDone; SExn EKey; SSet [KS "b"]; SSet [KS "a"; KS "b"; KS "c"]; SSet [KS "b"]; SKey (KS "b"); SKeys [KS "c"]] /\
  ns_eq (ns3 [0; 2]) (ns3 [2; 0; 2]) = true /\ ns_eq (ns3 [0]) (ns3 [0; 1]) = false /\ ns_isdisjoin (ns3 [0]) (ns3 [1; 2]) = true.
Proof. split; [exact kid3_ok|]. vm_compute. auto. Qed.
(** a set answers False; a NodeSet raises KeyError *)
Theorem C61_in_foreign_refuted : exists m k, ns_ok m /\ ~ ns_mem m k /\ ns_contains m k = Raise EKey /\ ns_discard m k = Raise EKey.
Proof.
  exists (ns3 [0]), (KS "zz"). split; [exact kid3_ok|]. split; [intros (i & H & _); discriminate|]. split; vm_compute; reflexivity.
Qed.
(** the same nodes under another numbering are not equal *)
Theorem C61_eq_numbering_refuted : exists m m', ns_ok m /\ ns_ok m' /\ (forall k, ns_mem m k <-> ns_mem m' k) /\ ns_eq m m' = false.
Proof.
  exists (NS (vscatter 2 [0; 1] true) [(KS "a", 0); (KS "b", 1)]), (NS (vscatter 2 [0; 1] true) [(KS "a", 1); (KS "b", 0)]).
  split; [split; [repeat constructor; simpl; intuition congruence|apply Permutation_refl]|].
  split; [split; [repeat constructor; simpl; intuition congruence|simpl; constructor]|].
  split; [|vm_compute; reflexivity]. intros k. unfold ns_mem. simpl.
  destruct (nkey_eqb k (KS "a")); [split; intros _; eexists; (split; [reflexivity|reflexivity])|].
  destruct (nkey_eqb k (KS "b")); [split; intros _; eexists; (split; [reflexivity|reflexivity])|].
  split; intros (i & H & _); discriminate.
Qed.

(** ** C62 *)
(** VectorMap: as a dict, except that reading an absent key gives None and deleting one does nothing *)
Theorem C62_vectormap {V} (v : vec V) os : Forall (vop_ok (vsize v)) os -> dict_run true true (vget v) os (fst (drun vm_step v os)).
Proof. apply vm_run_ok. Qed.
Theorem C62_vectornodemap {V} (r : rowmap V) os : rm_ok r -> Forall (vnm_op r) os ->
  ddict_run vget (rm_dd r) os (fst (rrun vnm_step r os)).
Proof. apply vnm_run_ok. Qed.
(** NodeNodeMap without a fill value; rows are NodeMaps of the same numbering; [get] is left out *)
Theorem C62_nodenodemap {V} (r : rowmap V) os : rm_ok r -> sq r -> Forall (nnm_op r) os ->
  ddict_run nm_dict (rm_dd2 r) os (fst (rrun nnm_step r os)).
Proof. apply nnm_run_ok. Qed.
Theorem C62_returned_maps G {V} (m : mat V) : gwf G -> mwf m -> nrows m = glen G -> rm_ok (to_nodenodemap G m).
Proof. intros wf W E. split; [|split; [assumption|split; [reflexivity|discriminate]]]. simpl. rewrite E. apply gkok. assumption. Qed.
Definition rm3 : rowmap Z := RM (mbuild 3 3 (fun i j => if (i =? 0) && (j =? 1) then Some 4%Z else if i =? 2 then Some 9%Z else None)) kid3 None None.
Example C62_ex : rm_ok rm3 /\ sq rm3 /\ Forall (nnm_op rm3) [WIter; WDel (KS "c"); WLen; WIn (KS "c"); WSet (KS "b") (nm3 None); WPopitem; WIter] /\
  map (fun w => match w with WItem k _ => WItem k tt | WDone => WDone | WNat n => WNat n | WKeys l => WKeys l | WBool b => WBool b | _ => WNone end)
    (fst (rrun nnm_step rm3 [WIter; WDel (KS "c"); WLen; WIn (KS "c"); WSet (KS "b") (nm3 None); WPopitem; WIter])) =
  [WKeys [KS "a"; KS "c"]; WDone; WNat 1; WBool false; WDone; WItem (KS "a") tt; WKeys [KS "b"]].
Proof.
  split; [split; [exact kid3_ok|split; [apply mwf_mbuild|split; [reflexivity|discriminate]]]|].
  split; [reflexivity|]. split; [|vm_compute; reflexivity]. apply Forall_forall; intros o Ho; simpl in Ho; unfold nnm_op; intuition (subst; simpl; auto 10).
Qed.
(** [VectorMap[k]] for an absent k is None *)
Theorem C62_vectormap_getitem_refuted : exists (v : vec Z) k, vm_contains v k = Val false /\ vm_getitem v k = Val None.
Proof. exists (vempty 2), 1. split; vm_compute; reflexivity. Qed.
(** [NodeNodeMap.get] of a present row returns None *)
Theorem C62_nnm_get_refuted : exists (r : rowmap Z) k, rm_ok r /\ rm_contains r k = Val true /\ nnm_get r k None = Val None.
Proof.
  exists rm3, (KS "a"). split; [split; [exact kid3_ok|split; [apply mwf_mbuild|split; [reflexivity|discriminate]]]|].
  split; vm_compute; reflexivity.
Qed.
(** assigning a dict to a row takes its keys as ids: with nodes KI 1 (id 0), KI 0 (id 1), [m[KI 0] = {0: 5}] sets the entry of KI 1 *)
Definition rmi : rowmap Z := RM (mempty 2 2) [(KI 1, 0); (KI 0, 1)] None None.
Theorem C62_nnm_setitem_dict_refuted : exists r' row r'',
  nnm_setitem_dict rmi (KI 0) [(0, 5%Z)] = Val r' /\ nnm_getitem r' (KI 0) = Val (row, r'') /\
  nm_get row (KI 0) None = Val None /\ nm_getitem row (KI 1) = Val 5%Z.
Proof. eexists. eexists. eexists. split; [vm_compute; reflexivity|]. split; [vm_compute; reflexivity|]. split; vm_compute; reflexivity. Qed.
(** a NodeMap of another numbering is stored by position: the entry of KI 0 becomes one of KI 1 *)
Theorem C62_nnm_foreign_row_refuted : exists (row0 : nodemap Z) r' row r'',
  nm_ok row0 /\ nm_getitem row0 (KI 0) = Val 5%Z /\ rm_setitem rmi (KI 0) (nm_v row0) = Val r' /\
  nnm_getitem r' (KI 0) = Val (row, r'') /\ nm_get row (KI 0) None = Val None.
Proof.
  exists (NM (vscatter 2 [0] 5%Z) [(KI 0, 0); (KI 1, 1)] None). eexists. eexists. eexists.
  split; [split; [repeat constructor; simpl; intuition congruence|apply Permutation_refl]|].
  split; [vm_compute; reflexivity|]. split; [vm_compute; reflexivity|]. split; vm_compute; reflexivity.
Qed.
(** writing into a row that was read does not change the map (a dict of dicts would) *)
Theorem C62_row_write_refuted : exists (r r' : rowmap Z) row row', rm_ok r /\
  nnm_getitem r (KS "a") = Val (row, r') /\ nm_setitem row (KS "c") 1%Z = Val row' /\ nm_getitem row' (KS "c") = Val 1%Z /\
  rm_dd2 r' (KS "a") (KS "c") = None.
Proof.
  exists rm3. eexists. eexists. eexists. split; [split; [exact kid3_ok|split; [apply mwf_mbuild|split; [reflexivity|discriminate]]]|].
  split; [vm_compute; reflexivity|]. split; [vm_compute; reflexivity|]. split; vm_compute; reflexivity.
Qed.

(** ** C63: conversions between nodes and ids; [d] numbers n nodes *)
(** k is one of the numbered nodes *)
Definition numbered (d : kidmap) (k : nkey) : Prop := In k (map fst d).
Section C63.
Variable d : kidmap.
Variable n : nat.
Hypothesis ok : kok d n.

Lemma mapO_inv {X Y} (f : X -> option Y) (g : Y -> option X) l ys : (forall x y, f x = Some y <-> g y = Some x) ->
  mapO f l = Some ys -> mapO g ys = Some l.
Proof.
  intros H E. apply mapO_some in E. apply mapO_some. induction E as [|x y l ys H1 H2 IH]; constructor; [apply H; assumption|assumption].
Qed.
Theorem C63_list_ids l ids : list_to_ids d l = Val ids -> list_to_keys d ids = Val l.
Proof.
  unfold list_to_ids, list_to_keys, okey. destruct (mapO (dget d) l) as [x|] eqn:E; [|discriminate]. intros [= <-].
  rewrite (mapO_inv _ (ikey d) _ _ (kok_inv _ _ ok) E). reflexivity.
Qed.
Theorem C63_ids_list l ids : list_to_keys d ids = Val l -> list_to_ids d l = Val ids.
Proof.
  unfold list_to_ids, list_to_keys, okey. destruct (mapO (ikey d) ids) as [x|] eqn:E; [|discriminate]. intros [= <-].
  rewrite (mapO_inv _ (dget d) _ _ (fun a b => iff_sym (kok_inv _ _ ok b a)) E). reflexivity.
Qed.
(** exactly the lists of nodes are accepted, the others raise KeyError *)
Lemma nodes_mapO {X} (f : X -> nkey) l : (exists ids, mapO (fun x => dget d (f x)) l = Some ids) <-> forall x, In x l -> numbered d (f x).
Proof.
  split.
  - intros [ids E] x Hx. apply dget_some. destruct (dget d (f x)) eqn:Ex; [eauto|].
    assert (mapO (fun x => dget d (f x)) l = None) by (apply mapO_none; eauto). congruence.
  - intros H. apply mapO_total. intros x Hx. apply dget_some. apply H. assumption.
Qed.
Theorem C63_list_to_ids_domain l :
  ((exists ids, list_to_ids d l = Val ids) /\ forall k, In k l -> numbered d k) \/
  (list_to_ids d l = Raise EKey /\ exists k, In k l /\ ~ numbered d k).
Proof.
  unfold list_to_ids. destruct (mapO (dget d) l) as [ids|] eqn:E; simpl.
  - left. split; [eauto|]. apply (nodes_mapO (fun k => k)). eauto.
  - right. split; [reflexivity|]. apply mapO_none in E as (k & Hk & E). exists k. split; [assumption|]. apply dget_none. assumption.
Qed.
(** so do the vectors of lists and of sets; a dict also has to be non-empty *)
Theorem C63_list_to_vector_domain l :
  ((exists v, list_to_vector d n l = Val v) /\ forall k, In k l -> numbered d k) \/ (list_to_vector d n l = Raise EKey /\ exists k, In k l /\ ~ numbered d k).
Proof.
  unfold list_to_vector. destruct (mapO (dget d) l) as [ids|] eqn:E; simpl.
  - left. split; [eauto|]. apply (nodes_mapO (fun k => k)). eauto.
  - right. split; [reflexivity|]. apply mapO_none in E as (k & Hk & E). exists k. split; [assumption|]. apply dget_none. assumption.
Qed.
Theorem C63_set_to_vector_domain l :
  ((exists v, set_to_vector d n false l = Val v) /\ forall k, In k l -> numbered d k) \/ (set_to_vector d n false l = Raise EKey /\ exists k, In k l /\ ~ numbered d k).
Proof. exact (C63_list_to_vector_domain l). Qed.
Theorem C63_dict_to_vector_domain {V} (x : list (nkey * V)) :
  ((exists v, dict_to_vector d n x = Val v) /\ x <> [] /\ forall k a, In (k, a) x -> numbered d k) \/
  (dict_to_vector d n x = Raise EKey /\ exists k a, In (k, a) x /\ ~ numbered d k) \/ (dict_to_vector d n x = Raise EValue /\ x = []).
Proof.
  unfold dict_to_vector. destruct (mapO _ x) as [ids|] eqn:E; simpl.
  - destruct x as [|p x'] eqn:Ex; [auto|]. rewrite <- Ex in *. left. split; [eauto|]. split; [rewrite Ex; discriminate|]. intros k a Hi.
    apply (proj1 (nodes_mapO (@fst nkey V) x) (ex_intro _ ids E) (k, a) Hi).
  - right. left. split; [reflexivity|]. apply mapO_none in E as ([k a] & Hk & E). exists k, a. split; [assumption|]. apply dget_none. assumption.
Qed.
(** sets: through a vector and back *)
Lemma scatter_set l ids : mapO (dget d) l = Some ids -> exists l', mapO (ikey d) (vindices (vscatter n ids true)) = Some l' /\ elems (fun k => In k l) l'.
Proof.
  intros E. destruct (kok_indices d n (vscatter n ids true) ok) as (l' & H & ND & _ & Hin); [unfold vscatter; rewrite vsize_vbuild; reflexivity|].
  exists l'. split; [assumption|]. split; [assumption|]. intros k. rewrite Hin. split.
  - intros (i & Hk & Hi). rewrite vget_vscatter in Hi. destruct (_ && _) eqn:B; [|discriminate]. apply andb_true_iff in B as [_ B]. apply existsb_eqb in B.
    apply (mapO_in _ _ _ E) in B as (k' & Hk' & E'). assert (k' = k) by (eapply kok_inj; eassumption). subst. assumption.
  - intros Hk. destruct (mapO_in _ _ _ E (match dget d k with Some i => i | None => 0 end)) as [_ X].
    assert (D : exists i, dget d k = Some i) by (apply dget_some, (proj1 (nodes_mapO (fun k => k) l)); [eauto|assumption]).
    destruct D as [i Hi]. rewrite Hi in X. exists i. split; [assumption|]. rewrite vget_vscatter.
    rewrite (proj2 (Nat.ltb_lt i n) (kok_lt _ _ ok _ _ Hi)), (proj2 (existsb_eqb ids i)); [reflexivity|]. apply X. eauto.
Qed.
Theorem C63_set_vector l v : set_to_vector d n false l = Val v -> exists l', vector_to_set d v = Val l' /\ elems (fun k => In k l) l'.
Proof.
  unfold set_to_vector, vector_to_set. destruct (mapO (dget d) l) as [ids|] eqn:E; [|discriminate]. intros [= <-].
  destruct (scatter_set l ids E) as (l' & H & X). exists l'. rewrite H. auto.
Qed.
Theorem C63_set_vector_ignore_extra l : exists v l', set_to_vector d n true l = Val v /\ vector_to_set d v = Val l' /\ elems (fun k => In k l /\ numbered d k) l'.
Proof.
  unfold set_to_vector, vector_to_set. set (l0 := filter _ l).
  assert (H0 : forall k, In k l0 <-> In k l /\ numbered d k).
  { intros k. unfold l0. rewrite filter_In. unfold numbered. rewrite dget_some. split; intros [A B]; (split; [assumption|]).
    - apply has_true in B. assumption.
    - apply has_true. assumption. }
  destruct (proj2 (nodes_mapO (fun k => k) l0)) as [ids E]; [intros k Hk; apply H0; assumption|].
  change (mapO (dget d) l0 = Some ids) in E. rewrite E. destruct (scatter_set l0 ids E) as (l' & H & X). exists (vscatter n ids true), l'. rewrite H.
  split; [reflexivity|]. split; [reflexivity|]. destruct X as [X1 X2]. split; [assumption|]. intros k. rewrite X2. apply H0.
Qed.
Theorem C63_vector_set {V} (v : vec V) l : vsize v = n -> vector_to_set d v = Val l ->
  exists v', set_to_vector d n false l = Val v' /\ vsize v' = n /\ forall i, has (vget v' i) = has (vget v i).
Proof.
  intros S E. unfold vector_to_set, okey in E. destruct (mapO (ikey d) (vindices v)) as [l0|] eqn:E0; [|discriminate]. injection E as <-.
  unfold set_to_vector. rewrite (mapO_inv _ (dget d) _ _ (fun a b => iff_sym (kok_inv _ _ ok b a)) E0). eexists. split; [reflexivity|].
  split; [unfold vscatter; apply vsize_vbuild|]. intros i. rewrite vget_vscatter. destruct (has (vget v i)) eqn:Hi.
  - pose proof (has_vget_lt _ _ Hi) as L. apply in_vindices in Hi. rewrite (proj2 (existsb_eqb _ i) Hi), (proj2 (Nat.ltb_lt i n)) by lia. reflexivity.
  - destruct (existsb (Nat.eqb i) (vindices v)) eqn:B; [|rewrite andb_false_r; reflexivity]. apply existsb_eqb, in_vindices in B. congruence.
Qed.
(** lists: vector_to_list gives the nodes in the order of their ids *)
Theorem C63_list_vector l v : list_to_vector d n l = Val v -> exists l', vector_to_list d v = Val l' /\ elems (fun k => In k l) l' /\
  exists ids, list_to_ids d l' = Val ids /\ StronglySorted lt ids.
Proof.
  unfold list_to_vector, vector_to_list. destruct (mapO (dget d) l) as [ids|] eqn:E; [|discriminate]. intros [= <-].
  destruct (scatter_set l ids E) as (l' & H & X). exists l'. rewrite H. split; [reflexivity|]. split; [assumption|].
  exists (vindices (vscatter n ids true)). split.
  - unfold list_to_ids. rewrite (mapO_inv _ (dget d) _ _ (fun a b => iff_sym (kok_inv _ _ ok b a)) H). reflexivity.
  - rewrite vindices_filter. clear. generalize (fun i => has (vget (vscatter n ids true) i)). intros p.
    generalize (vsize (vscatter n ids true)). intros m. generalize 0. induction m as [|m IH]; intros s; simpl; [constructor|].
    destruct (p s); [|apply IH]. constructor; [apply IH|]. apply Forall_forall. intros x Hx. apply filter_In in Hx as [Hx _]. apply in_seq in Hx. lia.
Qed.
(** dicts: [x] lists the items of a dict *)
Lemma nassoc_In {V} (l : list (nat * V)) i x : NoDup (map fst l) -> (nassoc l i = Some x <-> In (i, x) l).
Proof.
  induction l as [|[j y] l IH]; simpl; intros ND; [split; [discriminate|intros []]|]. inversion ND as [|? ? H1 H2]; subst.
  destruct (Nat.eqb_spec j i) as [->|Hne].
  - split; [intros [= ->]; auto|]. intros [[= ->]|H]; [reflexivity|]. destruct H1. apply in_map_iff. exists (i, x). auto.
  - rewrite IH by assumption. split; [auto|]. intros [[= E _]|H]; [congruence|assumption].
Qed.
Lemma Forall2_combine {X Y Z} (f : X -> option Y) (g : X -> Z) x ids : Forall2 (fun a y => f a = Some y) x ids ->
  forall y z, In (y, z) (combine ids (map g x)) <-> exists a, In a x /\ f a = Some y /\ g a = z.
Proof.
  induction 1 as [|a y x ids H1 H2 IH]; intros y' z; simpl; [split; [intros []|intros (? & [] & _)]|]. rewrite IH. split.
  - intros [[= <- <-]|(b & B)]; [exists a; auto|exists b; tauto].
  - intros (b & [<-|Hb] & B1 & B2); [left; congruence|right; exists b; auto].
Qed.
Lemma vfrom_dict {V} (x : list (nkey * V)) ids : NoDup (map fst x) -> mapO (fun kv => dget d (fst kv)) x = Some ids ->
  forall k i a, dget d k = Some i -> (vget (vfrom n (combine ids (map snd x))) i = Some a <-> In (k, a) x).
Proof.
  intros ND E k i a Hk. unfold vfrom. rewrite vget_vbuild, (proj2 (Nat.ltb_lt i n) (kok_lt _ _ ok _ _ Hk)).
  apply mapO_some in E. rewrite nassoc_In.
  - rewrite (Forall2_combine _ snd x ids E). split.
    + intros ([k' a'] & H & Hi & <-). simpl in *. assert (k' = k) by (eapply kok_inj; eassumption). subst. assumption.
    + intros H. exists (k, a). auto.
  - assert (L : List.length ids = List.length (map snd x)) by (rewrite map_length; symmetry; clear - E; induction E; simpl; auto).
    assert (FC : forall (A B : Type) (p : list A) (q : list B), List.length p = List.length q -> map fst (combine p q) = p).
    { clear. induction p as [|a p IH]; intros [|b q] L; simpl in *; try discriminate; [reflexivity|]. rewrite IH by lia. reflexivity. }
    rewrite FC by assumption. clear L FC. revert ND. clear - E ok. induction E as [|[k a] i x ids H1 H2 IH]; simpl; intros ND; [constructor|].
    inversion ND as [|? ? H3 H4]; subst. constructor; [|apply IH; assumption]. intros Hc. apply H3.
    assert (exists p, In p x /\ dget d (fst p) = Some i) as ([k' a'] & Hp & Hi).
    { clear - H2 Hc. induction H2; [destruct Hc|]. destruct Hc as [->|Hc]; [exists x; simpl; auto|]. destruct (IHForall2 Hc) as (p & P1 & P2). exists p. simpl. auto. }
    simpl in *. assert (k' = k) by (eapply kok_inj; eassumption). subst. apply in_map_iff. exists (k, a'). auto.
Qed.
Lemma vector_to_dict_ok {V} (v : vec V) : vsize v <= n -> exists y, vector_to_dict d None v = Val y /\ NoDup (map fst y) /\
  forall k a, In (k, a) y <-> exists i, dget d k = Some i /\ vget v i = Some a.
Proof.
  intros S. unfold vector_to_dict.
  destruct (mapO_total (fun ix : nat * V => match ikey d (fst ix) with Some k => Some (k, snd ix) | None => None end) (vcoo v)) as [y Hy].
  { intros [i a] Hi. apply in_vcoo in Hi. destruct (kok_ikey _ _ ok i) as [k Hk]; [|simpl; rewrite Hk; eauto].
    assert (has (vget v i) = true) as HH by (rewrite Hi; reflexivity). apply has_vget_lt in HH. lia. }
  rewrite Hy. exists y. split; [reflexivity|]. split.
  - destruct (kok_indices d n v ok S) as (l & Hl & ND & _). replace (map fst y) with l; [assumption|].
    apply mapO_some in Hy, Hl. unfold vindices in Hl. clear - Hy Hl. revert l Hl. induction Hy as [|[i a] [k b] co y H1 H2 IH]; intros l Hl; simpl in *.
    + inversion Hl. reflexivity.
    + inversion Hl as [|? k' ? l' H3 H4]; subst. rewrite H3 in H1. injection H1 as -> ->. f_equal. apply IH. assumption.
  - intros k a. rewrite (mapO_in _ _ _ Hy). split.
    + intros ([i b] & Hi & E). simpl in E. destruct (ikey d i) as [k'|] eqn:Ek; [|discriminate]. injection E as -> ->.
      exists i. split; [apply (kok_inv _ _ ok); assumption|apply in_vcoo; assumption].
    + intros (i & Hk & Hi). exists (i, a). split; [apply in_vcoo; assumption|]. simpl. apply (kok_inv _ _ ok) in Hk. rewrite Hk. reflexivity.
Qed.
Theorem C63_dict_vector {V} (x : list (nkey * V)) v : NoDup (map fst x) -> dict_to_vector d n x = Val v ->
  exists y, vector_to_dict d None v = Val y /\ NoDup (map fst y) /\ forall k a, In (k, a) y <-> In (k, a) x.
Proof.
  intros ND E. unfold dict_to_vector in E. destruct (mapO (fun kv => dget d (fst kv)) x) as [ids|] eqn:Ei; [|discriminate].
  assert (v = vfrom n (combine ids (map snd x))) as -> by (destruct x; [discriminate|congruence]).
  destruct (vector_to_dict_ok (vfrom n (combine ids (map snd x)))) as (y & Hy & NDy & H); [unfold vfrom; rewrite vsize_vbuild; reflexivity|].
  exists y. split; [assumption|]. split; [assumption|]. intros k a. rewrite H. split.
  - intros (i & Hk & Hi). apply (vfrom_dict x ids ND Ei k i a Hk). assumption.
  - intros Hx. assert (exists i, dget d k = Some i) as [i Hk].
    { apply dget_some. apply (proj1 (nodes_mapO (@fst nkey V) x) (ex_intro _ ids Ei) (k, a) Hx). }
    exists i. split; [assumption|]. apply (vfrom_dict x ids ND Ei k i a Hk). assumption.
Qed.
Theorem C63_vector_dict {V} (v : vec V) x : vsize v = n -> nvals v <> 0 -> vector_to_dict d None v = Val x ->
  exists v', dict_to_vector d n x = Val v' /\ forall i, vget v' i = vget v i.
Proof.
  intros S NZ E. destruct (vector_to_dict_ok v) as (y & Hy & ND & H); [lia|]. rewrite E in Hy. injection Hy as <-.
  destruct (proj2 (nodes_mapO (@fst nkey V) x)) as [ids Ei].
  { intros [k a] Hk. apply H in Hk as (i & Hk & _). apply dget_some. eauto. }
  unfold dict_to_vector. rewrite Ei. destruct x as [|p x'] eqn:Ex.
  { exfalso. assert (P : 0 < nvals v) by lia. apply nvals_pos in P as (i & a & Hi). destruct (kok_key _ _ ok i) as [k Hk].
    { assert (has (vget v i) = true) as HH by (rewrite Hi; reflexivity). apply has_vget_lt in HH. lia. }
    destruct (proj2 (H k a)); eauto. }
  rewrite <- Ex in *. eexists. split; [reflexivity|]. intros i. destruct (Nat.lt_ge_cases i n) as [L|L].
  - destruct (kok_key _ _ ok i L) as [k Hk]. pose proof (fun a => vfrom_dict x ids ND Ei k i a Hk) as X.
    destruct (vget v i) as [a|] eqn:Ea; [apply X, H; eauto|]. destruct (vget _ i) as [a|] eqn:Eb; [|reflexivity].
    destruct (proj1 (H k a) (proj1 (X a) eq_refl)) as (j & Hj & Hv). congruence.
  - rewrite !vget_out; [reflexivity| |]; unfold vfrom; rewrite ?vsize_vbuild; lia.
Qed.
(** with a fill value every node is a key *)
Theorem C63_vector_dict_fill {V} (v : vec V) f : vsize v = n -> exists y, vector_to_dict d (Some f) v = Val y /\ NoDup (map fst y) /\
  forall k a, In (k, a) y <-> exists i, dget d k = Some i /\ a = oget f (vget v i).
Proof.
  intros S. set (v1 := if nvals v <? vsize v then vassign (mNS v) f v else v).
  assert (G1 : vsize v1 = n /\ forall i, i < n -> vget v1 i = Some (oget f (vget v i))).
  { unfold v1. destruct (Nat.ltb_spec (nvals v) (vsize v)) as [L|L].
    - split; [rewrite vsize_vassign; assumption|]. intros i Hi. rewrite vget_vassign, (proj2 (Nat.ltb_lt i (vsize v))) by lia. unfold mNS.
      destruct (vget v i); reflexivity.
    - split; [assumption|]. intros i Hi. assert (X : nvals v = vsize v) by (pose proof (cnt_le_n (vsize v) (fun i => has (vget v i))); unfold nvals in *; lia).
      unfold nvals in X. rewrite cnt_all in X. specialize (X i ltac:(lia)). destruct (vget v i); [reflexivity|discriminate]. }
  destruct G1 as [S1 G1]. destruct (vector_to_dict_ok v1) as (y & Hy & ND & H); [lia|]. exists y. split; [exact Hy|]. split; [assumption|].
  intros k a. rewrite H. split; intros (i & Hk & Hi); exists i; (split; [assumption|]); rewrite G1 in * by (eapply kok_lt; eassumption); congruence.
Qed.
(** with a mask and a fill value: exactly the masked nodes are keys, when the vector has no entry outside the mask *)
Theorem C63_vector_dict_mask {V W} (v : vec V) (mask : vec W) f : vsize v = n -> vsize mask = n ->
  (forall i, has (vget v i) = true -> has (vget mask i) = true) ->
  exists y, vector_to_dict_mask d mask (Some f) v = Val y /\ NoDup (map fst y) /\
  forall k a, In (k, a) y <-> exists i, dget d k = Some i /\ has (vget mask i) = true /\ a = oget f (vget v i).
Proof.
  intros S Sm Hsub. unfold vector_to_dict_mask. set (v1 := if nvals v <? nvals mask then _ else v).
  assert (G1 : vsize v1 = n /\ forall i, vget v1 i = if has (vget mask i) then Some (oget f (vget v i)) else None).
  { unfold v1. destruct (Nat.ltb_spec (nvals v) (nvals mask)) as [L|L].
    - split; [rewrite vsize_vassign; assumption|]. intros i. rewrite vget_vassign. unfold mS. specialize (Hsub i). destruct (Nat.ltb_spec i (vsize v)) as [Hi|Hi].
      + destruct (vget v i); cbn [has] in *; [rewrite Hsub by reflexivity; reflexivity|]. destruct (has (vget mask i)); reflexivity.
      + rewrite (vget_out mask) by lia. reflexivity.
    - split; [assumption|]. intros i. assert (E : forall j, j < n -> has (vget v j) = has (vget mask j)).
      { unfold nvals in L. rewrite S, Sm in L. clear - L Hsub. revert L. induction n as [|m IH]; intros L j Hj; [lia|]. rewrite !cnt_S in L.
        assert (A : cnt m (fun i => has (vget v i)) <= cnt m (fun i => has (vget mask i))) by (apply cnt_mono; intros; apply Hsub; assumption).
        assert (B : has (vget v m) = true -> has (vget mask m) = true) by apply Hsub.
        destruct (has (vget v m)) eqn:E1, (has (vget mask m)) eqn:E2; try (specialize (B eq_refl); discriminate); try lia;
          (destruct (Nat.eq_dec j m) as [->|]; [congruence|apply IH; lia]). }
      destruct (Nat.lt_ge_cases i n) as [Hi|Hi].
      + rewrite <- (E i Hi). destruct (vget v i); reflexivity.
      + rewrite !vget_out by lia. reflexivity. }
  destruct G1 as [S1 G1]. destruct (vector_to_dict_ok v1) as (y & Hy & ND & H); [lia|]. exists y. split; [exact Hy|]. split; [assumption|].
  intros k a. rewrite H. split.
  - intros (i & Hk & Hi). exists i. rewrite G1 in Hi. destruct (has (vget mask i)); [|discriminate]. split; [assumption|]. split; [reflexivity|congruence].
  - intros (i & Hk & Hm & ->). exists i. rewrite G1, Hm. auto.
Qed.
(** renumber_key_to_id: the a-th of the given ids becomes a *)
Theorem C63_renumber ids : NoDup ids -> (forall i, In i ids -> i < n) -> exists r, renumber_key_to_id d ids = Val r /\ kok r (List.length ids) /\
  forall k a, dget r k = Some a <-> exists i, nth_error ids a = Some i /\ dget d k = Some i.
Proof.
  intros ND L. destruct (mapO_total (ikey d) ids) as [ks Hks]. { intros i Hi. apply (kok_ikey _ _ ok). auto. }
  unfold renumber_key_to_id. rewrite Hks. pose proof (mapO_length _ _ _ Hks) as EL.
  assert (NDk : NoDup ks).
  { pose proof (mapO_some (ikey d) ids ks) as [X _]. specialize (X Hks). clear - X ND ok. induction X as [|i k ids ks H1 H2 IH]; [constructor|].
    inversion ND as [|? ? N1 N2]; subst. constructor; [|auto]. intros Hc. apply N1.
    assert (exists j, In j ids /\ ikey d j = Some k) as (j & Hj & Hk).
    { clear - H2 Hc. induction H2; [destruct Hc|]. destruct Hc as [->|Hc]; [exists x; simpl; auto|]. destruct (IHForall2 Hc) as (j & J1 & J2). exists j. simpl. auto. }
    apply (kok_inv _ _ ok) in H1, Hk. assert (i = j) by congruence. subst. assumption. }
  assert (FC : forall s acc, NoDup (map fst acc ++ ks) -> fold_left (fun acc ki => dset acc (fst ki) (snd ki)) (combine ks (seq s (List.length ks))) acc = acc ++ combine ks (seq s (List.length ks))).
  { clear. induction ks as [|k ks IH]; intros s acc N; simpl; [rewrite app_nil_r; reflexivity|]. rewrite dset_new.
    - rewrite IH; [rewrite <- app_assoc; reflexivity|]. rewrite map_app. simpl. rewrite <- app_assoc. exact N.
    - apply NoDup_remove in N as [_ N]. intros Hc. apply N. apply in_or_app. auto. }
  rewrite FC by assumption. simpl. eexists. split; [reflexivity|].
  assert (F : forall s, map fst (combine ks (seq s (List.length ks))) = ks /\ map snd (combine ks (seq s (List.length ks))) = seq s (List.length ks)).
  { clear. induction ks as [|k ks IH]; intros s; simpl; [auto|]. destruct (IH (S s)) as [-> ->]. auto. }
  assert (K : kok (combine ks (seq 0 (List.length ks))) (List.length ids)).
  { split; [rewrite (proj1 (F 0)); assumption|rewrite (proj2 (F 0)), EL; apply Permutation_refl]. }
  split; [exact K|]. intros k a.
  assert (C : dget (combine ks (seq 0 (List.length ks))) k = Some a <-> nth_error ks a = Some k).
  { rewrite (conj (dget_In _ k a) (In_dget _ k a (proj1 K)) : _ <-> _).
    assert (X : forall s, In (k, a) (combine ks (seq s (List.length ks))) <-> s <= a /\ nth_error ks (a - s) = Some k).
    { clear. induction ks as [|x ks IH]; intros s; simpl.
      - split; [intros []|intros [_ H]]. destruct (a - s); discriminate.
      - rewrite IH. split.
        + intros [[= -> ->]|[A B]]; [split; [lia|]; rewrite Nat.sub_diag; reflexivity|]. split; [lia|]. replace (a - s) with (S (a - S s)) by lia. assumption.
        + intros [A B]. destruct (Nat.eq_dec a s) as [->|]; [rewrite Nat.sub_diag in B; simpl in B; left; congruence|]. right. split; [lia|].
          replace (a - s) with (S (a - S s)) in B by lia. assumption. }
    rewrite X, Nat.sub_0_r. split; [tauto|]. intros H. split; [lia|assumption]. }
  rewrite C. apply mapO_some in Hks. clear - Hks ok. split.
  - intros H. revert ids Hks. revert a H. induction ks as [|x ks IH]; intros [|a] H ids F; try discriminate; inversion F; subst; simpl in *.
    + injection H as ->. eexists. split; [reflexivity|]. apply (kok_inv _ _ ok). assumption.
    + eapply IH; eassumption.
  - intros (i & Hi & Hk). apply (kok_inv _ _ ok) in Hk. revert ks Hks. revert a Hi. induction ids as [|x ids IH]; intros [|a] Hi ks F; try discriminate; inversion F; subst; simpl in *.
    + congruence.
    + eapply IH; eassumption.
Qed.
End C63.
(** with an entry outside the mask there are as many entries as masked nodes: nothing is filled, the masked node has no key and the
    other one has *)
Theorem C63_mask_refuted : exists (v : vec Z) (mask : vec bool) y, vsize v = 2 /\ vsize mask = 2 /\
  vector_to_dict_mask [(KI 10, 0); (KI 11, 1)] mask (Some 0%Z) v = Val y /\ y = [(KI 10, 5%Z)] /\ has (vget mask 1) = true.
Proof. exists [Some 5%Z; None], [None; Some true]. eexists. repeat split; vm_compute; reflexivity. Qed.
(** the empty dict is refused *)
Theorem C63_empty_dict_refuted : dict_to_vector kid3 3 (@nil (nkey * Z)) = Raise EValue.
Proof. reflexivity. Qed.
Example C63_ex : list_to_ids kid3 [KS "c"; KS "a"; KS "c"] = Val [2; 0; 2] /\ list_to_keys kid3 [2; 0; 2] = Val [KS "c"; KS "a"; KS "c"] /\
  list_to_ids kid3 [KS "q"] = Raise EKey /\ renumber_key_to_id kid3 [2; 0] = Val [(KS "c", 0); (KS "a", 1)] /\
  obind (dict_to_vector kid3 3 [(KS "c", 5%Z); (KS "a", 6%Z)]) (vector_to_dict kid3 (Some 0%Z)) = Val [(KS "a", 6%Z); (KS "b", 0%Z); (KS "c", 5%Z)].
Proof. vm_compute. auto 10. Qed.

(** ** C65: matrix_to_dicts *)
(** row and column labels: numbers as they are, or the nodes' keys *)
Definition label (d : kidmap) (use_index : bool) (i : nat) (x : nat + nkey) : Prop :=
  if use_index then x = inl i else exists k, dget d k = Some i /\ x = inr k.
(** a dict of dicts given by its items shows exactly [E] *)
Definition shows {W} (L : list ((nat + nkey) * list ((nat + nkey) * W))) (E : nat + nkey -> nat + nkey -> W -> Prop) : Prop :=
  NoDup (map fst L) /\ (forall r row, In (r, row) L -> row <> [] /\ NoDup (map fst row)) /\
  forall r c x, (exists row, In (r, row) L /\ In (c, x) row) <-> E r c x.
Lemma mapO_NoDup {X Y A B} (f : X -> option Y) (p : X -> A) (q : Y -> B) l ys : mapO f l = Some ys -> NoDup (map p l) ->
  (forall x x' y y', f x = Some y -> f x' = Some y' -> q y = q y' -> p x = p x') -> NoDup (map q ys).
Proof.
  intros E ND H. apply mapO_some in E. induction E as [|x y l ys H1 H2 IH]; simpl in *; [constructor|].
  inversion ND as [|? ? N1 N2]; subst. constructor; [|auto]. intros Hc. apply in_map_iff in Hc as (y' & E1 & E2). apply N1.
  assert (exists x', In x' l /\ f x' = Some y') as (x' & X1 & X2).
  { clear - H2 E2. induction H2; [destruct E2|]. destruct E2 as [->|E2]; [exists x; simpl; auto|]. destruct (IHForall2 E2) as (j & J1 & J2). exists j. simpl. auto. }
  apply in_map_iff. exists x'. split; [eapply H; eauto|assumption].
Qed.
Lemma mlabel_ok d n b i : kok d n -> i < n -> exists x, mlabel d b i = Some x.
Proof. intros ok L. unfold mlabel. destruct b; [eauto|]. destruct (kok_ikey _ _ ok i L) as [k ->]. eauto. Qed.
Lemma mlabel_label d n b i x : kok d n -> (mlabel d b i = Some x <-> label d b i x).
Proof.
  intros ok. unfold mlabel, label. destruct b; [split; congruence|]. destruct (ikey d i) as [k|] eqn:E.
  - apply (kok_inv _ _ ok) in E. split; [intros [= <-]; eauto|]. intros (k' & Hk & ->). do 2 f_equal. eapply kok_inj; eassumption.
  - split; [discriminate|]. intros (k & Hk & _). apply (kok_inv _ _ ok) in Hk. congruence.
Qed.
Lemma mlabel_inj d n b i j x : kok d n -> mlabel d b i = Some x -> mlabel d b j = Some x -> i = j.
Proof.
  intros ok. rewrite !(mlabel_label d n) by assumption. unfold label. destruct b; [intros -> [= ->]; reflexivity|].
  intros (k & Hk & ->) (k' & Hk' & [= <-]). congruence.
Qed.
Lemma idicts_in {V} (m : mat V) i l : In (i, l) (matrix_to_idicts m) <-> i < nrows m /\ l = vcoo (mrow m i) /\ l <> [].
Proof.
  unfold matrix_to_idicts. rewrite filter_In, in_map_iff. split.
  - intros [(j & E & Hj) HX]. injection E as <- <-. apply in_seq in Hj. simpl in HX. unfold mrow_entries in *. split; [lia|]. split; [reflexivity|]. destruct (vcoo _); congruence.
  - intros (L & -> & H). split; [exists i; split; [reflexivity|apply in_seq; lia]|]. simpl. unfold mrow_entries in *. destruct (vcoo (mrow m i)); congruence.
Qed.
Lemma mtd_ok {V W} d n br bc (val : V -> option W) (m : mat V) : kok d n -> mwf m -> (br = true \/ nrows m <= n) -> (bc = true \/ ncols m <= n) ->
  (forall i j x, mget m i j = Some x -> exists w, val x = Some w) ->
  exists L, mtd (mlabel d br) (mlabel d bc) val m = Val L /\
    shows L (fun r c w => exists i j x, mget m i j = Some x /\ label d br i r /\ label d bc j c /\ val x = Some w).
Proof.
  intros ok W0 Hr Hc Hv. unfold mtd.
  assert (LR : forall i, i < nrows m -> exists x, mlabel d br i = Some x).
  { intros i L. destruct Hr as [->|Hr]; [simpl; eauto|]. eapply mlabel_ok; [eassumption|lia]. }
  assert (LC : forall j, j < ncols m -> exists x, mlabel d bc j = Some x).
  { intros i L. destruct Hc as [->|Hc]; [simpl; eauto|]. eapply mlabel_ok; [eassumption|lia]. }
  assert (RL : forall i, exists row, relabel (mlabel d bc) val (vcoo (mrow m i)) = Some row /\ NoDup (map fst row) /\ (row = [] <-> vcoo (mrow m i) = []) /\
      forall c w, In (c, w) row <-> exists j x, mget m i j = Some x /\ label d bc j c /\ val x = Some w).
  { intros i. unfold relabel. destruct (mapO_total (fun ix : nat * V => match mlabel d bc (fst ix), val (snd ix) with Some k, Some w => Some (k, w) | _, _ => None end) (vcoo (mrow m i))) as [row Hrow].
    { intros [j x] Hj. apply in_vcoo in Hj. simpl. change (mget m i j = Some x) in Hj. destruct (Hv _ _ _ Hj) as [w ->].
      pose proof (mget_some_lt _ _ _ _ W0 Hj) as [_ L]. destruct (LC j L) as [k ->]. eauto. }
    exists row. split; [exact Hrow|]. split; [|split].
    - eapply (mapO_NoDup _ fst fst); [exact Hrow|apply NoDup_vindices|]. intros [j x] [j' x'] [c w] [c' w'] H1 H2 [= <-]. simpl in *.
      destruct (mlabel d bc j) eqn:E1; [|discriminate]. destruct (val x); [|discriminate]. destruct (mlabel d bc j') eqn:E2; [|discriminate]. destruct (val x'); [|discriminate].
      injection H1 as -> ->. injection H2 as -> ->. simpl in *. eapply mlabel_inj; eassumption.
    - pose proof (mapO_length _ _ _ Hrow) as E. split; intros X; rewrite X in E; simpl in E; [destruct (vcoo _)|destruct row]; simpl in E; try reflexivity; discriminate.
    - intros c w. rewrite (mapO_in _ _ _ Hrow). split.
      + intros ([j x] & Hj & E). apply in_vcoo in Hj. simpl in E. destruct (mlabel d bc j) eqn:E1; [|discriminate]. destruct (val x) eqn:E2; [|discriminate].
        injection E as -> ->. exists j, x. split; [exact Hj|]. split; [apply (mlabel_label d n); assumption|assumption].
      + intros (j & x & Hj & Hl & Hw). exists (j, x). split; [apply in_vcoo; exact Hj|]. simpl. apply (mlabel_label d n bc j c ok) in Hl. rewrite Hl, Hw. reflexivity. }
  destruct (mapO_total (fun r : nat * list (nat * V) => match mlabel d br (fst r), relabel (mlabel d bc) val (snd r) with Some k, Some l => Some (k, l) | _, _ => None end) (matrix_to_idicts m)) as [L HL].
  { intros [i l] Hi. apply idicts_in in Hi as (Li & -> & _). simpl. destruct (LR i Li) as [k ->]. destruct (RL i) as (row & -> & _). eauto. }
  exists L. unfold okey. rewrite HL. split; [reflexivity|].
  assert (IN : forall r row, In (r, row) L <-> exists i, i < nrows m /\ mlabel d br i = Some r /\ relabel (mlabel d bc) val (vcoo (mrow m i)) = Some row /\ vcoo (mrow m i) <> []).
  { intros r row. rewrite (mapO_in _ _ _ HL). split.
    - intros ([i l] & Hi & E). apply idicts_in in Hi as (Li & -> & Hne). simpl in E. destruct (mlabel d br i) eqn:E1; [|discriminate].
      destruct (relabel _ _ _) eqn:E2; [|discriminate]. injection E as -> ->. eauto.
    - intros (i & Li & E1 & E2 & Hne). exists (i, vcoo (mrow m i)). split; [apply idicts_in; auto|]. simpl. rewrite E1, E2. reflexivity. }
  split; [|split].
  - eapply (mapO_NoDup _ fst fst); [exact HL| |].
    + unfold matrix_to_idicts. assert (X : forall l, NoDup l -> NoDup (map fst (filter (fun r : nat * list (nat * V) => match snd r with [] => false | _ => true end) (map (fun i => (i, mrow_entries m i)) l)))).
      { intros l ND. induction ND as [|i l N1 N2 IH]; simpl; [constructor|]. destruct (mrow_entries m i); [assumption|]. simpl. constructor; [|assumption].
        intros HC. apply N1. apply in_map_iff in HC as ([a b] & E & Hin). apply filter_In in Hin as [Hin _]. apply in_map_iff in Hin as (y & EE & Hy). simpl in E. congruence. }
      apply X, seq_NoDup.
    + intros [i l] [i' l'] [r row] [r' row'] H1 H2 [= <-]. simpl in *.
      destruct (mlabel d br i) eqn:E1; [|discriminate]. destruct (relabel _ _ l); [|discriminate]. destruct (mlabel d br i') eqn:E2; [|discriminate]. destruct (relabel _ _ l'); [|discriminate].
      injection H1 as -> ->. injection H2 as -> ->. eapply mlabel_inj; eassumption.
  - intros r row Hin. apply IN in Hin as (i & Li & E1 & E2 & Hne). destruct (RL i) as (row' & E & ND & Hnil & _). rewrite E in E2. injection E2 as ->.
    split; [rewrite Hnil; assumption|assumption].
  - intros r c w. split.
    + intros (row & Hin & Hc1). apply IN in Hin as (i & Li & E1 & E2 & Hne). destruct (RL i) as (row' & E & _ & _ & HR). rewrite E in E2. injection E2 as ->.
      apply HR in Hc1 as (j & x & Hx & Hl & Hw). exists i, j, x. split; [assumption|]. split; [apply (mlabel_label d n); assumption|auto].
    + intros (i & j & x & Hx & Hl & Hl2 & Hw). destruct (RL i) as (row & E & _ & _ & HR). exists row. split; [|apply HR; eauto].
      apply IN. exists i. split; [apply (mget_some_lt _ _ _ _ W0 Hx)|]. split; [apply (mlabel_label d n br i r ok); assumption|]. split; [assumption|].
      intros Hn. assert (Hj : In (j, x) (vcoo (mrow m i))) by (apply in_vcoo; exact Hx). rewrite Hn in Hj. destruct Hj.
Qed.
(** every labelling; with key labels the matrix must not be larger than the numbering *)
Theorem C65_matrix_to_dicts {V} d n br bc (m : mat V) : kok d n -> mwf m -> (br = true \/ nrows m <= n) -> (bc = true \/ ncols m <= n) ->
  exists L, matrix_to_dicts d br bc m = Val L /\
    shows L (fun r c x => exists i j, mget m i j = Some x /\ label d br i r /\ label d bc j c).
Proof.
  intros ok W Hr Hc. destruct (mtd_ok d n br bc (@Some V) m ok W Hr Hc) as (L & E & A & B & C); [eauto|]. exists L. split; [exact E|]. split; [assumption|].
  split; [assumption|]. intros r c x. rewrite C. split.
  - intros (i & j & y & H1 & H2 & H3 & [= ->]). eauto 10.
  - intros (i & j & H1 & H2 & H3). exists i, j, x. auto.
Qed.
(** values_are_keys *)
Theorem C65_matrix_to_dicts_keys d n br bc (m : mat nat) : kok d n -> mwf m -> (br = true \/ nrows m <= n) -> (bc = true \/ ncols m <= n) ->
  (forall i j x, mget m i j = Some x -> x < n) ->
  exists L, matrix_to_dicts_keys d br bc m = Val L /\
    shows L (fun r c k => exists i j x, mget m i j = Some x /\ dget d k = Some x /\ label d br i r /\ label d bc j c).
Proof.
  intros ok W Hr Hc Hx. destruct (mtd_ok d n br bc (ikey d) m ok W Hr Hc) as (L & E & A & B & C).
  { intros i j x H. apply (kok_ikey _ _ ok). eapply Hx; eassumption. }
  exists L. split; [exact E|]. split; [assumption|]. split; [assumption|]. intros r c k. rewrite C. split.
  - intros (i & j & y & H1 & H2 & H3 & H4). apply (kok_inv _ _ ok) in H4. eauto 10.
  - intros (i & j & x & H1 & H2 & H3 & H4). apply (kok_inv _ _ ok) in H2. exists i, j, x. auto.
Qed.
(** a transposed matrix, when rows and columns are labelled in the same way *)
Theorem C65_transposed {V} d n b (m : mat V) : kok d n -> mwf m -> (b = true \/ (nrows m <= n /\ ncols m <= n)) ->
  exists L, matrix_to_dicts_T d b b m = Val L /\
    shows L (fun r c x => exists i j, mget m j i = Some x /\ label d b i r /\ label d b j c).
Proof.
  intros ok W H. destruct (C65_matrix_to_dicts d n b b (mtrans m) ok) as (L & E & A & B & C).
  - apply mwf_mbuild.
  - destruct H as [->|[H1 H2]]; [auto|right]. unfold mtrans. rewrite nrows_mbuild. assumption.
  - destruct H as [->|[H1 H2]]; [auto|right]. unfold mtrans. simpl. assumption.
  - exists L. split; [exact E|]. split; [assumption|]. split; [assumption|]. intros r c x. rewrite C. split; intros (i & j & X & Y); exists i, j; rewrite mget_mtrans in *; auto.
Qed.
(** with use_row_index=True alone, a transposed matrix comes back with keys for rows and numbers for columns *)
Theorem C65_transposed_flags_refuted :
  matrix_to_dicts_T kid3 true false (mbuild 3 3 (fun i j => if (i =? 1) && (j =? 2) then Some 5%Z else None)) = Val [(inr (KS "c"), [(inl 1, 5%Z)])].
Proof. vm_compute. reflexivity. Qed.
Example C65_ex : matrix_to_dicts kid3 false false (rm_m rm3) =
  Val [(inr (KS "a"), [(inr (KS "b"), 4%Z)]); (inr (KS "c"), [(inr (KS "a"), 9%Z); (inr (KS "b"), 9%Z); (inr (KS "c"), 9%Z)])].
Proof. vm_compute. reflexivity. Qed.
Print Assumptions C60_nodemap.
Print Assumptions C60_nodemap_fill.
Print Assumptions C60_values_are_keys.
Print Assumptions C60_foreign_key.
Print Assumptions C61_nodeset.
Print Assumptions C61_eq.
Print Assumptions C61_isdisjoin.
Print Assumptions C62_vectormap.
Print Assumptions C62_vectornodemap.
Print Assumptions C62_nodenodemap.
Print Assumptions C63_list_to_vector_domain.
Print Assumptions C63_set_to_vector_domain.
Print Assumptions C63_dict_to_vector_domain.
Print Assumptions C63_dict_vector.
Print Assumptions C63_vector_dict.
Print Assumptions C63_renumber.
Print Assumptions C65_matrix_to_dicts.
Print Assumptions C65_matrix_to_dicts_keys.
Print Assumptions C65_transposed.
