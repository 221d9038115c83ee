(** * The containers follow the dict / set laws *)
From Verif Require Import Base BaseProofs Model_Graph Model_Keys Spec Spec_Containers Model_Containers KeyProofs.
From Coq Require Import Permutation.

(** keys of the stored entries of a vector, for any numbering *)
Lemma kok_indices {V} d n (v : vec V) : kok d n -> vsize v <= n ->
  exists l, mapO (ikey d) (vindices v) = Some l /\ NoDup l /\ List.length l = nvals v /\
    forall k, In k l <-> exists i, dget d k = Some i /\ has (vget v i) = true.
Proof.
  intros ok Hs. destruct (mapO_total (ikey d) (vindices v)) as [l Hl].
  { intros i Hi. apply in_vindices in Hi. destruct (kok_ikey _ _ ok i) as [k Hk]; [|eauto]. apply has_vget_lt in Hi. lia. }
  exists l. split; [assumption|]. split; [|split].
  - pose proof (NoDup_vindices v) as ND. revert l Hl. revert ND. generalize (vindices v) as il.
    intros il ND. induction ND as [|i il Hni ND IH]; intros l Hl; simpl in Hl.
    + injection Hl as <-. constructor.
    + destruct (ikey d i) as [k|] eqn:Ei; [|discriminate]. destruct (mapO (ikey d) il) as [ks|] eqn:Ek; [|discriminate].
      injection Hl as <-. constructor; [|apply IH; reflexivity]. intros Hc.
      apply (mapO_in _ _ _ Ek) in Hc as (j & Hj & Hjk). apply Hni.
      apply (kok_inv _ _ ok) in Ei, Hjk. congruence.
  - rewrite (mapO_length _ _ _ Hl), length_vindices. reflexivity.
  - intros k. rewrite (mapO_in _ _ _ Hl). split.
    + intros (i & Hi & Hk). exists i. split; [apply (kok_inv _ _ ok); assumption|apply in_vindices; assumption].
    + intros (i & Hk & Hi). exists i. split; [apply in_vindices; assumption|apply (kok_inv _ _ ok); assumption].
Qed.
Lemma has_not_none {V} (o : option V) : has o = true <-> o <> None.
Proof. destruct o; simpl; split; congruence. Qed.
Lemma vcoo_head {V} (v : vec V) i x l : vcoo v = (i, x) :: l -> vget v i = Some x.
Proof. intros E. apply in_vcoo. rewrite E. left. reflexivity. Qed.
Lemma vcoo_nil {V} (v : vec V) : vcoo v = [] -> forall i, vget v i = None.
Proof. intros E i. destruct (vget v i) eqn:H; [|reflexivity]. apply in_vcoo in H. rewrite E in H. destruct H. Qed.

Lemma vget_vset_eq {V} (v : vec V) i x : i < vsize v -> vget (vset v i x) i = Some x.
Proof. intros L. rewrite vget_vset, Nat.eqb_refl, (proj2 (Nat.ltb_lt _ _) L). reflexivity. Qed.
Lemma vget_vset_ne {V} (v : vec V) i x j : j <> i -> vget (vset v i x) j = vget v j.
Proof.
  intros H. rewrite vget_vset, (proj2 (Nat.eqb_neq _ _) H). destruct (Nat.ltb_spec j (vsize v)); [reflexivity|].
  symmetry. apply vget_out. assumption.
Qed.
Lemma vget_vdel_eq {V} (v : vec V) i : vget (vdel v i) i = None.
Proof. rewrite vget_vdel, Nat.eqb_refl. reflexivity. Qed.
Lemma vget_vdel_ne {V} (v : vec V) i j : j <> i -> vget (vdel v i) j = vget v j.
Proof. intros H. rewrite vget_vdel, (proj2 (Nat.eqb_neq _ _) H). reflexivity. Qed.

Ltac fin3 := split; [assumption|split; [reflexivity|split; [auto|]]].
Ltac fin2 := split; [assumption|split; [reflexivity|]].
(** ** NodeMap *)
Section NodeMap.
Context {V : Type}.
Lemma nm_put (m : nodemap V) k i o f : nm_ok m -> dget (nm_kid m) k = Some i -> (o = None -> nm_fill m = None) -> f = nm_fill m ->
  put (nm_dict m) k o (nm_dict (NM (match o with Some x => vset (nm_v m) i x | None => vdel (nm_v m) i end) (nm_kid m) f)).
Proof.
  intros ok Hk Ho ->. split.
  - unfold nm_dict. simpl. rewrite Hk. pose proof (kok_lt _ _ ok _ _ Hk) as L. destruct o as [x|].
    + rewrite vget_vset_eq by assumption. reflexivity.
    + rewrite vget_vdel_eq. auto.
  - intros k' Hne. unfold nm_dict. simpl. destruct (dget (nm_kid m) k') as [i'|] eqn:Hk'; [|reflexivity].
    assert (i' <> i) by (intros ->; apply Hne; eapply kok_inj; eassumption).
    destruct o as [x|]; [rewrite vget_vset_ne by assumption|rewrite vget_vdel_ne by assumption]; reflexivity.
Qed.
Lemma nm_keys (m : nodemap V) : nm_ok m -> exists l, nm_iter m = Val l /\ keys_are (nm_dict m) l /\ nm_len m = List.length l.
Proof.
  intros ok. unfold nm_iter, nm_len. destruct (nm_fill m) as [f|] eqn:Ef.
  - exists (map fst (nm_kid m)). split; [reflexivity|]. split; [|rewrite map_length; reflexivity]. split; [apply ok|].
    intros k. unfold nm_dict. rewrite dget_some. split.
    + intros [i ->]. rewrite Ef. destruct (vget (nm_v m) i); discriminate.
    + destruct (dget (nm_kid m) k); [eauto|congruence].
  - destruct (kok_indices _ _ (nm_v m) ok (le_n _)) as (l & Hl & ND & Hn & Hin). exists l. rewrite Hl. split; [reflexivity|].
    split; [|symmetry; assumption]. split; [assumption|]. intros k. rewrite Hin. unfold nm_dict. rewrite Ef. split.
    + intros (i & -> & Hi). apply has_true in Hi as [x ->]. discriminate.
    + destruct (dget (nm_kid m) k) as [i|]; [|congruence]. intros H. exists i. split; [reflexivity|]. destruct (vget (nm_v m) i); [reflexivity|congruence].
Qed.
Lemma nm_step_ok (m : nodemap V) o r m' : nm_ok m -> op_node (nm_kid m) o -> (nm_fill m <> None -> no_removal o) -> nm_step m o = (r, m') ->
  nm_ok m' /\ nm_kid m' = nm_kid m /\ (nm_fill m = None -> nm_fill m' = None) /\ dict_step false true (nm_dict m) o r (nm_dict m').
Proof.
  intros ok Hn Hf E.
  assert (SAME : same (nm_dict m) (nm_dict m)) by (intros k; reflexivity).
  destruct o as [k|k x|k x|k|k| | | | |k x|k x]; simpl in Hn, E.
  - apply dget_some in Hn as [i Hk]. unfold nm_getitem in E. rewrite Hk in E. simpl. unfold nm_dict at 3. rewrite Hk.
    destruct (vget (nm_v m) i) as [y|]; [|destruct (nm_fill m) eqn:Ef]; simpl in E; injection E as <- <-; auto.
    split; [assumption|]. split; [reflexivity|]. split; [congruence|auto].
  - apply dget_some in Hn as [i Hk]. unfold nm_get in E. rewrite Hk in E. simpl in *. unfold nm_dict at 3. rewrite Hk.
    injection E as <- <-. fin3. split; [exact SAME|]. destruct (vget (nm_v m) i); [reflexivity|]. destruct (nm_fill m); reflexivity.
  - apply dget_some in Hn as [i Hk]. unfold nm_setitem in E. rewrite Hk in E. simpl in E. injection E as <- <-.
    split; [unfold nm_ok; simpl; rewrite vsize_vset; assumption|]. split; [reflexivity|]. split; [auto|].
    split; [reflexivity|]. apply (nm_put m k i (Some x) _ ok Hk); [discriminate|reflexivity].
  - apply dget_some in Hn as [i Hk]. unfold nm_delitem in E. rewrite Hk in E. simpl in E. injection E as <- <-.
    assert (F : nm_fill m = None) by (destruct (nm_fill m); [exfalso; apply Hf; discriminate|reflexivity]).
    split; [unfold nm_ok; simpl; rewrite vsize_vdel; assumption|]. split; [reflexivity|]. split; [auto|].
    assert (P := nm_put m k i None _ ok Hk (fun _ => F) eq_refl). simpl in P. simpl.
    destruct (nm_dict m k) eqn:D; [auto|]. split; [reflexivity|]. intros k'. destruct (nkey_dec k' k) as [->|Hne].
    + rewrite D. apply P. + apply P. assumption.
  - apply dget_some in Hn as [i Hk]. unfold nm_contains in E. rewrite Hk in E. simpl in E. injection E as <- <-.
    fin3. split; [exact SAME|]. f_equal. unfold nm_dict. rewrite Hk. destruct (vget (nm_v m) i), (nm_fill m); reflexivity.
  - injection E as <- <-. fin3. split; [exact SAME|]. destruct (nm_keys m ok) as (l & _ & Hl & ->). eauto.
  - destruct (nm_keys m ok) as (l & Hl & Hkk & _). rewrite Hl in E. simpl in E. injection E as <- <-. fin3. split; [exact SAME|]. eauto.
  - injection E as <- <-. split; [unfold nm_ok; simpl; rewrite vsize_vempty; assumption|]. split; [reflexivity|]. split; [reflexivity|].
    split; [reflexivity|]. intros k. unfold nm_dict. simpl. destruct (dget (nm_kid m) k); [rewrite vget_vempty|]; reflexivity.
  - assert (F : nm_fill m = None) by (destruct (nm_fill m); [exfalso; apply Hf; discriminate|reflexivity]).
    unfold nm_popitem in E. destruct (vcoo (nm_v m)) as [|[i x] l] eqn:EC.
    + simpl in E. injection E as <- <-. fin3. right. split; [|auto]. intros k. unfold nm_dict.
      rewrite F. destruct (dget (nm_kid m) k) as [i|]; [|reflexivity]. rewrite (vcoo_nil _ EC). reflexivity.
    + apply vcoo_head in EC. pose proof (vget_some_lt _ _ _ EC) as L. destruct (kok_ikey _ _ ok i L) as [k Hk]. rewrite Hk in E.
      simpl in E. injection E as <- <-. apply (kok_inv _ _ ok) in Hk.
      split; [unfold nm_ok; simpl; rewrite vsize_vdel; assumption|]. split; [reflexivity|]. split; [auto|].
      left. exists k, x. split; [unfold nm_dict; rewrite Hk, EC; reflexivity|]. split; [reflexivity|].
      apply (nm_put m k i None _ ok Hk (fun _ => F) eq_refl).
  - apply dget_some in Hn as [i Hk]. unfold nm_setdefault in E. rewrite Hk in E. simpl. unfold nm_dict at 1. rewrite Hk.
    destruct (vget (nm_v m) i) as [y|] eqn:Ev.
    + simpl in E. injection E as <- <-. auto.
    + destruct (nm_fill m) as [f|] eqn:Ef; simpl in E; injection E as <- <-.
      * simpl. split; [assumption|]. split; [reflexivity|]. split; [congruence|]. split; [reflexivity|exact SAME].
      * split; [unfold nm_ok; simpl; rewrite vsize_vset; assumption|]. split; [reflexivity|]. split; [reflexivity|].
        split; [reflexivity|]. apply (nm_put m k i (Some x) None ok Hk); [discriminate|congruence].
  - assert (F : nm_fill m = None) by (destruct (nm_fill m); [exfalso; apply Hf; discriminate|reflexivity]).
    apply dget_some in Hn as [i Hk]. unfold nm_pop, nm_getitem, nm_delitem in E. rewrite Hk, F in E. simpl. unfold nm_dict at 1. rewrite Hk, F.
    destruct (vget (nm_v m) i) as [y|] eqn:Ev.
    + simpl in E. injection E as <- <-. split; [unfold nm_ok; simpl; rewrite vsize_vdel; assumption|]. split; [reflexivity|].
      split; [reflexivity|]. split; [reflexivity|]. apply (nm_put m k i None None ok Hk); congruence.
    + destruct x; simpl in E; injection E as <- <-; auto.
Qed.
Lemma nm_run_ok (m : nodemap V) os : nm_ok m -> Forall (op_node (nm_kid m)) os -> (nm_fill m <> None -> Forall no_removal os) ->
  dict_run false true (nm_dict m) os (fst (drun nm_step m os)).
Proof.
  revert m. induction os as [|o os IH]; intros m ok HF HR; simpl; [constructor|].
  inversion HF as [|? ? H1 H2]; subst.
  destruct (nm_step m o) as [r m'] eqn:E. destruct (drun nm_step m' os) as [rs m''] eqn:E2. simpl.
  destruct (nm_step_ok m o r m' ok H1) as (A & B & C & D); [intros X; apply HR in X; inversion X; assumption|assumption|].
  econstructor; [exact D|]. replace rs with (fst (drun nm_step m' os)) by (rewrite E2; reflexivity). apply IH; [assumption| |].
  - rewrite B. assumption.
  - intros X. assert (X' : nm_fill m <> None) by (intros Y; apply X, C, Y). apply HR in X'. inversion X'. assumption.
Qed.
End NodeMap.

Lemma km_present m k i : km_ok m -> dget (nm_kid m) k = Some i -> has (vget (nm_v m) i) = has (km_dict m k).
Proof.
  intros (ok & F & R) Hk. unfold km_dict. rewrite Hk. destruct (vget (nm_v m) i) as [j|] eqn:E; [|reflexivity].
  destruct (kok_ikey _ _ ok j (R _ _ E)) as [k' ->]. reflexivity.
Qed.
Lemma km_put m k i (o : option (nkey * nat)) : km_ok m -> dget (nm_kid m) k = Some i ->
  (forall k' j, o = Some (k', j) -> dget (nm_kid m) k' = Some j) ->
  put (km_dict m) k (omap fst o) (km_dict (NM (match o with Some (_, j) => vset (nm_v m) i j | None => vdel (nm_v m) i end) (nm_kid m) None)).
Proof.
  intros (ok & F & R) Hk Ho. pose proof (kok_lt _ _ ok _ _ Hk) as L. split.
  - unfold km_dict. simpl. rewrite Hk. destruct o as [[k' j]|]; simpl.
    + rewrite vget_vset_eq by assumption. apply (kok_inv _ _ ok). apply Ho. reflexivity.
    + rewrite vget_vdel_eq. reflexivity.
  - intros k' Hne. unfold km_dict. simpl. destruct (dget (nm_kid m) k') as [i'|] eqn:Hk'; [|reflexivity].
    assert (i' <> i) by (intros ->; apply Hne; eapply kok_inj; eassumption).
    destruct o as [[? ?]|]; [rewrite vget_vset_ne by assumption|rewrite vget_vdel_ne by assumption]; reflexivity.
Qed.
Lemma km_ok_del m i : km_ok m -> km_ok (NM (vdel (nm_v m) i) (nm_kid m) (nm_fill m)).
Proof.
  intros (ok & F & R). unfold km_ok. simpl. rewrite vsize_vdel. repeat split; try assumption; try apply ok.
  intros a b. rewrite vget_vdel. destruct (a =? i); [discriminate|]. apply R.
Qed.
Lemma km_keys m : km_ok m -> exists l, nm_iter m = Val l /\ keys_are (km_dict m) l /\ nm_len m = List.length l.
Proof.
  intros (ok & F & R). unfold nm_iter, nm_len. rewrite F.
  destruct (kok_indices _ _ (nm_v m) ok (le_n _)) as (l & Hl & ND & Hn & Hin). exists l. rewrite Hl. split; [reflexivity|].
  split; [|symmetry; assumption]. split; [assumption|]. intros k. rewrite Hin. rewrite <- has_not_none. split.
  - intros (i & Hk & Hi). rewrite <- (km_present m k i); auto. split; auto.
  - intros H. unfold km_dict in H. destruct (dget (nm_kid m) k) as [i|]; [|discriminate]. exists i. split; [reflexivity|].
    destruct (vget (nm_v m) i); [reflexivity|discriminate].
Qed.
Lemma km_step_ok m o r m' : km_ok m -> km_op (nm_kid m) o -> km_step m o = (r, m') ->
  km_ok m' /\ nm_kid m' = nm_kid m /\ dict_step false true (km_dict m) o r (km_dict m').
Proof.
  intros OK [Hn Hx] E. pose proof OK as (ok & F & R).
  assert (SAME : same (km_dict m) (km_dict m)) by (intros k; reflexivity).
  assert (DEL : forall k i, dget (nm_kid m) k = Some i -> put (km_dict m) k None (km_dict (NM (vdel (nm_v m) i) (nm_kid m) (nm_fill m)))).
  { intros k i Hk. rewrite F. apply (km_put m k i None OK Hk). discriminate. }
  destruct o as [k|k x|k x|k|k| | | | |k x|k x]; simpl in Hn, Hx, E; try contradiction.
  - apply dget_some in Hn as [i Hk]. unfold km_getitem in E. rewrite Hk in E. simpl. unfold km_dict at 3. rewrite Hk.
    destruct (vget (nm_v m) i) as [j|] eqn:Ev.
    + destruct (kok_ikey _ _ ok j (R _ _ Ev)) as [k' Hk']. rewrite Hk' in *. simpl in E. injection E as <- <-. auto.
    + simpl in E. injection E as <- <-. auto.
  - apply dget_some in Hn as [i Hk]. unfold km_get in E. rewrite Hk in E. simpl. unfold km_dict at 3. rewrite Hk.
    destruct (vget (nm_v m) i) as [j|] eqn:Ev.
    + destruct (kok_ikey _ _ ok j (R _ _ Ev)) as [k' Hk']. rewrite Hk' in *. simpl in E. injection E as <- <-. auto.
    + simpl in E. injection E as <- <-. auto.
  - apply dget_some in Hn as [i Hk]. apply dget_some in Hx as [j Hj]. unfold km_setitem in E. rewrite Hk, Hj in E. simpl in E. injection E as <- <-.
    split; [|split; [reflexivity|]].
    + unfold km_ok. simpl. rewrite vsize_vset. repeat split; try assumption; try apply ok. intros a b.
      destruct (Nat.eq_dec a i) as [->|Hne]; [|rewrite vget_vset_ne by assumption; apply R].
      rewrite vget_vset_eq by (eapply kok_lt; eassumption). intros [= <-]. eapply kok_lt; eassumption.
    + split; [reflexivity|]. rewrite F. apply (km_put m k i (Some (x, j)) OK Hk). intros ? ? [= <- <-]. assumption.
  - apply dget_some in Hn as [i Hk]. unfold nm_delitem in E. rewrite Hk in E. simpl in E. injection E as <- <-.
    split; [apply km_ok_del; assumption|]. split; [reflexivity|]. simpl. specialize (DEL k i Hk).
    destruct (km_dict m k) eqn:D; [auto|]. split; [reflexivity|]. intros k'. destruct (nkey_dec k' k) as [->|Hne].
    + rewrite D. apply DEL. + apply DEL. assumption.
  - apply dget_some in Hn as [i Hk]. unfold nm_contains in E. rewrite Hk in E. simpl in E. injection E as <- <-.
    fin2. split; [exact SAME|]. f_equal. rewrite F. simpl. apply km_present; assumption.
  - injection E as <- <-. fin2. split; [exact SAME|]. destruct (km_keys m OK) as (l & _ & Hl & ->). eauto.
  - destruct (km_keys m OK) as (l & Hl & Hkk & _). rewrite Hl in E. simpl in E. injection E as <- <-. fin2. split; [exact SAME|]. eauto.
  - injection E as <- <-. split.
    + unfold km_ok. simpl. rewrite vsize_vempty. repeat split; try apply ok. intros i j. rewrite vget_vempty. discriminate.
    + split; [reflexivity|]. split; [reflexivity|]. intros k. unfold km_dict. simpl. destruct (dget (nm_kid m) k); [rewrite vget_vempty|]; reflexivity.
  - unfold km_popitem in E. destruct (vcoo (nm_v m)) as [|[i j] l] eqn:EC.
    + simpl in E. injection E as <- <-. fin2. right. split; [|auto]. intros k. unfold km_dict.
      destruct (dget (nm_kid m) k) as [i|]; [|reflexivity]. rewrite (vcoo_nil _ EC). reflexivity.
    + apply vcoo_head in EC. pose proof (vget_some_lt _ _ _ EC) as L. destruct (kok_ikey _ _ ok i L) as [k Hk].
      destruct (kok_ikey _ _ ok j (R _ _ EC)) as [k' Hk']. rewrite Hk, Hk' in E.
      simpl in E. injection E as <- <-. apply (kok_inv _ _ ok) in Hk.
      split; [apply km_ok_del; assumption|]. split; [reflexivity|].
      left. exists k, k'. split; [unfold km_dict; rewrite Hk, EC; assumption|]. split; [reflexivity|]. apply DEL. assumption.
  - apply dget_some in Hn as [i Hk]. unfold km_pop, km_getitem, nm_delitem in E. rewrite Hk in E. simpl. unfold km_dict at 1. rewrite Hk.
    destruct (vget (nm_v m) i) as [j|] eqn:Ev.
    + destruct (kok_ikey _ _ ok j (R _ _ Ev)) as [k' Hk']. rewrite Hk' in *. simpl in E. injection E as <- <-.
      split; [apply km_ok_del; assumption|]. split; [reflexivity|]. split; [reflexivity|]. apply DEL. assumption.
    + destruct x; simpl in E; injection E as <- <-; auto.
Qed.
Lemma km_run_ok m os : km_ok m -> Forall (km_op (nm_kid m)) os -> dict_run false true (km_dict m) os (fst (drun km_step m os)).
Proof.
  revert m. induction os as [|o os IH]; intros m ok HF; simpl; [constructor|].
  inversion HF as [|? ? H1 H2]; subst.
  destruct (km_step m o) as [r m'] eqn:E. destruct (drun km_step m' os) as [rs m''] eqn:E2. simpl.
  destruct (km_step_ok m o r m' ok H1 E) as (A & B & D).
  econstructor; [exact D|]. replace rs with (fst (drun km_step m' os)) by (rewrite E2; reflexivity). apply IH; [assumption|].
  rewrite B. assumption.
Qed.

Lemma vm_step_ok {V} (v : vec V) o r v' : vop_ok (vsize v) o -> vm_step v o = (r, v') ->
  vsize v' = vsize v /\ dict_step true true (vget v) o r (vget v').
Proof.
  intros Hn E.
  assert (SAME : same (vget v) (vget v)) by (intros k; reflexivity).
  assert (SET : forall k x, k < vsize v -> put (vget v) k (Some x) (vget (vset v k x))).
  { intros k x L. split; [apply vget_vset_eq; assumption|]. intros k' Hne. apply vget_vset_ne. assumption. }
  assert (DEL : forall k, put (vget v) k None (vget (vdel v k))).
  { intros k. split; [apply vget_vdel_eq|]. intros k' Hne. apply vget_vdel_ne. assumption. }
  assert (KEYS : keys_are (vget v) (vindices v)).
  { split; [apply NoDup_vindices|]. intros k. rewrite in_vindices. apply has_not_none. }
  destruct o as [k|k x|k x|k|k| | | | |k x|k x]; simpl in Hn, E; try contradiction.
  - unfold vm_getitem, vec_get in E. rewrite (proj2 (Nat.ltb_lt _ _) Hn) in E. simpl in E. injection E as <- <-. simpl. destruct (vget v k); auto.
  - unfold vm_get in E. rewrite (proj2 (Nat.ltb_lt _ _) Hn) in E. simpl in E. injection E as <- <-. simpl. auto.
  - unfold vm_setitem in E. rewrite (proj2 (Nat.ltb_lt _ _) Hn) in E. simpl in E. injection E as <- <-. rewrite vsize_vset. simpl. auto.
  - unfold vm_delitem in E. rewrite (proj2 (Nat.ltb_lt _ _) Hn) in E. simpl in E. injection E as <- <-. rewrite vsize_vdel. simpl. split; [reflexivity|].
    destruct (vget v k) eqn:D; [auto|]. split; [reflexivity|]. intros k'. rewrite vget_vdel. destruct (k' =? k) eqn:Ek; [|reflexivity].
    apply Nat.eqb_eq in Ek. congruence.
  - unfold vm_contains in E. rewrite (proj2 (Nat.ltb_lt _ _) Hn) in E. simpl in E. injection E as <- <-. simpl. auto.
  - injection E as <- <-. split; [reflexivity|]. split; [exact SAME|]. exists (vindices v). split; [assumption|]. unfold vm_len. rewrite length_vindices. reflexivity.
  - injection E as <- <-. split; [reflexivity|]. split; [exact SAME|]. exists (vindices v). auto.
  - injection E as <- <-. rewrite vsize_vempty. split; [reflexivity|]. split; [reflexivity|]. intros k. apply vget_vempty.
  - unfold vm_popitem in E. destruct (vcoo v) as [|[i x] l] eqn:EC; simpl in E; injection E as <- <-.
    + split; [reflexivity|]. right. split; [apply vcoo_nil; assumption|auto].
    + rewrite vsize_vdel. split; [reflexivity|]. left. exists i, x. split; [eapply vcoo_head; eassumption|auto].
  - unfold vm_setdefault in E. rewrite (proj2 (Nat.ltb_lt _ _) Hn) in E. simpl. destruct (vget v k) eqn:D; simpl in E; injection E as <- <-; auto.
    rewrite vsize_vset. auto.
Qed.
Lemma vm_run_ok {V} (v : vec V) os : Forall (vop_ok (vsize v)) os -> dict_run true true (vget v) os (fst (drun vm_step v os)).
Proof.
  revert v. induction os as [|o os IH]; intros v HF; simpl; [constructor|].
  inversion HF as [|? ? H1 H2]; subst.
  destruct (vm_step v o) as [r v'] eqn:E. destruct (drun vm_step v' os) as [rs v''] eqn:E2. simpl.
  destruct (vm_step_ok v o r v' H1 E) as (A & D).
  econstructor; [exact D|]. replace rs with (fst (drun vm_step v' os)) by (rewrite E2; reflexivity). apply IH. rewrite A. assumption.
Qed.

Lemma ns_mem_i m k i : dget (ns_kid m) k = Some i -> (ns_mem m k <-> has (vget (ns_v m) i) = true).
Proof. intros Hk. split; [intros (j & Hj & H); congruence|intros H; exists i; auto]. Qed.
Lemma ns_iter_ok m : ns_ok m -> exists l, ns_iter m = Val l /\ elems (ns_mem m) l /\ ns_len m = List.length l.
Proof.
  intros ok. destruct (kok_indices _ _ (ns_v m) ok (le_n _)) as (l & Hl & ND & Hn & Hin). exists l. unfold ns_iter, ns_len. rewrite Hl.
  repeat split; try assumption; try apply Hin. symmetry. assumption.
Qed.
Lemma ns_from_ok m l : ns_ok m -> (forall k, In k l -> In k (map fst (ns_kid m))) ->
  exists m', ns_from_iterable m l = Val m' /\ ns_ok m' /\ ns_kid m' = ns_kid m /\ forall k, ns_mem m' k <-> In k l.
Proof.
  intros ok Hl. unfold ns_from_iterable, set_to_vector. cbv zeta.
  destruct (mapO_total (dget (ns_kid m)) l) as [ids Hi]; [intros k Hk; apply dget_some; auto|]. rewrite Hi. eexists. split; [reflexivity|].
  unfold ns_ok, ns_mem. simpl. split; [unfold vscatter; rewrite vsize_vbuild; exact ok|]. split; [reflexivity|].
  intros k. split.
  - intros (i & Hk & H). rewrite vget_vscatter in H. destruct (i <? vsize (ns_v m)); [|discriminate]. simpl in H.
    destruct (existsb (Nat.eqb i) ids) eqn:E; [|discriminate]. apply existsb_eqb in E.
    apply (mapO_in _ _ _ Hi) in E as (k' & Hin & Hk'). assert (k = k') by (eapply kok_inj; eassumption). subst. assumption.
  - intros Hin. destruct (proj1 (dget_some _ _) (Hl _ Hin)) as [i Hk]. exists i. split; [assumption|]. rewrite vget_vscatter.
    rewrite (proj2 (Nat.ltb_lt _ _) (kok_lt _ _ ok _ _ Hk)). rewrite (proj2 (existsb_eqb ids i)); [reflexivity|].
    apply (mapO_in _ _ _ Hi). exists k. auto.
Qed.
Lemma filterO_ok {X} (f : X -> outcome bool) (g : X -> bool) l : (forall x, In x l -> f x = Val (g x)) -> filterO f l = Val (filter g l).
Proof.
  induction l as [|x l IH]; intros H; simpl; [reflexivity|]. rewrite (H x (or_introl eq_refl)). rewrite IH; [|intros y Hy; apply H; right; assumption].
  destruct (g x); reflexivity.
Qed.
Definition ns_memb (m : nodeset) (k : nkey) : bool := match dget (ns_kid m) k with Some i => has (vget (ns_v m) i) | None => false end.
Lemma ns_memb_iff m k : ns_memb m k = true <-> ns_mem m k.
Proof.
  unfold ns_memb, ns_mem. destruct (dget (ns_kid m) k) as [i|]; split; try discriminate.
  - intros H. exists i. auto. - intros (j & [= <-] & H). assumption. - intros (j & ? & _). discriminate.
Qed.
Lemma ns_contains_node m k : In k (map fst (ns_kid m)) -> ns_contains m k = Val (ns_memb m k).
Proof. intros H. apply dget_some in H as [i Hk]. unfold ns_contains, ns_memb. rewrite Hk. reflexivity. Qed.
Lemma ns_and_ok m l : ns_ok m -> (forall k, In k l -> In k (map fst (ns_kid m))) ->
  exists m', ns_and m l = Val m' /\ ns_ok m' /\ forall k, ns_mem m' k <-> ns_mem m k /\ In k l.
Proof.
  intros ok Hl. unfold ns_and. rewrite (filterO_ok _ (ns_memb m)); [|intros k Hk; apply ns_contains_node; auto]. simpl.
  destruct (ns_from_ok m (filter (ns_memb m) l) ok) as (m' & E & O & _ & H).
  { intros k Hk. apply filter_In in Hk as [Hk _]. auto. }
  exists m'. split; [assumption|]. split; [assumption|]. intros k. rewrite H, filter_In, ns_memb_iff. tauto.
Qed.
Lemma ns_mem_node m k : ns_mem m k -> In k (map fst (ns_kid m)).
Proof. intros (i & Hi & _). apply dget_some. eauto. Qed.
Lemma ns_or_ok m l : ns_ok m -> (forall k, In k l -> In k (map fst (ns_kid m))) ->
  exists m', ns_or m l = Val m' /\ ns_ok m' /\ forall k, ns_mem m' k <-> ns_mem m k \/ In k l.
Proof.
  intros ok Hl. unfold ns_or. destruct (ns_iter_ok m ok) as (s & Hs & [_ Hin] & _). rewrite Hs. simpl.
  destruct (ns_from_ok m (s ++ l) ok) as (m' & E & O & _ & H).
  { intros k Hk. apply in_app_iff in Hk as [Hk|Hk]; [apply Hin in Hk; apply ns_mem_node; assumption|auto]. }
  exists m'. split; [assumption|]. split; [assumption|]. intros k. rewrite H, in_app_iff, Hin. tauto.
Qed.
Lemma ns_sub_ok m l : ns_ok m -> (forall k, In k l -> In k (map fst (ns_kid m))) ->
  exists m', ns_sub m l = Val m' /\ ns_ok m' /\ forall k, ns_mem m' k <-> ns_mem m k /\ ~ In k l.
Proof.
  intros ok Hl. unfold ns_sub. destruct (ns_from_ok m l ok Hl) as (o & Eo & Oo & Ko & Ho). rewrite Eo. simpl.
  destruct (ns_iter_ok m ok) as (s & Hs & [_ Hin] & _). rewrite Hs. simpl.
  rewrite (filterO_ok _ (fun k => negb (ns_memb o k))).
  2:{ intros k Hk. rewrite ns_contains_node; [reflexivity|]. rewrite Ko. apply ns_mem_node, Hin. assumption. }
  simpl. destruct (ns_from_ok m (filter (fun k => negb (ns_memb o k)) s) ok) as (m' & E & O & _ & H).
  { intros k Hk. apply filter_In in Hk as [Hk _]. apply ns_mem_node, Hin. assumption. }
  exists m'. split; [assumption|]. split; [assumption|]. intros k. rewrite H, filter_In, Hin, negb_true_iff. rewrite <- Ho, <- !ns_memb_iff.
  destruct (ns_memb o k); intuition congruence.
Qed.
Lemma newset_ok m o (Q : nkey -> Prop) : (exists m', o = Val m' /\ ns_ok m' /\ forall k, ns_mem m' k <-> Q k) ->
  exists s, newset m o = (SSet s, m) /\ elems Q s.
Proof.
  intros (m' & -> & O & H). unfold newset. simpl. destruct (ns_iter_ok m' O) as (s & Hs & [ND Hin] & _). rewrite Hs. simpl. exists s.
  split; [reflexivity|]. split; [assumption|]. intros k. rewrite Hin. apply H.
Qed.
Lemma ns_removed m k i : ns_ok m -> dget (ns_kid m) k = Some i ->
  forall k', ns_mem (NS (vdel (ns_v m) i) (ns_kid m)) k' <-> ns_mem m k' /\ k' <> k.
Proof.
  intros ok Hk k'. unfold ns_mem. simpl. split.
  - intros (j & Hj & H). rewrite vget_vdel in H. destruct (Nat.eqb_spec j i); [discriminate|]. split; [eauto|]. intros ->. congruence.
  - intros [(j & Hj & H) Hne]. exists j. split; [assumption|]. rewrite vget_vdel. destruct (Nat.eqb_spec j i); [|assumption].
    subst. exfalso. apply Hne. eapply kok_inj; eassumption.
Qed.
Lemma ns_step_ok m o r m' : ns_ok m -> sop_ok (ns_kid m) o -> ns_step m o = (r, m') ->
  ns_ok m' /\ ns_kid m' = ns_kid m /\ set_step (ns_mem m) o r (ns_mem m').
Proof.
  intros ok Hn E.
  assert (U : forall k, ns_mem m k <-> ns_mem m k) by reflexivity.
  destruct o as [k|k|k|k| | | | |l|l|l]; simpl in Hn, E.
  - apply dget_some in Hn as [i Hk]. unfold ns_add in E. rewrite Hk in E. simpl in E. injection E as <- <-.
    split; [unfold ns_ok; simpl; rewrite vsize_vset; assumption|]. split; [reflexivity|]. split; [reflexivity|]. intros k'. unfold ns_mem. simpl.
    pose proof (kok_lt _ _ ok _ _ Hk) as L. split.
    + intros (j & Hj & H). destruct (Nat.eq_dec j i) as [->|Hne]; [right; eapply kok_inj; eassumption|].
      rewrite vget_vset_ne in H by assumption. eauto.
    + intros [(j & Hj & H)| ->].
      * exists j. split; [assumption|]. destruct (Nat.eq_dec j i) as [->|Hne]; [rewrite vget_vset_eq by assumption; reflexivity|rewrite vget_vset_ne by assumption; assumption].
      * exists i. split; [assumption|]. rewrite vget_vset_eq by assumption. reflexivity.
  - apply dget_some in Hn as [i Hk]. unfold ns_discard in E. rewrite Hk in E. simpl in E. injection E as <- <-.
    split; [unfold ns_ok; simpl; rewrite vsize_vdel; assumption|]. split; [reflexivity|]. split; [reflexivity|]. apply ns_removed; assumption.
  - apply dget_some in Hn as [i Hk]. unfold ns_remove in E. rewrite Hk in E. destruct (has (vget (ns_v m) i)) eqn:Hh; simpl in E; injection E as <- <-.
    + split; [unfold ns_ok; simpl; rewrite vsize_vdel; assumption|]. split; [reflexivity|]. left.
      split; [apply (ns_mem_i m k i Hk); assumption|]. split; [reflexivity|]. apply ns_removed; assumption.
    + split; [assumption|]. split; [reflexivity|]. right. split; [rewrite (ns_mem_i m k i Hk); congruence|auto].
  - apply dget_some in Hn as [i Hk]. unfold ns_contains in E. rewrite Hk in E. simpl in E. injection E as <- <-.
    split; [assumption|]. split; [reflexivity|]. split; [exact U|]. eexists. split; [reflexivity|]. symmetry. apply ns_mem_i. assumption.
  - injection E as <- <-. split; [assumption|]. split; [reflexivity|]. split; [exact U|]. destruct (ns_iter_ok m ok) as (l & _ & Hl & ->). eauto.
  - destruct (ns_iter_ok m ok) as (l & Hs & Hl & _). rewrite Hs in E. simpl in E. injection E as <- <-. split; [assumption|]. split; [reflexivity|]. split; [exact U|]. eauto.
  - injection E as <- <-. split; [unfold ns_ok; simpl; rewrite vsize_vempty; assumption|]. split; [reflexivity|]. split; [reflexivity|].
    intros k (i & _ & H). simpl in H. rewrite vget_vempty in H. discriminate.
  - unfold ns_pop in E. destruct (vindices (ns_v m)) as [|i l] eqn:EI.
    + simpl in E. injection E as <- <-. split; [assumption|]. split; [reflexivity|]. right. split; [|auto].
      intros k (i & _ & H). apply in_vindices in H. rewrite EI in H. destruct H.
    + assert (Hi : has (vget (ns_v m) i) = true) by (apply in_vindices; rewrite EI; left; reflexivity).
      destruct (kok_ikey _ _ ok i (has_vget_lt _ _ Hi)) as [k Hk]. rewrite Hk in E. simpl in E. injection E as <- <-. apply (kok_inv _ _ ok) in Hk.
      split; [unfold ns_ok; simpl; rewrite vsize_vdel; assumption|]. split; [reflexivity|]. left. exists k.
      split; [exists i; auto|]. split; [reflexivity|]. apply ns_removed; assumption.
  - destruct (newset_ok m _ _ (ns_and_ok m l ok Hn)) as (s & Hs & He). rewrite Hs in E. injection E as <- <-.
    split; [assumption|]. split; [reflexivity|]. split; [exact U|]. eauto.
  - destruct (newset_ok m _ _ (ns_or_ok m l ok Hn)) as (s & Hs & He). rewrite Hs in E. injection E as <- <-.
    split; [assumption|]. split; [reflexivity|]. split; [exact U|]. eauto.
  - destruct (newset_ok m _ _ (ns_sub_ok m l ok Hn)) as (s & Hs & He). rewrite Hs in E. injection E as <- <-.
    split; [assumption|]. split; [reflexivity|]. split; [exact U|]. eauto.
Qed.
Lemma ns_run_ok m os : ns_ok m -> Forall (sop_ok (ns_kid m)) os -> set_run (ns_mem m) os (fst (nsrun m os)).
Proof.
  revert m. induction os as [|o os IH]; intros m ok HF; simpl; [constructor|].
  inversion HF as [|? ? H1 H2]; subst.
  destruct (ns_step m o) as [r m'] eqn:E. destruct (nsrun m' os) as [rs m''] eqn:E2. simpl.
  destruct (ns_step_ok m o r m' ok H1 E) as (A & B & D).
  econstructor; [exact D|]. replace rs with (fst (nsrun m' os)) by (rewrite E2; reflexivity). apply IH; [assumption|]. rewrite B. assumption.
Qed.

(** ** VectorNodeMap and NodeNodeMap *)
Section Rows.
Context {V : Type}.
Lemma rows_of_ok (m : mat V) : mwf m -> vsize (rows_of m) = nrows m /\ forall i, has (vget (rows_of m) i) = true <-> row_nonempty m i.
Proof.
  intros W. unfold rows_of. split; [rewrite vsize_vmap, vsize_vbuild; reflexivity|]. intros i.
  rewrite vget_vmap, has_omap, vget_vbuild. unfold row_nonempty. destruct (Nat.ltb_spec i (nrows m)) as [L|L].
  - rewrite has_ored_true. split.
    + intros (j & Hj & H). apply has_true in H as [x H]. eauto.
    + intros (j & x & H). exists j. pose proof (mget_some_lt _ _ _ _ W H) as [_ L2]. rewrite H. auto.
  - split; [discriminate|]. intros (j & x & H). pose proof (mget_some_lt _ _ _ _ W H). lia.
Qed.
Lemma get_rows_ok (r : rowmap V) : rm_ok r -> rm_ok (rm_forced r) /\ rm_m (rm_forced r) = rm_m r /\ rm_kid (rm_forced r) = rm_kid r /\
  rm_get_rows r = (fst (rm_get_rows r), rm_forced r) /\
  vsize (fst (rm_get_rows r)) = nrows (rm_m r) /\ forall i, has (vget (fst (rm_get_rows r)) i) = true <-> row_nonempty (rm_m r) i.
Proof.
  intros (ok & W & F & R). unfold rm_forced, rm_get_rows. destruct (rm_rows r) as [v|] eqn:E; simpl.
  - destruct (R v eq_refl) as [R1 R2]. unfold rm_ok. rewrite E. auto 10.
  - destruct (rows_of_ok _ W) as [R1 R2]. unfold rm_ok. simpl.
    split; [split; [assumption|split; [assumption|split; [assumption|intros v [= <-]; auto]]]|auto 10].
Qed.
Lemma rm_present (r : rowmap V) k i : dget (rm_kid r) k = Some i -> (present (rm_dd r) k <-> row_nonempty (rm_m r) i).
Proof. intros Hk. unfold present, rm_dd, row_nonempty. rewrite Hk. reflexivity. Qed.
Lemma rm_elems (r : rowmap V) : rm_ok r -> exists l, rm_iter r = Val l /\ elems (present (rm_dd r)) l /\ rm_len r = List.length l.
Proof.
  intros OK. pose proof OK as (ok & W & F & R). destruct (get_rows_ok r OK) as (_ & _ & _ & _ & S & H).
  unfold rm_iter, rm_len. rewrite F. set (v := fst (rm_get_rows r)) in *.
  destruct (kok_indices _ _ v ok (Nat.eq_le_incl _ _ S)) as (l & Hl & ND & Hn & Hin). exists l. rewrite Hl. split; [reflexivity|].
  split; [|symmetry; assumption]. split; [assumption|]. intros k. rewrite Hin. split.
  - intros (i & Hk & Hi). apply (rm_present r k i Hk), H. assumption.
  - intros Hp. assert (exists i, dget (rm_kid r) k = Some i) as [i Hk].
    { destruct Hp as (c & x & Hp). unfold rm_dd in Hp. destruct (dget (rm_kid r) k); [eauto|discriminate]. }
    exists i. split; [assumption|]. apply H, (rm_present r k i Hk). assumption.
Qed.
Lemma mget_mdelrow (m : mat V) i a b : mwf m -> mget (mdelrow m i) a b = if a =? i then None else mget m a b.
Proof. intros W. unfold mdelrow. rewrite mget_mselect by assumption. destruct (a =? i); reflexivity. Qed.
Lemma mget_msetrow (m : mat V) i v a b : mwf m -> i < nrows m -> vsize v = ncols m ->
  mget (msetrow m i v) a b = if a =? i then vget v b else mget m a b.
Proof.
  intros W L S. unfold msetrow. rewrite mget_mbuild. destruct (Nat.ltb_spec a (nrows m)), (Nat.ltb_spec b (ncols m)); simpl; try reflexivity.
  - destruct (a =? i); [symmetry; apply vget_out; lia|symmetry; apply mget_out; auto].
  - destruct (Nat.eqb_spec a i); [lia|]. symmetry. apply mget_out; auto.
  - destruct (Nat.eqb_spec a i); [lia|]. symmetry. apply mget_out; auto.
Qed.
Lemma rm_del_ok (r : rowmap V) k i rows : rm_ok r -> dget (rm_kid r) k = Some i -> (rows = omap (fun v => vdel v i) (rm_rows r) \/
    rows = Some (vdel (fst (rm_get_rows r)) i)) ->
  let r' := RM (mdelrow (rm_m r) i) (rm_kid r) rows (rm_fill r) in rm_ok r' /\ gone (rm_dd r) k (rm_dd r').
Proof.
  intros OK Hk Hr r'. pose proof OK as (ok & W & F & R). split.
  - unfold rm_ok, r'. simpl. unfold mdelrow at 1. rewrite nrows_mselect. split; [assumption|]. split; [apply mwf_mselect|]. split; [assumption|].
    intros v Hv.
    assert (X : exists v0, v = vdel v0 i /\ vsize v0 = nrows (rm_m r) /\ forall a, has (vget v0 a) = true <-> row_nonempty (rm_m r) a).
    { destruct Hr as [->| ->].
      - destruct (rm_rows r) as [v0|]; [|discriminate]. injection Hv as <-. exists v0. destruct (R v0 eq_refl). auto.
      - injection Hv as <-. destruct (get_rows_ok r OK) as (_ & _ & _ & _ & A & B). eauto. }
    destruct X as (v0 & -> & S & H). unfold mdelrow at 1. rewrite vsize_vdel, nrows_mselect. split; [assumption|]. intros a.
    rewrite vget_vdel. unfold row_nonempty. split.
    + destruct (a =? i) eqn:E; [discriminate|]. intros Ha. apply H in Ha as (j & x & Hx). exists j, x. rewrite mget_mdelrow, E; assumption.
    + intros (j & x & Hx). rewrite mget_mdelrow in Hx by assumption. destruct (a =? i); [discriminate|]. apply H. exists j, x. assumption.
  - split.
    + intros c. unfold rm_dd, r'. simpl. rewrite Hk, mget_mdelrow, Nat.eqb_refl by assumption. reflexivity.
    + intros k' Hne c. unfold rm_dd, r'. simpl. destruct (dget (rm_kid r) k') as [i'|] eqn:Hk'; [|reflexivity].
      rewrite mget_mdelrow by assumption. destruct (Nat.eqb_spec i' i); [|reflexivity]. subst. exfalso. apply Hne. eapply kok_inj; eassumption.
Qed.
Lemma rm_set_ok (r : rowmap V) k i (v : vec V) r' : rm_ok r -> dget (rm_kid r) k = Some i -> vsize v = ncols (rm_m r) -> rm_setitem r k v = Val r' ->
  rm_ok r' /\ rm_kid r' = rm_kid r /\ ncols (rm_m r') = ncols (rm_m r) /\ nrows (rm_m r') = nrows (rm_m r) /\
  (forall c, rm_dd r' k c = vget v c) /\ forall k', k' <> k -> forall c, rm_dd r' k' c = rm_dd r k' c.
Proof.
  intros OK Hk S E. pose proof OK as (ok & W & F & R). unfold rm_setitem in E. rewrite Hk in E. pose proof (kok_lt _ _ ok _ _ Hk) as L.
  destruct (Nat.eqb_spec (nvals v) 0) as [Z|Z]; injection E as <-.
  - destruct (rm_del_ok r k i (omap (fun v => vdel v i) (rm_rows r)) OK Hk (or_introl eq_refl)) as [A [B1 B2]].
    split; [exact A|]. simpl. unfold mdelrow. rewrite ?ncols_mselect, ?nrows_mselect. repeat (split; [reflexivity|]). split; [|exact B2].
    intros c. rewrite (proj1 (nvals_zero v) Z c). apply B1.
  - assert (GV : forall a b, mget (msetrow (rm_m r) i v) a b = if a =? i then vget v b else mget (rm_m r) a b) by (intros; apply mget_msetrow; assumption).
    split; [|split; [reflexivity|split; [reflexivity|split; [unfold msetrow; simpl; apply nrows_mbuild|split]]]].
    + unfold rm_ok. simpl. unfold msetrow at 1. rewrite nrows_mbuild. split; [assumption|]. split; [apply mwf_mbuild|]. split; [assumption|].
      intros w Hw. destruct (rm_rows r) as [v0|]; [|discriminate]. injection Hw as <-. destruct (R v0 eq_refl) as [R1 R2].
      unfold msetrow at 1. rewrite nrows_mbuild, vsize_vset. split; [assumption|]. intros a. unfold row_nonempty. destruct (Nat.eq_dec a i) as [->|Hne].
      * rewrite vget_vset_eq by lia. split; [intros _|reflexivity]. assert (P : 0 < nvals v) by lia. apply nvals_pos in P as (j & x & Hx).
        exists j, x. rewrite GV, Nat.eqb_refl. assumption.
      * rewrite vget_vset_ne by assumption. rewrite R2. unfold row_nonempty. apply Nat.eqb_neq in Hne.
        split; intros (j & x & Hx); exists j, x; rewrite GV, Hne in *; assumption.
    + intros c. unfold rm_dd. simpl. rewrite Hk, GV, Nat.eqb_refl. reflexivity.
    + intros k' Hne c. unfold rm_dd. simpl. destruct (dget (rm_kid r) k') as [i'|] eqn:Hk'; [|reflexivity]. rewrite GV.
      destruct (Nat.eqb_spec i' i); [|reflexivity]. subst. exfalso. apply Hne. eapply kok_inj; eassumption.
Qed.
Definition stable (r r' : rowmap V) : Prop :=
  rm_kid r' = rm_kid r /\ ncols (rm_m r') = ncols (rm_m r) /\ nrows (rm_m r') = nrows (rm_m r).
Lemma dd_forced (r : rowmap V) : rm_ok r -> same2 (rm_dd r) (rm_dd (rm_forced r)) /\ stable r (rm_forced r).
Proof.
  intros OK. destruct (get_rows_ok r OK) as (_ & E1 & E2 & _). unfold same2, rm_dd, stable. rewrite E1, E2. auto.
Qed.
Lemma rm_popitem_ok (r : rowmap V) : rm_ok r ->
  (exists k i r', vnm_popitem r = Val (k, mrow (rm_m r) i, r') /\ dget (rm_kid r) k = Some i /\ present (rm_dd r) k /\
      rm_ok r' /\ stable r r' /\ gone (rm_dd r) k (rm_dd r'))
  \/ (vnm_popitem r = Raise EKey /\ forall k, ~ present (rm_dd r) k).
Proof.
  intros OK. pose proof OK as (ok & W & F & R). destruct (get_rows_ok r OK) as (_ & _ & _ & _ & S & H). unfold vnm_popitem.
  set (rows := fst (rm_get_rows r)) in *. destruct (vindices rows) as [|i l] eqn:EI.
  - right. split; [reflexivity|]. intros k Hp. assert (exists i, dget (rm_kid r) k = Some i) as [i Hk].
    { destruct Hp as (c & x & Hp). unfold rm_dd in Hp. destruct (dget (rm_kid r) k); [eauto|discriminate]. }
    apply (rm_present r k i Hk), H in Hp. apply in_vindices in Hp. rewrite EI in Hp. destruct Hp.
  - left. assert (Hi : has (vget rows i) = true) by (apply in_vindices; rewrite EI; left; reflexivity).
    destruct (kok_ikey _ _ ok i) as [k Hk]; [apply has_vget_lt in Hi; lia|]. rewrite Hk. apply (kok_inv _ _ ok) in Hk.
    exists k, i. eexists. split; [reflexivity|]. split; [assumption|]. split; [apply (rm_present r k i Hk), H; assumption|].
    destruct (rm_del_ok r k i (Some (vdel rows i)) OK Hk (or_intror eq_refl)) as [A B]. split; [exact A|]. split; [|exact B].
    split; [reflexivity|]. simpl. unfold mdelrow. rewrite ?ncols_mselect, ?nrows_mselect. auto.
Qed.
Lemma vnm_step_ok (r : rowmap V) o w r' : rm_ok r -> vnm_op r o -> vnm_step r o = (w, r') ->
  rm_ok r' /\ stable r r' /\ ddict_step vget (rm_dd r) o w (rm_dd r').
Proof.
  intros OK [Hn Hx] E. pose proof OK as (ok & W & F & R).
  destruct (get_rows_ok r OK) as (OK' & E1 & E2 & E3 & S & H). destruct (dd_forced r OK) as [SD ST].
  destruct o as [k|k|k v|k|k| | | |]; simpl in Hn, Hx, E.
  - apply dget_some in Hn as [i Hk]. unfold vnm_getitem in E. rewrite Hk, E3 in E. pose proof (rm_present r k i Hk) as P.
    specialize (H i). set (hb := has (vget (fst (rm_get_rows r)) i)) in *. destruct hb; simpl in E; injection E as <- <-;
      (split; [assumption|split; [assumption|split; [assumption|]]]).
    + left. split; [apply P, H; reflexivity|]. eexists. split; [reflexivity|]. intros c. unfold rm_dd. rewrite Hk. reflexivity.
    + right. split; [|reflexivity]. rewrite P, <- H. discriminate.
  - apply dget_some in Hn as [i Hk]. unfold vnm_get in E. rewrite Hk in E. pose proof (rm_present r k i Hk) as P.
    specialize (H i). set (hb := has (vget (fst (rm_get_rows r)) i)) in *. destruct hb; simpl in E; injection E as <- <-;
      (split; [assumption|split; [assumption|split; [assumption|]]]).
    + left. split; [apply P, H; reflexivity|]. eexists. split; [reflexivity|]. intros c. unfold rm_dd. rewrite Hk. reflexivity.
    + right. split; [|reflexivity]. rewrite P, <- H. discriminate.
  - apply dget_some in Hn as [i Hk]. destruct (rm_setitem r k v) as [r2|] eqn:Es; [|unfold rm_setitem in Es; rewrite Hk in Es; destruct (_ =? _); discriminate].
    simpl in E. injection E as <- <-. destruct (rm_set_ok r k i v r2 OK Hk Hx Es) as (A & B & C & D & X & Y).
    split; [assumption|]. split; [split; auto|]. split; [reflexivity|]. split; assumption.
  - apply dget_some in Hn as [i Hk]. unfold rm_delitem in E. rewrite Hk in E. simpl in E. injection E as <- <-.
    destruct (rm_del_ok r k i _ OK Hk (or_introl eq_refl)) as [A B]. split; [exact A|]. split; [|split; [reflexivity|exact B]].
    split; [reflexivity|]. simpl. unfold mdelrow. rewrite ?ncols_mselect, ?nrows_mselect. auto.
  - apply dget_some in Hn as [i Hk]. unfold rm_contains in E. rewrite Hk, F in E. simpl in E. injection E as <- <-.
    split; [assumption|split; [assumption|split; [assumption|]]]. eexists. split; [reflexivity|]. rewrite H. symmetry. apply rm_present. assumption.
  - injection E as <- <-. split; [assumption|split; [assumption|split; [assumption|]]]. destruct (rm_elems r OK) as (l & _ & Hl & ->). eauto.
  - destruct (rm_elems r OK) as (l & Hi & Hl & _). rewrite Hi in E. simpl in E. injection E as <- <-.
    split; [assumption|split; [assumption|split; [assumption|]]]. eauto.
  - injection E as <- <-. split; [|split; [|split; [reflexivity|]]].
    + unfold rm_ok. simpl. unfold mempty. rewrite nrows_mbuild. split; [assumption|]. split; [apply mwf_mbuild|]. split; [reflexivity|discriminate].
    + split; [reflexivity|]. simpl. unfold mempty. rewrite ?ncols_mbuild, ?nrows_mbuild. auto.
    + intros k c. unfold rm_dd. simpl. destruct (dget (rm_kid r) k); [apply mget_mempty|reflexivity].
  - destruct (rm_popitem_ok r OK) as [(k & i & r2 & Ep & Hk & Hp & A & B & C)|[Ep Hno]]; rewrite Ep in E; simpl in E; injection E as <- <-.
    + split; [assumption|]. split; [assumption|]. left. exists k. eexists. split; [assumption|]. split; [reflexivity|]. split; [|assumption].
      intros c. unfold rm_dd. rewrite Hk. reflexivity.
    + split; [assumption|]. split; [assumption|]. right. auto.
Qed.
Lemma vnm_run_ok (r : rowmap V) os : rm_ok r -> Forall (vnm_op r) os -> ddict_run vget (rm_dd r) os (fst (rrun vnm_step r os)).
Proof.
  revert r. induction os as [|o os IH]; intros r ok HF; simpl; [constructor|]. inversion HF as [|? ? H1 H2]; subst.
  destruct (vnm_step r o) as [w r'] eqn:E. destruct (rrun vnm_step r' os) as [ws r''] eqn:E2. simpl.
  destruct (vnm_step_ok r o w r' ok H1 E) as (A & (B1 & B2 & B3) & D).
  econstructor; [exact D|]. replace ws with (fst (rrun vnm_step r' os)) by (rewrite E2; reflexivity). apply IH; [assumption|].
  eapply Forall_impl; [|exact H2]. intros o' [X Y]. split; [rewrite B1; assumption|]. destruct o'; auto. rewrite B2. assumption.
Qed.

Lemma present2 (r : rowmap V) k : rm_ok r -> sq r -> (present (rm_dd2 r) k <-> present (rm_dd r) k).
Proof.
  intros (ok & W & _) S. unfold present, rm_dd2. split.
  - intros (c & x & H). destruct (dget (rm_kid r) c) as [j|]; [|discriminate]. eauto.
  - intros (j & x & H). assert (L : j < nrows (rm_m r)).
    { unfold rm_dd in H. destruct (dget (rm_kid r) k); [|discriminate]. pose proof (mget_some_lt _ _ _ _ W H). unfold sq in S. lia. }
    destruct (kok_key _ _ ok j L) as [c Hc]. exists c, x. rewrite Hc. assumption.
Qed.
Lemma elems_ext (P Q : nkey -> Prop) l : (forall k, P k <-> Q k) -> elems P l -> elems Q l.
Proof. intros E [A B]. split; [assumption|]. intros k. rewrite B. apply E. Qed.
Lemma gone2 (r : rowmap V) k r' : rm_kid r' = rm_kid r -> gone (rm_dd r) k (rm_dd r') -> gone (rm_dd2 r) k (rm_dd2 r').
Proof.
  intros E [A B]. unfold gone, rm_dd2. rewrite E. split; intros; destruct (dget (rm_kid r) c); auto.
Qed.
Lemma row2 (r : rowmap V) k i : dget (rm_kid r) k = Some i -> row_is nm_dict (rm_dd2 r) k (NM (mrow (rm_m r) i) (rm_kid r) None).
Proof.
  intros Hk c. unfold nm_dict, rm_dd2, rm_dd. simpl. rewrite Hk. destruct (dget (rm_kid r) c) as [j|]; [|reflexivity].
  unfold mget. destruct (vget (mrow (rm_m r) i) j); reflexivity.
Qed.
Lemma nnm_step_ok (r : rowmap V) o w r' : rm_ok r -> sq r -> nnm_op r o -> nnm_step r o = (w, r') ->
  rm_ok r' /\ stable r r' /\ ddict_step nm_dict (rm_dd2 r) o w (rm_dd2 r').
Proof.
  intros OK SQ [Hn Hx] E. pose proof OK as (ok & W & F & R).
  destruct (get_rows_ok r OK) as (OK' & E1 & E2 & E3 & S & H). destruct (dd_forced r OK) as [SD ST].
  assert (SD2 : same2 (rm_dd2 r) (rm_dd2 (rm_forced r))).
  { intros k c. unfold rm_dd2. rewrite (proj1 ST). destruct (dget (rm_kid r) c); [apply SD|reflexivity]. }
  destruct o as [k|k|k v|k|k| | | |]; simpl in Hn, Hx, E; try contradiction.
  - apply dget_some in Hn as [i Hk]. unfold nnm_getitem in E. rewrite Hk, F, E3 in E. pose proof (rm_present r k i Hk) as P.
    rewrite <- (present2 r k OK SQ) in P.
    specialize (H i). set (hb := has (vget (fst (rm_get_rows r)) i)) in *. destruct hb; simpl in E; injection E as <- <-;
      (split; [assumption|split; [assumption|split; [assumption|]]]).
    + left. split; [apply P, H; reflexivity|]. eexists. split; [reflexivity|]. apply row2. assumption.
    + right. split; [|reflexivity]. rewrite P, <- H. discriminate.
  - apply dget_some in Hn as [i Hk]. destruct Hx as (X1 & X2 & X3).
    destruct (rm_setitem r k (nm_v v)) as [r2|] eqn:Es; [|unfold rm_setitem in Es; rewrite Hk in Es; destruct (_ =? _); discriminate].
    simpl in E. injection E as <- <-. destruct (rm_set_ok r k i (nm_v v) r2 OK Hk X1 Es) as (A & B & C & D & X & Y).
    split; [assumption|]. split; [split; auto|]. split; [reflexivity|]. unfold rm_dd2. rewrite B. split.
    + intros c. unfold nm_dict. rewrite X2, X3. destruct (dget (rm_kid r) c) as [j|]; [|reflexivity]. rewrite X. destruct (vget (nm_v v) j); reflexivity.
    + intros k' Hne c. destruct (dget (rm_kid r) c); [|reflexivity]. apply Y. assumption.
  - apply dget_some in Hn as [i Hk]. unfold rm_delitem in E. rewrite Hk in E. simpl in E. injection E as <- <-.
    destruct (rm_del_ok r k i _ OK Hk (or_introl eq_refl)) as [A B]. split; [exact A|]. split; [|split; [reflexivity|apply gone2; [reflexivity|exact B]]].
    split; [reflexivity|]. simpl. unfold mdelrow. rewrite ?ncols_mselect, ?nrows_mselect. auto.
  - apply dget_some in Hn as [i Hk]. unfold rm_contains in E. rewrite Hk, F in E. simpl in E. injection E as <- <-.
    split; [assumption|split; [assumption|split; [assumption|]]]. eexists. split; [reflexivity|]. rewrite H, (present2 r k OK SQ). symmetry. apply rm_present. assumption.
  - injection E as <- <-. split; [assumption|split; [assumption|split; [assumption|]]]. destruct (rm_elems r OK) as (l & _ & Hl & ->).
    exists l. split; [|reflexivity]. eapply elems_ext; [|exact Hl]. intros k. symmetry. apply present2; assumption.
  - destruct (rm_elems r OK) as (l & Hi & Hl & _). rewrite Hi in E. simpl in E. injection E as <- <-.
    split; [assumption|split; [assumption|split; [assumption|]]]. exists l. split; [|reflexivity]. eapply elems_ext; [|exact Hl]. intros k. symmetry. apply present2; assumption.
  - injection E as <- <-. split; [|split; [|split; [reflexivity|]]].
    + unfold rm_ok. simpl. unfold mempty. rewrite nrows_mbuild. split; [assumption|]. split; [apply mwf_mbuild|]. split; [reflexivity|discriminate].
    + split; [reflexivity|]. simpl. unfold mempty. rewrite ?ncols_mbuild, ?nrows_mbuild. auto.
    + intros k c. unfold rm_dd2, rm_dd. simpl. destruct (dget (rm_kid r) c); [|reflexivity]. destruct (dget (rm_kid r) k); [apply mget_mempty|reflexivity].
  - destruct (rm_popitem_ok r OK) as [(k & i & r2 & Ep & Hk & Hp & A & B & C)|[Ep Hno]]; rewrite Ep in E; simpl in E; injection E as <- <-.
    + split; [assumption|]. split; [assumption|]. left. exists k. eexists. split; [apply present2; assumption|]. split; [reflexivity|].
      split; [apply row2; assumption|apply gone2; [apply B|assumption]].
    + split; [assumption|]. split; [assumption|]. right. split; [|auto]. intros k. rewrite present2 by assumption. apply Hno.
Qed.
Lemma nnm_run_ok (r : rowmap V) os : rm_ok r -> sq r -> Forall (nnm_op r) os -> ddict_run nm_dict (rm_dd2 r) os (fst (rrun nnm_step r os)).
Proof.
  revert r. induction os as [|o os IH]; intros r ok SQ HF; simpl; [constructor|]. inversion HF as [|? ? H1 H2]; subst.
  destruct (nnm_step r o) as [w r'] eqn:E. destruct (rrun nnm_step r' os) as [ws r''] eqn:E2. simpl.
  destruct (nnm_step_ok r o w r' ok SQ H1 E) as (A & (B1 & B2 & B3) & D).
  econstructor; [exact D|]. replace ws with (fst (rrun nnm_step r' os)) by (rewrite E2; reflexivity). apply IH; [assumption| |].
  - unfold sq in *. congruence.
  - eapply Forall_impl; [|exact H2]. intros o' [X Y]. split; [rewrite B1; assumption|]. destruct o'; auto. rewrite B1, B2. assumption.
Qed.
End Rows.
