(** * C01, C02: the answers of property calls, against the elementary meaning of the names *)
From Verif Require Import Base BaseProofs Model_Graph Model_Cache Spec_Cache CacheMath CacheProofs CacheProofs2 CacheHist Concrete
  Props_Cache Spec_Names.

(** ** reductions of lists *)
Lemma ored_list {V} (op : V -> V -> V) (P : list Z -> V -> Prop) (g : Z -> V) n (f : nat -> option Z) :
  (forall x, P [x] (g x)) ->
  (forall l a x, l <> [] -> P l a -> P (l ++ [x]) (op a (g x))) ->
  match ored op n (fun i => omap g (f i)) with
  | None => present n f = []
  | Some v => present n f <> [] /\ P (present n f) v
  end.
Proof.
  intros H1 H2. unfold present. induction n as [|n IH]; [reflexivity|].
  rewrite seq_S, flat_map_app. cbn [ored flat_map plus]. rewrite app_nil_r.
  destruct (ored op n (fun i => omap g (f i))) as [a|], (f n) as [x|]; cbn [omap omerge].
  - destruct IH as [Hn Hp]. split; [destruct (flat_map _ (seq 0 n)); discriminate|apply H2; assumption].
  - rewrite app_nil_r. exact IH.
  - rewrite IH. split; [discriminate|apply H1].
  - rewrite IH. reflexivity.
Qed.
(** ... and of lists of lists *)
Lemma ored_lists {V} (op : V -> V -> V) (P : list Z -> V -> Prop) n (f : nat -> option V) (L : nat -> list Z) :
  (forall i, match f i with None => L i = [] | Some v => L i <> [] /\ P (L i) v end) ->
  (forall l l' a b, l <> [] -> l' <> [] -> P l a -> P l' b -> P (l ++ l') (op a b)) ->
  match ored op n f with
  | None => flat_map L (seq 0 n) = []
  | Some v => flat_map L (seq 0 n) <> [] /\ P (flat_map L (seq 0 n)) v
  end.
Proof.
  intros H1 H2. induction n as [|n IH]; [reflexivity|].
  rewrite seq_S, flat_map_app. cbn [ored flat_map plus]. rewrite app_nil_r. pose proof (H1 n) as Hn.
  destruct (ored op n f) as [a|], (f n) as [x|]; cbn [omerge].
  - destruct IH as [Ha Hp], Hn as [Hb Hq]. split; [destruct (flat_map L (seq 0 n)); [destruct (Ha eq_refl)|discriminate]|apply H2; assumption].
  - rewrite Hn, app_nil_r. exact IH.
  - rewrite IH. exact Hn.
  - rewrite IH. exact Hn.
Qed.

(** what [reduced] says about a value *)
Definition good (o : rop) (l : list Z) (x : Z) : Prop := match o with
      | RCount => x = Z.of_nat (List.length l)
      | RPlus => x = fold_right Z.add 0%Z l
      | RTimes => x = fold_right Z.mul 1%Z l
      | RMin => In x l /\ forall y, In y l -> (x <= y)%Z
      | RMax => In x l /\ forall y, In y l -> (y <= x)%Z
      | RAny => In x l
      end.
Lemma fold_add l l' : fold_right Z.add 0%Z (l ++ l') = (fold_right Z.add 0%Z l + fold_right Z.add 0%Z l')%Z.
Proof. induction l; simpl; lia. Qed.
Lemma fold_mul l l' : fold_right Z.mul 1%Z (l ++ l') = (fold_right Z.mul 1%Z l * fold_right Z.mul 1%Z l')%Z.
Proof. induction l as [|a l IH]; cbn [app fold_right]; [lia|]. rewrite IH. ring. Qed.
Lemma good_one o x : good o [x] (rmap o x).
Proof. destruct o; simpl; try lia; intuition (subst; lia). Qed.
Lemma good_app o l l' a b : l <> [] -> l' <> [] -> good o l a -> good o l' b -> good o (l ++ l') (rbin o a b).
Proof.
  intros Hl Hl'. destruct o; unfold good, rbin.
  - intros -> ->. rewrite app_length. lia.
  - intros -> ->. rewrite fold_add. reflexivity.
  - intros -> ->. rewrite fold_mul. reflexivity.
  - intros [H1 H2] [H3 H4]. split.
    + apply in_or_app. destruct (Z.min_spec a b) as [[_ ->]|[_ ->]]; auto.
    + intros y Hy. apply in_app_or in Hy as [Hy|Hy]; [specialize (H2 _ Hy)|specialize (H4 _ Hy)]; lia.
  - intros [H1 H2] [H3 H4]. split.
    + apply in_or_app. destruct (Z.max_spec a b) as [[_ ->]|[_ ->]]; auto.
    + intros y Hy. apply in_app_or in Hy as [Hy|Hy]; [specialize (H2 _ Hy)|specialize (H4 _ Hy)]; lia.
  - intros H1 H2. apply in_or_app. destruct (Z.max_spec a b) as [[_ ->]|[_ ->]]; auto.
Qed.
Lemma reduced_present o n f : reduced o (present n f) (ored (rbin o) n (fun i => omap (rmap o) (f i))).
Proof.
  apply (ored_list (rbin o) (good o) (rmap o)); [apply good_one|].
  intros l a x Hl Ha. apply good_app; [exact Hl|discriminate|exact Ha|apply good_one].
Qed.
Lemma counted_onz k : counted k (onz k).
Proof. unfold counted, onz. destruct (Nat.eqb_spec k 0); [left|right]; auto. Qed.
Lemma present_length n f : List.length (present n f) = cnt n (fun i => has (f i)).
Proof.
  unfold present. induction n as [|n IH]; [reflexivity|].
  rewrite seq_S, flat_map_app, app_length, IH, cnt_S. cbn [flat_map plus]. rewrite app_nil_r. destruct (f n); reflexivity.
Qed.

Section G.
Variable G : graph.
Hypothesis wf : gwf G.
Notation n := (nrows (g_A G)).

Lemma wt_ent sg i j : wt G sg i j = ent G sg i j. Proof. destruct sg; reflexivity. Qed.
Lemma is_edge_has sg i j : is_edge G sg i j = has (ent G sg i j).
Proof. unfold is_edge. rewrite wt_ent. destruct (ent G sg i j); reflexivity. Qed.
Lemma out_count sg i : List.length (out_weights G sg i) = outdeg G sg i.
Proof. unfold out_weights, outdeg. rewrite present_length. apply cnt_ext. intros. rewrite wt_ent. reflexivity. Qed.
Lemma in_count sg i : List.length (in_weights G sg i) = indeg G sg i.
Proof. unfold in_weights, indeg. rewrite present_length. apply cnt_ext. intros. rewrite wt_ent. reflexivity. Qed.
Lemma both_count sg i : List.length (both_ways G sg i) = recipdeg G sg i.
Proof.
  unfold recipdeg. rewrite (cnt_ext _ _ (fun j => is_edge G sg i j && is_edge G sg j i)) by (intros; rewrite !is_edge_has; reflexivity).
  reflexivity.
Qed.
Lemma both_sum sg k : List.length (flat_map (both_ways G sg) (seq 0 k)) = nsum k (recipdeg G sg).
Proof.
  induction k as [|k IH]; [reflexivity|]. rewrite seq_S, flat_map_app, app_length, IH, nsum_S. cbn [flat_map plus].
  rewrite app_nil_r, both_count. reflexivity.
Qed.
Lemma row_reduced o sg i : reduced o (out_weights G sg i) (rfold G o (fun j => ent G sg i j)).
Proof.
  exact (reduced_present o n (fun j => ent G sg i j)).
Qed.
Lemma col_reduced o sg j : reduced o (in_weights G sg j) (rfold G o (fun i => ent G sg i j)).
Proof.
  exact (reduced_present o n (fun i => ent G sg i j)).
Qed.
Lemma all_reduced o sg : reduced o (all_weights G sg) (den_scal G (KElem o sg)).
Proof.
  cbn [den_scal]. apply (ored_lists (rbin o) (good o)); [|apply good_app]. intros i. apply row_reduced.
Qed.
Lemma in_all sg y : In y (all_weights G sg) <-> exists i j, i < n /\ j < n /\ wt G sg i j = Some y.
Proof.
  unfold all_weights, out_weights, present. rewrite in_flat_map. split.
  - intros (i & Hi & H). apply in_flat_map in H as (j & Hj & H). apply in_seq in Hi, Hj.
    destruct (wt G sg i j) as [x|] eqn:E; [|destruct H]. destruct H as [<-|[]]. exists i, j. repeat split; [lia|lia|exact E].
  - intros (i & j & Hi & Hj & E). exists i. rewrite in_seq. split; [lia|]. apply in_flat_map. exists j. rewrite in_seq, E. split; [lia|left; reflexivity].
Qed.

Lemma vector_msk mask (f : nat -> option Z) (P : nat -> option Z -> Prop) :
  (forall i, P i (f i)) -> vector G mask (msk mask (vbuild n f)) P.
Proof.
  intros H. unfold vector. destruct mask as [p|]; cbn [msk].
  - split.
    + unfold vrestrict, vbuild, vsize. rewrite ?map_length, ?seq_length. reflexivity.
    + intros i Hi. unfold vrestrict. rewrite vget_vbuild_lt by (unfold vsize, vbuild; rewrite map_length, seq_length; exact Hi).
      destruct (p i); [|reflexivity]. rewrite vget_vbuild_lt by exact Hi. apply H.
  - split; [unfold vbuild; rewrite map_length, seq_length; reflexivity|]. intros i Hi. rewrite vget_vbuild_lt by exact Hi. apply H.
Qed.
Lemma matrix_build f g : (forall i j, i < n -> j < n -> f i j = g i j) -> matrix G (mbuild n n f) g.
Proof.
  intros H. unfold matrix. rewrite nrows_mbuild, ncols_mbuild. split; [reflexivity|split; [reflexivity|]].
  intros i j Hi Hj. rewrite mget_mbuild_lt by assumption. apply H; assumption.
Qed.

(** the specification used by the cache proofs says what the names mean *)
Theorem meaning_of_names nm mask d : den_name G nm = Some d -> denotes G nm mask (pmask mask d).
Proof.
  destruct nm; cbn [den_name]; intros Hd;
    try (match type of Hd with context [g_dir G] => destruct (g_dir G) end; try discriminate Hd); injection Hd as <-; cbn [pmask denotes].
  - repeat split; auto using (gw_sq _ wf).
  - apply matrix_build. reflexivity.
  - apply matrix_build. intros i j _ _. cbn [msel]. destruct (i =? j); reflexivity.
  - destruct s; apply matrix_build; reflexivity.
  - destruct s; apply matrix_build; reflexivity.
  - apply vector_msk. reflexivity.
  - destruct a; apply vector_msk; intros i; [apply row_reduced|apply col_reduced].
  - pose proof (den_count G Row s) as E; cbn [den_red] in E |- *; rewrite E. apply vector_msk. intros i. rewrite out_count. apply counted_onz.
  - pose proof (den_count G Row s) as E; cbn [den_red] in E |- *; rewrite E. apply vector_msk. intros i. rewrite out_count. apply counted_onz.
  - pose proof (den_count G Col s) as E; cbn [den_red] in E |- *; rewrite E. apply vector_msk. intros i. rewrite in_count. apply counted_onz.
  - apply vector_msk. intros i. rewrite both_count. apply counted_onz.
  - apply vector_msk. intros i. rewrite out_count, in_count. apply counted_onz.
  - unfold den_int. rewrite both_sum. reflexivity.
  - apply all_reduced.
  - apply (reduced_present o n (fun i => mget (g_A G) i i)).
  - exact (negdiag_true_iff G wf).
  - exact (neg_true_iff G wf s).
  - exact (meaning_has_self_edges G wf).
  - reflexivity.
  - unfold den_iso. destruct (g_iso G) eqn:E; [|reflexivity]. split; [reflexivity|].
    pose proof (all_reduced RAny SP) as H. destruct (den_scal G (KElem RAny SP)) as [x|]; [|exact H]. destruct H as [Hn Hx].
    split; [exact Hn|]. intros y Hy. apply in_all in Hy as (i & j & _ & _ & Hy). apply in_all in Hx as (k & l & _ & _ & Hx).
    exact (gw_iso _ wf E _ _ _ _ _ _ Hy Hx).
Qed.
End G.

(** ** The histories of C01 and C02, directly in terms of the elementary meaning *)
Theorem C01_meaning_partial (mhr : bool) (G : graph) (h : list call) (nm : pname) (mask : mask_t) :
  gwf G -> g_dir G = false -> (exists i x, mget (g_A G) i i = Some x) \/ (forall c, In c h -> fst c <> Nnegdiag) -> undir_name nm ->
  exists v, fst (get_property mhr G nm mask (run_history mhr G h st0)) = Val v /\ denotes G nm mask v.
Proof.
  intros wf Hd Hh Hn. destruct (C01_undirected_values_partial mhr G h nm mask wf Hd Hh Hn) as (d & H1 & H2).
  exists (pmask mask d). split; [exact H2|]. apply meaning_of_names; assumption.
Qed.
Theorem C02_meaning_partial (mhr : bool) (G : graph) (h : list call) (nm : pname) (mask : mask_t) :
  gwf G -> g_dir G = true -> (forall c, In c h -> no_trap G c) -> dir_name nm ->
  exists v, fst (get_property mhr G nm mask (run_history mhr G h st0)) = Val v /\ denotes G nm mask v.
Proof.
  intros wf Hd Hh Hn. destruct (C02_directed_values_partial mhr G h nm mask wf Hd Hh Hn) as (d & H1 & H2).
  exists (pmask mask d). split; [exact H2|]. apply meaning_of_names; assumption.
Qed.
(** every name at all, after every history that does not trigger one of the defects: whatever value is returned is the
    one the name means (count_element excepted), for graphs of both kinds *)
Theorem C01_C02_meaning_partial (mhr : bool) (G : graph) (h : list call) (nm : pname) (mask : mask_t) (v : pval) :
  gwf G -> safe_hist mhr G st0 (h ++ [(nm, mask)]) ->
  (nm = Nnegdiag -> nd_safe G (run_history mhr G h st0)) -> (forall sg, nm <> Nelement RCount sg) ->
  fst (get_property mhr G nm mask (run_history mhr G h st0)) = Val v -> denotes G nm mask v.
Proof.
  intros wf H Hx Hc E.
  assert (Ha : answers mhr G nm mask (fst (get_property mhr G nm mask (run_history mhr G h st0)))) by (apply history_ok; assumption).
  rewrite E in Ha. destruct (Ha Hc) as (d & Hd & ->). apply meaning_of_names; assumption.
Qed.

(** ** Once has_self_edges was asked, nothing can go wrong any more: whatever is called afterwards, every listed name and total_degrees+
    answer with what they mean, and in a graph without self-edges has_negative_diagonal does too *)
Section Asked.
Variable mhr : bool.
Variable G : graph.
Hypothesis wf : gwf G.
Definition asked (s : st) : Prop := Inv G s /\ has (c_bool s KSelf) = true.
Lemma asked_safe s c : asked s -> safe_call G s c.
Proof.
  intros [HI HK]. split.
  - intros _. destruct (den_bool G KSelf) eqn:D; [right; reflexivity|left]. destruct (c_bool s KSelf) as [v|] eqn:E; [|discriminate].
    assert (X : v = false) by (rewrite <- D; apply (i_boolx G true KSelf v s HI E); discriminate). subst v.
    destruct (c_bool s KNegDiag) as [v|] eqn:E2; [|right; auto]. left. rewrite E2.
    destruct (i_bool _ _ _ HI _ _ E2) as [H|(_ & H)]; [rewrite H; reflexivity|]. destruct H as (_ & C & _). rewrite D in C. discriminate.
  - intros _ _. right. exact HK.
Qed.
Lemma asked_step s c : asked s -> asked (run_call mhr G s c).
Proof.
  intros H. pose proof H as [HI HK]. destruct c as [n' m']. destruct (get_property_ok mhr G wf n' m' s HI (asked_safe s (n', m') H)) as (_ & A & B).
  split; [exact A|]. apply (ext_bool _ _ KSelf B HK).
Qed.
Lemma asked_hist h : forall s, asked s -> asked (run_history mhr G h s).
Proof. induction h as [|c h IH]; intros s H; [exact H|]. apply IH, asked_step, H. Qed.
Lemma asked_first h1 h2 m : (forall c, In c h1 -> no_trap G c) -> asked (run_history mhr G (h1 ++ (Nself, m) :: h2) st0).
Proof.
  intros H. unfold run_history. rewrite fold_left_app. cbn [fold_left]. apply asked_hist.
  destruct (run_history_Inv mhr G wf h1 st0 (Inv_st0 G true) (no_trap_hist mhr G h1 wf H st0)) as [HI _].
  set (s1 := run_history mhr G h1 st0) in *. split.
  - apply (get_property_ok mhr G wf Nself m s1 HI). apply plain_safe. split; discriminate.
  - unfold run_call. cbn [fst snd]. assert (E : alias G Nself = Nself) by (unfold alias; destruct (g_dir G); reflexivity).
    assert (W : wp (dispatch mhr G (alias G Nself) m) s1 (fun _ s' => has (c_bool s' KSelf) = true)).
    { rewrite E. cbn [dispatch]. unfold lift. apply wp_bind. eapply wp_GV; [apply (has_self_edges_ok G wf true eq_refl)|exact HI|]. intros s' HI' HE HP. apply wp_ret. exact HP. }
    exact W.
Qed.
Lemma asked_value s nm mask : asked s -> (if g_dir G then dir_name nm \/ nm = Ntotal_degrees SP else undir_name nm) ->
  exists d, den_name G nm = Some d /\ fst (get_property mhr G nm mask s) = Val (pmask mask d).
Proof.
  intros H Hn. pose proof H as [HI _]. apply (val_of_answers mhr G nm mask).
  - intros sg ->. destruct (g_dir G); [destruct Hn as [Hn|Hn]; [|discriminate]|]; destruct sg; destruct Hn.
  - intros e He. destruct (g_dir G) eqn:Hd; [destruct Hn as [Hn| ->]|].
    + destruct nm; try (destruct Hn; fail); try (exact (proj2 (proj2 (core_plain _ Hn)) mhr G e He));
        (destruct He as [[_ E]|[(_ & E & _)|(_ & _ & _ & [E|(o & _ & E)])]]; try discriminate; simpl in E; rewrite Hd in E; discriminate).
    + destruct He as [[_ E]|[(_ & E & _)|(_ & _ & _ & [E|(o & _ & E)])]]; try discriminate. simpl in E. rewrite Hd in E. discriminate.
    + destruct nm; try (destruct Hn; fail); try (exact (proj2 (proj2 (core_plain _ Hn)) mhr G e He));
        (destruct He as [[_ E]|[(_ & E & _)|(_ & _ & _ & [E|(o & _ & E)])]]; try discriminate; simpl in E; rewrite Hd in E; discriminate).
  - apply (get_property_ok mhr G wf nm mask s HI (asked_safe s (nm, mask) H)). intros E. exfalso. simpl in E. subst nm.
    destruct (g_dir G); [destruct Hn as [Hn|Hn]; [|discriminate]|]; destruct Hn.
Qed.
Theorem C02_asked_first (h1 h2 : list call) (m : mask_t) (nm : pname) (mask : mask_t) :
  (forall c, In c h1 -> no_trap G c) -> (if g_dir G then dir_name nm \/ nm = Ntotal_degrees SP else undir_name nm) ->
  exists v, fst (get_property mhr G nm mask (run_history mhr G (h1 ++ (Nself, m) :: h2) st0)) = Val v /\ denotes G nm mask v.
Proof.
  intros H Hn. destruct (asked_value _ nm mask (asked_first h1 h2 m H) Hn) as (d & H1 & H2).
  exists (pmask mask d). split; [exact H2|]. apply meaning_of_names; assumption.
Qed.
(** has_negative_diagonal itself, in a graph without self-edges *)
Theorem C05_asked_first (h1 h2 : list call) (m mask : mask_t) :
  (forall c, In c h1 -> no_trap G c) -> (forall i, mget (g_A G) i i = None) ->
  fst (get_property mhr G Nnegdiag mask (run_history mhr G (h1 ++ (Nself, m) :: h2) st0)) = Val (PBool false).
Proof.
  intros H Hl. assert (D : den_bool G KSelf = false).
  { destruct (den_bool G KSelf) eqn:E; [|reflexivity]. apply (meaning_has_self_edges G wf) in E as (i & x & E). rewrite Hl in E. discriminate. }
  pose proof (asked_first h1 h2 m H) as A. set (s := run_history _ _ _ _) in *. pose proof A as [HI _].
  pose proof (asked_safe s (Nnegdiag, mask) A) as SC. assert (NS : nd_safe G s) by (destruct (proj1 SC eq_refl) as [X|X]; [exact X|congruence]).
  pose proof (proj1 (get_property_ok mhr G wf Nnegdiag mask s HI SC) (fun _ => NS)) as X.
  destruct (val_of_answers mhr G Nnegdiag mask (fst (get_property mhr G Nnegdiag mask s))) with (3 := X) as (d & H1 & H2); [discriminate|intros e He; destruct He as [[_ E]|[(_ & E & _)|(_ & _ & _ & [E|(o & _ & E)])]]; discriminate|].
  rewrite H2. cbn [den_name] in H1. injection H1 as <-. cbn [pmask]. f_equal. f_equal.
  generalize (seq 0 (nrows (g_A G))). intros l. induction l as [|i l IH]; cbn [existsb]; [reflexivity|]. rewrite Hl. exact IH.
Qed.
End Asked.
(** the history that corrupts the cache of [d_loop] (C02_has_self_edges_refuted) is harmless when has_self_edges is asked first *)
Example C02_asked_case : gwf d_loop /\ (forall c, In c ([] : list call) -> no_trap d_loop c) /\ dir_name Nself /\
  (let h := [(Ntotal_degrees SP, None); (Nnegedges SP, None); (Nnegdiag, None); (Ntotal_degrees SP, None)] in
   fst (get_property false d_loop Nself None (run_history false d_loop h st0)) = Val (PBool false) /\
   fst (get_property false d_loop Nself None (run_history false d_loop ([] ++ (Nself, None) :: h) st0)) = Val (PBool true)).
Proof. split; [apply mkg_wf|]. split; [intros c []|]. split; [exact Logic.I|]. split; vm_compute; reflexivity. Qed.
(** ** Non-vacuity *)
Definition g_loopy : graph := mkg false 3 [(0, 1, 5%Z); (1, 2, 7%Z); (2, 2, 3%Z)].
Example C01_meaning_case :
  gwf g_loopy /\ g_dir g_loopy = false /\ (exists i x, mget (g_A g_loopy) i i = Some x) /\
  undir_name (Nred Row RTimes SM) /\
  out_weights g_loopy SM 1 = [5%Z; 7%Z] /\ out_weights g_loopy SP 2 = [7%Z; 3%Z] /\
  all_weights g_loopy SP = [5%Z; 5%Z; 7%Z; 7%Z; 3%Z] /\
  fst (get_property false g_loopy (Nred Row RTimes SP) (Some (fun i => i =? 1))
         (run_history false g_loopy [(Nself, None); (Ndegrees SM, None)] st0)) = Val (PVec [None; Some 35%Z; None]).
Proof.
  split; [apply mkg_wf|]. split; [reflexivity|]. split; [exists 2, 3%Z; reflexivity|]. split; [exact Logic.I|].
  repeat split; vm_compute; reflexivity.
Qed.
(** [denotes] tells right from wrong answers *)
Example denotes_discriminates :
  denotes g_loopy (Nelement RTimes SP) None (PScal (Some 3675%Z)) /\
  ~ denotes g_loopy (Nelement RTimes SP) None (PScal (Some 27%Z)) /\
  denotes g_loopy (Ndegrees SP) (Some (fun i => i =? 2)) (PVec [None; None; Some 2%Z]) /\
  ~ denotes g_loopy (Ndegrees SM) (Some (fun i => i =? 2)) (PVec [None; None; Some 2%Z]) /\
  ~ denotes g_loopy (Ndegrees SP) None (PVec [None; None; Some 2%Z]).
Proof.
  repeat apply conj; cbn [denotes]; unfold vector, counted, reduced, all_weights, out_weights, present; cbn.
  - discriminate.
  - reflexivity.
  - intros [_ H]. discriminate.
  - reflexivity.
  - intros [|[|[|i]]] Hi; try reflexivity; [|lia]. cbn. right. split; [discriminate|reflexivity].
  - intros [_ H]. specialize (H 2 ltac:(lia)). cbn in H. destruct H as [[H _]|[_ H]]; discriminate.
  - intros [_ H]. specialize (H 0 ltac:(lia)). cbn in H. destruct H as [[H _]|[_ H]]; discriminate.
Qed.
Example C02_meaning_case :
  gwf (mkg true 3 [(0, 1, 5%Z); (1, 0, 7%Z)]) /\ dir_name (Nrecip_degrees SM) /\ no_trap (mkg true 3 [(0, 1, 5%Z); (1, 0, 7%Z)]) (Ntotal_degrees SP, None) /\
  both_ways (mkg true 3 [(0, 1, 5%Z); (1, 0, 7%Z)]) SM 1 = [0].
Proof.
  split; [apply mkg_wf|]. split; [exact Logic.I|]. split; [|reflexivity]. split; cbn; [|discriminate].
  intros (i & x & H). destruct i as [|[|[|i]]]; try discriminate H. destruct i; discriminate H.
Qed.
Print Assumptions C02_asked_first.
Print Assumptions C05_asked_first.
Print Assumptions C01_meaning_partial.
Print Assumptions C02_meaning_partial.
Print Assumptions C01_C02_meaning_partial.
Print Assumptions meaning_of_names.
