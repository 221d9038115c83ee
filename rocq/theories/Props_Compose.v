(** * C31: what compose does with partly overlapping node sets *)
From Verif Require Import Base BaseProofs Model_Graph Model_Cache Spec_Cache CacheMath CacheProofs CacheProofs2
  Model_Keys Spec KeyProofs Model_Operators OperatorProofs Props_Operators Concrete.
From Coq Require Import Permutation Sorted.
Open Scope nat_scope.

Section K.
Variable orc : mat Z -> bool.

(** a matrix and a numbering of keys make a graph *)
Lemma new_graph_is dir C dt d (W : nkey -> nkey -> option Z) :
  mwf C -> ncols C = nrows C -> NoDup (map fst d) -> Permutation (map snd d) (seq 0 (nrows C)) ->
  (forall u v i j, dget d u = Some i -> dget d v = Some j -> mget C i j = W u v) ->
  (forall u v, ~ In u (map fst d) \/ ~ In v (map fst d) -> W u v = None) ->
  (dir = false -> forall u v, W u v = W v u) ->
  (nonneg_dtype dt = true -> forall u v x, W u v = Some x -> (0 <= x)%Z) ->
  is_graph (new_graph orc dir C dt d) dir (fun k => In k (map fst d)) W.
Proof.
  intros H1 H2 H3 H4 H5 H6 H7 H8.
  assert (SUR : forall i, i < nrows C -> exists u, dget d u = Some i).
  { intros i Hi. assert (In i (map snd d)) by (eapply Permutation_in; [symmetry; exact H4|apply in_seq; lia]).
    apply in_map_iff in H as ([u j] & <- & Hin). exists u. apply In_dget; assumption. }
  split.
  - apply new_graph_wf; try assumption.
    + intros D i j. destruct (Nat.lt_ge_cases i (nrows C)) as [Li|Li]; [|rewrite !mget_out by (try assumption; lia); reflexivity].
      destruct (Nat.lt_ge_cases j (nrows C)) as [Lj|Lj]; [|rewrite !mget_out by (try assumption; lia); reflexivity].
      destruct (SUR i Li) as [u Hu], (SUR j Lj) as [v Hv]. rewrite (H5 u v i j Hu Hv), (H5 v u j i Hv Hu). auto.
    + intros E i j x Hx. destruct (mget_some_lt C i j x H1 Hx) as [Li Lj]. rewrite H2 in Lj.
      destruct (SUR i Li) as [u Hu], (SUR j Lj) as [v Hv]. rewrite (H5 u v i j Hu Hv) in Hx. eauto.
  - split; [reflexivity|]. split; [intros k; reflexivity|]. intros u v. set (R := new_graph _ _ _ _ _).
    assert (NR : forall k, node R k <-> In k (map fst d)) by (intros; reflexivity).
    destruct (in_dec nkey_dec u (map fst d)) as [Hu|Hu].
    + destruct (in_dec nkey_dec v (map fst d)) as [Hv|Hv].
      * apply NR, node_kid in Hu as [i Hi]. apply NR, node_kid in Hv as [j Hj]. rewrite (weight_kid R u v i j Hi Hj). apply H5; assumption.
      * rewrite H6 by auto. apply weight_none_r. rewrite NR. assumption.
    + rewrite H6 by auto. apply weight_none_l. rewrite NR. assumption.
Qed.
Lemma in_graph_true_i G k : node G k -> in_graph G k = true.
Proof. intros H. apply node_in_graph. assumption. Qed.
Lemma in_graph_false G k : ~ node G k -> in_graph G k = false.
Proof. intros H. destruct (in_graph G k) eqn:E; [|reflexivity]. apply node_in_graph in E. contradiction. Qed.
Lemma filter_split {X} (p : X -> bool) l : List.length (filter p l) + List.length (filter (fun x => negb (p x)) l) = List.length l.
Proof. induction l as [|x l IH]; [reflexivity|]. simpl. destruct (p x); simpl; lia. Qed.
Lemma dget_map_snd (keys : list nkey) (l : list nat) (f : nat -> nat) k : dget (combine keys (map f l)) k = omap f (dget (combine keys l) k).
Proof. revert l. induction keys as [|x keys IH]; intros [|y l]; simpl; try reflexivity. destruct (nkey_eqb k x); [reflexivity|apply IH]. Qed.

(** the edges of the composition: among common nodes those of H only, among nodes of G those of G, among new nodes those
    of H; an edge of H between a new node and a common one is lost *)
Definition composed (G H : graph) (u v : nkey) : option Z :=
  if in_graph G u && in_graph G v then if in_graph H u && in_graph H v then weight H u v else weight G u v
  else if negb (in_graph G u) && negb (in_graph G v) then weight H u v else None.

Theorem C31_compose_exact G H : gwf G -> gwf H -> (g_dir G = false -> g_dir H = false) ->
  ~ (forall k, node G k <-> node H k) ->
  (** in H's numbering the nodes that G does not have come first *)
  (forall u i v j, kid H u = Some i -> kid H v = Some j -> ~ node G u -> node G v -> i < j) ->
  exists R, compose orc G H = Val R /\ is_graph R (g_dir G) (fun k => node G k \/ node H k) (composed G H).
Proof.
  intros wG wH Hd Hne Hfirst. unfold compose.
  destruct (keys_eqb (g_kid G) (g_kid H)) eqn:EK; [destruct (Hne (proj1 (keys_eqb_true _ _) EK))|].
  set (keys := sorted_keys (g_kid G) (common_keys G H)).
  set (new := filter (fun k => negb (inb k (g_kid G))) (gnodes H)).
  set (newkeys := sorted_keys (g_kid H) new).
  assert (InC : forall k, In k keys <-> node G k /\ node H k) by (intros; apply in_common).
  assert (NDc : NoDup keys) by (apply nodup_common; assumption).
  assert (Pn : Permutation newkeys new) by apply sort_by_perm.
  assert (InN : forall k, In k newkeys <-> node H k /\ ~ node G k).
  { intros k. split.
    - intros Hin. eapply Permutation_in in Hin; [|exact Pn]. apply filter_In in Hin as [A1 A2]. split; [assumption|].
      intros N. apply negb_true_iff in A2. rewrite (proj2 (inb_true k (g_kid G)) N) in A2. discriminate.
    - intros [A1 A2]. eapply Permutation_in; [symmetry; exact Pn|]. apply filter_In. split; [assumption|]. apply negb_true_iff.
      destruct (inb k (g_kid G)) eqn:E; [|reflexivity]. apply inb_true in E. contradiction. }
  assert (NDn : NoDup newkeys) by (eapply Permutation_NoDup; [symmetry; exact Pn|apply NoDup_filter, wH]).
  set (K := List.length newkeys).
  assert (LEN : List.length keys + K = glen H).
  { assert (List.length keys = List.length (filter (fun k => inb k (g_kid G)) (gnodes H))).
    { apply Permutation_length, NoDup_Permutation; [assumption|apply NoDup_filter, wH|]. intros k. rewrite InC, filter_In, inb_true. unfold node, gnodes. tauto. }
    rewrite H0. unfold K. rewrite (Permutation_length Pn). unfold new. rewrite filter_split. unfold gnodes. rewrite map_length. apply kok_len, gkok. assumption. }
  destruct (list_to_ids_ok G keys wG) as (ids1 & E1 & L1 & F1 & B1 & N1); [intros k Hk; apply InC in Hk; tauto|].
  destruct (list_to_ids_ok H keys wH) as (ids2 & E2 & L2 & F2 & B2 & N2); [intros k Hk; apply InC in Hk; tauto|].
  destruct (list_to_ids_ok H newkeys wH) as (ids & E3 & L3 & F3 & B3 & N3); [intros k Hk; apply InN in Hk; tauto|].
  rewrite E1. cbn [obind]. rewrite E2. cbn [obind]. rewrite E3. cbn [obind].
  specialize (N1 NDc). specialize (N2 NDc). specialize (N3 NDn).
  (* the new nodes have the numbers 0 .. K-1 in H *)
  assert (Lt : forall k i, kid H k = Some i -> ~ node G k -> i < K).
  { intros k i Hk Gk. assert (I : incl (seq 0 (S i)) ids).
    { intros j Hj. apply in_seq in Hj. assert (Lj : j < glen H) by (pose proof (kid_lt H wH k i Hk); unfold glen; lia).
      destruct (kid_key H wH j Lj) as [v Hv]. assert (Gv : ~ node G v).
      { intros Gv. pose proof (Hfirst k i v j Hk Hv Gk Gv). lia. }
      assert (Iv : In v newkeys) by (apply InN; split; [apply node_kid; eauto|assumption]).
      apply In_nth_error in Iv as [a Ha]. destruct (F3 a v Ha) as (j' & Hj' & Kj'). assert (j' = j) by congruence. subst. eapply nth_error_In; exact Hj'. }
    pose proof (NoDup_incl_length (seq_NoDup (S i) 0) I) as Hl. rewrite seq_length in Hl. unfold K. lia. }
  assert (Eids : ids = seq 0 K).
  { assert (Em : map (fun k => oget 0 (dget (g_kid H) k)) newkeys = ids).
    { apply nth_error_ext. intros a. rewrite nth_error_map. destruct (nth_error newkeys a) as [k|] eqn:Ek.
      - destruct (F3 a k Ek) as (i & Hi & Ki). cbn [option_map]. rewrite Hi. unfold kid in Ki. rewrite Ki. reflexivity.
      - cbn [option_map]. symmetry. apply nth_error_None. apply nth_error_None in Ek. lia. }
    rewrite <- Em. apply sorted_perm_eq; [apply sort_by_sorted|apply seq_sorted|]. rewrite Em.
    apply NoDup_Permutation_bis; [assumption|rewrite seq_length; unfold K; lia|].
    intros i Hi. apply In_nth_error in Hi as [a Ha]. destruct (B3 a i Ha) as (k & Hk & Ki). apply in_seq. split; [lia|].
    apply nth_error_In, InN in Hk. eapply Lt; [exact Ki|tauto]. }
  assert (NK : forall k i, kid H k = Some i -> ~ node G k -> nth_error newkeys i = Some k).
  { intros k i Hi Gk. assert (In k newkeys) by (apply InN; split; [apply node_kid; eauto|assumption]). apply In_nth_error in H0 as [a Ha].
    destruct (F3 a k Ha) as (i' & Hi' & Ki'). assert (i' = i) by congruence. subst i'. rewrite Eids in Hi'.
    assert (La : a < K) by (rewrite <- (seq_length K 0); apply nth_error_Some; congruence).
    rewrite (nth_error_nth' _ 0) in Hi' by (rewrite seq_length; exact La). rewrite seq_nth in Hi' by exact La. simpl in Hi'. congruence. }
  set (dH := combine newkeys _).
  assert (EfH : map fst dH = newkeys) by (apply combine_fst; rewrite map_length; congruence).
  assert (EsH : map snd dH = seq (nrows (g_A G)) K).
  { unfold dH. rewrite combine_snd by (rewrite map_length; congruence). rewrite Eids, seq_shift_add. reflexivity. }
  assert (ND : NoDup (map fst (dH ++ g_kid G))).
  { rewrite map_app, EfH. apply NoDup_app_intro; [assumption|apply wG|]. intros k A1 A2. apply InN in A1. apply (proj2 A1). exact A2. }
  rewrite (dupdate_app _ _ ND).
  assert (KG : forall k i, kid G k = Some i -> dget (dH ++ g_kid G) k = Some i).
  { intros k i Hi. rewrite dget_app. replace (dget dH k) with (@None nat); [exact Hi|].
    symmetry. apply dget_none. rewrite EfH, InN. intros [_ A]. apply A, node_kid. eauto. }
  assert (KH : forall k i, kid H k = Some i -> ~ node G k -> dget (dH ++ g_kid G) k = Some (i + nrows (g_A G))).
  { intros k i Hi Gk. rewrite dget_app. unfold dH. rewrite dget_map_snd, Eids. unfold K. rewrite (proj2 (combine_get newkeys k i NDn)) by (apply NK; assumption).
    reflexivity. }
  destruct (wG) as [G1 G2 G3 G4 G5 G6 G7] eqn:XG. destruct (wH) as [H1 H2 H3 H4 H5 H6 H7] eqn:XH.
  set (C0 := mempty _ _). set (C1 := mput C0 _ _ _). set (C2 := mput C1 _ _ _). set (C := mput C2 _ _ _).
  assert (NC : nrows C = nrows (g_A G) + K).
  { unfold C, C2, C1, C0, mput, mempty. rewrite !nrows_mbuild. unfold glen in LEN. lia. }
  assert (CC : ncols C = nrows (g_A G) + K).
  { unfold C, C2, C1, C0, mput, mempty. rewrite !ncols_mbuild. unfold glen in LEN. lia. }
  assert (EK' : nrows (g_A H) - List.length keys = K) by (unfold glen in LEN; lia).
  assert (SYM : g_dir G = false -> forall u v, composed G H u v = composed G H v u).
  { intros D u v. unfold composed. rewrite (andb_comm (in_graph G v)), (andb_comm (in_graph H v)), (andb_comm (negb (in_graph G v))).
    rewrite (weight_sym G u v wG D), (weight_sym H u v wH (Hd D)). reflexivity. }
  assert (ENT : forall u v i j, dget (dH ++ g_kid G) u = Some i -> dget (dH ++ g_kid G) v = Some j -> mget C i j = composed G H u v).
  { intros u v i j Hu Hv.
    assert (CASE : forall k x, dget (dH ++ g_kid G) k = Some x ->
      (node G k /\ in_graph G k = true /\ kid G k = Some x /\ x < nrows (g_A G)) \/
      (~ node G k /\ in_graph G k = false /\ exists y, kid H k = Some y /\ y < K /\ x = y + nrows (g_A G))).
    { intros k x Hk. destruct (node_dec G k) as [Nk|Nk].
      - left. pose proof Nk as Nk'. apply node_kid in Nk' as [y Hy]. rewrite (KG k y Hy) in Hk. injection Hk as <-.
        split; [assumption|]. split; [apply node_in_graph; assumption|]. split; [assumption|]. apply (kid_lt G wG k). assumption.
      - right. split; [assumption|]. split; [apply in_graph_false; assumption|]. rewrite dget_app in Hk.
        assert (Hin : In k newkeys).
        { destruct (dget dH k) eqn:Ed; [rewrite <- EfH; eapply dget_In, (in_map fst) in Ed; exact Ed|].
          destruct Nk. apply node_kid. exists x. exact Hk. }
        apply InN in Hin as [Nh _]. apply node_kid in Nh as [y Hy]. exists y. split; [assumption|]. split; [eapply Lt; eassumption|].
        pose proof (KH k y Hy Nk) as E. rewrite dget_app in E. congruence. }
    assert (P1 : forall k x, kid G k = Some x -> node H k -> exists a y, pos ids1 x = Some a /\ nth_error ids2 a = Some y /\ kid H k = Some y).
    { intros k x Hx Nh. assert (Ik : In k keys) by (apply InC; split; [apply node_kid; eauto|assumption]). apply In_nth_error in Ik as [a Ha].
      destruct (F1 a k Ha) as (x' & Hx' & Kx'), (F2 a k Ha) as (y & Hy & Ky). assert (x' = x) by congruence. subst.
      exists a, y. split; [apply pos_some; assumption|]. auto. }
    assert (P0 : forall k x, kid G k = Some x -> ~ node H k -> pos ids1 x = None).
    { intros k x Hx Nh. destruct (pos ids1 x) as [a|] eqn:E; [|reflexivity]. apply pos_some in E; [|assumption].
      destruct (B1 a x E) as (k' & Hk' & Kk'). assert (k' = k) by exact (kid_inj G wG k' k x Kk' Hx). subst. apply nth_error_In, InC in Hk'. tauto. }
    assert (PB : forall x, nrows (g_A G) <= x -> pos ids1 x = None).
    { intros x Hx. destruct (pos ids1 x) as [a|] eqn:E; [|reflexivity]. apply pos_some in E; [|assumption].
      destruct (B1 a x E) as (k' & _ & Kk'). apply (kid_lt G wG) in Kk'. unfold glen in Kk'. lia. }
    assert (LiLj : i < nrows (g_A G) + K /\ j < nrows (g_A G) + K).
    { destruct (CASE u i Hu) as [(_ & _ & _ & L)|(_ & _ & y & _ & L & ->)], (CASE v j Hv) as [(_ & _ & _ & L')|(_ & _ & y' & _ & L' & ->)]; lia. }
    assert (R1 : nrows C1 = nrows (g_A G) + K /\ ncols C1 = nrows (g_A G) + K /\ nrows C2 = nrows (g_A G) + K /\ ncols C2 = nrows (g_A G) + K /\
       nrows C0 = nrows (g_A G) + K /\ ncols C0 = nrows (g_A G) + K).
    { unfold C2, C1, C0, mput, mempty. rewrite !nrows_mbuild, !ncols_mbuild. unfold glen in LEN. repeat split; lia. }
    destruct R1 as (R1 & R2 & R3 & R4 & R5 & R6).
    assert (LT : (i <? nrows (g_A G) + K) && (j <? nrows (g_A G) + K) = true) by (apply andb_true_iff; rewrite !Nat.ltb_lt; exact LiLj).
    unfold C. rewrite mget_mput, R3, R4, LT, EK', !pos_seq, G2. unfold C2. rewrite mget_mput, R1, R2, LT. unfold C1. rewrite mget_mput, R5, R6, LT, !pos_seq, ?G2. cbn [Nat.leb andb]. change (0 + nrows (g_A G)) with (nrows (g_A G)).
    unfold composed.
    destruct (CASE u i Hu) as [(Nu & Iu & Ku & Lu)|(Nu & Iu & yu & Ku & Lu & ->)], (CASE v j Hv) as [(Nv & Iv & Kv & Lv)|(Nv & Iv & yv & Kv & Lv & ->)]; rewrite Iu, Iv; cbn [andb negb].
    - rewrite (proj2 (Nat.leb_gt (nrows (g_A G)) i)) by assumption. cbn [andb].
      destruct (node_dec H u) as [Hu'|Hu'].
      + destruct (P1 u i Ku Hu') as (a & x & Pa & Ia & Kx). rewrite Pa, (in_graph_true_i H u Hu'). cbn [andb]. destruct (node_dec H v) as [Hv'|Hv'].
        * destruct (P1 v j Kv Hv') as (b & y & Pb & Ib & Ky). rewrite Pb, (in_graph_true_i H v Hv'). rewrite (mget_mextract _ _ _ _ _ _ _ Ia Ib).
          symmetry. apply weight_kid; assumption.
        * rewrite (P0 v j Kv Hv'), (in_graph_false H v Hv'). rewrite (proj2 (Nat.ltb_lt i _)), (proj2 (Nat.ltb_lt j _)) by assumption.
          rewrite !Nat.sub_0_r. symmetry. apply weight_kid; assumption.
      + rewrite (P0 u i Ku Hu'), (in_graph_false H u Hu'). cbn [andb]. rewrite (proj2 (Nat.ltb_lt i _)), (proj2 (Nat.ltb_lt j _)) by assumption.
        rewrite !Nat.sub_0_r. symmetry. apply weight_kid; assumption.
    - rewrite (proj2 (Nat.leb_gt (nrows (g_A G)) i)) by assumption. cbn [andb]. rewrite (PB (yv + _)) by lia. rewrite (proj2 (Nat.ltb_ge (yv + _) (nrows (g_A G)))) by lia.
      unfold C0. rewrite mget_mempty. destruct (pos ids1 i), (i <? nrows (g_A G)); reflexivity.
    - rewrite (proj2 (Nat.leb_gt (nrows (g_A G)) j)) by assumption. cbn [andb]. rewrite (PB (yu + _)) by lia. rewrite (proj2 (Nat.ltb_ge (yu + _) (nrows (g_A G)))) by lia.
      unfold C0. rewrite mget_mempty. match goal with |- match ?x with _ => _ end = _ => destruct x; reflexivity end.
    - rewrite !(proj2 (Nat.leb_le (nrows (g_A G)) _)) by lia. rewrite !(proj2 (Nat.ltb_lt _ (nrows (g_A G) + K))) by lia. cbn [andb]. rewrite !Nat.add_sub.
      rewrite Eids. rewrite (mget_mextract _ _ _ _ _ yu yv); [symmetry; apply weight_kid; assumption| |];
        (rewrite (nth_error_nth' _ 0) by (rewrite seq_length; assumption); rewrite seq_nth by assumption; reflexivity). }
  eexists. split; [reflexivity|].
  match goal with |- is_graph ?R _ _ _ => assert (X : is_graph R (g_dir G) (fun k => In k (map fst (dH ++ g_kid G))) (composed G H)) end.
  - apply new_graph_is.
    + apply mwf_mbuild.
    + congruence.
    + exact ND.
    + rewrite map_app, EsH, NC. rewrite Permutation_app_comm, seq_app. apply Permutation_app; [exact G7|reflexivity].
    + exact ENT.
    + intros u v Hn. unfold composed. rewrite map_app, EfH in Hn.
      assert (Out : forall k, ~ In k (newkeys ++ map fst (g_kid G)) -> ~ node G k /\ ~ node H k).
      { intros k Hk. rewrite in_app_iff, InN in Hk. fold (gnodes G) in Hk. change (In k (gnodes G)) with (node G k) in Hk. destruct (node_dec G k); tauto. }
      destruct Hn as [Hn|Hn]; apply Out in Hn as [A1 A2].
      * rewrite (in_graph_false G u A1). cbn [andb negb]. rewrite (weight_none_l H) by assumption. destruct (in_graph G v); reflexivity.
      * rewrite (in_graph_false G v A1). rewrite andb_false_r. rewrite (weight_none_r H) by assumption. destruct (_ && _); reflexivity.
    + exact SYM.
    + intros E u v x. apply unify_nonneg in E as [X1 X2]. unfold composed.
      destruct (_ && _); [destruct (_ && _); [apply (weight_nonneg H u v x wH X2)|apply (weight_nonneg G u v x wG X1)]|destruct (_ && _); [apply (weight_nonneg H u v x wH X2)|discriminate]].
  - destruct X as (X1 & X2 & X3 & X4). split; [exact X1|]. split; [exact X2|]. split; [|exact X4].
    intros k. rewrite X3, map_app, EfH, in_app_iff, InN. fold (gnodes G) (node G k).
    destruct (node_dec G k); unfold node, gnodes in *; tauto.
Qed.
(** in all other cases compose returns a broken graph: it has the right nodes, but the id of some new node is beyond the end of the matrix *)
Theorem C31_compose_broken G H u i v j : gwf G -> gwf H ->
  kid H u = Some i -> kid H v = Some j -> ~ node G u -> node G v -> j < i ->
  exists R, compose orc G H = Val R /\ ~ gwf R /\ (forall k, node R k <-> node G k \/ node H k) /\
    exists w n, ~ node G w /\ node H w /\ kid R w = Some n /\ nrows (g_A R) <= n.
Proof.
  intros wG wH Ku Kv Gu Gv Lij. unfold compose.
  destruct (keys_eqb (g_kid G) (g_kid H)) eqn:EK.
  { exfalso. apply Gu. apply (proj2 (proj1 (keys_eqb_true _ _) EK u)). apply node_kid. eauto. }
  set (keys := sorted_keys (g_kid G) (common_keys G H)).
  set (new := filter (fun k => negb (inb k (g_kid G))) (gnodes H)).
  set (newkeys := sorted_keys (g_kid H) new).
  assert (InC : forall k, In k keys <-> node G k /\ node H k) by (intros; apply in_common).
  assert (NDc : NoDup keys) by (apply nodup_common; assumption).
  assert (Pn : Permutation newkeys new) by apply sort_by_perm.
  assert (InN : forall k, In k newkeys <-> node H k /\ ~ node G k).
  { intros k. split.
    - intros Hin. eapply Permutation_in in Hin; [|exact Pn]. apply filter_In in Hin as [A1 A2]. split; [assumption|].
      intros N. apply negb_true_iff in A2. rewrite (proj2 (inb_true k (g_kid G)) N) in A2. discriminate.
    - intros [A1 A2]. eapply Permutation_in; [symmetry; exact Pn|]. apply filter_In. split; [assumption|]. apply negb_true_iff.
      destruct (inb k (g_kid G)) eqn:E; [|reflexivity]. apply inb_true in E. contradiction. }
  assert (NDn : NoDup newkeys) by (eapply Permutation_NoDup; [symmetry; exact Pn|apply NoDup_filter, wH]).
  set (K := List.length newkeys).
  assert (LEN : List.length keys + K = glen H).
  { assert (List.length keys = List.length (filter (fun k => inb k (g_kid G)) (gnodes H))).
    { apply Permutation_length, NoDup_Permutation; [assumption|apply NoDup_filter, wH|]. intros k. rewrite InC, filter_In, inb_true. unfold node, gnodes. tauto. }
    rewrite H0. unfold K. rewrite (Permutation_length Pn). unfold new. rewrite filter_split. unfold gnodes. rewrite map_length. apply kok_len, gkok. assumption. }
  destruct (list_to_ids_ok G keys wG) as (ids1 & E1 & L1 & F1 & B1 & N1); [intros k Hk; apply InC in Hk; tauto|].
  destruct (list_to_ids_ok H keys wH) as (ids2 & E2 & L2 & F2 & B2 & N2); [intros k Hk; apply InC in Hk; tauto|].
  destruct (list_to_ids_ok H newkeys wH) as (ids & E3 & L3 & F3 & B3 & N3); [intros k Hk; apply InN in Hk; tauto|].
  rewrite E1. cbn [obind]. rewrite E2. cbn [obind]. rewrite E3. cbn [obind]. specialize (N3 NDn).
  set (dH := combine newkeys _).
  assert (EfH : map fst dH = newkeys) by (apply combine_fst; rewrite map_length; congruence).
  assert (ND : NoDup (map fst (dH ++ g_kid G))).
  { rewrite map_app, EfH. apply NoDup_app_intro; [assumption|apply wG|]. intros k A1 A2. apply InN in A1. apply (proj2 A1). exact A2. }
  rewrite (dupdate_app _ _ ND).
  (* some new node has a number of at least K in H *)
  assert (BIG : exists a w n, nth_error newkeys a = Some w /\ nth_error ids a = Some n /\ K <= n).
  { destruct (existsb (fun n => K <=? n) ids) eqn:EX.
    - apply existsb_exists in EX as (n & Hn & Ln). apply Nat.leb_le in Ln. apply In_nth_error in Hn as [a Ha]. destruct (B3 a n Ha) as (w & Hw & _). exists a, w, n. auto.
    - exfalso. assert (All : incl ids (seq 0 K)).
      { intros n Hn. apply in_seq. destruct (Nat.lt_ge_cases n K) as [L|L]; [lia|]. exfalso.
        assert (existsb (fun n => K <=? n) ids = true) by (apply existsb_exists; exists n; split; [exact Hn|apply Nat.leb_le; exact L]). congruence. }
      assert (Back : incl (seq 0 K) ids) by (apply NoDup_length_incl; [exact N3|rewrite seq_length; unfold K; lia|exact All]).
      assert (Iu : In i ids). { assert (Hin : In u newkeys) by (apply InN; split; [apply node_kid; eauto|exact Gu]). apply In_nth_error in Hin as [a Ha].
        destruct (F3 a u Ha) as (i' & Hi' & Ki'). assert (i' = i) by congruence. subst. eapply nth_error_In; exact Hi'. }
      apply All, in_seq in Iu. assert (Ij : In j ids) by (apply Back, in_seq; lia). apply In_nth_error in Ij as [a Ha]. destruct (B3 a j Ha) as (w & Hw & Kw).
      assert (w = v) by exact (kid_inj H wH w v j Kw Kv). subst. apply nth_error_In, InN in Hw. tauto. }
  destruct BIG as (a & w & n & Hw & Hn & Ln).
  set (C := mput _ _ _ _). set (R := new_graph _ _ _ _ _).
  assert (NC : nrows (g_A R) = nrows (g_A G) + K).
  { unfold R, new_graph, C, mput, mempty. cbn [g_A]. rewrite !nrows_mbuild. unfold glen in LEN. lia. }
  assert (KR : kid R w = Some (n + nrows (g_A G))).
  { unfold kid, R, new_graph. cbn [g_kid]. rewrite dget_app. unfold dH. rewrite dget_map_snd.
    replace (dget (combine newkeys ids) w) with (Some n); [reflexivity|]. symmetry. apply In_dget.
    - rewrite combine_fst by congruence. exact NDn.
    - clear - Hw Hn. revert ids a Hw Hn. induction newkeys as [|x l IH]; intros [|y l'] [|a] Hw Hn; try discriminate; cbn in *.
      + left. congruence.
      + right. eapply IH; eassumption. }
  exists R. split; [reflexivity|]. split.
  { intros wR. pose proof (kid_lt R wR w _ KR) as L. unfold glen in *. lia. }
  split.
  { intros k. change (node R k) with (In k (map fst (dH ++ g_kid G))). rewrite map_app, in_app_iff, EfH, InN. change (In k (map fst (g_kid G))) with (node G k).
    destruct (node_dec G k); tauto. }
  apply nth_error_In, InN in Hw. exists w, (n + nrows (g_A G)). split; [tauto|]. split; [tauto|]. split; [exact KR|lia].
Qed.
End K.

(** non-vacuity: the shared node "b" comes last in H *)
Definition cG : graph := mkgk true [KS "a"; KS "b"; KS "c"] [(0, 1, 3%Z); (1, 2, 5%Z); (1, 1, 9%Z)].
Definition cH : graph := mkgk true [KS "x"; KS "y"; KS "b"] [(0, 1, 7%Z); (1, 2, 8%Z)].
Example C31_compose_exact_ex : gwf cG /\ gwf cH /\ ~ (forall k, node cG k <-> node cH k) /\
  (forall u i v j, kid cH u = Some i -> kid cH v = Some j -> ~ node cG u -> node cG v -> i < j) /\
  match compose (fun _ => false) cG cH with
  | Val R => edge cH (KS "y") (KS "b") /\ ~ edge R (KS "y") (KS "b") /\ edge cG (KS "b") (KS "b") /\ ~ edge R (KS "b") (KS "b") /\
             weight R (KS "x") (KS "y") = Some 7%Z /\ weight R (KS "a") (KS "b") = Some 3%Z
  | Raise _ => False
  end.
Proof.
  split; [apply mkgk_wf; repeat constructor; simpl; intuition discriminate|].
  split; [apply mkgk_wf; repeat constructor; simpl; intuition discriminate|].
  split; [intros H; specialize (H (KS "x")); unfold node in H; simpl in H; intuition discriminate|].
  split.
  - intros u i v j Hu Hv Nu Nv. apply dget_In in Hu, Hv. simpl in Hu, Hv. unfold node in Nu, Nv. simpl in Nu, Nv.
    destruct Hu as [[= <- <-]|[[= <- <-]|[[= <- <-]|[]]]], Hv as [[= <- <-]|[[= <- <-]|[[= <- <-]|[]]]]; try lia; intuition discriminate.
  - vm_compute compose. split; [exists 8%Z; reflexivity|]. split; [intros [x Hx]; vm_compute in Hx; discriminate|].
    split; [exists 9%Z; reflexivity|]. split; [intros [x Hx]; vm_compute in Hx; discriminate|]. split; reflexivity.
Qed.
Print Assumptions C31_compose_exact.
Print Assumptions C31_compose_broken.
(** non-vacuity of C31_compose_broken: the shared node "b" comes first in H *)
Example C31_compose_broken_ex : let H := mkgk true [KS "b"; KS "x"] [(0, 1, 7%Z)] in
  gwf cG /\ gwf H /\ kid H (KS "x") = Some 1 /\ kid H (KS "b") = Some 0 /\ ~ node cG (KS "x") /\ node cG (KS "b").
Proof.
  cbn zeta. split; [apply mkgk_wf; repeat constructor; simpl; intuition discriminate|].
  split; [apply mkgk_wf; repeat constructor; simpl; intuition discriminate|].
  split; [reflexivity|]. split; [reflexivity|]. unfold node. simpl. intuition discriminate.
Qed.
