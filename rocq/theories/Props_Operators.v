(** * C26-C35: graph operators *)
From Verif Require Import Base BaseProofs Model_Graph Model_Keys Spec KeyProofs Model_Operators OperatorProofs Concrete.
From Coq Require Import Permutation DecimalString DecimalPos DecimalZ DecimalFacts Sorting.Sorted.

(** ** Specification vocabulary *)
(** [R] is a well-formed graph of the given directedness with nodes [P] and weights [W] *)
Definition is_graph (R : graph) (dir : bool) (P : nkey -> Prop) (W : nkey -> nkey -> option Z) : Prop :=
  gwf R /\ g_dir R = dir /\ (forall k, node R k <-> P k) /\ forall u v, weight R u v = W u v.
(** the name of a node after renaming with an optional prefix *)
Definition rn (p : option string) (k : nkey) : nkey :=
  match p with None => k | Some s => KS (s ++ nstr k)%string end.
Definition prefix1 (ren : list (option string)) : option string := nth 0 ren None.
Definition prefix2 (ren : list (option string)) : option string := nth 1 ren None.
(** renaming keeps the nodes of G distinct *)
Definition rn_ok (p : option string) (G : graph) : Prop :=
  forall u v, node G u -> node G v -> rn p u = rn p v -> u = v.
Definition all_int (G : graph) : Prop := forall k, node G k -> exists z, k = KI z.
Definition all_str (G : graph) : Prop := forall k, node G k -> exists s, k = KS s.

Lemma append_inj s a b : (s ++ a)%string = (s ++ b)%string -> a = b.
Proof. induction s; simpl; [auto|intros [= H]; auto]. Qed.
Lemma int_string_inj a b : NilZero.string_of_int (Z.to_int a) = NilZero.string_of_int (Z.to_int b) -> a = b.
Proof.
  intros H. assert (F : forall z, NilZero.int_of_string (NilZero.string_of_int (Z.to_int z)) = Some (Z.to_int z)).
  { intros z. apply NilZero.isi.
    - destruct z; simpl; try discriminate. intros [= E]. pose proof (DecimalPos.Unsigned.to_uint_nonnil p). congruence.
    - destruct z; simpl; try discriminate. intros [= E]. pose proof (DecimalPos.Unsigned.to_uint_nonnil p). congruence. }
  pose proof (F a) as Fa. rewrite H, F in Fa. injection Fa as Fa. apply (f_equal Z.of_int) in Fa.
  rewrite !DecimalZ.of_to in Fa. congruence.
Qed.
(** with only integer nodes, or only string nodes, every renaming keeps nodes distinct *)
Lemma rn_ok_int p G : all_int G -> rn_ok p G.
Proof.
  intros Hi u v Hu Hv. destruct (Hi u Hu) as [a ->], (Hi v Hv) as [b ->]. destruct p as [s|]; simpl; [|auto].
  intros [= H]. apply append_inj, int_string_inj in H. congruence.
Qed.
Lemma rn_ok_str p G : all_str G -> rn_ok p G.
Proof.
  intros Hi u v Hu Hv. destruct (Hi u Hu) as [a ->], (Hi v Hv) as [b ->]. destruct p as [s|]; simpl; [|auto].
  intros [= H]. apply append_inj in H. congruence.
Qed.

Section P.
Variable orc : mat Z -> bool.

Lemma nn_dec (f : nkey -> nkey) (L : list nkey) k : {exists u, In u L /\ k = f u} + {~ exists u, In u L /\ k = f u}.
Proof.
  induction L as [|x L IH].
  - right. intros (u & [] & _).
  - destruct (nkey_dec k (f x)) as [->|N]; [left; exists x; simpl; auto|]. destruct IH as [IH|IH].
    + left. destruct IH as (u & Hu & E). exists u. simpl. auto.
    + right. intros (u & [->|Hu] & E); [contradiction|]. apply IH. eauto.
Qed.

(** renaming *)
Lemma rename_graph_ok p G : gwf G -> rn_ok p G ->
  gwf (rename_graph orc p G) /\ g_dir (rename_graph orc p G) = g_dir G /\ g_A (rename_graph orc p G) = g_A G /\
  g_dt (rename_graph orc p G) = g_dt G /\
  gnodes (rename_graph orc p G) = map (rn p) (gnodes G) /\
  (forall k, node (rename_graph orc p G) k <-> exists u, node G u /\ k = rn p u) /\
  (forall u, node G u -> kid (rename_graph orc p G) (rn p u) = kid G u).
Proof.
  intros wf Hr. destruct p as [s|].
  - unfold rename_graph. set (d := map _ (g_kid G)).
    assert (ND : NoDup (map fst d)).
    { unfold d. rewrite map_map. simpl. destruct wf. unfold rn_ok, node, gnodes in Hr. clear -gw_keys Hr.
      induction (g_kid G) as [|[k v] l IH]; simpl; [constructor|]. inversion gw_keys as [|? ? H1 H2]; subst. constructor.
      - intros Hin. apply in_map_iff in Hin as ([k' v'] & E & Hin). simpl in *.
        assert (Hk' : In k' (map fst l)) by (apply in_map_iff; exists (k', v'); auto).
        assert (k' = k) by (apply Hr; auto). subst. contradiction.
      - apply IH; [assumption|]. intros u v' Hu Hv. apply Hr; simpl; auto. }
    assert (Ed : dupdate [] d = d) by (apply dupdate_app; exact ND). rewrite Ed.
    assert (Hn : forall k, node (new_graph orc (g_dir G) (g_A G) (g_dt G) d) k <-> exists u, node G u /\ k = rn (Some s) u).
    { intros k. unfold node, gnodes, new_graph. simpl. unfold d. rewrite map_map. simpl. rewrite in_map_iff. split.
      - intros ([u i] & <- & Hin). exists u. split; [apply in_map_iff; exists (u, i); auto|reflexivity].
      - intros (u & Hu & ->). apply in_map_iff in Hu as ([u' i] & <- & Hin). exists (u', i). auto. }
    split; [|split; [reflexivity|split; [reflexivity|split; [reflexivity|split; [|split; [exact Hn|]]]]]].
    + destruct wf as [W1 W2 W3 W4 W5 W6 W7]. apply new_graph_wf; try assumption.
      unfold d. rewrite map_map. exact W7.
    + unfold gnodes, new_graph. simpl. unfold d. rewrite !map_map. reflexivity.
    + intros u Hu. unfold kid, new_graph. simpl. unfold d.
      apply (dget_mapk (fun k => rn (Some s) k)). intros k' Hk' E. apply Hr; assumption.
  - unfold rename_graph. repeat split; try (apply wf); auto.
    + unfold gnodes. simpl. rewrite map_id. reflexivity.
    + intros H. exists k. auto.
    + intros (u & H & ->). exact H.
Qed.

(** union without renaming, for graphs with disjoint node sets *)
Lemma union_core G H : gwf G -> gwf H -> (g_dir G = false -> g_dir H = false) -> keys_disjoint (g_kid G) (g_kid H) = true ->
  let R := new_graph orc (g_dir G) (block_diag (g_A G) (g_A H)) (unify (g_dt G) (g_dt H))
             (dupdate (map (fun kv => (fst kv, snd kv + nrows (g_A G))) (g_kid H)) (g_kid G)) in
  gwf R /\ (forall k, node R k <-> node G k \/ node H k) /\
  (forall k i, kid G k = Some i -> kid R k = Some i) /\
  (forall k i, kid H k = Some i -> kid R k = Some (i + nrows (g_A G))).
Proof.
  intros wG wH Hd Hk R. rewrite keys_disjoint_true in Hk.
  set (dH := map (fun kv => (fst kv, snd kv + nrows (g_A G))) (g_kid H)) in *.
  assert (EfH : map fst dH = map fst (g_kid H)) by (unfold dH; rewrite map_map; reflexivity).
  assert (ND : NoDup (map fst (dH ++ g_kid G))).
  { rewrite map_app, EfH. apply NoDup_app_intro; [apply wH|apply wG|]. intros k H1 H2. eapply Hk; eassumption. }
  assert (Ed : g_kid R = dH ++ g_kid G) by (apply dupdate_app; exact ND).
  assert (HG : forall k i, kid G k = Some i -> kid R k = Some i).
  { intros k i Hi. unfold kid. rewrite Ed, dget_app. replace (dget dH k) with (@None nat); [exact Hi|].
    symmetry. apply dget_none. rewrite EfH. apply Hk. apply dget_some. eauto. }
  assert (HH : forall k i, kid H k = Some i -> kid R k = Some (i + nrows (g_A G))).
  { intros k i Hi. unfold kid. rewrite Ed, dget_app. unfold dH. rewrite (dget_mapkv (fun x => x + nrows (g_A G))).
    unfold kid in Hi. rewrite Hi. reflexivity. }
  destruct wG as [G1 G2 G3 G4 G5 G6 G7]. destruct wH as [H1 H2 H3 H4 H5 H6 H7].
  split; [|split; [|split; assumption]].
  - apply new_graph_wf.
    + apply mwf_block.
    + rewrite nrows_block, ncols_block. lia.
    + intros E i j. rewrite !mget_block by assumption. rewrite (andb_comm (j <? _)), (andb_comm (_ <=? j)).
      rewrite G3, (H3 ltac:(auto)) by assumption. reflexivity.
    + intros E i j x. apply unify_nonneg in E as [E1 E2]. rewrite mget_block by assumption.
      destruct (_ && _); [apply G4; assumption|]. destruct (_ && _); [apply H4; assumption|discriminate].
    + change (g_kid R) with (dupdate dH (g_kid G)) in Ed. rewrite Ed. exact ND.
    + change (g_kid R) with (dupdate dH (g_kid G)) in Ed. rewrite Ed, map_app, nrows_block.
      unfold dH. rewrite map_map. simpl. unfold glen in *. rewrite seq_app. simpl.
      rewrite Permutation_app_comm. apply Permutation_app; [exact G7|].
      rewrite <- (map_map snd (fun x => x + nrows (g_A G))). rewrite H7.
      rewrite seq_shift_add. reflexivity.
  - intros k. unfold node, gnodes. rewrite Ed, map_app, EfH, in_app_iff. tauto.
Qed.

Theorem C26_union G H ren : gwf G -> gwf H -> (g_dir G = false -> g_dir H = false) -> rn_ok (prefix1 ren) G -> rn_ok (prefix2 ren) H ->
  let r1 := rn (prefix1 ren) in let r2 := rn (prefix2 ren) in
  match union orc G H ren with
  | Val R =>
      (forall u v, node G u -> node H v -> r1 u <> r2 v) /\
      gwf R /\ g_dir R = g_dir G /\
      (forall k, node R k <-> (exists u, node G u /\ k = r1 u) \/ (exists v, node H v /\ k = r2 v)) /\
      (forall u v, node G u -> node G v -> weight R (r1 u) (r1 v) = weight G u v) /\
      (forall u v, node H u -> node H v -> weight R (r2 u) (r2 v) = weight H u v) /\
      (forall u v, node G u -> node H v -> weight R (r1 u) (r2 v) = None /\ weight R (r2 v) (r1 u) = None)
  | Raise e => e = EAlg /\ exists u v, node G u /\ node H v /\ r1 u = r2 v
  end.
Proof.
  intros wG wH Hd O1 O2 r1 r2. unfold union.
  replace (match ren with p :: _ => rename_graph orc p G | [] => G end) with (rename_graph orc (prefix1 ren) G)
    by (destruct ren as [|[] ?]; reflexivity).
  replace (match ren with _ :: p :: _ => rename_graph orc p H | _ => H end) with (rename_graph orc (prefix2 ren) H)
    by (destruct ren as [|? [|[] ?]]; reflexivity).
  destruct (rename_graph_ok (prefix1 ren) G wG O1) as (wG' & D1 & A1 & T1 & L1 & N1 & K1).
  destruct (rename_graph_ok (prefix2 ren) H wH O2) as (wH' & D2 & A2 & T2 & L2 & N2 & K2).
  set (G' := rename_graph orc (prefix1 ren) G) in *. set (H' := rename_graph orc (prefix2 ren) H) in *.
  destruct (keys_disjoint (g_kid G') (g_kid H')) eqn:E; simpl.
  - destruct (union_core G' H' wG' wH' ltac:(rewrite D1, D2; exact Hd) E) as (wR & NR & KG & KH).
    set (R := new_graph _ _ _ _ _) in *. fold R.
    assert (GG : forall u i, kid G u = Some i -> kid R (r1 u) = Some i).
    { intros u i Hu. apply KG. unfold r1. rewrite K1; [assumption|]. apply node_kid. eauto. }
    assert (HH : forall u i, kid H u = Some i -> kid R (r2 u) = Some (i + nrows (g_A G))).
    { intros u i Hu. rewrite <- A1. apply KH. unfold r2. rewrite K2; [assumption|]. apply node_kid. eauto. }
    assert (AR : g_A R = block_diag (g_A G) (g_A H)) by (unfold R, new_graph; simpl; rewrite A1, A2; reflexivity).
    destruct wG as [G1 G2 G3 G4 G5 G6 G7] eqn:EG. destruct wH as [H1 H2 H3 H4 H5 H6 H7] eqn:EH.
    split; [|split; [exact wR|split; [exact D1|split; [|split; [|split]]]]].
    + intros u v Hu Hv Eq. rewrite keys_disjoint_true in E. apply (E (r1 u)).
      * apply N1. eauto.
      * rewrite Eq. apply N2. eauto.
    + intros k. rewrite NR, N1, N2. reflexivity.
    + intros u v Hu Hv. apply node_kid in Hu as [i Hi], Hv as [j Hj].
      rewrite (weight_kid R _ _ i j) by auto. rewrite (weight_kid G _ _ i j) by assumption. rewrite AR, mget_block by assumption.
      apply kid_lt in Hi, Hj; try assumption. unfold glen in *.
      destruct (Nat.ltb_spec i (nrows (g_A G))); [|lia]. destruct (Nat.ltb_spec j (nrows (g_A G))); [|lia]. reflexivity.
    + intros u v Hu Hv. apply node_kid in Hu as [i Hi], Hv as [j Hj].
      rewrite (weight_kid R _ _ _ _ (HH _ _ Hi) (HH _ _ Hj)). rewrite (weight_kid H _ _ i j) by assumption. rewrite AR, mget_block by assumption.
      destruct (Nat.ltb_spec (i + nrows (g_A G)) (nrows (g_A G))); [lia|]. simpl.
      rewrite !(proj2 (Nat.leb_le _ _)) by lia. simpl. rewrite !Nat.add_sub. reflexivity.
    + intros u v Hu Hv. apply node_kid in Hu as [i Hi], Hv as [j Hj].
      rewrite (weight_kid R _ _ _ _ (GG _ _ Hi) (HH _ _ Hj)), (weight_kid R _ _ _ _ (HH _ _ Hj) (GG _ _ Hi)).
      apply kid_lt in Hi; try assumption. unfold glen in *.
      rewrite AR, !mget_block by assumption.
      destruct (Nat.ltb_spec (j + nrows (g_A G)) (nrows (g_A G))); [lia|]. rewrite andb_false_r. simpl.
      destruct (Nat.leb_spec (nrows (g_A G)) i); [lia|]. rewrite andb_false_r. auto.
  - split; [reflexivity|]. unfold keys_disjoint in E. apply not_true_iff_false in E.
    assert (X : exists kv, In kv (g_kid G') /\ negb (inb (fst kv) (g_kid H')) = false).
    { clear -E. induction (g_kid G') as [|kv l IH]; [destruct E; reflexivity|]. simpl in E.
      destruct (negb (inb (fst kv) (g_kid H'))) eqn:X; [|exists kv; simpl; auto].
      simpl in E. destruct (IH E) as (kv' & Hin & Hx). exists kv'. simpl. auto. }
    destruct X as ([k i] & Hin & X). apply negb_false_iff in X. simpl in X. apply inb_true in X.
    assert (Y : node G' k) by (unfold node, gnodes; apply in_map_iff; exists (k, i); auto).
    apply N1 in Y as (u & Hu & Eu). apply N2 in X as (v & Hv & Ev). exists u, v. unfold r1, r2. repeat split; auto. congruence.
Qed.

(** node sets without renaming *)
Corollary C26_union_plain G H : gwf G -> gwf H -> (g_dir G = false -> g_dir H = false) ->
  match union orc G H [] with
  | Val R => (forall k, node G k -> ~ node H k) /\
      is_graph R (g_dir G) (fun k => node G k \/ node H k)
        (fun u v => match weight G u v with Some w => Some w | None => weight H u v end)
  | Raise e => e = EAlg /\ exists k, node G k /\ node H k
  end.
Proof.
  intros wG wH Hd.
  assert (O : forall X, rn_ok None X) by (intros X u v _ _ E; exact E).
  pose proof (C26_union G H [] wG wH Hd (O G) (O H)) as T. cbv zeta in T. simpl in T.
  destruct (union orc G H []) as [R|e].
  - destruct T as (D & wR & DR & N & W1 & W2 & W3).
    assert (D' : forall k, node G k -> ~ node H k) by (intros k H1 H2; exact (D k k H1 H2 eq_refl)).
    split; [exact D'|]. split; [exact wR|]. split; [exact DR|]. split.
    + intros k. rewrite N. split; [intros [(u & Hu & ->)|(u & Hu & ->)]; auto|intros [Hk|Hk]; eauto].
    + intros u v. destruct (node_dec G u) as [Gu|Gu], (node_dec G v) as [Gv|Gv].
      * rewrite W1 by assumption. rewrite (weight_none_l H) by auto. destruct (weight G u v); reflexivity.
      * rewrite (weight_none_r G) by assumption. rewrite (weight_none_l H) by auto.
        destruct (node_dec H v); [apply (proj1 (W3 u v ltac:(assumption) ltac:(assumption)))|]. apply weight_none_r. rewrite N.
        intros [(? & ? & ->)|(? & ? & ->)]; contradiction.
      * rewrite (weight_none_l G) by assumption. rewrite (weight_none_r H) by auto.
        destruct (node_dec H u); [apply (proj2 (W3 v u ltac:(assumption) ltac:(assumption)))|]. apply weight_none_l. rewrite N.
        intros [(? & ? & ->)|(? & ? & ->)]; contradiction.
      * rewrite (weight_none_l G) by assumption. destruct (node_dec H u) as [Hu|Hu], (node_dec H v) as [Hv|Hv].
        -- apply W2; assumption.
        -- rewrite (weight_none_r H) by assumption. apply weight_none_r. rewrite N. intros [(? & ? & ->)|(? & ? & ->)]; contradiction.
        -- rewrite (weight_none_l H) by assumption. apply weight_none_l. rewrite N. intros [(? & ? & ->)|(? & ? & ->)]; contradiction.
        -- rewrite (weight_none_l H) by assumption. apply weight_none_l. rewrite N. intros [(? & ? & ->)|(? & ? & ->)]; contradiction.
  - destruct T as [-> (u & v & Hu & Hv & ->)]. split; [reflexivity|eauto].
Qed.

(** ** C27 *)
(** the new names: node u of G (with id i) becomes i, node v of H (with id j) becomes |G| + j *)
Theorem C27_disjoint_union G H : gwf G -> gwf H -> (g_dir G = false -> g_dir H = false) ->
  exists R, disjoint_union orc G H = Val R /\ gwf R /\ g_dir R = g_dir G /\
    gnodes R = map (fun i => KI (Z.of_nat i)) (seq 0 (glen G + glen H)) /\
    (forall u v i j, kid G u = Some i -> kid G v = Some j ->
       weight R (KI (Z.of_nat i)) (KI (Z.of_nat j)) = weight G u v) /\
    (forall u v i j, kid H u = Some i -> kid H v = Some j ->
       weight R (KI (Z.of_nat (glen G + i))) (KI (Z.of_nat (glen G + j))) = weight H u v) /\
    (forall u v i j, kid G u = Some i -> kid H v = Some j ->
       weight R (KI (Z.of_nat i)) (KI (Z.of_nat (glen G + j))) = None /\
       weight R (KI (Z.of_nat (glen G + j))) (KI (Z.of_nat i)) = None).
Proof.
  intros wG wH Hd. eexists. split; [reflexivity|]. set (R := new_graph _ _ _ _ _).
  assert (K : forall i, i < glen G + glen H -> kid R (KI (Z.of_nat i)) = Some i).
  { intros i Hi. apply range_kid_get. split; [reflexivity|]. rewrite nrows_block. exact Hi. }
  assert (LG : forall u i, kid G u = Some i -> i < glen G) by (intros u i; apply kid_lt; assumption).
  assert (LH : forall u i, kid H u = Some i -> i < glen H) by (intros u i; apply kid_lt; assumption).
  destruct wG as [G1 G2 G3 G4 G5 G6 G7]. destruct wH as [H1 H2 H3 H4 H5 H6 H7].
  assert (AR : forall i j, mget (g_A R) i j = mget (block_diag (g_A G) (g_A H)) i j) by reflexivity.
  split; [|split; [reflexivity|split; [|split; [|split]]]].
  - apply new_graph_wf.
    + apply mwf_block.
    + rewrite nrows_block, ncols_block. lia.
    + intros E i j. rewrite !mget_block by assumption. rewrite (andb_comm (j <? _)), (andb_comm (_ <=? j)).
      rewrite G3, (H3 ltac:(auto)) by assumption. reflexivity.
    + intros E i j x. apply unify_nonneg in E as [E1 E2]. rewrite mget_block by assumption.
      destruct (_ && _); [apply G4; assumption|]. destruct (_ && _); [apply H4; assumption|discriminate].
    + apply range_kid_fst.
    + rewrite range_kid_snd. reflexivity.
  - unfold gnodes, R, new_graph, range_kid. simpl. rewrite map_map, nrows_block. reflexivity.
  - intros u v i j Hi Hj. rewrite (weight_kid G _ _ i j) by assumption. apply LG in Hi, Hj.
    rewrite (weight_kid R _ _ i j) by (apply K; lia). rewrite AR, mget_block by assumption. unfold glen in *.
    rewrite !(proj2 (Nat.ltb_lt _ _)) by assumption. reflexivity.
  - intros u v i j Hi Hj. rewrite (weight_kid H _ _ i j) by assumption. apply LH in Hi, Hj.
    rewrite (weight_kid R _ _ _ _ (K (glen G + i) ltac:(lia)) (K (glen G + j) ltac:(lia))). rewrite AR, mget_block by assumption. unfold glen in *.
    rewrite (proj2 (Nat.ltb_ge (nrows (g_A G) + i) _)) by lia. simpl. rewrite !(proj2 (Nat.leb_le _ _)) by lia. simpl.
    f_equal; lia.
  - intros u v i j Hi Hj. apply LG in Hi. apply LH in Hj.
    rewrite (weight_kid R _ _ _ _ (K i ltac:(lia)) (K (glen G + j) ltac:(lia))).
    rewrite (weight_kid R _ _ _ _ (K (glen G + j) ltac:(lia)) (K i ltac:(lia))).
    split; rewrite AR, mget_block by assumption; unfold glen in *;
      rewrite (proj2 (Nat.ltb_ge (nrows (g_A G) + j) _)) by lia; rewrite (proj2 (Nat.leb_gt (nrows (g_A G)) i)) by lia;
      rewrite ?andb_false_r; reflexivity.
Qed.

(** ** C28 *)
Lemma list_to_ids_ok G keys : gwf G -> (forall k, In k keys -> node G k) ->
  exists ids, list_to_ids (g_kid G) keys = Val ids /\ List.length ids = List.length keys /\
    (forall a k, nth_error keys a = Some k -> exists i, nth_error ids a = Some i /\ kid G k = Some i) /\
    (forall a i, nth_error ids a = Some i -> exists k, nth_error keys a = Some k /\ kid G k = Some i) /\
    (NoDup keys -> NoDup ids).
Proof.
  intros wf Hk. destruct (mapO_total (kid G) keys) as [ids Hids].
  { intros k Hin. apply node_kid. auto. }
  exists ids. unfold list_to_ids. change (mapO (dget (g_kid G)) keys = Some ids) in Hids. rewrite Hids. split; [reflexivity|]. split; [eapply mapO_length; exact Hids|].
  pose proof (mapO_nth _ _ _ Hids) as Hn. split; [exact Hn|].
  assert (Hb : forall a i, nth_error ids a = Some i -> exists k, nth_error keys a = Some k /\ kid G k = Some i).
  { intros a i Ha. assert (La : a < List.length ids) by (apply nth_error_Some; congruence).
    rewrite (mapO_length _ _ _ Hids) in La. apply nth_error_Some in La. destruct (nth_error keys a) as [k|] eqn:E; [|congruence].
    destruct (Hn a k E) as (i' & Hi' & E'). exists k. split; [reflexivity|]. unfold kid. congruence. }
  split; [exact Hb|]. intros ND. apply NoDup_nth_error. intros a b La Eab.
  apply nth_error_Some in La. destruct (nth_error ids a) as [i|] eqn:Ea; [|congruence]. symmetry in Eab.
  destruct (Hb a i Ea) as (ka & Ka & Ia), (Hb b i Eab) as (kb & Kb & Ib).
  assert (ka = kb) by (eapply kid_inj; eassumption). subst.
  apply (proj1 (NoDup_nth_error keys) ND); [apply nth_error_Some; congruence|congruence].
Qed.
Lemma combine_get keys k a : NoDup keys -> (dget (combine keys (seq 0 (List.length keys))) k = Some a <-> nth_error keys a = Some k).
Proof.
  intros ND. assert (F : forall s, dget (combine keys (seq s (List.length keys))) k = Some (s + a) <-> nth_error keys a = Some k); [|apply (F 0)].
  revert a. induction ND as [|x l Hx ND IH]; intros a s; simpl.
  - destruct a; split; discriminate.
  - destruct (nkey_eqb k x) eqn:E.
    + apply nkey_eqb_eq in E. subst. destruct a; simpl.
      * split; [reflexivity|intros _; f_equal; lia].
      * split; [intros [= H]; lia|]. intros H. apply nth_error_In in H. contradiction.
    + destruct a; simpl.
      * split; [|intros [= ->]; rewrite nkey_eqb_refl in E; discriminate]. intros H. exfalso. apply dget_In in H.
        apply in_combine_r in H. apply in_seq in H. lia.
      * rewrite <- (IH a (S s)). replace (s + S a) with (S s + a) by lia. reflexivity.
Qed.
Lemma combine_fst {X Y} (a : list X) (b : list Y) : List.length a = List.length b -> map fst (combine a b) = a.
Proof. revert b. induction a as [|x a IH]; intros [|y b] H; simpl in *; try discriminate; [reflexivity|]. f_equal. apply IH. lia. Qed.
Lemma combine_snd {X Y} (a : list X) (b : list Y) : List.length a = List.length b -> map snd (combine a b) = b.
Proof. revert b. induction a as [|x a IH]; intros [|y b] H; simpl in *; try discriminate; [reflexivity|]. f_equal. apply IH. lia. Qed.
Lemma in_common G H k : In k (sorted_keys (g_kid G) (common_keys G H)) <-> node G k /\ node H k.
Proof.
  unfold sorted_keys. assert (P := sort_by_perm (fun k => oget 0 (dget (g_kid G) k)) (common_keys G H)).
  split.
  - intros Hin. eapply Permutation_in in Hin; [|exact P]. apply filter_In in Hin as [H1 H2]. apply inb_true in H2. split; assumption.
  - intros [H1 H2]. eapply Permutation_in; [symmetry; exact P|]. apply filter_In. split; [exact H1|apply inb_true; exact H2].
Qed.
Lemma nodup_common G H : gwf G -> NoDup (sorted_keys (g_kid G) (common_keys G H)).
Proof.
  intros wf. eapply Permutation_NoDup; [symmetry; apply sort_by_perm|]. apply NoDup_filter, wf.
Qed.

Theorem C28_intersection G H : gwf G -> gwf H -> (g_dir G = false -> g_dir H = false) ->
  exists R, intersection orc G H = Val R /\
    is_graph R (g_dir G) (fun k => node G k /\ node H k)
      (fun u v => match weight G u v, weight H u v with Some _, Some _ => Some 1%Z | _, _ => None end).
Proof.
  intros wG wH Hd. unfold intersection. set (keys := sorted_keys (g_kid G) (common_keys G H)).
  assert (Hin : forall k, In k keys <-> node G k /\ node H k) by (apply in_common).
  assert (ND : NoDup keys) by (apply nodup_common; assumption).
  destruct (list_to_ids_ok G keys wG) as (ids1 & E1 & L1 & F1 & B1 & _); [intros k Hk; apply Hin; assumption|].
  destruct (list_to_ids_ok H keys wH) as (ids2 & E2 & L2 & F2 & B2 & _); [intros k Hk; apply Hin; assumption|].
  rewrite E1. simpl. rewrite E2. simpl. eexists. split; [reflexivity|].
  set (A := mextract (g_A G) ids1 ids1). set (B0 := mextract (g_A H) ids2 ids2).
  set (B := mmap (fun _ => 1%Z) (mrestrict (msS A) B0)).
  assert (NB : nrows B = List.length keys) by (unfold B, mmap, mrestrict, mselect, B0, mextract; rewrite !nrows_mbuild; assumption).
  assert (CB : ncols B = List.length keys) by (unfold B, mmap, mrestrict, mselect, B0, mextract; rewrite !ncols_mbuild; assumption).
  assert (VB : forall a b u v, nth_error keys a = Some u -> nth_error keys b = Some v ->
    mget B a b = match weight G u v, weight H u v with Some _, Some _ => Some 1%Z | _, _ => None end).
  { intros a b u v Hu Hv. destruct (F1 _ _ Hu) as (i & Ii & Ki), (F1 _ _ Hv) as (j & Ij & Kj).
    destruct (F2 _ _ Hu) as (i' & Ii' & Ki'), (F2 _ _ Hv) as (j' & Ij' & Kj').
    unfold B. rewrite mget_mmap by apply mwf_mselect. unfold mrestrict. rewrite mget_mselect by apply mwf_mbuild.
    unfold msS, A, B0. rewrite (mget_mextract _ _ _ _ _ _ _ Ii Ij), (mget_mextract _ _ _ _ _ _ _ Ii' Ij').
    rewrite (weight_kid G _ _ _ _ Ki Kj), (weight_kid H _ _ _ _ Ki' Kj').
    destruct (mget (g_A G) i j), (mget (g_A H) i' j'); reflexivity. }
  assert (VB' : forall a b, a < List.length keys -> b < List.length keys -> exists u v, nth_error keys a = Some u /\ nth_error keys b = Some v).
  { intros a b Ha Hb. apply nth_error_Some in Ha, Hb. destruct (nth_error keys a), (nth_error keys b); try congruence. eauto. }
  assert (WB : mwf B) by apply mwf_mbuild.
  assert (KR : forall k a, dget (combine keys (seq 0 (List.length keys))) k = Some a <-> nth_error keys a = Some k) by (intros; apply combine_get; assumption).
  split; [|split; [reflexivity|split]].
  - apply new_graph_wf.
    + exact WB.
    + congruence.
    + intros E a b. destruct (Nat.lt_ge_cases a (List.length keys)) as [La|La]; [|rewrite !mget_out by (try assumption; lia); reflexivity].
      destruct (Nat.lt_ge_cases b (List.length keys)) as [Lb|Lb]; [|rewrite !mget_out by (try assumption; lia); reflexivity].
      destruct (VB' a b La Lb) as (u & v & Hu & Hv). rewrite (VB _ _ _ _ Hu Hv), (VB _ _ _ _ Hv Hu).
      destruct (F1 _ _ Hu) as (i & Ii & Ki), (F1 _ _ Hv) as (j & Ij & Kj). destruct (F2 _ _ Hu) as (i' & Ii' & Ki'), (F2 _ _ Hv) as (j' & Ij' & Kj').
      rewrite (weight_kid G _ _ _ _ Ki Kj), (weight_kid H _ _ _ _ Ki' Kj'), (weight_kid G _ _ _ _ Kj Ki), (weight_kid H _ _ _ _ Kj' Ki').
      rewrite (gw_sym G wG E i j), (gw_sym H wH ltac:(auto) i' j'). reflexivity.
    + intros _ a b x Hx. unfold B in Hx. rewrite mget_mmap in Hx by apply mwf_mselect. destruct (mget _ a b); simpl in Hx; [injection Hx as <-; lia|discriminate].
    + rewrite combine_fst by (rewrite seq_length; reflexivity). exact ND.
    + rewrite combine_snd by (rewrite seq_length; reflexivity). rewrite NB. reflexivity.
  - intros k. unfold node, gnodes, new_graph. simpl. rewrite combine_fst by (rewrite seq_length; reflexivity). apply Hin.
  - intros u v. match goal with |- weight ?R _ _ = _ => set (R' := R) end.
    assert (KR' : forall k a, kid R' k = Some a <-> nth_error keys a = Some k) by exact KR.
    assert (NR : forall k, node R' k <-> In k keys).
    { intros k. unfold node, gnodes, R', new_graph. simpl. rewrite combine_fst by (rewrite seq_length; reflexivity). reflexivity. }
    destruct (in_dec nkey_dec u keys) as [Hu|Hu].
    + destruct (in_dec nkey_dec v keys) as [Hv|Hv].
      * apply In_nth_error in Hu as [a Ha], Hv as [b Hb]. rewrite (weight_kid R' u v a b) by (apply KR'; assumption). apply VB; assumption.
      * rewrite weight_none_r by (rewrite NR; assumption).
        destruct (weight G u v) eqn:Eg; [|reflexivity]. destruct (weight H u v) eqn:Eh; [|reflexivity].
        destruct Hv. apply Hin. apply weight_nodes in Eg, Eh. tauto.
    + rewrite weight_none_l by (rewrite NR; assumption).
      destruct (weight G u v) eqn:Eg; [|reflexivity]. destruct (weight H u v) eqn:Eh; [|reflexivity].
      destruct Hu. apply Hin. apply weight_nodes in Eg, Eh. tauto.
Qed.

(** ** aligning H with G *)
Lemma sorted_nodes G k i : gwf G -> (nth_error (sorted_keys (g_kid G) (gnodes G)) i = Some k <-> kid G k = Some i).
Proof.
  intros wf. set (f := fun k => oget 0 (dget (g_kid G) k)). set (keys := sorted_keys _ _).
  assert (P : Permutation keys (gnodes G)) by apply sort_by_perm.
  assert (Ef : map f keys = seq 0 (glen G)).
  { apply sorted_perm_eq; [apply sort_by_sorted|apply seq_sorted|].
    rewrite (Permutation_map f P). unfold gnodes. rewrite map_map.
    rewrite <- (gw_ids G wf). apply Permutation_refl'. apply map_ext_in. intros [k' i'] Hin. unfold f. simpl.
    rewrite (In_dget _ _ i' (gw_keys G wf) Hin). reflexivity. }
  assert (F : forall a k', nth_error keys a = Some k' -> kid G k' = Some a).
  { intros a k' Ha. assert (node G k') by (eapply Permutation_in; [exact P|eapply nth_error_In; exact Ha]).
    apply node_kid in H as [j Hj]. pose proof (map_nth_error f _ _ Ha) as M. rewrite Ef in M.
    assert (La : a < glen G) by (rewrite <- (seq_length (glen G) 0); apply nth_error_Some; congruence).
    assert (Hs : nth_error (seq 0 (glen G)) a = Some a) by (rewrite (nth_error_nth' _ 0) by (rewrite seq_length; exact La); rewrite seq_nth by exact La; reflexivity).
    rewrite Hs in M. unfold f in M. unfold kid in Hj. rewrite Hj in M. simpl in M. unfold kid. congruence. }
  split; [apply F|]. intros Hk.
  assert (Hin : In k keys) by (eapply Permutation_in; [symmetry; exact P|apply node_kid; eauto]).
  apply In_nth_error in Hin as [a Ha]. pose proof (F _ _ Ha). congruence.
Qed.
Lemma kid_eqb_kid G H : gwf G -> (forall k, node G k <-> node H k) -> kid_eqb (g_kid G) (g_kid H) = true -> forall k, kid G k = kid H k.
Proof.
  intros wf Hk E k. unfold kid_eqb in E. apply andb_true_iff in E as [_ E]. rewrite forallb_forall in E.
  destruct (kid G k) as [i|] eqn:Ei.
  - apply dget_In in Ei. apply E in Ei. simpl in Ei. unfold kid. destruct (dget (g_kid H) k); [|discriminate]. apply Nat.eqb_eq in Ei. congruence.
  - symmetry. apply kid_none. rewrite <- Hk. intros Hn. apply node_kid in Hn as [? ?]. congruence.
Qed.
Lemma glen_same G H : gwf G -> gwf H -> (forall k, node G k <-> node H k) -> glen G = glen H.
Proof.
  intros wG wH Hk. assert (forall X, gwf X -> List.length (gnodes X) = glen X).
  { intros X wX. unfold gnodes. rewrite map_length. apply kok_len. apply gkok. assumption. }
  rewrite <- !H0 by assumption. apply Nat.le_antisymm; apply NoDup_incl_length; try apply wG; try apply wH; intros k; apply Hk.
Qed.
Lemma aligned_ok G H : gwf G -> gwf H -> (forall k, node G k <-> node H k) ->
  exists B, aligned G H = Val B /\ mwf B /\ nrows B = glen G /\ ncols B = glen G /\
    forall u v i j, kid G u = Some i -> kid G v = Some j -> mget B i j = weight H u v.
Proof.
  intros wG wH Hk. unfold aligned. pose proof (glen_same G H wG wH Hk) as EL. unfold glen in EL. destruct (kid_eqb (g_kid G) (g_kid H)) eqn:E.
  - exists (g_A H). destruct wH eqn:X. unfold glen. repeat split; try assumption; try congruence.
    intros u v i j Hi Hj. rewrite (kid_eqb_kid G H wG Hk E) in Hi, Hj. symmetry. apply weight_kid; assumption.
  - set (keys := sorted_keys _ _). assert (Hn : forall k i, nth_error keys i = Some k <-> kid G k = Some i) by (intros; apply sorted_nodes; assumption).
    destruct (list_to_ids_ok H keys wH) as (ids & E1 & L1 & F1 & _).
    { intros k Hin. apply In_nth_error in Hin as [a Ha]. apply Hk, node_kid. exists a. apply Hn. assumption. }
    assert (Lk : List.length keys = glen G).
    { unfold keys, sorted_keys. rewrite (Permutation_length (sort_by_perm _ _)). unfold gnodes. rewrite map_length. apply kok_len, gkok. assumption. }
    rewrite E1. simpl. eexists. split; [reflexivity|]. split; [apply mwf_mbuild|]. unfold mextract at 1 2. rewrite nrows_mbuild, ncols_mbuild.
    split; [congruence|]. split; [congruence|]. intros u v i j Hi Hj. apply Hn in Hi, Hj.
    destruct (F1 _ _ Hi) as (i' & Ii & Ki), (F1 _ _ Hj) as (j' & Ij & Kj). rewrite (mget_mextract _ _ _ _ _ _ _ Ii Ij). symmetry. apply weight_kid; assumption.
Qed.
(** a graph on G's numbering *)
Lemma on_G_ok G C dt W : gwf G -> mwf C -> nrows C = glen G -> ncols C = glen G ->
  (forall u v i j, kid G u = Some i -> kid G v = Some j -> mget C i j = W u v) ->
  (forall u v, (~ node G u \/ ~ node G v) -> W u v = None) ->
  (g_dir G = false -> forall u v, W u v = W v u) ->
  (nonneg_dtype dt = true -> forall u v x, W u v = Some x -> (0 <= x)%Z) ->
  is_graph (new_graph orc (g_dir G) C dt (g_kid G)) (g_dir G) (node G) W.
Proof.
  intros wf wC NC CC HC HW Hs Hp.
  assert (HI : forall i j, (exists u v, kid G u = Some i /\ kid G v = Some j) \/ forall X, mget C i j = X -> X = None).
  { intros i j. destruct (Nat.lt_ge_cases i (glen G)) as [Li|Li].
    - destruct (Nat.lt_ge_cases j (glen G)) as [Lj|Lj].
      + left. destruct (kid_key G wf i Li) as [u Hu], (kid_key G wf j Lj) as [v Hv]. eauto.
      + right. intros X <-. apply mget_out; [assumption|lia].
    - right. intros X <-. apply mget_out; [assumption|lia]. }
  split; [|split; [reflexivity|split; [reflexivity|]]].
  - apply new_graph_wf; try assumption; try congruence; try apply wf.
    + intros E i j. destruct (HI i j) as [(u & v & Hu & Hv)|Hnone].
      * rewrite (HC _ _ _ _ Hu Hv), (HC _ _ _ _ Hv Hu). auto.
      * rewrite (Hnone _ eq_refl). destruct (HI j i) as [(u & v & Hu & Hv)|Hnone'].
        -- rewrite (HC _ _ _ _ Hu Hv). specialize (Hnone _ (HC _ _ _ _ Hv Hu)). rewrite Hs by assumption. congruence.
        -- rewrite (Hnone' _ eq_refl). reflexivity.
    + intros E i j x Hx. destruct (HI i j) as [(u & v & Hu & Hv)|Hnone].
      * rewrite (HC _ _ _ _ Hu Hv) in Hx. eauto.
      * rewrite (Hnone _ eq_refl) in Hx. discriminate.
    + rewrite NC. apply wf.
  - intros u v. destruct (kid G u) as [i|] eqn:Hu.
    + destruct (kid G v) as [j|] eqn:Hv.
      * rewrite (weight_kid _ u v i j) by assumption. apply HC; assumption.
      * rewrite HW by (right; rewrite node_kid; intros [? ?]; congruence). unfold weight, kid in *. simpl. rewrite Hv. destruct (dget _ u); reflexivity.
    + rewrite HW by (left; rewrite node_kid; intros [? ?]; congruence). unfold weight, kid in *. simpl. rewrite Hu. reflexivity.
Qed.
Lemma weight_sym G u v : gwf G -> g_dir G = false -> weight G u v = weight G v u.
Proof. intros wf E. unfold weight. destruct (kid G u), (kid G v); try reflexivity. apply wf. assumption. Qed.
Lemma weight_nonneg G u v x : gwf G -> nonneg_dtype (g_dt G) = true -> weight G u v = Some x -> (0 <= x)%Z.
Proof. intros wf E. unfold weight. destruct (kid G u), (kid G v); try discriminate. apply wf. assumption. Qed.

(** ** C29, C30 *)
Theorem C29_difference G H : gwf G -> gwf H -> (g_dir G = false -> g_dir H = false) ->
  match difference orc G H with
  | Val R => (forall k, node G k <-> node H k) /\
      is_graph R (g_dir G) (node G)
        (fun u v => match weight G u v, weight H u v with Some _, None => Some 1%Z | _, _ => None end)
  | Raise e => e = EAlg /\ ~ (forall k, node G k <-> node H k)
  end.
Proof.
  intros wG wH Hd. unfold difference. destruct (keys_eqb (g_kid G) (g_kid H)) eqn:E; simpl.
  2:{ split; [reflexivity|]. apply keys_eqb_false_node. assumption. }
  assert (Hk : forall k, node G k <-> node H k) by (apply keys_eqb_true; assumption).
  destruct (aligned_ok G H wG wH Hk) as (B & EB & wB & NB & CB & VB). rewrite EB. simpl. split; [exact Hk|].
  apply on_G_ok; try assumption.
  - apply mwf_mselect.
  - unfold mrestrict. rewrite nrows_mselect. apply nrows_mbuild.
  - unfold mrestrict. rewrite ncols_mselect. unfold mmap. rewrite ncols_mbuild. apply wG.
  - intros u v i j Hi Hj. unfold mrestrict. rewrite mget_mselect by apply mwf_mbuild. rewrite mget_mmap by apply wG.
    unfold msNS. rewrite (VB _ _ _ _ Hi Hj), (weight_kid G u v i j) by assumption.
    destruct (mget (g_A G) i j), (weight H u v); reflexivity.
  - intros u v [Hn|Hn]; [rewrite weight_none_l by assumption|rewrite weight_none_r by assumption]; reflexivity.
  - intros E' u v. rewrite (weight_sym G u v wG E'), (weight_sym H u v wH ltac:(auto)). reflexivity.
  - intros _ u v x. destruct (weight G u v), (weight H u v); try discriminate. intros [= <-]. lia.
Qed.
Theorem C30_symmetric_difference G H : gwf G -> gwf H -> (g_dir G = false -> g_dir H = false) ->
  match symmetric_difference orc G H with
  | Val R => (forall k, node G k <-> node H k) /\
      is_graph R (g_dir G) (node G)
        (fun u v => match weight G u v, weight H u v with
                    | Some _, None | None, Some _ => Some 1%Z | _, _ => None end)
  | Raise e => e = EAlg /\ ~ (forall k, node G k <-> node H k)
  end.
Proof.
  intros wG wH Hd. unfold symmetric_difference. destruct (keys_eqb (g_kid G) (g_kid H)) eqn:E; simpl.
  2:{ split; [reflexivity|]. apply keys_eqb_false_node. assumption. }
  assert (Hk : forall k, node G k <-> node H k) by (apply keys_eqb_true; assumption).
  destruct (aligned_ok G H wG wH Hk) as (B & EB & wB & NB & CB & VB). rewrite EB. simpl. split; [exact Hk|].
  assert (SqG := sq_nrows G wG).
  apply on_G_ok; try assumption.
  - apply mwf_mselect.
  - unfold mrestrict. rewrite nrows_mselect. apply nrows_mbuild.
  - intros u v i j Hi Hj. unfold mrestrict. rewrite mget_mselect by apply mwf_mbuild.
    assert (Li := kid_lt G wG _ _ Hi). assert (Lj := kid_lt G wG _ _ Hj). unfold glen in *.
    rewrite mget_mbuild_lt by (try rewrite SqG; assumption). unfold msNS. rewrite mget_minter by (try apply wG; assumption || congruence).
    rewrite (VB _ _ _ _ Hi Hj), (weight_kid G u v i j) by assumption.
    destruct (mget (g_A G) i j), (weight H u v); reflexivity.
  - intros u v [Hn|Hn]; [rewrite !weight_none_l by (try rewrite <- Hk; assumption)|rewrite !weight_none_r by (try rewrite <- Hk; assumption)]; reflexivity.
  - intros E' u v. rewrite (weight_sym G u v wG E'), (weight_sym H u v wH ltac:(auto)). reflexivity.
  - intros _ u v x. destruct (weight G u v), (weight H u v); try discriminate; intros [= <-]; lia.
Qed.

(** ** C31 *)
Lemma compose_same G H : gwf G -> gwf H -> (g_dir G = false -> g_dir H = false) -> (forall k, node G k <-> node H k) ->
  exists R, compose orc G H = Val R /\
    is_graph R (g_dir G) (fun k => node G k \/ node H k)
      (fun u v => match weight H u v with Some w => Some w | None => weight G u v end).
Proof.
  intros wG wH Hd Hk. unfold compose. rewrite (proj2 (keys_eqb_true _ _) Hk).
  destruct (aligned_ok G H wG wH Hk) as (B & EB & wB & NB & CB & VB). rewrite EB. simpl. eexists. split; [reflexivity|].
  assert (SqG := sq_nrows G wG).
  assert (X : is_graph (new_graph orc (g_dir G) (munion op_second (g_A G) B) (unify (g_dt G) (g_dt H)) (g_kid G)) (g_dir G) (node G)
      (fun u v => match weight H u v with Some w => Some w | None => weight G u v end)).
  { apply on_G_ok; try assumption.
    - apply mwf_mbuild.
    - apply nrows_mbuild.
    - intros u v i j Hi Hj. rewrite mget_munion by (try apply wG; try assumption; unfold glen in *; congruence).
      rewrite (VB _ _ _ _ Hi Hj), (weight_kid G u v i j) by assumption. destruct (mget (g_A G) i j), (weight H u v); reflexivity.
    - intros u v [Hn|Hn]; [rewrite !weight_none_l by (try rewrite <- Hk; assumption)|rewrite !weight_none_r by (try rewrite <- Hk; assumption)]; reflexivity.
    - intros E' u v. rewrite (weight_sym G u v wG E'), (weight_sym H u v wH ltac:(auto)). reflexivity.
    - intros E u v x. apply unify_nonneg in E as [E1 E2]. destruct (weight H u v) eqn:Eh.
      + intros [= <-]. eapply (weight_nonneg H); eassumption.
      + apply (weight_nonneg G); assumption. }
  destruct X as (X1 & X2 & X3 & X4). split; [exact X1|]. split; [exact X2|]. split; [|exact X4].
  intros k. rewrite X3, <- Hk. tauto.
Qed.
Lemma combine_shift_get G k keys ids off : gwf G ->
  list_to_ids (g_kid G) keys = Val ids -> (forall x i, nth_error keys i = Some x <-> kid G x = Some i) -> NoDup keys ->
  dget (combine keys (map (fun i => i + off) ids)) k = omap (fun i => i + off) (kid G k).
Proof.
  intros wf E Hn ND. unfold list_to_ids in E. destruct (mapO (dget (g_kid G)) keys) as [l|] eqn:El; [|discriminate]. simpl in E. injection E as ->.
  assert (L := mapO_length _ _ _ El).
  destruct (kid G k) as [i|] eqn:Ei; simpl.
  - apply In_dget; [rewrite combine_fst; [assumption|rewrite map_length; symmetry; exact L]|].
    apply Hn in Ei as Ek. destruct (mapO_nth _ _ _ El _ _ Ek) as (i' & Hi' & Ei'). unfold kid in Ei. assert (i' = i) by congruence. subst i'.
    apply nth_error_In with (n := i). 
    assert (F : forall (a : list nkey) (b : list nat) n x y, nth_error a n = Some x -> nth_error b n = Some y -> nth_error (combine a b) n = Some (x, y)).
    { induction a as [|x0 a IHa]; intros [|y0 b] [|n] x y; simpl; try discriminate; [congruence|auto]. }
    apply F; [exact Ek|]. apply (map_nth_error (fun i => i + off)). exact Hi'.
  - apply dget_none. rewrite combine_fst by (rewrite map_length; symmetry; exact L). intros Hin. apply In_nth_error in Hin as [a Ha]. apply Hn in Ha. congruence.
Qed.
Lemma compose_disjoint G H : gwf G -> gwf H -> (g_dir G = false -> g_dir H = false) -> (forall k, node G k -> ~ node H k) ->
  exists R, compose orc G H = Val R /\
    is_graph R (g_dir G) (fun k => node G k \/ node H k)
      (fun u v => match weight H u v with Some w => Some w | None => weight G u v end).
Proof.
  intros wG wH Hd Hk.
  destruct (keys_eqb (g_kid G) (g_kid H)) eqn:EK.
  { apply compose_same; try assumption. apply keys_eqb_true. assumption. }
  unfold compose. rewrite EK.
  assert (EC : common_keys G H = []).
  { unfold common_keys. destruct (filter _ (gnodes G)) as [|k l] eqn:E; [reflexivity|]. exfalso.
    assert (Hin : In k (filter (fun k => inb k (g_kid H)) (gnodes G))) by (rewrite E; left; reflexivity).
    apply filter_In in Hin as [H1 H2]. apply inb_true in H2. exact (Hk k H1 H2). }
  rewrite EC. simpl (sorted_keys (g_kid G) []). cbn [List.length list_to_ids mapO okey obind].
  assert (EF : filter (fun k => negb (inb k (g_kid G))) (gnodes H) = gnodes H).
  { assert (F : forall l, (forall k, In k l -> ~ node G k) -> filter (fun k => negb (inb k (g_kid G))) l = l).
    { induction l as [|k l IH]; intros Hl; simpl; [reflexivity|]. destruct (inb k (g_kid G)) eqn:E.
      - apply inb_true in E. destruct (Hl k); simpl; auto.
      - simpl. rewrite IH; [reflexivity|]. intros; apply Hl; simpl; auto. }
    apply F. intros k H1 H2. exact (Hk k H2 H1). }
  rewrite EF. set (newkeys := sorted_keys (g_kid H) (gnodes H)).
  assert (Hn : forall k i, nth_error newkeys i = Some k <-> kid H k = Some i) by (intros; apply sorted_nodes; assumption).
  assert (NDk : NoDup newkeys) by (eapply Permutation_NoDup; [symmetry; apply sort_by_perm|apply wH]).
  destruct (list_to_ids_ok H newkeys wH) as (ids & E1 & L1 & F1 & _).
  { intros k Hin. eapply Permutation_in in Hin; [|apply sort_by_perm]. exact Hin. }
  assert (Lk : List.length newkeys = glen H).
  { unfold newkeys, sorted_keys. rewrite (Permutation_length (sort_by_perm _ _)). unfold gnodes. rewrite map_length. apply kok_len, gkok. assumption. }
  assert (Eids : ids = seq 0 (glen H)).
  { apply nth_error_ext. intros a. destruct (Nat.lt_ge_cases a (glen H)) as [La|La].
    - destruct (nth_error newkeys a) as [k|] eqn:Ek; [|apply nth_error_None in Ek; lia].
      destruct (F1 _ _ Ek) as (i & Hi & Ki). apply Hn in Ek. rewrite Hi.
      rewrite (nth_error_nth' _ 0) by (rewrite seq_length; exact La). rewrite seq_nth by exact La. simpl. congruence.
    - rewrite !(proj2 (nth_error_None _ _)) by (rewrite ?seq_length; lia). reflexivity. }
  rewrite E1. cbn [obind]. rewrite !Nat.sub_0_r. eexists. split; [reflexivity|].
  set (dH := combine newkeys _). set (C := mput _ _ _ _).
  assert (EfH : map fst dH = newkeys) by (apply combine_fst; rewrite map_length; congruence).
  assert (EsH : map snd dH = seq (nrows (g_A G)) (glen H)).
  { unfold dH. rewrite combine_snd by (rewrite map_length; congruence). rewrite Eids, seq_shift_add. reflexivity. }
  assert (NH : forall k, In k newkeys <-> node H k).
  { intros k. split; intros X; (eapply Permutation_in; [|exact X]); [apply sort_by_perm|symmetry; apply sort_by_perm]. }
  assert (ND : NoDup (map fst (dH ++ g_kid G))).
  { rewrite map_app, EfH. apply NoDup_app_intro; [assumption|apply wG|]. intros k H1 H2. apply NH in H1. exact (Hk k H2 H1). }
  rewrite (dupdate_app _ _ ND).
  destruct wG as [G1 G2 G3 G4 G5 G6 G7] eqn:XG. destruct wH as [H1 H2 H3 H4 H5 H6 H7] eqn:XH.
  assert (VC : forall i j, mget C i j = if (i <? nrows (g_A G)) && (j <? nrows (g_A G)) then mget (g_A G) i j
    else if (nrows (g_A G) <=? i) && (nrows (g_A G) <=? j) then mget (g_A H) (i - nrows (g_A G)) (j - nrows (g_A G)) else None).
  { intros i j. rewrite <- mget_block by assumption. unfold C, block_diag. rewrite !mget_mput. rewrite !nrows_mput, !ncols_mput, nrows_mempty, ncols_mempty.
    rewrite G2, H2. destruct (_ && _); [|reflexivity]. unfold glen in *.
    rewrite !pos_seq. destruct ((nrows (g_A G) <=? i) && (i <? nrows (g_A G) + nrows (g_A H))) eqn:Ei; [|reflexivity].
    destruct ((nrows (g_A G) <=? j) && (j <? nrows (g_A G) + nrows (g_A H))) eqn:Ej; [|reflexivity].
    apply andb_true_iff in Ei as [Ei1 Ei2], Ej as [Ej1 Ej2]. apply Nat.leb_le in Ei1, Ej1. apply Nat.ltb_lt in Ei2, Ej2.
    rewrite Eids. erewrite mget_mextract; [reflexivity| |].
    - rewrite (nth_error_nth' _ 0) by (rewrite seq_length; lia). rewrite seq_nth by lia. reflexivity.
    - rewrite (nth_error_nth' _ 0) by (rewrite seq_length; lia). rewrite seq_nth by lia. reflexivity. }
  assert (NC : nrows C = nrows (g_A G) + nrows (g_A H)) by (unfold C, mput, mempty; rewrite !nrows_mbuild; reflexivity).
  assert (CC : ncols C = nrows (g_A G) + nrows (g_A H)) by (unfold C, mput, mempty; rewrite !ncols_mbuild; lia).
  set (R := new_graph _ _ _ _ _).
  assert (NR : forall k, node R k <-> node G k \/ node H k).
  { intros k. unfold node at 1, gnodes, R, new_graph. simpl. rewrite map_app, EfH, in_app_iff, NH. tauto. }
  assert (HG : forall k i, kid G k = Some i -> kid R k = Some i).
  { intros k i Hi. unfold kid, R, new_graph. simpl. rewrite dget_app. replace (dget dH k) with (@None nat); [exact Hi|].
    symmetry. apply dget_none. rewrite EfH, NH. apply Hk. apply node_kid. eauto. }
  assert (HH : forall k i, kid H k = Some i -> kid R k = Some (i + nrows (g_A G))).
  { intros k i Hi. unfold kid, R, new_graph. simpl. rewrite dget_app. unfold dH.
    rewrite (combine_shift_get H k newkeys ids (nrows (g_A G)) wH E1 Hn NDk). rewrite Hi. reflexivity. }
  split; [|split; [reflexivity|split; [exact NR|]]].
  - apply new_graph_wf.
    + apply mwf_mbuild.
    + congruence.
    + intros E i j. rewrite !VC. rewrite (andb_comm (j <? _)), (andb_comm (_ <=? j)).
      rewrite G3, (H3 ltac:(auto)) by assumption. reflexivity.
    + intros E i j x. apply unify_nonneg in E as [X1 X2]. rewrite VC.
      destruct (_ && _); [apply G4; assumption|]. destruct (_ && _); [apply H4; assumption|discriminate].
    + exact ND.
    + rewrite map_app, EsH, NC. rewrite Permutation_app_comm, seq_app. apply Permutation_app; [exact G7|reflexivity].
  - intros u v. assert (AR : forall i j, mget (g_A R) i j = mget C i j) by reflexivity.
    destruct (node_dec G u) as [Gu|Gu], (node_dec G v) as [Gv|Gv].
    + rewrite (weight_none_l H) by auto. apply node_kid in Gu as [i Hi], Gv as [j Hj].
      rewrite (weight_kid R _ _ i j) by auto. rewrite (weight_kid G _ _ i j) by assumption. rewrite AR, VC.
      apply kid_lt in Hi, Hj; try assumption. unfold glen in *. rewrite !(proj2 (Nat.ltb_lt _ _)) by assumption. reflexivity.
    + rewrite (weight_none_l H) by auto. rewrite (weight_none_r G) by assumption.
      destruct (kid H v) as [j|] eqn:Hj.
      * apply node_kid in Gu as [i Hi]. rewrite (weight_kid R _ _ _ _ (HG _ _ Hi) (HH _ _ Hj)). rewrite AR, VC.
        apply kid_lt in Hi; try assumption. unfold glen in *. rewrite (proj2 (Nat.ltb_ge (j + _) _)) by lia.
        rewrite (proj2 (Nat.leb_gt _ i)) by lia. rewrite andb_false_r. reflexivity.
      * apply weight_none_r. rewrite NR, (node_kid H). intros [?|[? ?]]; [contradiction|congruence].
    + rewrite (weight_none_r H) by auto. rewrite (weight_none_l G) by assumption.
      destruct (kid H u) as [j|] eqn:Hj.
      * apply node_kid in Gv as [i Hi]. rewrite (weight_kid R _ _ _ _ (HH _ _ Hj) (HG _ _ Hi)). rewrite AR, VC.
        apply kid_lt in Hi; try assumption. unfold glen in *. rewrite (proj2 (Nat.ltb_ge (j + _) _)) by lia.
        rewrite (proj2 (Nat.leb_gt _ i)) by lia. rewrite !andb_false_r. reflexivity.
      * apply weight_none_l. rewrite NR, (node_kid H). intros [?|[? ?]]; [contradiction|congruence].
    + rewrite (weight_none_l G) by assumption. destruct (kid H u) as [i|] eqn:Hi; [destruct (kid H v) as [j|] eqn:Hj|].
      * rewrite (weight_kid R _ _ _ _ (HH _ _ Hi) (HH _ _ Hj)). rewrite AR, VC. rewrite (weight_kid H _ _ i j) by assumption.
        rewrite (proj2 (Nat.ltb_ge (i + _) _)) by lia. simpl. rewrite !(proj2 (Nat.leb_le _ _)) by lia. simpl. rewrite !Nat.add_sub.
        destruct (mget (g_A H) i j); reflexivity.
      * rewrite (weight_none_r H) by (rewrite node_kid; intros [? ?]; congruence).
        apply weight_none_r. rewrite NR, (node_kid H). intros [?|[? ?]]; [contradiction|congruence].
      * rewrite (weight_none_l H) by (rewrite node_kid; intros [? ?]; congruence).
        apply weight_none_l. rewrite NR, (node_kid H). intros [?|[? ?]]; [contradiction|congruence].
Qed.
Theorem C31_compose_partial G H : gwf G -> gwf H -> (g_dir G = false -> g_dir H = false) ->
  (forall k, node G k <-> node H k) \/ (forall k, node G k -> ~ node H k) ->
  exists R, compose orc G H = Val R /\
    is_graph R (g_dir G) (fun k => node G k \/ node H k)
      (fun u v => match weight H u v with Some w => Some w | None => weight G u v end).
Proof. intros wG wH Hd [Hk|Hk]; [apply compose_same|apply compose_disjoint]; assumption. Qed.

(** ** C32 *)
Theorem C32_full_join G H ren : gwf G -> gwf H -> (g_dir G = false -> g_dir H = false) -> rn_ok (prefix1 ren) G -> rn_ok (prefix2 ren) H ->
  let r1 := rn (prefix1 ren) in let r2 := rn (prefix2 ren) in
  match full_join orc G H ren with
  | Val R =>
      (forall u v, node G u -> node H v -> r1 u <> r2 v) /\
      gwf R /\ g_dir R = g_dir G /\
      (forall k, node R k <-> (exists u, node G u /\ k = r1 u) \/ (exists v, node H v /\ k = r2 v)) /\
      (forall u v, node G u -> node G v -> weight R (r1 u) (r1 v) = weight G u v) /\
      (forall u v, node H u -> node H v -> weight R (r2 u) (r2 v) = weight H u v) /\
      (forall u v, node G u -> node H v -> weight R (r1 u) (r2 v) = Some 1%Z /\ weight R (r2 v) (r1 u) = Some 1%Z)
  | Raise e => e = EAlg /\ exists u v, node G u /\ node H v /\ r1 u = r2 v
  end.
Proof.
  intros wG wH Hd O1 O2 r1 r2. unfold full_join. pose proof (C26_union G H ren wG wH Hd O1 O2) as T. cbv zeta in T. fold r1 r2 in T.
  assert (X : forall R, union orc G H ren = Val R -> g_A R = block_diag (g_A G) (g_A H) /\
     (forall u i, kid G u = Some i -> kid R (r1 u) = Some i) /\ (forall u i, kid H u = Some i -> kid R (r2 u) = Some (i + nrows (g_A G)))).
  { unfold union.
    replace (match ren with p :: _ => rename_graph orc p G | [] => G end) with (rename_graph orc (prefix1 ren) G)
      by (destruct ren as [|[] ?]; reflexivity).
    replace (match ren with _ :: p :: _ => rename_graph orc p H | _ => H end) with (rename_graph orc (prefix2 ren) H)
      by (destruct ren as [|? [|[] ?]]; reflexivity).
    destruct (rename_graph_ok (prefix1 ren) G wG O1) as (wG' & D1 & A1 & T1 & L1 & N1 & K1).
    destruct (rename_graph_ok (prefix2 ren) H wH O2) as (wH' & D2 & A2 & T2 & L2 & N2 & K2).
    destruct (keys_disjoint _ _) eqn:E; simpl; [|discriminate]. intros R [= <-].
    destruct (union_core _ _ wG' wH' ltac:(rewrite D1, D2; exact Hd) E) as (wR & NR & KG & KH).
    split; [simpl; congruence|]. split.
    - intros u i Hu. apply KG. unfold r1. rewrite K1; [assumption|]. apply node_kid. eauto.
    - intros u i Hu. rewrite <- A1. apply KH. unfold r2. rewrite K2; [assumption|]. apply node_kid. eauto. }
  destruct (union orc G H ren) as [R|e]; [|exact T]. destruct T as (D & wR & DR & N & W1 & W2 & W3).
  destruct (X R eq_refl) as (AR & KG & KH). cbn [obind].
  set (C := mputs _ _ _ _).
  assert (SqG := sq_nrows G wG). assert (SqH := sq_nrows H wH).
  assert (NR : nrows (g_A R) = nrows (g_A G) + nrows (g_A H)) by (rewrite AR; apply nrows_block).
  assert (CR : ncols (g_A R) = nrows (g_A G) + nrows (g_A H)) by (rewrite AR, ncols_block; lia).
  assert (NC : nrows C = nrows (g_A R)) by (unfold C, mputs; rewrite !nrows_mbuild; reflexivity).
  assert (CC : ncols C = ncols (g_A R)) by (unfold C, mputs; rewrite !ncols_mbuild; reflexivity).
  assert (VC : forall i j, i < nrows (g_A R) -> j < nrows (g_A R) ->
     mget C i j = if Bool.eqb (i <? nrows (g_A G)) (j <? nrows (g_A G)) then mget (g_A R) i j else Some 1%Z).
  { intros i j Li Lj. unfold C. rewrite !mget_mputs. unfold mputs. rewrite !nrows_mbuild, !ncols_mbuild, SqG, CR, NR.
    rewrite NR in Li, Lj. rewrite !(proj2 (Nat.ltb_lt _ (nrows (g_A G) + nrows (g_A H)))) by assumption. cbn [andb].
    rewrite !pos_seq.
    replace (nrows (g_A G) + (nrows (g_A G) + nrows (g_A H) - nrows (g_A G))) with (nrows (g_A G) + nrows (g_A H)) by lia.
    cbn [Nat.leb andb Nat.add].
    destruct (Nat.ltb_spec i (nrows (g_A G))), (Nat.ltb_spec j (nrows (g_A G))), (Nat.leb_spec (nrows (g_A G)) i), (Nat.leb_spec (nrows (g_A G)) j); try lia;
      rewrite ?(proj2 (Nat.ltb_lt _ _) Li), ?(proj2 (Nat.ltb_lt _ _) Lj); reflexivity. }
  assert (VC' : forall i j, mget C i j <> None -> i < nrows (g_A R) /\ j < nrows (g_A R)).
  { intros i j Hx. destruct (mget C i j) eqn:E; [|congruence]. apply mget_some_lt in E; [|apply mwf_mbuild]. lia. }
  set (R' := new_graph _ _ _ _ _).
  assert (KL : forall k i, kid R k = Some i -> i < nrows (g_A R)) by (intros k i; apply kid_lt; assumption).
  assert (WR : forall a b i j, kid R a = Some i -> kid R b = Some j ->
     weight R' a b = if Bool.eqb (i <? nrows (g_A G)) (j <? nrows (g_A G)) then weight R a b else Some 1%Z).
  { intros a b i j Ha Hb. rewrite (weight_kid R' a b i j) by assumption. rewrite (weight_kid R a b i j) by assumption.
    change (g_A R') with C. apply VC; eapply KL; eassumption. }
  assert (LG : forall u i, kid G u = Some i -> i < nrows (g_A G)) by (intros u i; apply kid_lt; assumption).
  destruct wR as [R1 R2 R3 R4 R5 R6 R7] eqn:ER.
  split; [exact D|]. split; [|split; [exact DR|split; [exact N|split; [|split]]]].
  - apply new_graph_wf; try assumption.
    + apply mwf_mbuild.
    + congruence.
    + intros E i j. destruct (Nat.lt_ge_cases i (nrows (g_A R))) as [Li|Li]; [|rewrite !mget_out by (apply mwf_mbuild || lia); reflexivity].
      destruct (Nat.lt_ge_cases j (nrows (g_A R))) as [Lj|Lj]; [|rewrite !mget_out by (apply mwf_mbuild || lia); reflexivity].
      rewrite !VC by assumption. rewrite (R3 E i j). destruct (i <? nrows (g_A G)), (j <? nrows (g_A G)); reflexivity.
    + intros E i j x Hx. destruct (VC' i j) as [Li Lj]; [congruence|]. rewrite VC in Hx by assumption.
      destruct (Bool.eqb _ _); [eapply R4; eassumption|injection Hx as <-; lia].
    + rewrite NC. exact R7.
  - intros u v Hu Hv. rewrite <- W1 by assumption. apply node_kid in Hu as [i Hi], Hv as [j Hj].
    rewrite (WR _ _ _ _ (KG _ _ Hi) (KG _ _ Hj)). apply LG in Hi, Hj. rewrite !(proj2 (Nat.ltb_lt _ _)) by assumption. reflexivity.
  - intros u v Hu Hv. rewrite <- W2 by assumption. apply node_kid in Hu as [i Hi], Hv as [j Hj].
    rewrite (WR _ _ _ _ (KH _ _ Hi) (KH _ _ Hj)). rewrite !(proj2 (Nat.ltb_ge _ _)) by lia. reflexivity.
  - intros u v Hu Hv. apply node_kid in Hu as [i Hi], Hv as [j Hj].
    rewrite (WR _ _ _ _ (KG _ _ Hi) (KH _ _ Hj)), (WR _ _ _ _ (KH _ _ Hj) (KG _ _ Hi)). apply LG in Hi.
    rewrite (proj2 (Nat.ltb_lt i _)) by assumption. rewrite !(proj2 (Nat.ltb_ge _ _)) by lia. auto.
Qed.

(** ** C33 *)
Theorem C33_complement G : gwf G ->
  is_graph (complement orc G) (g_dir G) (node G)
    (fun u v => if nkey_eqb u v then None
                else if in_graph G u && in_graph G v then match weight G u v with None => Some 1%Z | Some _ => None end
                else None).
Proof.
  intros wf. assert (SqG := sq_nrows G wf). unfold complement. apply on_G_ok; try assumption.
  - apply mwf_mselect.
  - rewrite nrows_mselect. apply nrows_mbuild.
  - intros u v i j Hi Hj. rewrite mget_mselect by apply mwf_mbuild.
    assert (Li := kid_lt G wf _ _ Hi). assert (Lj := kid_lt G wf _ _ Hj). unfold glen in *.
    rewrite mget_mbuild_lt by (try rewrite SqG; assumption). unfold in_graph. rewrite Hi, Hj. simpl.
    rewrite (weight_kid G u v i j) by assumption. unfold msNS.
    destruct (Nat.eqb_spec i j) as [->|Ne].
    + rewrite (kid_inj G wf u v j Hi Hj), nkey_eqb_refl. reflexivity.
    + rewrite nkey_eqb_neq by (intros ->; congruence). simpl. destruct (mget (g_A G) i j); reflexivity.
  - intros u v [Hn|Hn]; rewrite node_in_graph in Hn; apply not_true_iff_false in Hn; rewrite Hn, ?andb_false_r; destruct (nkey_eqb u v); reflexivity.
  - intros E u v. rewrite (weight_sym G u v wf E), (andb_comm (in_graph G u)).
    destruct (nkey_eqb u v) eqn:X, (nkey_eqb v u) eqn:Y; try reflexivity.
    + apply nkey_eqb_eq in X. subst. rewrite nkey_eqb_refl in Y. discriminate.
    + apply nkey_eqb_eq in Y. subst. rewrite nkey_eqb_refl in X. discriminate.
  - intros _ u v x. destruct (nkey_eqb u v); [discriminate|]. destruct (_ && _); [|discriminate]. destruct (weight G u v); [discriminate|]. intros [= <-]. lia.
Qed.
(** edges of the complement, and of the complement of the complement *)
Corollary C33_complement_edges G u v : gwf G ->
  (edge (complement orc G) u v <-> node G u /\ node G v /\ u <> v /\ ~ edge G u v) /\
  (edge (complement orc (complement orc G)) u v <-> u <> v /\ edge G u v).
Proof.
  intros wf. assert (F : forall X, gwf X -> edge (complement orc X) u v <-> node X u /\ node X v /\ u <> v /\ ~ edge X u v).
  { intros X wX. destruct (C33_complement X wX) as (_ & _ & _ & W). unfold edge. rewrite W. rewrite !node_in_graph.
    destruct (nkey_eqb u v) eqn:E.
    - apply nkey_eqb_eq in E. subst. split; [intros [? ?]; discriminate|tauto].
    - assert (u <> v) by (intros ->; rewrite nkey_eqb_refl in E; discriminate).
      destruct (in_graph X u), (in_graph X v); simpl; try (split; [intros [? ?]; discriminate|intuition discriminate]).
      destruct (weight X u v) eqn:Ew.
      + split; [intros [? ?]; discriminate|]. intros (_ & _ & _ & Hn). destruct Hn. eauto.
      + split; [|eauto]. intros _. repeat split; auto. intros [? ?]. discriminate. }
  split; [apply F; assumption|]. destruct (C33_complement G wf) as (wC & _ & NC & _). rewrite (F _ wC), (F _ wf), !NC.
  assert (edge G u v \/ ~ edge G u v) by (unfold edge; destruct (weight G u v); [left; eauto|right; intros [? ?]; discriminate]).
  assert (edge G u v -> node G u /\ node G v) by (intros [w Hw]; apply weight_nodes in Hw; assumption).
  tauto.
Qed.

(** ** C34 *)
Theorem C34_reverse G : gwf G ->
  match reverse orc G with
  | Val R => g_dir G = true /\ is_graph R true (node G) (fun u v => weight G v u) /\ gnodes R = gnodes G /\
      exists R2, reverse orc R = Val R2 /\ gnodes R2 = gnodes G /\ g_A R2 = g_A G
  | Raise e => e = EAlg /\ g_dir G = false
  end.
Proof.
  intros wf. unfold reverse. destruct (g_dir G) eqn:E; simpl; [|auto]. assert (SqG := sq_nrows G wf).
  split; [reflexivity|]. split.
  - replace true with (g_dir G). apply on_G_ok; try assumption.
    + apply mwf_mtrans.
    + rewrite nrows_mtrans. assumption.
    + apply ncols_mtrans.
    + intros u v i j Hi Hj. rewrite mget_mtrans by apply wf. symmetry. apply weight_kid; assumption.
    + intros u v [Hn|Hn]; [apply weight_none_r|apply weight_none_l]; assumption.
    + congruence.
    + intros E' u v x. apply weight_nonneg; assumption.
  - split; [reflexivity|]. eexists. split; [reflexivity|]. split; [reflexivity|]. simpl.
    apply mat_ext.
    + apply mwf_mtrans.
    + apply wf.
    + rewrite nrows_mtrans, ncols_mtrans. reflexivity.
    + rewrite ncols_mtrans, nrows_mtrans. reflexivity.
    + intros i j _ _. rewrite mget_mtrans by apply mwf_mtrans. apply mget_mtrans, wf.
Qed.

(** ** C35 *)
(** every choice [pick] the library may make *)
Theorem C35_to_undirected G pick reciprocal u v : gwf G ->
  g_dir (to_undirected orc pick reciprocal G) = false /\ gnodes (to_undirected orc pick reciprocal G) = gnodes G /\
  (edge (to_undirected orc pick reciprocal G) u v <->
     if reciprocal then edge G u v /\ edge G v u else edge G u v \/ edge G v u) /\
  (edge (to_undirected orc pick reciprocal G) u v <-> edge (to_undirected orc pick reciprocal G) v u) /\
  (forall w, weight (to_undirected orc pick reciprocal G) u v = Some w -> weight G u v = Some w \/ weight G v u = Some w).
Proof.
  intros wf. assert (SqG := sq_nrows G wf).
  assert (F : forall u v, weight (to_undirected orc pick reciprocal G) u v =
     match kid G u, kid G v with
     | Some i, Some j => if reciprocal then oboth (fun x y => if pick i j then x else y) (weight G u v) (weight G v u)
                         else omerge (fun x y => if pick i j then x else y) (weight G u v) (weight G v u)
     | _, _ => None end).
  { intros a b. unfold weight at 1. change (kid (to_undirected orc pick reciprocal G)) with (kid G).
    destruct (kid G a) as [i|] eqn:Hi; [|reflexivity]. destruct (kid G b) as [j|] eqn:Hj; [|reflexivity].
    assert (Li := kid_lt G wf _ _ Hi). assert (Lj := kid_lt G wf _ _ Hj). unfold glen in *.
    rewrite !(weight_kid G _ _ _ _ Hi Hj), !(weight_kid G _ _ _ _ Hj Hi).
    unfold to_undirected, new_graph. simpl. destruct reciprocal; rewrite mget_mbuild_lt by (try rewrite SqG; assumption);
      rewrite mget_mtrans by apply wf; reflexivity. }
  assert (K : forall a b w, weight G a b = Some w -> exists i j, kid G a = Some i /\ kid G b = Some j).
  { intros a b w Hw. apply weight_nodes in Hw as [Ha Hb]. apply node_kid in Ha as [i ?], Hb as [j ?]. eauto. }
  assert (E : forall a b, edge (to_undirected orc pick reciprocal G) a b <-> if reciprocal then edge G a b /\ edge G b a else edge G a b \/ edge G b a).
  { intros a b. unfold edge. rewrite F. split.
    - intros [w Hw]. destruct (kid G a), (kid G b); try discriminate.
      destruct reciprocal, (weight G a b), (weight G b a); simpl in Hw; try discriminate; eauto.
    - intros H. assert (exists i j, kid G a = Some i /\ kid G b = Some j) as (i & j & -> & ->).
      { destruct reciprocal; [destruct H as [[w H] _]; eapply K; exact H|].
        destruct H as [[w H]|[w H]]; [eapply K; exact H|]. apply K in H as (i & j & ? & ?). eauto. }
      destruct reciprocal.
      + destruct H as [[x ->] [y ->]]. simpl. eauto.
      + destruct H as [[x ->]|[x ->]]; [|destruct (weight G a b)]; simpl; eauto. destruct (weight G b a); simpl; eauto. }
  split; [reflexivity|]. split; [reflexivity|]. split; [apply E|]. split.
  - rewrite !E. destruct reciprocal; tauto.
  - intros w. rewrite F. destruct (kid G u) as [i|], (kid G v) as [j|]; try discriminate.
    destruct reciprocal, (weight G u v), (weight G v u); simpl; try discriminate; try destruct (pick i j); intros [= <-]; auto.
Qed.
(** when reciprocated edges carry equal weights the result is a well-formed undirected graph *)
Theorem C35_to_undirected_wf G pick reciprocal : gwf G ->
  (forall u v x y, weight G u v = Some x -> weight G v u = Some y -> x = y) -> gwf (to_undirected orc pick reciprocal G).
Proof.
  intros wf Hw. assert (SqG := sq_nrows G wf).
  assert (Hw' : forall i j x y, mget (g_A G) i j = Some x -> mget (g_A G) j i = Some y -> x = y).
  { intros i j x y Hx Hy. assert (Li := mget_some_lt _ _ _ _ (gw_mwf G wf) Hx). rewrite SqG in Li. destruct Li as [Li Lj].
    destruct (kid_key G wf i Li) as [u Hu], (kid_key G wf j Lj) as [v Hv].
    apply (Hw u v); [rewrite (weight_kid G u v i j)|rewrite (weight_kid G v u j i)]; assumption. }
  unfold to_undirected. apply new_graph_wf; try apply wf.
  - destruct reciprocal; apply mwf_mbuild.
  - destruct reciprocal; rewrite nrows_mbuild, ncols_mbuild; assumption.
  - intros _ i j. destruct reciprocal; rewrite !mget_mbuild, SqG, (andb_comm (j <? _)); destruct (_ && _); try reflexivity; rewrite !mget_mtrans by apply wf;
      pose proof (Hw' i j) as X; destruct (mget (g_A G) i j), (mget (g_A G) j i); try reflexivity; simpl;
      rewrite (X _ _ eq_refl eq_refl); destruct (pick i j), (pick j i); reflexivity.
  - intros E i j x. destruct reciprocal; rewrite !mget_mbuild; destruct (_ && _); try discriminate; rewrite !mget_mtrans by apply wf;
      pose proof (gw_nn G wf E i j) as X; pose proof (gw_nn G wf E j i) as Y;
      destruct (mget (g_A G) i j), (mget (g_A G) j i); try discriminate; simpl; intros [= <-]; try destruct (pick i j); auto.
  - destruct reciprocal; rewrite nrows_mbuild; apply wf.
Qed.
End P.

(** ** What goes wrong *)
(** compose with partially overlapping node sets (0-1 and 1-2) loses the edge 1-2 *)
Definition ex_G := mkgk false [KI 0; KI 1] [(0, 1, 5%Z)].
Definition ex_H := mkgk false [KI 1; KI 2] [(0, 1, 7%Z)].
Theorem C31_compose_refuted :
  gwf ex_G /\ gwf ex_H /\ edge ex_H (KI 1) (KI 2) /\
  match compose (fun _ => false) ex_G ex_H with
  | Val R => ~ edge R (KI 1) (KI 2) /\ ~ gwf R
  | Raise _ => True
  end.
Proof.
  split; [apply mkgk_wf; repeat constructor; simpl; intuition discriminate|].
  split; [apply mkgk_wf; repeat constructor; simpl; intuition discriminate|].
  split; [exists 7%Z; reflexivity|]. vm_compute compose. split.
  - intros [w Hw]. vm_compute in Hw. discriminate.
  - intros wR. assert (X := kid_lt _ wR (KI 2) 3 eq_refl). vm_compute in X. lia.
Qed.
(** the library may take the operand of the transpose for reciprocated edges: the "undirected" graph
    then has different weights in the two directions *)
Theorem C35_weights_refuted :
  exists G pick, gwf G /\
    weight (to_undirected (fun _ => false) pick false G) (KI 0) (KI 1) = Some 9%Z /\
    weight (to_undirected (fun _ => false) pick false G) (KI 1) (KI 0) = Some 4%Z.
Proof.
  exists (mkg true 2 [(0, 1, 4%Z); (1, 0, 9%Z)]), (fun _ _ => false).
  split; [apply mkg_wf|]. split; reflexivity.
Qed.
(** renaming that makes two nodes equal (1 and "1") drops a node *)
Definition ex_C := mkgk false [KI 1; KS "1"] [(0, 1, 5%Z)].
Theorem C26_rename_collision_refuted :
  gwf ex_C /\ match union (fun _ => false) ex_C (mkg false 0 []) [Some "a"%string] with
              | Val R => glen R = 2 /\ gnodes R = [KS "a1"] /\ ~ gwf R
              | Raise _ => False
              end.
Proof.
  split; [apply mkgk_wf; repeat constructor; simpl; intuition discriminate|]. vm_compute union.
  split; [reflexivity|]. split; [reflexivity|]. intros wR.
  assert (X := kok_len _ _ (gkok _ wR)). vm_compute in X. discriminate.
Qed.

(** ** Concrete cases meeting the hypotheses *)
Definition ex_K := mkgk false [KI 1; KI 0] [(0, 1, 8%Z); (1, 1, 3%Z)].   (* other numbering, self-loop at 0 *)
Example C26_ex : match union (fun _ => true) ex_G ex_H [None; Some "h"%string] with
  | Val R => weight R (KI 0) (KI 1) = Some 5%Z /\ weight R (KS "h1") (KS "h2") = Some 7%Z /\ weight R (KI 1) (KS "h1") = None
  | Raise _ => False end.
Proof. vm_compute. repeat split. Qed.
Example C26_ex_raise : union (fun _ => true) ex_G ex_H [] = Raise EAlg.
Proof. reflexivity. Qed.
Example C26_ex_rn : rn_ok (Some "h"%string) ex_H.
Proof. apply rn_ok_int. intros k [<-|[<-|[]]]; simpl; eauto. Qed.
Example C28_ex : match intersection (fun _ => true) ex_G ex_K with
  | Val R => gnodes R = [KI 0; KI 1] /\ weight R (KI 0) (KI 1) = Some 1%Z /\ weight R (KI 0) (KI 0) = None | Raise _ => False end.
Proof. vm_compute. repeat split. Qed.
Example C29_ex : match difference (fun _ => true) ex_K ex_G with
  | Val R => weight R (KI 0) (KI 0) = Some 1%Z /\ weight R (KI 0) (KI 1) = None | Raise _ => False end.
Proof. vm_compute. repeat split. Qed.
Example C29_ex_raise : difference (fun _ => true) ex_H ex_G = Raise EAlg.
Proof. reflexivity. Qed.
Example C30_ex : match symmetric_difference (fun _ => true) ex_G ex_K with
  | Val R => weight R (KI 0) (KI 0) = Some 1%Z /\ weight R (KI 0) (KI 1) = None | Raise _ => False end.
Proof. vm_compute. repeat split. Qed.
Example C31_ex : (forall k, node ex_G k <-> node ex_K k) /\ match compose (fun _ => true) ex_G ex_K with
  | Val R => weight R (KI 0) (KI 0) = Some 3%Z /\ weight R (KI 0) (KI 1) = Some 8%Z | Raise _ => False end.
Proof. split; [intros k; unfold node; simpl; tauto|vm_compute; repeat split]. Qed.
Example C32_ex : match full_join (fun _ => true) ex_G ex_H [Some "g"%string; None] with
  | Val R => weight R (KS "g0") (KI 2) = Some 1%Z /\ weight R (KS "g0") (KS "g1") = Some 5%Z | Raise _ => False end.
Proof. vm_compute. repeat split. Qed.
Example C33_ex : weight (complement (fun _ => true) ex_K) (KI 0) (KI 1) = None /\
  weight (complement (fun _ => true) (mkg true 2 [(0, 1, 4%Z)])) (KI 1) (KI 0) = Some 1%Z.
Proof. split; reflexivity. Qed.
Example C34_ex : match reverse (fun _ => true) (mkg true 2 [(0, 1, 4%Z)]) with
  | Val R => weight R (KI 1) (KI 0) = Some 4%Z | Raise _ => False end.
Proof. reflexivity. Qed.

Print Assumptions C26_union.
Print Assumptions C26_union_plain.
Print Assumptions C27_disjoint_union.
Print Assumptions C28_intersection.
Print Assumptions C29_difference.
Print Assumptions C30_symmetric_difference.
Print Assumptions C31_compose_partial.
Print Assumptions C31_compose_refuted.
Print Assumptions C32_full_join.
Print Assumptions C33_complement.
Print Assumptions C33_complement_edges.
Print Assumptions C34_reverse.
Print Assumptions C35_to_undirected.
Print Assumptions C35_to_undirected_wf.
