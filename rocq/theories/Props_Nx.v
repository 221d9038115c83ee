(** * C64, C68: conversion from and to networkx *)
From Verif Require Import Base BaseProofs Model_Graph Model_Cache Spec_Cache CacheMath CacheProofs CacheProofs2 Model_Keys Spec Spec_Run
  RunProofs KeyProofs Model_Operators OperatorProofs Model_Nx Concrete.
From Coq Require Import Permutation.

Lemma dget_dset {V} (d : list (nkey * V)) k v k' : dget (dset d k v) k' = if nkey_eqb k' k then Some v else dget d k'.
Proof.
  induction d as [|[a b] d IH]; simpl; [reflexivity|]. destruct (nkey_eqb k a) eqn:E; simpl.
  - apply nkey_eqb_eq in E. subst. destruct (nkey_eqb k' a); reflexivity.
  - rewrite IH. destruct (nkey_eqb k' a) eqn:E1; [|reflexivity]. destruct (nkey_eqb k' k) eqn:E2; [|reflexivity].
    apply nkey_eqb_eq in E1, E2. subst. rewrite nkey_eqb_refl in E. discriminate.
Qed.
Lemma dset_fst {V} (d : list (nkey * V)) k v : In k (map fst d) -> map fst (dset d k v) = map fst d.
Proof.
  induction d as [|[a b] d IH]; simpl; [intros []|]. destruct (nkey_eqb k a) eqn:E; [reflexivity|]. intros [->|H]; [rewrite nkey_eqb_refl in E; discriminate|].
  simpl. rewrite IH by assumption. reflexivity.
Qed.
Definition adj_data (l : list (nkey * list (nkey * attrs))) (u v : nkey) : option attrs := match dget l u with Some nb => dget nb v | None => None end.
Lemma adj_set_nodes l u v x : map fst (adj_set l u v x) = map fst l.
Proof. unfold adj_set. destruct (dget l u) eqn:E; [|reflexivity]. apply dset_fst. apply dget_some. eauto. Qed.
Lemma adj_set_data l u v x a b : In u (map fst l) -> adj_data (adj_set l u v x) a b = if nkey_eqb a u && nkey_eqb b v then Some x else adj_data l a b.
Proof.
  intros H. apply dget_some in H as [nb H]. unfold adj_data, adj_set. rewrite H, dget_dset. destruct (nkey_eqb a u) eqn:E; simpl; [|reflexivity].
  rewrite dget_dset. apply nkey_eqb_eq in E. subst. rewrite H. reflexivity.
Qed.
Lemma add_edge_nodes N u v x : nx_nodes (add_edge N u v x) = nx_nodes N.
Proof. unfold nx_nodes, add_edge. simpl. destruct (nx_dir N); rewrite ?adj_set_nodes; reflexivity. Qed.
Lemma add_edge_data N u v x a b : In u (nx_nodes N) -> In v (nx_nodes N) ->
  nx_data (add_edge N u v x) a b =
  if (nkey_eqb a u && nkey_eqb b v) || (negb (nx_dir N) && (nkey_eqb a v && nkey_eqb b u)) then Some (dupdate (oget [] (nx_data N u v)) x) else nx_data N a b.
Proof.
  intros Hu Hv. unfold nx_data at 1, add_edge. simpl. fold (adj_data (nx_adj N)). destruct (nx_dir N); simpl.
  - change (adj_data (adj_set (nx_adj N) u v (dupdate (oget [] (nx_data N u v)) x)) a b = if nkey_eqb a u && nkey_eqb b v || false then Some (dupdate (oget [] (nx_data N u v)) x) else nx_data N a b).
    rewrite adj_set_data by assumption. rewrite orb_false_r. reflexivity.
  - match goal with |- match dget ?l a with _ => _ end = _ => change (adj_data l a b = if nkey_eqb a u && nkey_eqb b v || nkey_eqb a v && nkey_eqb b u then Some (dupdate (oget [] (nx_data N u v)) x) else nx_data N a b) end.
    rewrite adj_set_data by (rewrite adj_set_nodes; assumption). rewrite adj_set_data by assumption.
    destruct (nkey_eqb a u && nkey_eqb b v), (nkey_eqb a v && nkey_eqb b u); reflexivity.
Qed.
(** the data dict of an edge of weight w *)
Definition wdata (a : option nkey) (w : Z) : attrs := match a with Some a => [(a, w)] | None => [] end.
Lemma wdata_update a w o : (o = None \/ o = Some (wdata a w)) -> dupdate (oget [] o) (wdata a w) = wdata a w.
Proof. intros [->| ->]; destruct a; unfold dupdate; simpl; rewrite ?nkey_eqb_refl; reflexivity. Qed.
Lemma both_eqb a b u v : nkey_eqb a u && nkey_eqb b v = true <-> a = u /\ b = v.
Proof. rewrite andb_true_iff, !nkey_eqb_eq. reflexivity. Qed.
Definition touched (dir : bool) (es : list (nkey * nkey * Z)) (a b : nkey) : Prop :=
  exists w, In (a, b, w) es \/ (dir = false /\ In (b, a, w) es).
Lemma add_edges_ok attr (T : nkey -> nkey -> option Z) es : forall N,
  (forall u v w, In (u, v, w) es -> In u (nx_nodes N) /\ In v (nx_nodes N) /\ T u v = Some w) ->
  (nx_dir N = false -> forall u v, T u v = T v u) ->
  (forall u v, nx_data N u v = None \/ nx_data N u v = omap (wdata attr) (T u v)) ->
  let N' := fold_left (fun N e => match e with (u, v, w) => add_edge N u v (wdata attr w) end) es N in
  nx_dir N' = nx_dir N /\ nx_nattr N' = nx_nattr N /\ nx_nodes N' = nx_nodes N /\
  forall a b, (touched (nx_dir N) es a b -> nx_data N' a b = omap (wdata attr) (T a b)) /\ (~ touched (nx_dir N) es a b -> nx_data N' a b = nx_data N a b).
Proof.
  induction es as [|[[u v] w] es IH]; intros N Hin HT HD; simpl.
  - repeat (split; [reflexivity|]). intros a b. split; [intros (? & [[]|[_ []]])|reflexivity].
  - destruct (Hin u v w (or_introl eq_refl)) as (Hu & Hv & Ew).
    assert (X : dupdate (oget [] (nx_data N u v)) (wdata attr w) = wdata attr w) by (apply wdata_update; destruct (HD u v) as [->| ->]; [auto|rewrite Ew; auto]).
    assert (Y : forall a b, nx_data (add_edge N u v (wdata attr w)) a b =
        if (nkey_eqb a u && nkey_eqb b v) || (negb (nx_dir N) && (nkey_eqb a v && nkey_eqb b u)) then omap (wdata attr) (T a b) else nx_data N a b).
    { intros a b. rewrite add_edge_data, X by assumption. destruct (nkey_eqb a u && nkey_eqb b v) eqn:E1; simpl.
      - apply both_eqb in E1 as [-> ->]. rewrite Ew. reflexivity.
      - destruct (nx_dir N) eqn:Ed; simpl; [reflexivity|]. destruct (nkey_eqb a v && nkey_eqb b u) eqn:E2; [|reflexivity].
        apply both_eqb in E2 as [-> ->]. rewrite (HT eq_refl), Ew. reflexivity. }
    destruct (IH (add_edge N u v (wdata attr w))) as (A1 & A2 & A3 & A4).
    + intros a b w' H. rewrite add_edge_nodes. apply Hin. right. assumption.
    + exact HT.
    + intros a b. rewrite Y. destruct (_ || _); auto.
    + rewrite A1, A2, A3, add_edge_nodes. split; [reflexivity|]. split; [reflexivity|]. split; [reflexivity|]. simpl in A4.
      intros a b. specialize (A4 a b) as [B1 B2].
      assert (D : touched (nx_dir N) es a b \/ ~ touched (nx_dir N) es a b).
      { assert (P : forall p : nkey * nkey * Z -> bool, (exists e, In e es /\ p e = true) \/ ~ exists e, In e es /\ p e = true).
        { intros p. destruct (existsb p es) eqn:E; [left; apply existsb_exists; assumption|right; intros H; apply existsb_exists in H; congruence]. }
        destruct (P (fun e => match e with (x, y, _) => (nkey_eqb a x && nkey_eqb b y) || (negb (nx_dir N) && (nkey_eqb b x && nkey_eqb a y)) end)) as [[[[x y] z] [H1 H2]]|H].
        - left. apply orb_true_iff in H2 as [H2|H2]; [apply both_eqb in H2 as [-> ->]; exists z; auto|]. apply andb_true_iff in H2 as [H2 H3].
          apply both_eqb in H3 as [-> ->]. exists z. right. split; [destruct (nx_dir N); [discriminate|reflexivity]|assumption].
        - right. intros (z & [Hz|[Hz Hz']]); apply H; [exists (a, b, z)|exists (b, a, z)]; (split; [assumption|]); rewrite !nkey_eqb_refl; [reflexivity|rewrite Hz; apply orb_true_r]. }
      split.
      * intros (z & Hz). destruct D as [D|D]; [auto|]. rewrite (B2 D), Y.
        destruct Hz as [[E|Hz]|[Hd [E|Hz]]].
        -- injection E as -> -> ->. rewrite !nkey_eqb_refl. reflexivity.
        -- destruct D. exists z. auto.
        -- injection E as -> -> ->. rewrite Hd, !nkey_eqb_refl. simpl. rewrite orb_true_r. reflexivity.
        -- destruct D. exists z. auto.
      * intros Hn. rewrite B2, Y.
        -- destruct (nkey_eqb a u && nkey_eqb b v) eqn:E1; [apply both_eqb in E1 as [-> ->]; destruct Hn; exists w; left; left; reflexivity|].
           destruct (negb (nx_dir N) && (nkey_eqb a v && nkey_eqb b u)) eqn:E2; [|reflexivity]. apply andb_true_iff in E2 as [E2 E3].
           apply both_eqb in E3 as [-> ->]. destruct Hn. exists w. right. split; [destruct (nx_dir N); [discriminate|reflexivity]|left; reflexivity].
        -- intros (z & [Hz|[Hd Hz]]); apply Hn; exists z; [left; right|right; split; [assumption|right]]; assumption.
Qed.

(** to_networkx: the same nodes in the same order, and the same edges with their weights as [edge_attribute] *)
Definition nx_shows (N : nxgraph) (dir : bool) (nodes : list nkey) (E : nkey -> nkey -> option attrs) : Prop :=
  nx_dir N = dir /\ nx_nodes N = nodes /\ nx_nattr N = false /\ forall u v, nx_data N u v = E u v.
Theorem C64_to_networkx G attr : gwf G -> returns G (to_networkx G attr) (fun N =>
  nx_shows N (g_dir G) (gnodes G) (fun u v => match weight G u v with Some w => Some (match attr with Some a => [(a, w)] | None => [] end) | None => None end)).
Proof.
  intros wf. unfold returns, to_networkx.
  assert (LP : forall i j, mget (den_mat G (KL SP)) i j = if j <=? i then mget (g_A G) i j else None).
  { intros i j. simpl. rewrite mget_mbuild. destruct (Nat.ltb_spec i (nrows (g_A G))), (Nat.ltb_spec j (nrows (g_A G))); simpl; try reflexivity;
      (destruct (j <=? i); [symmetry; apply mget_out; [apply wf|pose proof (gw_sq G wf); lia]|reflexivity]). }
  set (AA := if g_dir G then g_A G else den_mat G (KL SP)).
  assert (WA : mwf AA) by (unfold AA; destruct (g_dir G); [apply wf|apply mwf_mbuild]).
  apply (answers_bind_v G _ _ AA).
  { unfold AA. destruct (g_dir G) eqn:Ed; [apply answers_ret; reflexivity|]. eapply answers_GV; [apply (get_Lp_ok G wf true eq_refl)|reflexivity]. }
  apply answers_idx.
  2:{ intros E. exfalso. apply mapO_none in E as ([[i j] w] & Hin & E). apply in_mcoo in Hin; [|assumption].
      assert (H : i < glen G /\ j < glen G).
      { assert (M : exists x, mget (g_A G) i j = Some x) by (unfold AA in Hin; destruct (g_dir G); [eauto|rewrite LP in Hin; destruct (j <=? i); [eauto|discriminate]]).
        apply (iedge_lt G wf i j M). }
      destruct (kok_ikey _ _ (gkok G wf) i (proj1 H)) as [u Hu]. destruct (kok_ikey _ _ (gkok G wf) j (proj2 H)) as [v Hv]. rewrite Hu, Hv in E. discriminate. }
  intros es Hes. apply answers_ret. eexists. split; [reflexivity|].
  set (N0 := {| nx_dir := g_dir G; nx_adj := map (fun k => (k, [])) (gnodes G); nx_nattr := false |}).
  assert (NN : nx_nodes N0 = gnodes G) by (unfold nx_nodes, N0; simpl; rewrite map_map; apply map_id).
  assert (IN : forall u v w, In (u, v, w) es <-> exists i j, kid G u = Some i /\ kid G v = Some j /\ mget AA i j = Some w).
  { intros u v w. rewrite (mapO_in _ _ _ Hes). split.
    - intros ([[i j] x] & Hin & E). apply in_mcoo in Hin; [|assumption]. destruct (ikey (g_kid G) i) as [a|] eqn:E1; [|discriminate].
      destruct (ikey (g_kid G) j) as [b|] eqn:E2; [|discriminate]. injection E as -> -> ->. exists i, j. split; [apply kid_inv; assumption|]. split; [apply kid_inv; assumption|assumption].
    - intros (i & j & Hu & Hv & Hx). exists (i, j, w). split; [apply in_mcoo; assumption|]. apply kid_inv in Hu, Hv; try assumption. rewrite Hu, Hv. reflexivity. }
  assert (D0 : forall u v, nx_data N0 u v = None).
  { intros u v. unfold nx_data, N0. simpl. destruct (dget _ u) as [l|] eqn:E; [|reflexivity]. apply dget_In in E. apply in_map_iff in E as (k & [= <- <-] & _). reflexivity. }
  assert (WS : g_dir G = false -> forall u v, weight G u v = weight G v u).
  { intros Hd u v. unfold weight. destruct (kid G u), (kid G v); try reflexivity. apply wf. assumption. }
  assert (AW : forall i j w, mget AA i j = Some w -> mget (g_A G) i j = Some w).
  { intros i j w H. unfold AA in H. destruct (g_dir G); [assumption|]. rewrite LP in H. destruct (j <=? i); [assumption|discriminate]. }
  destruct (add_edges_ok attr (weight G) es N0) as (A1 & A2 & A3 & A4).
  { intros u v w H. apply IN in H as (i & j & Hu & Hv & Hx). rewrite NN. split; [apply node_kid; eauto|]. split; [apply node_kid; eauto|].
    rewrite (weight_kid G u v i j Hu Hv). apply AW. assumption. }
  { exact WS. }
  { intros u v. rewrite D0. auto. }
  unfold wdata in A1, A2, A3, A4. split; [exact A1|]. split; [rewrite A3; exact NN|]. split; [exact A2|]. intros u v.
  destruct (weight G u v) as [w|] eqn:Ew.
  - rewrite (proj1 (A4 u v)); [rewrite Ew; reflexivity|]. pose proof Ew as Ew'. unfold weight in Ew. destruct (kid G u) as [i|] eqn:Hu; [|discriminate]. destruct (kid G v) as [j|] eqn:Hv; [|discriminate].
    simpl. destruct (g_dir G) eqn:Ed.
    + exists w. left. apply IN. exists i, j. auto.
    + destruct (Nat.leb_spec j i).
      * exists w. left. apply IN. exists i, j. split; [assumption|]. split; [assumption|]. unfold AA. rewrite LP, (proj2 (Nat.leb_le j i)) by assumption. assumption.
      * exists w. right. split; [reflexivity|]. apply IN. exists j, i. split; [assumption|]. split; [assumption|]. unfold AA. rewrite LP, (proj2 (Nat.leb_le i j)) by lia.
        rewrite (gw_sym G wf Ed). assumption.
  - rewrite (proj2 (A4 u v)); [apply D0|]. intros (w & [Hw|[Hd Hw]]); apply IN in Hw as (i & j & Hu & Hv & Hx); apply AW in Hx.
    + rewrite (weight_kid G u v i j Hu Hv) in Ew. congruence.
    + rewrite (WS Hd), (weight_kid G v u i j Hu Hv) in Ew. congruence.
Qed.

(** from_networkx: nodes numbered in iteration order, one entry per edge *)
Lemma dget_combine (ks : list nkey) k a : NoDup ks -> (dget (combine ks (seq 0 (List.length ks))) k = Some a <-> nth_error ks a = Some k).
Proof.
  intros ND.
  assert (F : forall s, map fst (combine ks (seq s (List.length ks))) = ks).
  { clear. induction ks as [|k ks IH]; intros s; simpl; [auto|]. rewrite IH. auto. }
  assert (X : forall s, In (k, a) (combine ks (seq s (List.length ks))) <-> s <= a /\ nth_error ks (a - s) = Some k).
  { clear. induction ks as [|x ks IH]; intros s; simpl.
    - split; [intros []|intros [_ H]]. destruct (a - s); discriminate.
    - rewrite IH. split.
      + intros [[= -> ->]|[A B]]; [split; [lia|]; rewrite Nat.sub_diag; reflexivity|]. split; [lia|]. replace (a - s) with (S (a - S s)) by lia. assumption.
      + intros [A B]. destruct (Nat.eq_dec a s) as [->|]; [rewrite Nat.sub_diag in B; simpl in B; left; congruence|]. right. split; [lia|].
        replace (a - s) with (S (a - S s)) in B by lia. assumption. }
  split.
  - intros H. apply dget_In, X in H. rewrite Nat.sub_0_r in H. tauto.
  - intros H. apply In_dget; [rewrite F; assumption|]. apply X. rewrite Nat.sub_0_r. split; [lia|assumption].
Qed.
Theorem C64_from_networkx orc N w : nxwf N ->
  let G := from_networkx orc N w in
  gwf G /\ g_dir G = nx_dir N /\ gnodes G = nx_nodes N /\ (forall i u, nth_error (nx_nodes N) i = Some u <-> kid G u = Some i) /\
  forall u v, weight G u v = omap (edge_value w) (nx_data N u v).
Proof.
  intros [ND HE HS] G. set (ks := nx_nodes N) in *. set (n := List.length ks).
  assert (F : forall s, map fst (combine ks (seq s (List.length ks))) = ks /\ map snd (combine ks (seq s (List.length ks))) = seq s (List.length ks)).
  { clear. induction ks as [|k ks IH]; intros s; simpl; [auto|]. destruct (IH (S s)) as [-> ->]. auto. }
  assert (K : forall i u, nth_error ks i = Some u <-> kid G u = Some i) by (intros i u; unfold kid, G; simpl; fold ks; rewrite dget_combine by assumption; reflexivity).
  assert (GA : forall i j u v, nth_error ks i = Some u -> nth_error ks j = Some v -> mget (g_A G) i j = omap (edge_value w) (nx_data N u v)).
  { intros i j u v Hi Hj. unfold G. simpl. fold ks. rewrite mget_mbuild.
    rewrite (proj2 (Nat.ltb_lt i (List.length ks))) by (apply nth_error_Some; congruence).
    rewrite (proj2 (Nat.ltb_lt j (List.length ks))) by (apply nth_error_Some; congruence). simpl. rewrite Hi, Hj.
    destruct (nx_data N u v); reflexivity. }
  assert (GN : forall i j, ~ (i < n /\ j < n) -> mget (g_A G) i j = None).
  { intros i j H. unfold G. simpl. fold ks. rewrite mget_mbuild. fold n. destruct (Nat.ltb_spec i n), (Nat.ltb_spec j n); simpl; try reflexivity. tauto. }
  split; [|split; [reflexivity|split; [unfold gnodes, G; simpl; apply (proj1 (F 0))|split; [exact K|]]]].
  - apply new_graph_wf.
    + apply mwf_mbuild.
    + simpl. rewrite nrows_mbuild. reflexivity.
    + intros Hd i j. change (mget (g_A G) i j = mget (g_A G) j i). destruct (nth_error ks i) as [u|] eqn:Hi.
      * destruct (nth_error ks j) as [v|] eqn:Hj.
        -- rewrite (GA i j u v Hi Hj), (GA j i v u Hj Hi), HS; auto.
        -- apply nth_error_None in Hj. rewrite !GN; [reflexivity| |]; fold n in Hj; lia.
      * apply nth_error_None in Hi. rewrite !GN; [reflexivity| |]; fold n in Hi; lia.
    + destruct (_ =? 0); discriminate.
    + fold ks. rewrite (proj1 (F 0)). assumption.
    + fold ks. rewrite (proj2 (F 0)), nrows_mbuild. apply Permutation_refl.
  - intros u v. unfold weight. destruct (kid G u) as [i|] eqn:Hu.
    + apply K in Hu. destruct (kid G v) as [j|] eqn:Hv.
      * apply K in Hv. apply GA; assumption.
      * destruct (nx_data N u v) eqn:E; [|reflexivity]. apply HE in E. apply In_nth_error in E as [j Hj]. apply K in Hj. congruence.
    + unfold nx_data. destruct (dget (nx_adj N) u) eqn:E; [|reflexivity]. assert (Hu' : In u ks) by (apply dget_some; eauto).
      apply In_nth_error in Hu' as [i Hi]. apply K in Hi. congruence.
Qed.
(** there and back *)
Theorem C64_round_trip orc N w attr : nxwf N -> returns (from_networkx orc N w) (to_networkx (from_networkx orc N w) attr) (fun N' =>
  nx_shows N' (nx_dir N) (nx_nodes N) (fun u v => match nx_data N u v with
                                                  | Some x => Some (match attr with Some a => [(a, edge_value w x)] | None => [] end)
                                                  | None => None
                                                  end)).
Proof.
  intros H. destruct (C64_from_networkx orc N w H) as (wf & Ed & En & _ & Ew). intros s HI.
  destruct (C64_to_networkx _ attr wf s HI) as [(N' & E & A & B & C & D) I2]. split; [|assumption]. exists N'. split; [assumption|].
  split; [congruence|]. split; [congruence|]. split; [assumption|]. intros u v. rewrite D, Ew. destruct (nx_data N u v); reflexivity.
Qed.
(** so with weight = edge_attribute a graph whose edges carry exactly that attribute is reproduced *)
Corollary C64_identity orc N a : nxwf N -> nx_nattr N = false -> (forall u v x, nx_data N u v = Some x -> exists z, x = [(a, z)]) ->
  returns (from_networkx orc N (Some a)) (to_networkx (from_networkx orc N (Some a)) (Some a)) (fun N' =>
    nx_dir N' = nx_dir N /\ nx_nodes N' = nx_nodes N /\ nx_nattr N' = nx_nattr N /\ forall u v, nx_data N' u v = nx_data N u v).
Proof.
  intros H Hn Ha s HI. destruct (C64_round_trip orc N (Some a) (Some a) H s HI) as [(N' & E & A & B & C & D) I2]. split; [|assumption].
  exists N'. split; [assumption|]. split; [assumption|]. split; [assumption|]. split; [congruence|]. intros u v. rewrite D.
  destruct (nx_data N u v) as [x|] eqn:Ex; [|reflexivity]. destruct (Ha _ _ _ Ex) as [z ->]. simpl. rewrite nkey_eqb_refl. reflexivity.
Qed.
Definition nx3 : nxgraph := {| nx_dir := false; nx_nattr := false;
  nx_adj := [(KS "b", [(KS "b", [(KS "weight", 3%Z)]); (KI 1, [])]); (KI 1, [(KS "b", [])]); (KI 0, [])] |}.
Lemma nx3_wf : nxwf nx3.
Proof.
  assert (D : forall u v x, nx_data nx3 u v = Some x -> (u = KS "b" /\ v = KS "b") \/ (u = KS "b" /\ v = KI 1) \/ (u = KI 1 /\ v = KS "b")).
  { intros u v x H. unfold nx_data in H. cbn [nx3 nx_adj dget] in H.
    destruct (nkey_eqb u (KS "b")) eqn:E1; [apply nkey_eqb_eq in E1|destruct (nkey_eqb u (KI 1)) eqn:E2; [apply nkey_eqb_eq in E2|destruct (nkey_eqb u (KI 0)); discriminate]]; cbn [dget] in H.
    - destruct (nkey_eqb v (KS "b")) eqn:E3; [apply nkey_eqb_eq in E3; auto|]. destruct (nkey_eqb v (KI 1)) eqn:E4; [apply nkey_eqb_eq in E4; auto|discriminate].
    - destruct (nkey_eqb v (KS "b")) eqn:E3; [apply nkey_eqb_eq in E3; auto|discriminate]. }
  constructor.
  - repeat constructor; simpl; intuition congruence.
  - intros u v x H. apply D in H. simpl. intuition (subst; auto).
  - intros _ u v. destruct (nx_data nx3 u v) as [x|] eqn:E.
    + pose proof (D _ _ _ E) as [[-> ->]|[[-> ->]|[-> ->]]]; vm_compute in E |- *; congruence.
    + destruct (nx_data nx3 v u) as [y|] eqn:E'; [|reflexivity]. pose proof (D _ _ _ E') as [[-> ->]|[[-> ->]|[-> ->]]]; vm_compute in E; discriminate.
Qed.
Example C64_ex : exists s, to_networkx (from_networkx (fun _ => true) nx3 (Some (KS "weight"))) (Some (KS "w")) st0 =
  (Val {| nx_dir := false; nx_nattr := false; nx_adj := [(KS "b", [(KS "b", [(KS "w", 3%Z)]); (KI 1, [(KS "w", 1%Z)])]); (KI 1, [(KS "b", [(KS "w", 1%Z)])]); (KI 0, [])] |}, s).
Proof. eexists. vm_compute. reflexivity. Qed.

(** ** C68: convert_from_nx *)
(** [a] is the only attribute name found on the edges *)
Definition carries (N : nxgraph) (a : nkey) : Prop := exists u nb v x z, In (u, nb) (nx_adj N) /\ In (v, x) nb /\ In (a, z) x.
Definition only_attr (N : nxgraph) (a : nkey) : Prop := carries N a /\ forall b, carries N b -> b = a.
(** the attribute whose values become the weights: [None] for unit weights *)
Inductive requested (N : nxgraph) (edge_attrs : option (list (nkey * option Z))) (preserve : bool) (weight : option nkey) : option nkey -> Prop :=
| rq_preserve a : preserve = true -> only_attr N a -> requested N edge_attrs preserve weight (Some a)
| rq_attr a d : (preserve = false \/ forall b, ~ carries N b) -> edge_attrs = Some [(a, d)] -> requested N edge_attrs preserve weight (Some a)
| rq_weight : (preserve = false \/ forall b, ~ carries N b) -> edge_attrs = None \/ edge_attrs = Some [] -> requested N edge_attrs preserve weight weight.
Lemma names_carries N a : In a (edge_attr_names N) <-> carries N a.
Proof.
  unfold edge_attr_names, carries. rewrite in_flat_map. split.
  - intros ([u nb] & H1 & H2). apply in_flat_map in H2 as ([v x] & H2 & H3). apply in_map_iff in H3 as ([b z] & E & H3). simpl in *. subst.
    exists u, nb, v, x, z. auto.
  - intros (u & nb & v & x & z & H1 & H2 & H3). exists (u, nb). split; [assumption|]. apply in_flat_map. exists (v, x). split; [assumption|].
    apply in_map_iff. exists (a, z). auto.
Qed.
Lemma dedup_ok l : NoDup (dedup l) /\ forall x, In x (dedup l) <-> In x l.
Proof.
  induction l as [|y l [IH1 IH2]]; simpl; [split; [constructor|reflexivity]|].
  assert (B : existsb (nkey_eqb y) l = true <-> In y l).
  { rewrite existsb_exists. split; [intros (x & H & E); apply nkey_eqb_eq in E; subst; assumption|intros H; exists y; split; [assumption|apply nkey_eqb_refl]]. }
  destruct (existsb (nkey_eqb y) l) eqn:E.
  - split; [assumption|]. intros x. rewrite IH2. split; [auto|]. intros [<-|H]; [apply B; reflexivity|assumption].
  - split.
    + constructor; [|assumption]. rewrite IH2. intros H. apply B in H. congruence.
    + intros x. simpl. rewrite IH2. reflexivity.
Qed.
Lemma dedup_cases N : (exists a, dedup (edge_attr_names N) = [a] /\ only_attr N a) \/ (dedup (edge_attr_names N) = [] /\ forall b, ~ carries N b) \/
  (exists a b l, dedup (edge_attr_names N) = a :: b :: l /\ carries N a /\ carries N b /\ a <> b).
Proof.
  destruct (dedup_ok (edge_attr_names N)) as [ND H]. destruct (dedup (edge_attr_names N)) as [|a [|b l]] eqn:E.
  - right. left. split; [reflexivity|]. intros b Hb. apply names_carries, H in Hb. destruct Hb.
  - left. exists a. split; [reflexivity|]. split; [apply names_carries, H; simpl; auto|]. intros b Hb. apply names_carries, H in Hb as [->|[]]. reflexivity.
  - right. right. exists a, b, l. split; [reflexivity|]. split; [apply names_carries, H; simpl; auto|]. split; [apply names_carries, H; simpl; auto|].
    inversion ND as [|? ? N1 _]; subst. intros ->. apply N1. simpl. auto.
Qed.
Theorem C68_convert orc N edge_attrs node_attrs pe pn weight0 G : nxwf N ->
  convert_from_nx orc N edge_attrs node_attrs pe pn weight0 = Val G ->
  exists w, requested N edge_attrs pe weight0 w /\ gwf G /\ g_dir G = nx_dir N /\ gnodes G = nx_nodes N /\
    forall u v, weight G u v = match nx_data N u v with
                               | None => None
                               | Some x => match w with None => Some 1%Z | Some a => match dget x a with Some z => Some z | None => Some 1%Z end end
                               end.
Proof.
  intros wf E. unfold convert_from_nx in E.
  assert (FIN : forall w, Val (from_networkx orc N w) = Val G -> requested N edge_attrs pe weight0 w -> exists w, requested N edge_attrs pe weight0 w /\ gwf G /\ g_dir G = nx_dir N /\ gnodes G = nx_nodes N /\
    forall u v, weight G u v = match nx_data N u v with
                               | None => None
                               | Some x => match w with None => Some 1%Z | Some a => match dget x a with Some z => Some z | None => Some 1%Z end end
                               end).
  { intros w [= <-] R. exists w. split; [assumption|]. destruct (C64_from_networkx orc N w wf) as (W & A & B & _ & C). split; [assumption|]. split; [assumption|]. split; [assumption|].
    intros u v. rewrite C. destruct (nx_data N u v) as [x|]; [|reflexivity]. simpl. destruct w as [a|]; [|reflexivity]. simpl. destruct (dget x a); reflexivity. }
  assert (STD : (pe = false \/ forall b, ~ carries N b) -> forall X, obind (match edge_attrs with
         | None | Some [] => Val weight0
         | Some [(a, default)] =>
             if has weight0 then Raise EType else
             match default with None => Val (Some a) | Some z => if (z =? 1)%Z then Val (Some a) else Raise ENotImpl end
         | Some _ => Raise ENotImpl
         end) (fun weight => Val (from_networkx orc N weight)) = X -> X = Val G -> exists w, Val (from_networkx orc N w) = Val G /\ requested N edge_attrs pe weight0 w).
  { intros Hp X EX ->. destruct edge_attrs as [[|[a d] [|]]|]; simpl in EX; try discriminate.
    - exists weight0. split; [assumption|]. apply rq_weight; auto.
    - destruct (has weight0); [discriminate|]. exists (Some a). split; [|eapply rq_attr; eauto].
      destruct d as [z|]; [destruct (z =? 1)%Z; [assumption|discriminate]|assumption].
    - exists weight0. split; [assumption|]. apply rq_weight; auto. }
  destruct pe.
  - destruct (dedup_cases N) as [(a & D & O)|[[D O]|(a & b & l & D & _)]]; rewrite D in E; simpl in E; [| |discriminate].
    + destruct node_attrs; [discriminate|]. destruct (pn && nx_nattr N); [discriminate|]. destruct (has weight0); [discriminate|]. simpl in E.
      apply (FIN (Some a)); [assumption|]. apply rq_preserve; auto.
    + destruct node_attrs; [discriminate|]. destruct (pn && nx_nattr N); [discriminate|]. destruct (STD (or_intror O) _ eq_refl E) as (w & E1 & R). eapply FIN; eassumption.
  - simpl in E. destruct node_attrs; [discriminate|]. destruct (pn && nx_nattr N); [discriminate|]. destruct (STD (or_introl eq_refl) _ eq_refl E) as (w & E1 & R). eapply FIN; eassumption.
Qed.
(** it fails only for a request it does not support, and then says so *)
Theorem C68_refuses orc N edge_attrs node_attrs pe pn weight0 e :
  convert_from_nx orc N edge_attrs node_attrs pe pn weight0 = Raise e ->
  (e = ENotImpl /\ ((pe = true /\ exists a b, carries N a /\ carries N b /\ a <> b) \/ node_attrs = true \/ (pn = true /\ nx_nattr N = true) \/
     (exists l, edge_attrs = Some l /\ 1 < List.length l) \/ exists a z, edge_attrs = Some [(a, Some z)] /\ z <> 1%Z))
  \/ (e = EType /\ weight0 <> None /\ (pe = true \/ exists l, edge_attrs = Some l /\ l <> [])).
Proof.
  intros E. unfold convert_from_nx in E.
  destruct pe.
  - destruct (dedup_cases N) as [(a & D & O)|[[D O]|(a & b & l & D & H1 & H2 & H3)]]; rewrite D in E; simpl in E.
    + destruct node_attrs; [injection E as <-; auto 10|]. destruct (pn && nx_nattr N) eqn:P; [apply andb_true_iff in P; injection E as <-; auto 10|].
      destruct weight0; simpl in E; [injection E as <-|discriminate]. right. split; [reflexivity|]. split; [discriminate|auto].
    + destruct node_attrs; [injection E as <-; auto 10|]. destruct (pn && nx_nattr N) eqn:P; [apply andb_true_iff in P; injection E as <-; auto 10|].
      destruct edge_attrs as [[|[a d] [|p l]]|]; simpl in E; try discriminate.
      * destruct weight0; simpl in E; [injection E as <-; right; split; [reflexivity|split; [discriminate|auto]]|].
        destruct d as [z|]; [|discriminate]. destruct (Z.eqb_spec z 1); [discriminate|]. injection E as <-. left. split; [reflexivity|]. do 4 right. eauto.
      * injection E as <-. left. split; [reflexivity|]. do 3 right. left. eexists. split; [reflexivity|]. simpl. lia.
    + injection E as <-. left. split; [reflexivity|]. left. split; [reflexivity|]. exists a, b. auto.
  - simpl in E. destruct node_attrs; [injection E as <-; auto 10|]. destruct (pn && nx_nattr N) eqn:P; [apply andb_true_iff in P; injection E as <-; auto 10|].
      destruct edge_attrs as [[|[a d] [|p l]]|]; simpl in E; try discriminate.
      * destruct weight0; simpl in E; [injection E as <-; right; split; [reflexivity|split; [discriminate|]]; right; eexists; split; [reflexivity|discriminate]|].
        destruct d as [z|]; [|discriminate]. destruct (Z.eqb_spec z 1); [discriminate|]. injection E as <-. left. split; [reflexivity|]. do 4 right. eauto.
      * injection E as <-. left. split; [reflexivity|]. do 3 right. left. eexists. split; [reflexivity|]. simpl. lia.
Qed.
Example C68_ex : exists G, convert_from_nx (fun _ => false) nx3 (Some [(KS "length", Some 1%Z)]) false true true None = Val G /\
  weight G (KS "b") (KS "b") = Some 3%Z /\ weight G (KI 1) (KS "b") = Some 1%Z /\
  convert_from_nx (fun _ => false) nx3 (Some [(KS "length", Some 2%Z)]) false false true None = Raise ENotImpl.
Proof. eexists. split; [vm_compute; reflexivity|]. repeat split; vm_compute; reflexivity. Qed.
Print Assumptions C64_to_networkx.
Print Assumptions C64_from_networkx.
Print Assumptions C64_round_trip.
Print Assumptions C64_identity.
Print Assumptions C68_convert.
Print Assumptions C68_refuses.
