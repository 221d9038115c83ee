(** * C24: generalized degree *)
From Verif Require Import Base BaseProofs Model_Graph Model_Cache Spec_Cache CacheMath CacheProofs CacheProofs2
  Model_Keys Spec KeyProofs Spec_Run RunProofs Model_Utils Model_Operators OperatorProofs Spec_Count Model_Measures CountProofs Props_Cuts
  Spec_Containers Model_Containers ContainerProofs
  Model_Cluster ClusterMath ClusterMath2 Spec_Cluster ClusterProofs Props_Cluster Concrete.
From Coq Require Import QArith Qcanon.
Open Scope nat_scope.

(** ** counting a coordinate list *)
Lemma ored_nth {X} (p : X -> bool) l :
  ored Z.add (List.length l) (fun t => match nth_error l t with Some x => if p x then Some 1%Z else None | None => None end) =
  onz (List.length (filter p l)).
Proof.
  induction l as [|a l IH] using rev_ind; [reflexivity|].
  rewrite app_length. cbn [List.length]. rewrite Nat.add_1_r. cbn [ored].
  rewrite (ored_ext Z.add (List.length l) _ (fun t => match nth_error l t with Some x => if p x then Some 1%Z else None | None => None end)).
  2: { intros i Hi. rewrite nth_error_app1 by assumption. reflexivity. }
  rewrite IH, nth_error_app2 by lia. rewrite Nat.sub_diag. cbn [nth_error]. rewrite filter_app, app_length. cbn [filter].
  destruct (p a); cbn [List.length].
  - change (Some 1%Z) with (onz 1). apply omerge_onz.
  - rewrite Nat.add_0_r. destruct (onz _); reflexivity.
Qed.
Lemma filter_flat {X Y} (p : Y -> bool) (f : X -> list Y) l : filter p (flat_map f l) = flat_map (fun x => filter p (f x)) l.
Proof. induction l as [|a l IH]; [reflexivity|]. cbn. rewrite filter_app, IH. reflexivity. Qed.
Lemma flat_one {Y} (f : nat -> list Y) k n : k < n -> (forall i, i <> k -> f i = []) -> flat_map f (seq 0 n) = f k.
Proof.
  intros Hk H. induction n as [|n IH]; [lia|]. rewrite seq_S, flat_map_app. cbn. rewrite app_nil_r.
  destruct (Nat.eq_dec k n) as [->|N].
  - replace (flat_map f (seq 0 n)) with (@nil Y); [reflexivity|]. symmetry. clear IH Hk.
    assert (forall m, m <= n -> flat_map f (seq 0 m) = []) as HH; [|apply HH; lia]. induction m as [|m IHm]; intros Hm; [reflexivity|].
    rewrite seq_S, flat_map_app, IHm by lia. cbn. rewrite H by lia. reflexivity.
  - rewrite IH by lia. rewrite (H n) by lia. apply app_nil_r.
Qed.
Lemma count_row {V} (m : mat V) (q : V -> bool) i : i < nrows m ->
  List.length (filter (fun e => (fst (fst e) =? i) && q (snd e)) (mcoo m)) =
  cnt (ncols m) (fun j => match mget m i j with Some x => q x | None => false end).
Proof.
  intros Hi. unfold mcoo. rewrite filter_flat, (flat_one _ i); [|assumption|].
  2: { intros a Ha. rewrite filter_flat. induction (seq 0 (ncols m)) as [|b l IH]; [reflexivity|]. cbn. rewrite IH.
       destruct (mget m a b); cbn; [destruct (Nat.eqb_spec a i); [contradiction|]|]; reflexivity. }
  rewrite filter_flat. Local Transparent cnt. unfold cnt. Local Opaque cnt.
  induction (seq 0 (ncols m)) as [|b l IH]; [reflexivity|]. cbn. rewrite app_length, IH.
  destruct (mget m i b) as [x|]; cbn; [|reflexivity]. rewrite Nat.eqb_refl. cbn. destruct (q x); reflexivity.
Qed.

Section P.
Variable G : graph.
Hypothesis wf : gwf G.
Notation n := (glen G).
Definition common (i j : nat) : nat := cnt n (fun k => has (ent G SM i k) && has (ent G SM j k)).
Definition gd (i k : nat) : nat := cnt n (fun j => has (ent G SM i j) && (common i j =? k)).
Lemma tri_edge_id v u i j : kid G v = Some i -> kid G u = Some j -> tri_edge G v u = common i j.
Proof. intros Hi Hj. apply count_nodes; [assumption|]. intros x k Hk. rewrite (nbr_kid G wf v x i k), (nbr_kid G wf u x j k) by assumption. reflexivity. Qed.
Lemma gdeg_id v i k : kid G v = Some i -> gdeg G v k = gd i k.
Proof. intros Hi. apply count_nodes; [assumption|]. intros u j Hj. rewrite (nbr_kid G wf v u i j), (tri_edge_id v u i j) by assumption. reflexivity. Qed.
Lemma mget_off i j : mget (den_mat G KOff) i j = ent G SM i j.
Proof.
  unfold den_mat. rewrite mget_mbuild. unfold ent, msel.
  destruct (Nat.ltb_spec i (nrows (g_A G))) as [L|L], (Nat.ltb_spec j (nrows (g_A G))) as [L'|L']; cbn [andb].
  { destruct (i =? j); reflexivity. }
  all: destruct (i =? j); [reflexivity|]; symmetry; apply mget_out; [apply wf|]; rewrite (Hsq G wf); unfold glen; lia.
Qed.

Lemma common_bound i j : ee G i j -> i < n -> j < n -> common i j + 2 <= n.
Proof.
  intros H Hi Hj. assert (N : i <> j) by (intros ->; exact (ee_irr G j H)).
  unfold common. set (p := fun k => _). assert (Hp : p i = false /\ p j = false).
  { unfold p. cbn [ent]. rewrite !Nat.eqb_refl. cbn [has andb]. rewrite andb_false_r. auto. }
  pose proof (cnt_negb n p) as C. assert (2 <= cnt n (fun i => negb (p i))); [|lia].
  destruct Hp as [P1 P2].
  assert (E : cnt n (fun x => (x =? i) || (x =? j)) = 2).
  { pose proof (cnt_orb n (fun x => x =? i) (fun x => x =? j)) as H0. rewrite !cnt_eqb in H0.
    apply Nat.ltb_lt in Hi, Hj. rewrite Hi, Hj in H0. rewrite (cnt_ext n (fun x => (x =? i) && (x =? j)) (fun _ => false)), cnt_false in H0.
    - lia.
    - intros x _. destruct (Nat.eqb_spec x i), (Nat.eqb_spec x j); try reflexivity. congruence. }
  rewrite <- E. apply cnt_mono. intros x _ Hx. apply orb_true_iff in Hx as [Hx|Hx]; apply Nat.eqb_eq in Hx; subst; rewrite ?P1, ?P2; reflexivity.
Qed.
Definition inv (mask : option (vec bool)) (i : nat) : bool := match mask with Some v => has (vget v i) | None => true end.
Lemma generalized_degree_ok mask : answers G (generalized_degree G mask) (fun o => exists m, o = Val m /\ mwf m /\ nrows m = n /\ ncols m = n - 1 /\
  forall i k, i < n -> mget m i k = if inv mask i then onz (gd i k) else None).
Proof.
  unfold generalized_degree. eapply answers_bind_GV; [apply (get_offdiag_ok G wf true)|]. cbv beta.
  set (A := den_mat G KOff).
  assert (WA : mwf A) by apply mwf_mbuild. assert (NA : nrows A = n) by apply nrows_mbuild. assert (CA : ncols A = n) by apply ncols_mbuild.
  set (T0 := match mask with Some v => _ | None => _ end).
  assert (WT : mwf T0) by (unfold T0; destruct mask; apply mwf_mbuild).
  assert (NT : nrows T0 = n) by (unfold T0; destruct mask; unfold mmap, vm_inter; rewrite ?nrows_mbuild; assumption).
  assert (CT : ncols T0 = n) by (unfold T0; destruct mask; unfold mmap, vm_inter; rewrite ?ncols_mbuild; assumption).
  assert (ET : forall i j, mget T0 i j = if inv mask i && has (ent G SM i j) then Some 0%Z else None).
  { intros i j. unfold T0. destruct mask as [v|]; cbn [inv].
    - rewrite mget_mmap, mget_vm_inter by (try apply mwf_mbuild; assumption). unfold A. rewrite mget_off.
      destruct (vget v i), (ent G SM i j); reflexivity.
    - rewrite mget_mmap by assumption. unfold A. rewrite mget_off. destruct (ent G SM i j); reflexivity. }
  clearbody T0. rewrite NT, CT.
  assert (EM : forall i j, mget (mxm Z.add op_pairz T0 (mtrans A)) i j = if inv mask i then onz (common i j) else None).
  { intros i j. rewrite mget_mxm by (try apply mwf_mbuild; assumption). rewrite CT.
    rewrite (ored_ext Z.add n _ (fun k => if inv mask i && (has (ent G SM i k) && has (ent G SM j k)) then Some 1%Z else None)).
    - destruct (inv mask i) eqn:EI; cbn [andb].
      + rewrite ored_plus_ones. reflexivity.
      + apply ored_all_none.
    - intros k _. rewrite mget_mtrans by assumption. unfold A. rewrite mget_off, ET. destruct (inv mask i); cbn [andb]; [|reflexivity].
      destruct (ent G SM i k), (ent G SM j k); reflexivity. }
  set (T1 := mbuild n n _).
  assert (E1 : forall i j, mget T1 i j = if inv mask i && has (ent G SM i j) then Some (Z.of_nat (common i j)) else None).
  { intros i j. unfold T1. rewrite mget_mbuild, ET, EM. destruct (inv mask i); cbn [andb]; [|destruct ((i <? n) && (j <? n)); reflexivity].
    destruct (has (ent G SM i j)) eqn:EE; [|destruct ((i <? n) && (j <? n)); reflexivity].
    destruct (ee_lt G wf i j EE) as [Li Lj]. apply Nat.ltb_lt in Li, Lj. rewrite Li, Lj. cbn [has andb]. unfold onz.
    destruct (Nat.eqb_spec (common i j) 0) as [E|E]; [rewrite E|]; reflexivity. }
  assert (W1 : mwf T1) by apply mwf_mbuild.
  replace (forallb _ (mcoo T1)) with true.
  2: { symmetry. apply forallb_forall. intros [[i j] x] Hin. apply in_mcoo in Hin; [|assumption]. rewrite E1 in Hin.
       destruct (inv mask i); cbn [andb] in Hin; [|discriminate]. destruct (has (ent G SM i j)) eqn:EE; [|discriminate].
       injection Hin as <-. destruct (ee_lt G wf i j EE) as [Li Lj]. pose proof (common_bound i j EE Li Lj). cbn [snd]. apply Z.ltb_lt. rewrite CA. lia. }
  apply answers_ret. eexists. split; [reflexivity|]. rewrite NA, CA. split; [apply mwf_mbuild|]. split; [apply nrows_mbuild|]. split; [apply ncols_mbuild|].
  intros i k Hi. rewrite mget_mbuild.
  set (p := fun e : nat * nat * Z => (fst (fst e) =? i) && (snd e =? Z.of_nat k)%Z).
  rewrite (ored_ext Z.add _ _ (fun t => match nth_error (mcoo T1) t with Some x => if p x then Some 1%Z else None | None => None end)).
  2: { intros t _. destruct (nth_error (mcoo T1) t) as [[[a b] x]|]; reflexivity. }
  rewrite ored_nth. unfold p. rewrite (count_row T1 (fun x => (x =? Z.of_nat k)%Z) i) by (unfold T1; rewrite nrows_mbuild; assumption).
  replace (ncols T1) with n by (symmetry; apply ncols_mbuild). 
  rewrite (cnt_ext n _ (fun j => inv mask i && (has (ent G SM i j) && (common i j =? k)))).
  2: { intros j _. rewrite E1. destruct (inv mask i); cbn [andb]; [|reflexivity]. destruct (has (ent G SM i j)); cbn [andb]; [|reflexivity].
       apply eq_true_iff_eq. rewrite Z.eqb_eq, Nat.eqb_eq. lia. }
  apply Nat.ltb_lt in Hi as Hi'. rewrite Hi'. cbn [andb]. destruct (inv mask i); cbn [andb].
  - change (cnt n _) with (gd i k). destruct (Nat.ltb_spec k (n - 1)) as [L|L]; [reflexivity|].
    unfold onz. replace (gd i k) with 0; [reflexivity|]. symmetry. apply cnt_zero. intros j Hj.
    destruct (has (ent G SM i j)) eqn:EE; [|reflexivity]. cbn [andb]. apply Nat.eqb_neq. pose proof (common_bound i j EE Hi Hj). lia.
  - rewrite cnt_false. destruct (k <? n - 1); reflexivity.
Qed.

Lemma gd_some i : (exists k, gd i k <> 0) <-> outdeg G SM i <> 0.
Proof.
  unfold outdeg. change (nrows (g_A G)) with n. split.
  - intros [k H]. assert (0 < gd i k) as Hp by lia. apply cnt_pos in Hp as (j & Hj & E). apply andb_true_iff in E as [E _].
    intros C. rewrite cnt_zero in C. rewrite C in E by assumption. discriminate.
  - intros H. assert (0 < cnt n (fun j => has (ent G SM i j))) as Hp by lia. apply cnt_pos in Hp as (j & Hj & E).
    exists (common i j). intros C. unfold gd in C. rewrite cnt_zero in C. specialize (C j Hj). rewrite E, Nat.eqb_refl in C. discriminate.
Qed.
Lemma gdeg_map (mask : option (vec bool)) (P : nkey -> Prop) m : (forall v i, kid G v = Some i -> (inv mask i = true <-> P v)) ->
  (forall v, P v -> node G v) ->
  mwf m -> nrows m = n -> ncols m = n - 1 -> (forall i k, i < n -> mget m i k = if inv mask i then onz (gd i k) else None) ->
  (exists l, rm_iter (mkrm m (g_kid G) None) = Val l /\ NoDup l /\ forall v, In v l <-> P v /\ 0 < deg0 G v) /\
  forall v, match vnm_getitem (mkrm m (g_kid G) None) v with
            | Val (row, _) => P v /\ 0 < deg0 G v /\ forall k, vm_getitem row k = if k <? n - 1 then Val (onz (gdeg G v k)) else Raise EIndex
            | Raise e => e = EKey /\ ~ (P v /\ 0 < deg0 G v)
            end.
Proof.
  intros HP HN Wm Nm Cm Hm. set (r := mkrm m (g_kid G) None).
  assert (OK : rm_ok r).
  { split; [cbn; rewrite Nm; apply (gkok G wf)|]. split; [assumption|]. split; [reflexivity|]. discriminate. }
  assert (PR : forall v, present (rm_dd r) v <-> P v /\ 0 < deg0 G v).
  { intros v. unfold present, rm_dd. cbn [rm_kid rm_m r mkrm]. change (dget (g_kid G) v) with (kid G v).
    destruct (kid G v) as [i|] eqn:Ei.
    - rewrite (deg0_id G wf v i Ei). pose proof (kid_lt G wf _ _ Ei) as Li. rewrite <- (HP v i Ei). split.
      + intros (k & x & H). rewrite Hm in H by assumption. destruct (inv mask i); [|discriminate]. split; [reflexivity|].
        assert (outdeg G SM i <> 0); [|lia]. apply gd_some. exists k. intros E. rewrite E in H. discriminate.
      + intros [H1 H2]. assert (outdeg G SM i <> 0) as H3 by lia. apply gd_some in H3 as [k Hk]. exists k, (Z.of_nat (gd i k)).
        rewrite Hm, H1 by assumption. unfold onz. destruct (Nat.eqb_spec (gd i k) 0); [contradiction|reflexivity].
    - split; [intros (c & x & H); discriminate|]. intros [H _]. apply HN, node_kid in H as [i Hi]. congruence. }
  split.
  - destruct (rm_elems r OK) as (l & E1 & [E2 E3] & _). exists l. split; [assumption|]. split; [assumption|]. intros v. rewrite E3. apply PR.
  - intros v. unfold vnm_getitem. destruct (dget (rm_kid r) v) as [i|] eqn:Ei.
    + destruct (get_rows_ok r OK) as (_ & _ & _ & E & _ & Hr). rewrite E. pose proof (rm_present r v i Ei) as Hp. rewrite PR in Hp.
      destruct (has _) eqn:EH.
      * apply Hr, Hp in EH as [H1 H2]. split; [assumption|]. split; [assumption|]. intros k. pose proof (kid_lt G wf v i Ei) as Li.
        unfold vm_getitem, vec_get. cbn [rm_m r mkrm]. unfold vsize. rewrite (mrow_length m i), Cm by (try assumption; rewrite Nm; assumption).
        destruct (Nat.ltb_spec k (n - 1)); [|reflexivity]. f_equal. change (vget (mrow m i) k) with (mget m i k). rewrite Hm by assumption.
        rewrite (proj2 (HP v i Ei) H1), (gdeg_id v i k Ei). reflexivity.
      * split; [reflexivity|]. intros H. apply Hp, Hr in H. congruence.
    + split; [reflexivity|]. intros [H _]. apply HN, node_kid in H as [i Hi]. change (kid G v = None) in Ei. congruence.
Qed.
(** nodes=None or a list: a map from node to number of triangles to number of neighbours, for the wanted
    nodes that have a neighbour; a number of triangles that no edge of the node has reads as None
    (IndexError when it is at least |V| - 1) *)
Theorem C24_generalized_degree_partial a : g_dir G = false -> (forall k, a <> OneNode k) ->
  answers G (nx_generalized_degree G a) (fun o =>
    match o with
    | Val REmpty => gnodes G = []
    | Val (ROne _) => False
    | Val (RMap r) =>
        (exists l, rm_iter r = Val l /\ NoDup l /\ forall v, In v l <-> wanted G a v /\ 0 < deg0 G v) /\
        forall v, match vnm_getitem r v with
                  | Val (row, _) => wanted G a v /\ 0 < deg0 G v /\
                      forall k, vm_getitem row k = if k <? n - 1 then Val (onz (gdeg G v k)) else Raise EIndex
                  | Raise e => e = EKey /\ ~ (wanted G a v /\ 0 < deg0 G v)
                  end
    | Raise e => e = EKey /\ exists l u, a = Nodes l /\ In u l /\ ~ node G u
    end).
Proof.
  intros D Ha. unfold nx_generalized_degree, only_undirected. rewrite D. destruct (Nat.eqb_spec n 0) as [E|E].
  { apply answers_ret. apply (no_nodes G wf). assumption. }
  destruct a as [|k|l]; [|destruct (Ha k eq_refl)|]; cbn [arg_node arg_vec].
  - eapply answers_bind_v; [apply answers_ret; reflexivity|]. eapply answers_bind; [apply (generalized_degree_ok None)| |intros ? (? & ? & _); discriminate].
    cbv beta. intros m (m' & [= <-] & H1 & H2 & H3 & H4). apply answers_ret.
    apply (gdeg_map None); auto. intros v i Hi. cbn. split; [intros _; apply node_kid; eauto|reflexivity].
  - unfold list_vec_of. destruct (list_vec_ok G wf l) as [(v & E1 & Hv & Hn)|(E1 & Hk)]; rewrite E1.
    + eapply answers_bind_v; [eapply answers_bind_v; [apply answers_lifto; reflexivity|apply answers_ret; reflexivity]|].
      eapply answers_bind; [apply (generalized_degree_ok (Some v))| |intros ? (? & ? & _); discriminate].
      cbv beta. intros m (m' & [= <-] & H1 & H2 & H3 & H4). apply answers_ret.
      apply (gdeg_map (Some v)); auto. intros u i Hi. cbn [inv]. rewrite (svec_has G _ _ _ _ Hv Hi). cbn. apply mem_In.
    + eapply answers_bind_e; [eapply answers_bind_e; [apply answers_lifto; reflexivity|reflexivity]|]. split; [reflexivity|].
      destruct Hk as (u & Hu). exists l, u. auto.
Qed.
(** one node: the numbers are there, but under the nodes (in the order of their numbers) instead of under 0, 1, 2, ...;
    the last node is out of range *)
Theorem C24_one_node_partial v : g_dir G = false -> node G v ->
  answers G (nx_generalized_degree G (OneNode v)) (fun o => exists m, o = Val (ROne m) /\
    forall u, nm_getitem_any m u =
      match kid G u with
      | None => Raise EKey
      | Some k => if S k =? List.length (gnodes G) then Raise EIndex else if gdeg G v k =? 0 then Raise EKey else Val (Z.of_nat (gdeg G v k))
      end).
Proof.
  intros D Hv. unfold nx_generalized_degree, only_undirected. rewrite D. apply node_kid in Hv as [i Hi]. pose proof (kid_lt G wf v i Hi) as Li.
  destruct (Nat.eqb_spec n 0) as [E|E]; [unfold glen in E; lia|]. cbn [arg_node]. rewrite Hi.
  assert (HS : answers G (single_generalized_degree G i) (fun o => match o with Val r => vsize r = n - 1 /\ forall k, vget r k = onz (gd i k) | Raise _ => False end)).
  { unfold single_generalized_degree. eapply answers_bind; [apply generalized_degree_ok| |intros ? (? & ? & _); discriminate].
    cbv beta. intros m (m' & [= <-] & H1 & H2 & H3 & H4). apply answers_ret. cbv beta iota. split.
    - unfold vsize. rewrite (mrow_length m i) by (try assumption; rewrite H2; assumption). assumption.
    - intros k. change (vget (mrow m i) k) with (mget m i k). rewrite H4 by assumption.
      cbn [inv]. rewrite vget_vset_eq by (rewrite vsize_vempty; assumption). reflexivity. }
  assert (EN : List.length (gnodes G) = n).
  { unfold gnodes. rewrite map_length, <- (map_length snd), (Permutation.Permutation_length (gw_ids _ wf)), seq_length. reflexivity. }
  eapply answers_bind; [exact HS| |intros e []]. cbv beta iota. intros r [Hs Hr]. apply answers_ret.
  eexists. split; [reflexivity|]. intros u. unfold nm_getitem_any, nm_getitem, to_nodemap. cbn [nm_kid nm_v nm_fill].
  change (dget (g_kid G) u) with (kid G u). destruct (kid G u) as [k|] eqn:Hk; [|reflexivity]. pose proof (kid_lt G wf u k Hk) as Lk.
  rewrite Hs, Hr, (gdeg_id v i k Hi), EN. destruct (Nat.ltb_spec k (n - 1)); destruct (Nat.eqb_spec (S k) n); try (unfold glen in *; lia); [|reflexivity].
  unfold onz. match goal with |- context [if ?b then None else _] => destruct b end; reflexivity.
Qed.
Theorem C24_directed a : g_dir G = true -> raises G (nx_generalized_degree G a) ENotImpl.
Proof. intros D. unfold nx_generalized_degree, only_undirected. rewrite D. apply answers_raise. reflexivity. Qed.
End P.

(** ** what networkx answers and this library does not *)
Definition g_gd : graph := mkg false 5 [(0, 1, 1%Z); (0, 2, 1%Z); (1, 2, 1%Z); (0, 3, 1%Z)].
(** an isolated node is missing instead of having the empty count; a count of zero is None instead of 0 *)
Theorem C24_isolated_refuted : gwf g_gd /\ node g_gd (KI 4) /\ gdeg g_gd (KI 3) 1 = 0 /\
  exists r, fst (nx_generalized_degree g_gd AllNodes st0) = Val (RMap r) /\ vnm_getitem r (KI 4) = Raise EKey /\
  exists row r', vnm_getitem r (KI 3) = Val (row, r') /\ vm_getitem row 0 = Val (Some 1%Z) /\ vm_getitem row 1 = Val None.
Proof.
  split; [apply mkg_wf|]. split; [unfold node; vm_compute; auto 10|]. split; [vm_compute; reflexivity|].
  eexists. split; [vm_compute; reflexivity|]. split; [vm_compute; reflexivity|]. eexists. eexists. split; [vm_compute; reflexivity|]. split; vm_compute; reflexivity.
Qed.
(** one node of a graph whose nodes are not 0, 1, 2, ...: node a has two edges in one triangle and one in none,
    but the answer has no entries 0 and 1; it has the entries 'a' and 'b' instead *)
Definition g_gds : graph := mkgk false [KS "a"; KS "b"; KS "c"; KS "d"] [(0, 1, 1%Z); (0, 2, 1%Z); (1, 2, 1%Z); (0, 3, 1%Z)].
Theorem C24_one_node_refuted : gdeg g_gds (KS "a") 0 = 1 /\ gdeg g_gds (KS "a") 1 = 2 /\
  exists m, fst (nx_generalized_degree g_gds (OneNode (KS "a")) st0) = Val (ROne m) /\
    nm_getitem_any m (KI 0) = Raise EKey /\ nm_getitem_any m (KI 1) = Raise EKey /\ nm_getitem_any m (KS "a") = Val 1%Z /\ nm_getitem_any m (KS "b") = Val 2%Z /\
    nm_getitem_any m (KS "d") = Raise EIndex.
Proof.
  split; [vm_compute; reflexivity|]. split; [vm_compute; reflexivity|]. eexists. split; [vm_compute; reflexivity|]. repeat split; vm_compute; reflexivity.
Qed.
Example C24_ex : gwf g_gd /\ g_dir g_gd = false /\ gdeg g_gd (KI 0) 1 = 2 /\ gdeg g_gd (KI 0) 0 = 1 /\
  exists r row r', fst (nx_generalized_degree g_gd (Nodes [KI 3; KI 0]) st0) = Val (RMap r) /\ rm_iter r = Val [KI 0; KI 3] /\
    vnm_getitem r (KI 0) = Val (row, r') /\ vm_getitem row 1 = Val (Some 2%Z) /\ vm_getitem row 0 = Val (Some 1%Z).
Proof.
  split; [apply mkg_wf|]. split; [reflexivity|]. split; [vm_compute; reflexivity|]. split; [vm_compute; reflexivity|].
  eexists. eexists. eexists. split; [vm_compute; reflexivity|]. split; [vm_compute; reflexivity|]. split; [vm_compute; reflexivity|]. split; vm_compute; reflexivity.
Qed.
Print Assumptions C24_generalized_degree_partial.
Print Assumptions C24_one_node_partial.
