(** * Sums over nodes and over internal ids *)
From Verif Require Import Base BaseProofs Model_Graph Model_Cache Model_Keys Spec KeyProofs Spec_Count OperatorProofs Spec_Cache CacheMath
  Model_Measures Model_Operators.
From Coq Require Import Permutation.

Lemma total_app {X} (f : X -> Z) a b : total f (a ++ b) = (total f a + total f b)%Z.
Proof. unfold total. induction a; simpl; [reflexivity|]. rewrite IHa. lia. Qed.
Lemma total_cons {X} (f : X -> Z) x b : total f (x :: b) = (f x + total f b)%Z.
Proof. reflexivity. Qed.
Lemma total_map {X Y} (f : Y -> Z) (g : X -> Y) l : total f (map g l) = total (fun x => f (g x)) l.
Proof. unfold total. rewrite map_map. reflexivity. Qed.
Lemma total_ext {X} (f g : X -> Z) l : (forall x, In x l -> f x = g x) -> total f l = total g l.
Proof. intros H. unfold total. f_equal. apply map_ext_in. assumption. Qed.
Lemma total_add {X} (f g : X -> Z) l : total (fun x => f x + g x)%Z l = (total f l + total g l)%Z.
Proof. unfold total. induction l; simpl; lia. Qed.
Lemma total_zero {X} (f : X -> Z) l : (forall x, In x l -> f x = 0%Z) -> total f l = 0%Z.
Proof. intros H. rewrite (total_ext f (fun _ => 0%Z)) by assumption. unfold total. induction l; simpl; [reflexivity|]. rewrite IHl; [reflexivity|]. intros; apply H; right; assumption. Qed.
Lemma total_scale {X} c (f : X -> Z) l : total (fun x => c * f x)%Z l = (c * total f l)%Z.
Proof. unfold total. induction l; simpl; lia. Qed.
Lemma total_filter {X} (f : X -> Z) p l : total f (filter p l) = total (fun x => if p x then f x else 0%Z) l.
Proof. induction l; simpl; [reflexivity|]. rewrite total_cons. destruct (p a); rewrite ?total_cons, IHl; reflexivity. Qed.
Lemma total_perm {X} (f : X -> Z) l l' : Permutation l l' -> total f l = total f l'.
Proof. unfold total. induction 1; simpl; lia. Qed.
Lemma total_count {X} (p : X -> bool) l : Z.of_nat (count p l) = total (fun x => if p x then 1%Z else 0%Z) l.
Proof. unfold count, total. induction l; cbn [filter map fold_right]; [reflexivity|]. destruct (p a); cbn [List.length]; lia. Qed.
Lemma total_length {X} (l : list X) : Z.of_nat (List.length l) = total (fun _ => 1%Z) l.
Proof. unfold total. induction l; cbn [List.length map fold_right]; lia. Qed.
Lemma count_ext {X} (p q : X -> bool) l : (forall x, In x l -> p x = q x) -> count p l = count q l.
Proof. intros H. unfold count. f_equal. apply filter_ext_in. assumption. Qed.
Lemma count_perm {X} (p : X -> bool) l l' : Permutation l l' -> count p l = count p l'.
Proof. apply Permutation_filter_len. Qed.
Lemma count_map {X Y} (p : Y -> bool) (g : X -> Y) l : count p (map g l) = count (fun x => p (g x)) l.
Proof. apply filter_map_len. Qed.
Lemma count_zero {X} (p : X -> bool) l : count p l = 0 <-> forall x, In x l -> p x = false.
Proof.
  unfold count. split.
  - intros H x Hx. destruct (p x) eqn:E; [|reflexivity]. assert (In x (filter p l)) by (apply filter_In; auto).
    destruct (filter p l); [contradiction|discriminate].
  - induction l as [|a l IH]; intros H; simpl; [reflexivity|]. rewrite H by (left; reflexivity). apply IH. intros; apply H; right; assumption.
Qed.
Lemma total_prod {X Y} (f : X * Y -> Z) l l' : total f (list_prod l l') = total (fun x => total (fun y => f (x, y)) l') l.
Proof. induction l; simpl; [reflexivity|]. rewrite total_app, IHl, total_cons, total_map. reflexivity. Qed.
(** every ordered pair is an unordered pair in one of its two orders *)
Lemma total_pairs_upairs {X} (eqb : X -> X -> bool) (f : X -> X -> Z) l : NoDup l -> (forall x y, In x l -> In y l -> (eqb x y = true <-> x = y)) ->
  total (fun e => f (fst e) (snd e)) (pairs l) =
  total (fun e => if eqb (fst e) (snd e) then f (fst e) (snd e) else (f (fst e) (snd e) + f (snd e) (fst e))%Z) (upairs l).
Proof.
  unfold pairs. induction 1 as [|x l Hx ND IH]; intros He; [reflexivity|].
  rewrite total_prod. rewrite total_cons. cbn [upairs]. rewrite total_app, total_map. cbn [fst snd].
  rewrite (total_ext (fun u => total (fun v => f u v) (x :: l)) (fun u => f u x + total (fun v => f u v) l)%Z) by reflexivity.
  rewrite total_add. rewrite !total_cons. cbn [fst snd].
  rewrite (proj2 (He x x ltac:(left; reflexivity) ltac:(left; reflexivity)) eq_refl).
  assert (E : total (fun y => if eqb x y then f x y else (f x y + f y x)%Z) l = (total (fun y => f x y) l + total (fun y => f y x) l)%Z).
  { rewrite <- total_add. apply total_ext. intros y Hy. destruct (eqb x y) eqn:E; [|reflexivity].
    apply He in E; [|left; reflexivity|right; assumption]. subst. contradiction. }
  assert (IH' := IH ltac:(intros; apply He; right; assumption)). rewrite total_prod in IH'. cbn [fst snd] in IH'. rewrite <- IH'. cbn [fst snd].
  rewrite E. lia.
Qed.
Lemma in_upairs {X} (l : list X) x y : In (x, y) (upairs l) -> In x l /\ In y l.
Proof.
  induction l as [|a l IH]; simpl; [intros []|]. intros [E|H].
  - injection E as <- <-. auto.
  - apply in_app_iff in H as [H|H].
    + apply in_map_iff in H as (z & E & Hz). injection E as <- <-. auto.
    + destruct (IH H). auto.
Qed.
Lemma upairs_either {X} (l : list X) x y : In x l -> In y l -> In (x, y) (upairs l) \/ In (y, x) (upairs l).
Proof.
  induction l as [|a l IH]; simpl; [intros []|]. intros [->|Hx] [->|Hy].
  - left. left. reflexivity.
  - left. right. apply in_app_iff. left. apply in_map. assumption.
  - right. right. apply in_app_iff. left. apply in_map. assumption.
  - destruct (IH Hx Hy) as [H|H]; [left|right]; right; apply in_app_iff; right; assumption.
Qed.

Section G.
Variable G : graph.
Hypothesis wf : gwf G.
Notation n := (glen G).
Lemma gnodes_nodup : NoDup (gnodes G). Proof. apply wf. Qed.
Lemma gnodes_kid : map (fun u => oget 0 (kid G u)) (gnodes G) = map snd (g_kid G).
Proof.
  unfold gnodes. rewrite map_map. apply map_ext_in. intros [k i] Hin. simpl.
  rewrite (In_dget _ _ _ (gw_keys _ wf) Hin : kid G k = Some i). reflexivity.
Qed.
Lemma total_nodes F f : (forall u i, kid G u = Some i -> F u = f i) -> total F (gnodes G) = zsum n f.
Proof.
  intros H. unfold total. rewrite (map_ext_in F (fun u => f (oget 0 (kid G u)))).
  - rewrite <- (map_map (fun u => oget 0 (kid G u)) f), gnodes_kid. apply zsum_list, wf.
  - intros u Hu. apply node_kid in Hu as [i Hi]. rewrite Hi. apply H. assumption.
Qed.
Lemma count_nodes P p : (forall u i, kid G u = Some i -> P u = p i) -> count P (gnodes G) = cnt n p.
Proof.
  intros H. apply Nat2Z.inj. rewrite total_count, cnt_zsum. apply total_nodes. intros u i Hu. rewrite (H u i Hu). reflexivity.
Qed.
Lemma count_nodes_pos P : 0 < count P (gnodes G) <-> exists u, node G u /\ P u = true.
Proof.
  split.
  - intros H. destruct (filter P (gnodes G)) as [|u l] eqn:E; [unfold count in H; rewrite E in H; simpl in H; lia|].
    assert (In u (filter P (gnodes G))) by (rewrite E; left; reflexivity). apply filter_In in H0. exists u. exact H0.
  - intros (u & Hu & Hp). destruct (Nat.eq_dec (count P (gnodes G)) 0) as [E|]; [|lia]. rewrite count_zero in E.
    rewrite (E u Hu) in Hp. discriminate.
Qed.
Lemma total_node_pairs F f : (forall u v i j, kid G u = Some i -> kid G v = Some j -> F (u, v) = f i j) ->
  total F (pairs (gnodes G)) = zsum n (fun i => zsum n (fun j => f i j)).
Proof.
  intros H. unfold pairs. rewrite total_prod. apply total_nodes. intros u i Hu. apply total_nodes. intros v j Hv. apply H; assumption.
Qed.
Lemma count_node_pairs P p : (forall u v i j, kid G u = Some i -> kid G v = Some j -> P (u, v) = p i j) ->
  count P (pairs (gnodes G)) = nsum n (fun i => cnt n (fun j => p i j)).
Proof.
  intros H. apply Nat2Z.inj. rewrite total_count, nsum_zsum.
  rewrite (zsum_ext n _ (fun i => zsum n (fun j => if p i j then 1 else 0)%Z)) by (intros; apply cnt_zsum).
  apply total_node_pairs. intros u v i j Hu Hv. rewrite (H u v i j Hu Hv). reflexivity.
Qed.
Lemma has_edge_true u v : has_edge G u v = true <-> edge G u v.
Proof. unfold has_edge, edge. apply has_true. Qed.
Lemma has_edge_kid u v i j : kid G u = Some i -> kid G v = Some j -> has_edge G u v = has (mget (g_A G) i j).
Proof. intros H1 H2. unfold has_edge. rewrite (weight_kid G _ _ i j H1 H2). reflexivity. Qed.
Lemma weight0_kid u v i j : kid G u = Some i -> kid G v = Some j -> weight0 G u v = oz (mget (g_A G) i j).
Proof. intros H1 H2. unfold weight0. rewrite (weight_kid G _ _ i j H1 H2). reflexivity. Qed.
Lemma out_degree_id u i : kid G u = Some i -> out_degree G u = outdeg G SP i.
Proof. intros H. apply count_nodes. intros v j Hv. apply has_edge_kid; assumption. Qed.
Lemma in_degree_id u i : kid G u = Some i -> in_degree G u = indeg G SP i.
Proof. intros H. apply count_nodes. intros v j Hv. apply has_edge_kid; assumption. Qed.
Lemma has_edge_sym u v : g_dir G = false -> has_edge G u v = has_edge G v u.
Proof.
  intros Hd. unfold has_edge, weight. destruct (kid G u) as [i|], (kid G v) as [j|]; try reflexivity.
  rewrite (gw_sym _ wf Hd). reflexivity.
Qed.
Lemma weight0_sym u v : g_dir G = false -> weight0 G u v = weight0 G v u.
Proof.
  intros Hd. unfold weight0, weight. destruct (kid G u) as [i|], (kid G v) as [j|]; try reflexivity.
  rewrite (gw_sym _ wf Hd). reflexivity.
Qed.
Lemma in_out_degree u : g_dir G = false -> in_degree G u = out_degree G u.
Proof. intros Hd. apply count_ext. intros v _. apply has_edge_sym. assumption. Qed.
Lemma loop_free_dcount : loop_free G <-> dcount G = 0.
Proof.
  unfold dcount. rewrite cnt_zero. split.
  - intros H i Hi. destruct (kid_key G wf i Hi) as [u Hu]. destruct (has (mget (g_A G) i i)) eqn:E; [|reflexivity].
    exfalso. apply (H u). apply has_edge_true. rewrite (has_edge_kid u u i i Hu Hu). assumption.
  - intros H u Hu. apply has_edge_true in Hu. unfold has_edge, weight in Hu. destruct (kid G u) as [i|] eqn:E; [|discriminate].
    rewrite H in Hu by (apply (kid_lt G wf u); assumption). discriminate.
Qed.
Lemma mnvals_A : mnvals (g_A G) = count (fun e => has_edge G (fst e) (snd e)) (pairs (gnodes G)).
Proof.
  symmetry. unfold mnvals. rewrite (sq_nrows G wf). apply count_node_pairs. intros u v i j Hu Hv. apply has_edge_kid; assumption.
Qed.
(** number of edges *)
Lemma edges_dir : g_dir G = true -> List.length (edges G) = mnvals (g_A G).
Proof. intros Hd. unfold edges. rewrite Hd, mnvals_A. reflexivity. Qed.
Lemma nkey_eqb_in x y : In x (gnodes G) -> In y (gnodes G) -> (nkey_eqb x y = true <-> x = y).
Proof. intros _ _. apply nkey_eqb_eq. Qed.
(** a sum over ordered pairs, folded onto the edges of an undirected loop-free graph *)
Lemma total_edges_undirected (f : nkey -> nkey -> Z) : g_dir G = false -> loop_free G ->
  total (fun e => if has_edge G (fst e) (snd e) then f (fst e) (snd e) else 0%Z) (pairs (gnodes G)) =
  total (fun e => f (fst e) (snd e) + f (snd e) (fst e))%Z (edges G).
Proof.
  intros Hd Hl. unfold edges. rewrite Hd, total_filter.
  rewrite (total_pairs_upairs nkey_eqb (fun u v => if has_edge G u v then f u v else 0%Z)) by (auto using gnodes_nodup, nkey_eqb_in).
  apply total_ext. intros [u v] _. cbn [fst snd]. rewrite (has_edge_sym v u Hd).
  destruct (nkey_eqb u v) eqn:E.
  - apply nkey_eqb_eq in E. subst. destruct (has_edge G v v) eqn:E; [|reflexivity]. exfalso. apply (Hl v). apply has_edge_true. assumption.
  - destruct (has_edge G u v); reflexivity.
Qed.
Lemma edges_undirected : g_dir G = false -> loop_free G -> mnvals (g_A G) = 2 * List.length (edges G).
Proof.
  intros Hd Hl. apply Nat2Z.inj. rewrite mnvals_A, total_count.
  rewrite (total_edges_undirected (fun _ _ => 1%Z) Hd Hl). rewrite Nat2Z.inj_mul, total_length, <- total_scale. reflexivity.
Qed.

(** sets of nodes as vectors *)
Definition svec (v : vec bool) (P : nkey -> bool) : Prop :=
  vsize v = n /\ forall u i, kid G u = Some i -> vget v i = if P u then Some true else None.
Lemma svec_has v P u i : svec v P -> kid G u = Some i -> has (vget v i) = P u.
Proof. intros [_ H] Hu. rewrite (H u i Hu). destruct (P u); reflexivity. Qed.
Lemma svec_nvals v P : svec v P -> nvals v = List.length (members G P).
Proof.
  intros H. unfold nvals. rewrite (proj1 H). symmetry. apply (count_nodes P). intros u i Hu. symmetry. eapply svec_has; eassumption.
Qed.
Lemma svec_ext v P Q : (forall u, node G u -> P u = Q u) -> svec v P -> svec v Q.
Proof.
  intros H [H1 H2]. split; [assumption|]. intros u i Hu. rewrite <- H; [auto|]. apply node_kid. eauto.
Qed.
Lemma svec_compl v P : svec v P -> svec (vcompl v) (fun u => negb (P u)).
Proof.
  intros [H1 H2]. unfold vcompl. split; [rewrite vsize_vbuild; assumption|]. intros u i Hu. rewrite vget_vbuild.
  assert (L : i < n) by exact (kid_lt G wf _ _ Hu). rewrite H1. apply Nat.ltb_lt in L. rewrite L. unfold mNS. rewrite (H2 u i Hu).
  destruct (P u); reflexivity.
Qed.
Lemma mem_In k l : mem k l = true <-> In k l.
Proof.
  unfold mem. rewrite existsb_exists. split.
  - intros (x & Hx & E). apply nkey_eqb_eq in E. subst. assumption.
  - intros H. exists k. split; [assumption|apply nkey_eqb_refl].
Qed.
Lemma svec_scatter l ids : mapO (kid G) l = Some ids -> svec (vscatter n ids true) (fun u => mem u l).
Proof.
  intros H. split; [apply vsize_vbuild|]. intros u i Hu. rewrite vget_vscatter.
  assert (L : i < n) by exact (kid_lt G wf _ _ Hu). apply Nat.ltb_lt in L. rewrite L. simpl.
  replace (existsb (Nat.eqb i) ids) with (mem u l); [destruct (mem u l); reflexivity|].
  apply eq_true_iff_eq. rewrite mem_In, existsb_eqb. rewrite (mapO_in _ _ _ H). split.
  - intros Hin. exists u. split; assumption.
  - intros (u' & Hin & Hu'). assert (u' = u) by (eapply kid_inj; eassumption). subst. assumption.
Qed.
Lemma set_vec_ok l : exists v, set_to_vector (g_kid G) n true l = Val v /\ svec v (fun u => mem u l).
Proof.
  unfold set_to_vector. set (l' := filter _ l).
  destruct (mapO_total (kid G) l') as [ids Hids].
  { intros k Hk. apply filter_In in Hk as [_ Hk]. apply has_true in Hk. exact Hk. }
  change (mapO (dget (g_kid G)) l' = Some ids) in Hids. rewrite Hids. eexists. split; [reflexivity|].
  eapply svec_ext; [|apply svec_scatter; exact Hids]. intros u Hu. apply eq_true_iff_eq. rewrite !mem_In. unfold l'.
  rewrite filter_In. split; [tauto|]. intros H. split; [assumption|]. apply node_in_graph in Hu. exact Hu.
Qed.
Lemma list_vec_ok l : (exists v, list_to_vector (g_kid G) n l = Val v /\ svec v (fun u => mem u l) /\ forall k, In k l -> node G k) \/
  (list_to_vector (g_kid G) n l = Raise EKey /\ exists k, In k l /\ ~ node G k).
Proof.
  unfold list_to_vector. destruct (mapO (dget (g_kid G)) l) as [ids|] eqn:E.
  - left. eexists. split; [reflexivity|]. split; [apply svec_scatter; exact E|].
    intros k Hk. destruct (kid G k) as [i|] eqn:Ek; [apply node_kid; eauto|].
    exfalso. assert (mapO (kid G) l = None) by (apply mapO_none; eauto). change (mapO (dget (g_kid G)) l = None) in H. congruence.
  - right. split; [reflexivity|]. apply mapO_none in E as (k & Hk & Ek). exists k. split; [assumption|].
    intros Hn. apply node_kid in Hn as [i Hi]. unfold kid in Hi. congruence.
Qed.
End G.
