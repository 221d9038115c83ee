(** * C81, C84: counting laws and the ranges of the answers *)
From Verif Require Import Base BaseProofs Model_Graph Model_Cache Spec_Cache Spec_Run Spec_Session Spec_Laws Model_Keys Spec Spec_Count Spec_Cluster
  Model_Bfs Model_Measures Model_Cluster KeyProofs CountProofs OperatorProofs LawProofs RankMath ClusterMath ClusterProofs Concrete
  Props_Bfs Props_Measures Props_Cluster Props_Gdeg Props_Session.
From Coq Require Import QArith Qcanon Permutation.
Open Scope nat_scope.

(** ** sums over pairs and triples *)
Lemma sum2 {X} (f : X -> X -> Z) (l : list X) : (forall x y, f x y = f y x) ->
  total (fun x => total (fun y => f x y) l) l = (total (fun x => f x x) l + 2 * total (fun p => f (fst p) (snd p)) (spairs l))%Z.
Proof.
  intros HS. induction l as [|a l IH]; [reflexivity|]. cbn [spairs]. rewrite total_app, total_map, !total_cons. cbn [fst snd].
  rewrite (total_ext (fun x => total (fun y => f x y) (a :: l)) (fun x => (f x a + total (fun y => f x y) l)%Z) l) by (intros x _; apply total_cons).
  rewrite total_add, IH. rewrite (total_ext (fun x => f x a) (fun x => f a x)) by (intros; apply HS). lia.
Qed.
Lemma sum3 {X} (f : X -> X -> X -> Z) (l : list X) : (forall x y z, f x y z = f y x z) -> (forall x y z, f x y z = f x z y) -> (forall x z, f x x z = 0%Z) ->
  total (fun x => total (fun y => total (fun z => f x y z) l) l) l = (6 * total (fun t => f (fst t) (fst (snd t)) (snd (snd t))) (triples l))%Z.
Proof.
  intros S1 S2 Z0. assert (Z1 : forall x z, f x z x = 0%Z) by (intros; rewrite S2; apply Z0). assert (Z2 : forall x z, f z x x = 0%Z) by (intros; rewrite S1; apply Z1).
  induction l as [|a l IH]; [reflexivity|]. cbn [triples]. rewrite total_app, total_map. cbn [fst snd].
  assert (E2 : forall x, total (fun y => total (fun z => f x y z) (a :: l)) (a :: l) =
    (total (fun z => f x a z) (a :: l) + (total (fun y => f x y a) l + total (fun y => total (fun z => f x y z) l) l))%Z).
  { intros x. rewrite total_cons. f_equal. rewrite <- total_add. apply total_ext. intros y _. apply total_cons. }
  rewrite (total_ext _ _ _ (fun x _ => E2 x)). rewrite total_cons. rewrite !total_add, IH.
  assert (A : total (fun z => f a a z) (a :: l) = 0%Z) by (apply total_zero; intros; apply Z0).
  assert (B : total (fun y => f a y a) l = 0%Z) by (apply total_zero; intros y _; rewrite S2; apply Z0).
  assert (C : total (fun x => total (fun z => f x a z) (a :: l)) l = total (fun x => total (fun z => f a x z) l) l).
  { apply total_ext. intros x _. rewrite total_cons, Z2. cbn [Z.add]. apply total_ext. intros z _. apply S1. }
  assert (D : total (fun x => total (fun y => f x y a) l) l = total (fun x => total (fun z => f a x z) l) l).
  { apply total_ext. intros x _. apply total_ext. intros y _. rewrite S2, S1. reflexivity. }
  rewrite A, B, C, D. rewrite (sum2 (f a)) by (intros; apply S2).
  rewrite (total_zero (fun x => f a x x)) by (intros; apply Z2). lia.
Qed.

Section C.
Variable G : graph.
Hypothesis wf : gwf G.
Lemma nbr_sym u v : g_dir G = false -> nbr G u v = nbr G v u.
Proof.
  intros D. unfold nbr. rewrite (has_edge_sym G wf u v D). f_equal. f_equal. apply eq_true_iff_eq. rewrite !nkey_eqb_eq. split; congruence.
Qed.
Lemma nbr_irr u : nbr G u u = false. Proof. unfold nbr. rewrite nkey_eqb_refl. reflexivity. Qed.
(** three nodes that are pairwise adjacent *)
Definition triangle (t : nkey * (nkey * nkey)) : bool := nbr G (fst t) (fst (snd t)) && nbr G (fst t) (snd (snd t)) && nbr G (fst (snd t)) (snd (snd t)).
Definition n_triangles : nat := count triangle (triples (gnodes G)).
Lemma closed_sum : g_dir G = false -> total (fun v => Z.of_nat (closed_pairs G v)) (gnodes G) = (6 * Z.of_nat n_triangles)%Z.
Proof.
  intros D. set (f := fun x y z => if nbr G x y && nbr G x z && nbr G y z then 1%Z else 0%Z).
  rewrite (total_ext _ (fun x => total (fun y => total (fun z => f x y z) (gnodes G)) (gnodes G))).
  - rewrite (sum3 f).
    + unfold n_triangles. rewrite total_count. reflexivity.
    + intros x y z. unfold f. rewrite (nbr_sym x y D). destruct (nbr G y x), (nbr G x z), (nbr G y z); reflexivity.
    + intros x y z. unfold f. rewrite (nbr_sym y z D). destruct (nbr G x y), (nbr G x z), (nbr G z y); reflexivity.
    + intros x z. unfold f. rewrite nbr_irr. reflexivity.
  - intros v _. unfold closed_pairs, pairs. rewrite total_count, total_prod. reflexivity.
Qed.
(** ** C81 *)
(** every triangle is counted at its three corners *)
Theorem C81_triangles m : g_dir G = false -> seen G (nx_triangles G AllNodes) (Val (RMap m)) ->
  map_total m (gnodes G) = (3 * Z.of_nat n_triangles)%Z.
Proof.
  intros D H. assert (NO : forall k, AllNodes = OneNode k -> node G k) by discriminate.
  destruct (seen_ans G wf _ _ _ _ H (C20_triangles G wf AllNodes D NO)) as (_ & [M _]).
  assert (E : map_total m (gnodes G) = total (fun v => Z.of_nat (triangles_at G v)) (gnodes G)).
  { apply total_ext. intros v Hv. assert (X : nm_getitem m v = Val (Z.of_nat (triangles_at G v))) by (apply M; split; [exact Hv|reflexivity]). rewrite X. reflexivity. }
  rewrite E. assert (X := closed_sum D). rewrite (C20_transitivity_undirected G wf D) in X. rewrite total_scale in X. lia.
Qed.
(** transitivity is 3 * triangles / connected triples *)
Theorem C81_transitivity x q x' : g_dir G = false -> trans_cached G x -> seen G (nx_transitivity G x) (Val (q, x')) ->
  q = if n_triangles =? 0 then 0%Qc else (qz (6 * Z.of_nat n_triangles) / qz (total (pairs_at G) (gnodes G)))%Qc.
Proof.
  intros D Hx H. destruct (seen_ans G wf _ _ _ _ H (C20_transitivity G wf x Hx)) as (x'' & [= -> _] & _). unfold transitivity_of. rewrite (closed_sum D).
  destruct (Nat.eqb_spec n_triangles 0) as [->|Ne]; [reflexivity|]. destruct (Z.eqb_spec (6 * Z.of_nat n_triangles) 0); [lia|reflexivity].
Qed.
Lemma edges_count_pairs : g_dir G = true -> Z.of_nat (List.length (edges G)) = total (fun u => Z.of_nat (out_degree G u)) (gnodes G).
Proof.
  intros D. rewrite total_length. unfold edges. rewrite D, total_filter. unfold pairs. rewrite total_prod. apply total_ext. intros u _. unfold out_degree. rewrite total_count. reflexivity.
Qed.
Lemma in_out_sum : total (fun u => Z.of_nat (in_degree G u)) (gnodes G) = total (fun u => Z.of_nat (out_degree G u)) (gnodes G).
Proof.
  rewrite (total_ext _ (fun v => total (fun u => if has_edge G u v then 1%Z else 0%Z) (gnodes G))) by (intros; unfold in_degree; rewrite total_count; reflexivity).
  rewrite (total_ext (fun u => Z.of_nat (out_degree G u)) (fun u => total (fun v => if has_edge G u v then 1%Z else 0%Z) (gnodes G))) by (intros; unfold out_degree; rewrite total_count; reflexivity).
  apply total_exchange.
Qed.
(** handshake *)
Lemma degree_sum : (g_dir G = false -> loop_free G) -> total (fun u => Z.of_nat (degree G u)) (gnodes G) = (2 * Z.of_nat (List.length (edges G)))%Z.
Proof.
  intros LF. destruct (g_dir G) eqn:D.
  - rewrite (total_ext _ (fun u => (Z.of_nat (out_degree G u) + Z.of_nat (in_degree G u))%Z)) by (intros; unfold degree; rewrite D; lia).
    rewrite total_add, in_out_sum, (edges_count_pairs D). lia.
  - specialize (LF eq_refl). rewrite <- (Nat2Z.inj_mul 2). rewrite <- (edges_undirected G wf D LF), (mnvals_A G wf), total_count. unfold pairs. rewrite total_prod. apply total_ext. intros u Hu. cbn [fst snd]. unfold degree. rewrite D.
    destruct (has_edge G u u) eqn:E; [apply has_edge_true in E; destruct (LF u E)|]. rewrite Nat.add_0_r. unfold out_degree. apply total_count.
Qed.
Definition qsum {X} (f : X -> Q) (l : list X) : Q := fold_right Qplus 0%Q (map f l).
Definition qmap_total (m : nodemap Q) (l : list nkey) : Q := qsum (fun k => match nm_getitem m k with Val x => x | Raise _ => 0%Q end) l.
Lemma qsum_div {X} (f : X -> Q) (g : X -> Z) (d : Z) l : (forall x, In x l -> (f x == inject_Z (g x) / inject_Z d)%Q) -> (qsum f l == inject_Z (total g l) / inject_Z d)%Q.
Proof.
  induction l as [|a l IH]; intros H; [unfold qsum, total; simpl; unfold Qdiv; ring|].
  assert (E : qsum f (a :: l) = (f a + qsum f l)%Q) by reflexivity. rewrite E, total_cons, inject_Z_plus, H, IH by (try (left; reflexivity); intros; apply H; right; assumption).
  unfold Qdiv. ring.
Qed.
Lemma centrality_sum F r : centrality G F r -> 1 < List.length (gnodes G) ->
  (qmap_total r (gnodes G) == inject_Z (total (fun u => Z.of_nat (F u)) (gnodes G)) / inject_Z (Z.of_nat (List.length (gnodes G)) - 1))%Q.
Proof.
  intros (c & [M _] & H) L. apply qsum_div. intros u Hu. assert (E : nm_getitem r u = Val (c u)) by (apply M; split; [exact Hu|reflexivity]). rewrite E. apply H; assumption.
Qed.
Theorem C81_handshake r : 1 < List.length (gnodes G) -> (g_dir G = false -> loop_free G) -> seen G (nx_degree_centrality G) (Val r) ->
  (qmap_total r (gnodes G) == inject_Z (2 * Z.of_nat (List.length (edges G))) / inject_Z (Z.of_nat (List.length (gnodes G)) - 1))%Q.
Proof.
  intros L LF H. destruct (seen_td_ans G wf _ _ _ _ H (C53_degree_centrality G wf LF)) as (r' & [= <-] & C). rewrite <- (degree_sum LF). apply centrality_sum; assumption.
Qed.
Theorem C81_in_out r r' z : 1 < List.length (gnodes G) -> seen G (nx_in_degree_centrality G) (Val r) -> seen G (nx_out_degree_centrality G) (Val r') -> seen G (nx_score_sequence G) (Val z) ->
  (qmap_total r (gnodes G) == qmap_total r' (gnodes G))%Q /\
  (qmap_total r' (gnodes G) == inject_Z (Z.of_nat (List.length (edges G))) / inject_Z (Z.of_nat (List.length (gnodes G)) - 1))%Q /\
  total (fun x => x) z = Z.of_nat (List.length (edges G)) /\ List.length z = List.length (gnodes G).
Proof.
  intros L H1 H2 H3. destruct (seen_ans G wf _ _ _ _ H1 (C53_in_degree_centrality G wf)) as [D C]. destruct (seen_ans G wf _ _ _ _ H2 (C53_out_degree_centrality G wf)) as [_ C'].
  rewrite (centrality_sum _ _ C L), (centrality_sum _ _ C' L), in_out_sum, (edges_count_pairs D). split; [reflexivity|]. split; [reflexivity|].
  destruct (seen_ans G wf _ _ _ _ H3 (C47_score_sequence G wf)) as (_ & _ & P). split; [|rewrite (Permutation_length P), map_length; reflexivity].
  rewrite (total_perm _ _ _ P), total_map. reflexivity.
Qed.
Theorem C81_tournament z : seen G (nx_is_tournament G) (Val true) -> seen G (nx_score_sequence G) (Val z) ->
  (2 * total (fun x => x) z = Z.of_nat (List.length (gnodes G)) * (Z.of_nat (List.length (gnodes G)) - 1))%Z.
Proof.
  intros H1 H2. destruct (seen_ans G wf _ _ _ _ H1 (C46_is_tournament G wf)) as [D T]. destruct (proj1 T eq_refl) as [LF HT].
  destruct (seen_ans G wf _ _ _ _ H2 (C47_score_sequence G wf)) as (_ & _ & P). rewrite (total_perm _ _ _ P), total_map.
  assert (E : (total (fun u => Z.of_nat (out_degree G u)) (gnodes G) + total (fun u => Z.of_nat (in_degree G u)) (gnodes G))%Z =
              total (fun _ => (Z.of_nat (List.length (gnodes G)) - 1)%Z) (gnodes G)).
  { rewrite <- total_add. apply total_ext. intros u Hu. unfold out_degree, in_degree. rewrite !total_count, <- total_add.
    rewrite (total_ext _ (fun v => (1 + - (if nkey_eqb u v then 1 else 0))%Z)).
    - rewrite total_add, <- total_length. enough (X : count (nkey_eqb u) (gnodes G) = 1).
      { rewrite (total_ext (fun x => (- (if nkey_eqb u x then 1 else 0))%Z) (fun v => (-1 * (if nkey_eqb u v then 1 else 0))%Z)) by (intros; lia). rewrite total_scale, <- total_count, X. lia. }
      assert (ND := gnodes_nodup G wf). unfold node in Hu. clear - ND Hu. induction (gnodes G) as [|a l IH]; [destruct Hu|]. inversion ND as [|? ? Na ND']; subst. unfold count in *. cbn [filter].
      destruct (nkey_eqb u a) eqn:E.
      + apply nkey_eqb_eq in E. subst. cbn [List.length]. f_equal. apply (proj2 (count_zero _ _)). intros x Hx. apply nkey_eqb_neq. congruence.
      + destruct Hu as [->|Hu]; [rewrite nkey_eqb_refl in E; discriminate|]. apply IH; assumption.
    - intros v Hv. destruct (nkey_eqb u v) eqn:Q.
      + apply nkey_eqb_eq in Q. subst v. destruct (has_edge G u u) eqn:E; [apply has_edge_true in E; destruct (LF u E)|reflexivity].
      + assert (Ne : u <> v) by (intros ->; rewrite nkey_eqb_refl in Q; discriminate).
        destruct (HT u v Hu Hv Ne) as [[A B]|[A B]]; rewrite <- has_edge_true in A, B; apply not_true_iff_false in B; rewrite A, B; reflexivity. }
  rewrite in_out_sum in E. assert (X : total (fun _ : nkey => (Z.of_nat (List.length (gnodes G)) - 1)%Z) (gnodes G) = (Z.of_nat (List.length (gnodes G)) * (Z.of_nat (List.length (gnodes G)) - 1))%Z).
  { rewrite (total_ext _ (fun _ => ((Z.of_nat (List.length (gnodes G)) - 1) * 1)%Z)) by (intros; lia). rewrite total_scale, <- total_length. lia. }
  lia.
Qed.

(** ** generalized degrees *)
Lemma count_one u l : NoDup l -> In u l -> count (nkey_eqb u) l = 1.
Proof.
  intros ND Hu. induction l as [|a l IH]; [destruct Hu|]. inversion ND as [|? ? Na ND']; subst. unfold count in *. cbn [filter].
  destruct (nkey_eqb u a) eqn:E.
  - apply nkey_eqb_eq in E. subst. cbn [List.length]. f_equal. apply (proj2 (count_zero _ _)). intros x Hx. apply nkey_eqb_neq. congruence.
  - destruct Hu as [->|Hu]; [rewrite nkey_eqb_refl in E; discriminate|]. apply IH; assumption.
Qed.
Lemma tri_edge_bound v u : node G v -> node G u -> nbr G v u = true -> tri_edge G v u < List.length (gnodes G) - 1.
Proof.
  intros Nv Nu E. assert (X : (Z.of_nat (tri_edge G v u) + (Z.of_nat (count (nkey_eqb v) (gnodes G)) + Z.of_nat (count (nkey_eqb u) (gnodes G))) <= Z.of_nat (List.length (gnodes G)))%Z).
  { unfold tri_edge. rewrite !total_count, total_length, <- !total_add. apply (total_le G wf). intros x _.
    assert (Q : forall a, nkey_eqb a x = true -> nbr G a x = false) by (intros a Ha; apply nkey_eqb_eq in Ha; subst; apply nbr_irr).
    assert (Q2 : nkey_eqb v x = true -> nkey_eqb u x = true -> False) by (intros A B; apply nkey_eqb_eq in A, B; subst; rewrite nbr_irr in E; discriminate).
    specialize (Q v) as Qv. specialize (Q u) as Qu. destruct (nkey_eqb v x), (nkey_eqb u x); try (destruct (Q2 eq_refl eq_refl)); try rewrite (Qv eq_refl); try rewrite (Qu eq_refl); rewrite ?andb_false_r; cbn; try lia.
    destruct (nbr G v x && nbr G u x); lia. }
  rewrite !(count_one _ _ (gnodes_nodup G wf)) in X by assumption. lia.
Qed.
Lemma pick_total (t N : nat) (g : nat -> Z) : t < N -> total (fun k => if t =? k then g k else 0%Z) (seq 0 N) = g t.
Proof.
  intros L. assert (K : forall s n, total (fun k => if t =? k then g k else 0%Z) (seq s n) = if (s <=? t) && (t <? s + n) then g t else 0%Z).
  { intros s n. revert s. induction n as [|n IH]; intros s; cbn [seq].
    - destruct (Nat.leb_spec s t), (Nat.ltb_spec t (s + 0)); try reflexivity. lia.
    - rewrite total_cons, IH. destruct (Nat.eqb_spec t s) as [->|Ne].
      + destruct (Nat.leb_spec (S s) s); [lia|]. cbn [andb]. destruct (Nat.leb_spec s s); [|lia]. destruct (Nat.ltb_spec s (s + S n)); [cbn; lia|lia].
      + destruct (Nat.leb_spec (S s) t), (Nat.leb_spec s t), (Nat.ltb_spec t (S s + n)), (Nat.ltb_spec t (s + S n)); cbn; try lia. }
  rewrite K. simpl. destruct (Nat.ltb_spec t N); [reflexivity|lia].
Qed.
Lemma gdeg_sum v (g : nat -> Z) : node G v ->
  total (fun k => g k * Z.of_nat (gdeg G v k))%Z (seq 0 (List.length (gnodes G) - 1)) =
  total (fun u => if nbr G v u then g (tri_edge G v u) else 0%Z) (gnodes G).
Proof.
  intros Nv. rewrite (total_ext _ (fun k => total (fun u => if nbr G v u then (if tri_edge G v u =? k then g k else 0%Z) else 0%Z) (gnodes G))).
  - rewrite total_exchange. apply total_ext. intros u Hu. destruct (nbr G v u) eqn:E; [|apply total_zero; reflexivity].
    apply pick_total. apply tri_edge_bound; assumption.
  - intros k _. unfold gdeg. rewrite total_count, <- total_scale. apply total_ext. intros u _. destruct (nbr G v u); cbn [andb]; [destruct (tri_edge G v u =? k)|]; lia.
Qed.
(** the row of a node, summed over the numbers of triangles, is its number of neighbours; weighted with the numbers of
    triangles it is twice the triangles of the node *)
Definition row_total (row : vec Z) (g : nat -> Z) (n : nat) : Z :=
  total (fun k => g k * match vm_getitem row k with Val (Some x) => x | _ => 0 end)%Z (seq 0 n).
Theorem C81_generalized_degree r row r' v t : g_dir G = false -> seen G (nx_generalized_degree G AllNodes) (Val (RMap r)) -> vnm_getitem r v = Val (row, r') ->
  seen G (nx_triangles G (OneNode v)) (Val (ROne t)) ->
  row_total row (fun _ => 1%Z) (List.length (gnodes G) - 1) = Z.of_nat (deg0 G v) /\
  row_total row Z.of_nat (List.length (gnodes G) - 1) = (2 * t)%Z.
Proof.
  intros D H E Ht. assert (NO : forall k, AllNodes <> OneNode k) by discriminate.
  destruct (seen_ans G wf _ _ _ _ H (C24_generalized_degree_partial G wf AllNodes D NO)) as [_ X]. specialize (X v). rewrite E in X. destruct X as (Nv & _ & X).
  change (node G v) in Nv. assert (NO' : forall k, OneNode v = OneNode k -> node G k) by (intros k [= <-]; exact Nv).
  destruct (seen_ans G wf _ _ _ _ Ht (C20_triangles G wf (OneNode v) D NO')) as (k & [= <-] & ->).
  assert (R : forall g, row_total row g (List.length (gnodes G) - 1) = total (fun k => g k * Z.of_nat (gdeg G v k))%Z (seq 0 (List.length (gnodes G) - 1))).
  { intros g. apply total_ext. intros k Hk. apply in_seq in Hk. rewrite X. rewrite (len_nodes G wf) in Hk. destruct (Nat.ltb_spec k (glen G - 1)) as [_|L]; [|lia].
    unfold glen in *. destruct (Nat.ltb_spec k (nrows (g_A G) - 1)) as [_|L]; [|lia]. unfold onz. destruct (Nat.eqb_spec (gdeg G v k) 0) as [->|]; reflexivity. }
  split; rewrite R, gdeg_sum by assumption.
  - unfold deg0. rewrite total_count. reflexivity.
  - replace (2 * Z.of_nat (triangles_at G v))%Z with (Z.of_nat (closed_pairs G v)) by (rewrite (closed_pairs_tri G wf v D); lia).
    unfold closed_pairs, pairs. rewrite total_count, total_prod. apply total_ext. intros u _. cbn [fst snd]. unfold tri_edge. rewrite total_count.
    destruct (nbr G v u) eqn:Eu; cbn [andb]; [reflexivity|symmetry; apply total_zero; reflexivity].
Qed.

(** ** C84: ranges *)
Lemma total_square {X} (a : X -> Z) (l : list X) : total (fun x => total (fun y => a x * a y)%Z l) l = (total a l * total a l)%Z.
Proof. rewrite (total_ext _ (fun x => total a l * a x)%Z) by (intros; rewrite total_scale; lia). rewrite total_scale. reflexivity. Qed.
Lemma total_eqb (u : nkey) (f : nkey -> Z) l : NoDup l -> In u l -> total (fun v => if nkey_eqb u v then f v else 0%Z) l = f u.
Proof.
  intros ND Hu. rewrite (total_ext _ (fun v => f u * (if nkey_eqb u v then 1 else 0))%Z).
  - rewrite total_scale, <- total_count, (count_one u l ND Hu). lia.
  - intros v _. destruct (nkey_eqb u v) eqn:E; [apply nkey_eqb_eq in E; subst|]; lia.
Qed.
Lemma offdiag (a : nkey -> Z) l : NoDup l -> total (fun x => total (fun y => if nkey_eqb x y then 0 else a x * a y)%Z l) l = (total a l * total a l - total (fun x => a x * a x) l)%Z.
Proof.
  intros ND. rewrite <- total_square.
  assert (E : total (fun x => total (fun y => a x * a y)%Z l) l = (total (fun x => total (fun y => if nkey_eqb x y then 0 else a x * a y)%Z l) l + total (fun x => a x * a x)%Z l)%Z); [|lia].
  rewrite <- total_add. apply total_ext. intros x Hx. rewrite <- (total_eqb x (fun y => a x * a y)%Z l ND Hx). rewrite <- total_add. apply total_ext. intros y _. destruct (nkey_eqb x y); lia.
Qed.
Lemma closed_le v : (Z.of_nat (closed_pairs G v) <= pairs_at G v)%Z.
Proof.
  set (a := fun x => if nbr G v x then 1%Z else 0%Z). assert (ND := gnodes_nodup G wf).
  assert (E : pairs_at G v = total (fun x => total (fun y => if nkey_eqb x y then 0 else a x * a y)%Z (gnodes G)) (gnodes G)).
  { rewrite offdiag by assumption. unfold pairs_at, deg0. rewrite total_count. change (fun x => if nbr G v x then 1%Z else 0%Z) with a.
    rewrite (total_ext (fun x => a x * a x)%Z a) by (intros x _; unfold a; destruct (nbr G v x); reflexivity). lia. }
  rewrite E. unfold closed_pairs, pairs. rewrite total_count, total_prod. apply (total_le G wf). intros x _. apply (total_le G wf). intros y _. cbn [fst snd]. unfold a.
  destruct (nkey_eqb x y) eqn:Q; [apply nkey_eqb_eq in Q; subst; rewrite nbr_irr, andb_false_r; lia|]. destruct (nbr G v x), (nbr G v y), (nbr G x y); cbn; lia.
Qed.
Lemma qc_frac a b : (0 <= a <= b)%Z -> (0 <= qz a / qz b /\ qz a / qz b <= 1)%Qc.
Proof.
  intros [A B]. destruct (Z.eq_dec b 0) as [->|Ne].
  - assert (a = 0%Z) by lia. subst. split; [apply Qcle_refl|]. unfold Qcle. vm_compute. discriminate.
  - assert (Pb : (0 < inject_Z b)%Q) by (change 0%Q with (inject_Z 0); rewrite <- Zlt_Qlt; lia).
    assert (E : (this (qz a / qz b)%Qc == inject_Z a / inject_Z b)%Q).
    { unfold Qcdiv, Qcmult, Qcinv, qz, Q2Qc, Qdiv. cbn [this]. rewrite !Qred_correct. reflexivity. }
    unfold Qcle. rewrite E. split.
    + apply Qle_shift_div_l; [exact Pb|]. rewrite Qmult_0_l. change 0%Q with (inject_Z 0). rewrite <- Zle_Qle. exact A.
    + apply Qle_shift_div_r; [exact Pb|]. change (this 1%Qc) with 1%Q. rewrite Qmult_1_l, <- Zle_Qle. exact B.
Qed.
End C.

(** ** Concrete cases: two triangles sharing an edge and a pendant node; a tournament *)
Definition g_tt := mkg false 5 [(0, 1, 1%Z); (0, 2, 1%Z); (1, 2, 4%Z); (1, 3, 1%Z); (2, 3, 1%Z); (3, 4, 1%Z)].
Local Ltac run := eapply seen_after; [apply P_is_connected|vm_compute; reflexivity].
Example C81_ex : gwf g_tt /\ n_triangles g_tt = 2 /\ exists m q x' c r row r' t,
  seen g_tt (nx_triangles g_tt AllNodes) (Val (RMap m)) /\ map_total m (gnodes g_tt) = 6%Z /\
  seen g_tt (nx_transitivity g_tt x0) (Val (q, x')) /\ q = Q2Qc (12 # 20) /\
  seen g_tt (nx_degree_centrality g_tt) (Val c) /\ (qmap_total c (gnodes g_tt) == 3)%Q /\
  seen g_tt (nx_generalized_degree g_tt AllNodes) (Val (RMap r)) /\ vnm_getitem r (KI 1) = Val (row, r') /\ seen g_tt (nx_triangles g_tt (OneNode (KI 1))) (Val (ROne t)) /\
  row_total row (fun _ => 1%Z) 4 = 3%Z /\ row_total row Z.of_nat 4 = 4%Z /\ t = 2%Z.
Proof.
  split; [apply mkg_wf|]. split; [vm_compute; reflexivity|]. do 8 eexists. split; [run|]. split; [vm_compute; reflexivity|]. split; [run|]. split; [apply Qc_is_canon; vm_compute; reflexivity|].
  split; [run|]. split; [vm_compute; reflexivity|]. split; [run|]. split; [vm_compute; reflexivity|]. split; [run|]. repeat split; vm_compute; reflexivity.
Qed.
Definition g_tour := mkg true 3 [(0, 1, 1%Z); (1, 2, 4%Z); (2, 0, 1%Z)].
Example C81_tour_ex : gwf g_tour /\ exists z r, seen g_tour (nx_is_tournament g_tour) (Val true) /\ seen g_tour (nx_score_sequence g_tour) (Val z) /\ z = [1; 1; 1]%Z /\
  seen g_tour (nx_in_degree_centrality g_tour) (Val r) /\ (qmap_total r (gnodes g_tour) == 3 # 2)%Q.
Proof.
  split; [apply mkg_wf|]. do 2 eexists. split; [eapply seen_val; vm_compute; reflexivity|]. split; [eapply seen_val; vm_compute; reflexivity|]. split; [reflexivity|].
  split; [eapply seen_val; vm_compute; reflexivity|]. vm_compute. reflexivity.
Qed.
Print Assumptions C81_triangles.
Print Assumptions C81_transitivity.
Print Assumptions C81_handshake.
Print Assumptions C81_in_out.
Print Assumptions C81_tournament.
Print Assumptions C81_generalized_degree.
