(** * C26-C32 for graphs of different kinds: the nodes and weights are right whatever the kinds *)
From Verif Require Import Base BaseProofs Model_Graph Model_Keys Spec KeyProofs Model_Operators OperatorProofs Concrete Props_Operators.

(** [R] is marked as a graph of the given kind, with nodes [P] and weights [W]; it need not be well formed
    (an undirected graph may have one-way edges) *)
Definition has_graph (R : graph) (dir : bool) (P : nkey -> Prop) (W : nkey -> nkey -> option Z) : Prop :=
  g_dir R = dir /\ (forall k, node R k <-> P k) /\ forall u v, weight R u v = W u v.

(** the same matrix and numbering, read as a directed graph *)
Definition asdir (G : graph) : graph := {| g_dir := true; g_A := g_A G; g_dt := g_dt G; g_iso := g_iso G; g_kid := g_kid G |}.
Definition redir (d : bool) (G : graph) : graph := {| g_dir := d; g_A := g_A G; g_dt := g_dt G; g_iso := g_iso G; g_kid := g_kid G |}.
Definition omapg (d : bool) (o : outcome graph) : outcome graph := match o with Val R => Val (redir d R) | Raise e => Raise e end.
Lemma asdir_wf G : gwf G -> gwf (asdir G).
Proof. intros [H1 H2 H3 H4 H5 H6 H7]. constructor; try assumption. discriminate. Qed.
Lemma is_has R d P W d' : is_graph R d P W -> has_graph (redir d' R) d' P W.
Proof. intros (_ & _ & N & V). split; [reflexivity|]. split; [exact N|exact V]. Qed.

Section M.
Variable orc : mat Z -> bool.
Variables G H : graph.
Hypothesis wG : gwf G.
Hypothesis wH : gwf H.
Lemma rename_asdir p : rename_graph orc p G = redir (g_dir G) (rename_graph orc p (asdir G)).
Proof. destruct p; [reflexivity|]. destruct G; reflexivity. Qed.
Lemma union_asdir ren : union orc G H ren = omapg (g_dir G) (union orc (asdir G) H ren).
Proof.
  unfold union.
  replace (match ren with p :: _ => rename_graph orc p G | [] => G end) with (redir (g_dir G) (rename_graph orc (prefix1 ren) (asdir G)))
    by (destruct ren as [|[] ?]; cbn; try reflexivity; destruct G; reflexivity).
  replace (match ren with p :: _ => rename_graph orc p (asdir G) | [] => asdir G end) with (rename_graph orc (prefix1 ren) (asdir G))
    by (destruct ren as [|[] ?]; reflexivity).
  set (K := rename_graph orc (prefix1 ren) (asdir G)). set (H' := match ren with _ :: p :: _ => rename_graph orc p H | _ => H end).
  cbn [redir g_A g_kid g_dir g_dt]. destruct (keys_disjoint (g_kid K) (g_kid H')); reflexivity.
Qed.
Lemma disjoint_union_asdir : disjoint_union orc G H = omapg (g_dir G) (disjoint_union orc (asdir G) H).
Proof. reflexivity. Qed.
Lemma intersection_asdir : intersection orc G H = omapg (g_dir G) (intersection orc (asdir G) H).
Proof.
  unfold intersection, common_keys, gnodes. cbn [asdir g_kid g_A g_dir g_dt].
  destruct (list_to_ids (g_kid G) _) as [a|]; [|reflexivity]. cbn [obind]. destruct (list_to_ids (g_kid H) _); reflexivity.
Qed.
Lemma aligned_asdir : aligned G H = aligned (asdir G) H.
Proof. reflexivity. Qed.
Lemma difference_asdir : difference orc G H = omapg (g_dir G) (difference orc (asdir G) H).
Proof.
  unfold difference. rewrite aligned_asdir. cbn [asdir g_kid g_A g_dir g_dt]. destruct (keys_eqb _ _); [|reflexivity]. cbn [negb].
  destruct (aligned _ _); reflexivity.
Qed.
Lemma symmetric_difference_asdir : symmetric_difference orc G H = omapg (g_dir G) (symmetric_difference orc (asdir G) H).
Proof.
  unfold symmetric_difference. rewrite aligned_asdir. cbn [asdir g_kid g_A g_dir g_dt]. destruct (keys_eqb _ _); [|reflexivity]. cbn [negb].
  destruct (aligned _ _); reflexivity.
Qed.
Lemma compose_asdir : compose orc G H = omapg (g_dir G) (compose orc (asdir G) H).
Proof.
  unfold compose, common_keys, gnodes. rewrite aligned_asdir. cbn [asdir g_kid g_A g_dir g_dt]. destruct (keys_eqb _ _).
  - destruct (aligned _ _); reflexivity.
  - destruct (list_to_ids (g_kid G) _); [|reflexivity]. cbn [obind]. destruct (list_to_ids (g_kid H) _); [|reflexivity]. cbn [obind].
    destruct (list_to_ids (g_kid H) _); reflexivity.
Qed.
Lemma full_join_asdir ren : full_join orc G H ren = omapg (g_dir G) (full_join orc (asdir G) H ren).
Proof. unfold full_join. rewrite union_asdir. cbn [asdir g_A]. destruct (union orc (asdir G) H ren); reflexivity. Qed.

Local Lemma nodir : g_dir (asdir G) = false -> g_dir H = false.
Proof. discriminate. Qed.

Theorem C26_union_mixed ren : rn_ok (prefix1 ren) G -> rn_ok (prefix2 ren) H ->
  let r1 := rn (prefix1 ren) in let r2 := rn (prefix2 ren) in
  match union orc G H ren with
  | Val R =>
      (forall u v, node G u -> node H v -> r1 u <> r2 v) /\ g_dir R = g_dir G /\
      (forall k, node R k <-> (exists u, node G u /\ k = r1 u) \/ (exists v, node H v /\ k = r2 v)) /\
      (forall u v, node G u -> node G v -> weight R (r1 u) (r1 v) = weight G u v) /\
      (forall u v, node H u -> node H v -> weight R (r2 u) (r2 v) = weight H u v) /\
      (forall u v, node G u -> node H v -> weight R (r1 u) (r2 v) = None /\ weight R (r2 v) (r1 u) = None)
  | Raise e => e = EAlg /\ exists u v, node G u /\ node H v /\ r1 u = r2 v
  end.
Proof.
  intros O1 O2 r1 r2. rewrite union_asdir. generalize (C26_union orc (asdir G) H ren (asdir_wf G wG) wH nodir O1 O2). cbv zeta.
  destruct (union orc (asdir G) H ren) as [R|e]; [|exact (fun x => x)]. intros (A & _ & _ & B). split; [exact A|]. split; [reflexivity|exact B].
Qed.
Theorem C27_disjoint_union_mixed :
  exists R, disjoint_union orc G H = Val R /\ g_dir R = g_dir G /\
    gnodes R = map (fun i => KI (Z.of_nat i)) (seq 0 (glen G + glen H)) /\
    (forall u v i j, kid G u = Some i -> kid G v = Some j ->
       weight R (KI (Z.of_nat i)) (KI (Z.of_nat j)) = weight G u v) /\
    (forall u v i j, kid H u = Some i -> kid H v = Some j ->
       weight R (KI (Z.of_nat (glen G + i))) (KI (Z.of_nat (glen G + j))) = weight H u v) /\
    (forall u v i j, kid G u = Some i -> kid H v = Some j ->
       weight R (KI (Z.of_nat i)) (KI (Z.of_nat (glen G + j))) = None /\
       weight R (KI (Z.of_nat (glen G + j))) (KI (Z.of_nat i)) = None).
Proof.
  destruct (C27_disjoint_union orc (asdir G) H (asdir_wf G wG) wH nodir) as (R & E & _ & _ & B).
  rewrite disjoint_union_asdir, E. exists (redir (g_dir G) R). split; [reflexivity|]. split; [reflexivity|]. exact B.
Qed.
Theorem C28_intersection_mixed :
  exists R, intersection orc G H = Val R /\
    has_graph R (g_dir G) (fun k => node G k /\ node H k)
      (fun u v => match weight G u v, weight H u v with Some _, Some _ => Some 1%Z | _, _ => None end).
Proof.
  destruct (C28_intersection orc (asdir G) H (asdir_wf G wG) wH nodir) as (R & E & B).
  rewrite intersection_asdir, E. eexists. split; [reflexivity|]. exact (is_has _ _ _ _ _ B).
Qed.
Theorem C29_difference_mixed :
  match difference orc G H with
  | Val R => (forall k, node G k <-> node H k) /\
      has_graph R (g_dir G) (node G)
        (fun u v => match weight G u v, weight H u v with Some _, None => Some 1%Z | _, _ => None end)
  | Raise e => e = EAlg /\ ~ (forall k, node G k <-> node H k)
  end.
Proof.
  rewrite difference_asdir. generalize (C29_difference orc (asdir G) H (asdir_wf G wG) wH nodir).
  destruct (difference orc (asdir G) H) as [R|e]; [|exact (fun x => x)]. intros [A B]. split; [exact A|]. exact (is_has _ _ _ _ _ B).
Qed.
Theorem C30_symmetric_difference_mixed :
  match symmetric_difference orc G H with
  | Val R => (forall k, node G k <-> node H k) /\
      has_graph R (g_dir G) (node G)
        (fun u v => match weight G u v, weight H u v with Some _, None | None, Some _ => Some 1%Z | _, _ => None end)
  | Raise e => e = EAlg /\ ~ (forall k, node G k <-> node H k)
  end.
Proof.
  rewrite symmetric_difference_asdir. generalize (C30_symmetric_difference orc (asdir G) H (asdir_wf G wG) wH nodir).
  destruct (symmetric_difference orc (asdir G) H) as [R|e]; [|exact (fun x => x)]. intros [A B]. split; [exact A|]. exact (is_has _ _ _ _ _ B).
Qed.
Theorem C31_compose_mixed_partial : (forall k, node G k <-> node H k) \/ (forall k, node G k -> ~ node H k) ->
  exists R, compose orc G H = Val R /\
    has_graph R (g_dir G) (fun k => node G k \/ node H k)
      (fun u v => match weight H u v with Some w => Some w | None => weight G u v end).
Proof.
  intros O. destruct (C31_compose_partial orc (asdir G) H (asdir_wf G wG) wH nodir O) as (R & E & B).
  rewrite compose_asdir, E. eexists. split; [reflexivity|]. exact (is_has _ _ _ _ _ B).
Qed.
Theorem C32_full_join_mixed ren : rn_ok (prefix1 ren) G -> rn_ok (prefix2 ren) H ->
  let r1 := rn (prefix1 ren) in let r2 := rn (prefix2 ren) in
  match full_join orc G H ren with
  | Val R =>
      (forall u v, node G u -> node H v -> r1 u <> r2 v) /\ g_dir R = g_dir G /\
      (forall k, node R k <-> (exists u, node G u /\ k = r1 u) \/ (exists v, node H v /\ k = r2 v)) /\
      (forall u v, node G u -> node G v -> weight R (r1 u) (r1 v) = weight G u v) /\
      (forall u v, node H u -> node H v -> weight R (r2 u) (r2 v) = weight H u v) /\
      (forall u v, node G u -> node H v -> weight R (r1 u) (r2 v) = Some 1%Z /\ weight R (r2 v) (r1 u) = Some 1%Z)
  | Raise e => e = EAlg /\ exists u v, node G u /\ node H v /\ r1 u = r2 v
  end.
Proof.
  intros O1 O2 r1 r2. rewrite full_join_asdir. generalize (C32_full_join orc (asdir G) H ren (asdir_wf G wG) wH nodir O1 O2). cbv zeta.
  destruct (full_join orc (asdir G) H ren) as [R|e]; [|exact (fun x => x)]. intros (A & _ & _ & B). split; [exact A|]. split; [reflexivity|exact B].
Qed.
End M.

(** an undirected and a directed graph on the same nodes *)
Definition mx_G := mkgk false [KS "a"; KS "b"; KS "c"] [(0, 1, 2%Z); (1, 2, 3%Z)].
Definition mx_H := mkgk true [KS "c"; KS "b"; KS "a"] [(2, 1, 7%Z); (0, 1, 5%Z)].
Example C26_mixed_ex : gwf mx_G /\ gwf mx_H /\ g_dir mx_G = false /\ g_dir mx_H = true /\
  (exists R, intersection (fun _ => false) mx_G mx_H = Val R /\ weight R (KS "a") (KS "b") = Some 1%Z /\ weight R (KS "b") (KS "a") = None) /\
  exists R, union (fun _ => false) mx_G mx_H [None; Some "x"%string] = Val R /\ weight R (KS "b") (KS "a") = Some 2%Z /\
    weight R (KS "xa") (KS "xb") = Some 7%Z /\ weight R (KS "xb") (KS "xa") = None.
Proof.
  split; [apply mkgk_wf; repeat constructor; simpl; intuition discriminate|]. split; [apply mkgk_wf; repeat constructor; simpl; intuition discriminate|].
  split; [reflexivity|]. split; [reflexivity|]. split; eexists; (split; [vm_compute; reflexivity|]); vm_compute; auto.
Qed.
Print Assumptions C26_union_mixed.
Print Assumptions C27_disjoint_union_mixed.
Print Assumptions C28_intersection_mixed.
Print Assumptions C29_difference_mixed.
Print Assumptions C30_symmetric_difference_mixed.
Print Assumptions C31_compose_mixed_partial.
Print Assumptions C32_full_join_mixed.
