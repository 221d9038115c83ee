(** * C16: bellman_ford_path in every consistent state *)
From Verif Require Import Base BaseProofs Model_Graph Model_Cache Model_Keys Model_Utils Model_Bfs Model_Weighted Spec Spec_Cache Spec_Run Spec_Weighted
  CacheMath CacheProofs CacheProofs2 RunProofs NdProofs Bfs BfsProofs BfsProofs2 BfsProofs3 WeightedMath KeyProofs WeightedProofs WeightedProofs2 WeightedProofs3 PathProofs Walks
  OperatorProofs Concrete Props_Utils Props_Bfs Props_Operators Props_Weighted.
From Coq Require Import QArith.
Open Scope nat_scope.

Section K.
Variable G : graph.
Hypothesis wf : gwf G.
Notation n := (nrows (g_A G)).
Notation F := (mget (g_A G)).
Notation W := (mget (den_mat G KOff)).
(** after "offdiag": a True of has_negative_diagonal needs a self-edge and a negative edge *)
Lemma nd_true_why s v : Inv G s -> has (c_bool s KSelf) = true -> fst (has_negative_diagonal G s) = Val v -> v = true ->
  den_bool G KSelf = true /\ den_bool G (KNeg SP) = true.
Proof.
  intros HI Hself E ->.
  assert (ND : den_bool G KNegDiag = true -> den_bool G KSelf = true /\ den_bool G (KNeg SP) = true).
  { intros H. apply (negdiag_true_iff G wf) in H as (i & x & Hx & Hn). split.
    - simpl. apply negb_true_iff, Nat.eqb_neq. unfold dcount. assert (0 < cnt n (fun i => has (F i i))); [|lia]. apply cnt_pos. exists i. rewrite Hx. split; [|reflexivity].
      apply (F_lt G wf _ _ _ Hx).
    - apply (neg_true_iff G wf). exists i, i, x. split; [|exact Hn]. simpl. exact Hx. }
  destruct (nd_safe_dec G s) as [Hd|Hd].
  - pose proof (has_negative_diagonal_ok G wf true eq_refl s HI Hd) as H. unfold wp in H. destruct (has_negative_diagonal G s) as [o s']; cbn [fst] in *.
    destruct H as (-> & _). injection E as E. auto.
  - destruct (nd_unsafe G true s HI Hd) as (_ & Hn & _). split; [|exact Hn].
    destruct (Bool.bool_dec (den_bool G KSelf) true) as [H|H]; [exact H|apply not_true_is_false in H]. exfalso. apply Hd. apply noself_safe; assumption.
Qed.
Lemma nd_off3 {Y} (f : mat Z -> bool -> bool -> M Y) (R : outcome Y -> Prop) :
  (forall nd, (nd = true -> den_bool G KSelf = true /\ den_bool G (KNeg SP) = true) -> answers G (f (den_mat G KOff) nd (den_bool G (KNeg SM))) R) ->
  answers G (A <- get_offdiag G ;; nd <- has_negative_diagonal G ;; neg <- has_negative_edgesm false G ;; f A nd neg) R.
Proof.
  intros Hf s HI. pose proof (get_offdiag_ok G wf true s HI) as H. unfold wp in H. unfold bind.
  destruct (get_offdiag G s) as [o s1]. cbn [fst snd] in *. destruct H as (-> & HI1 & He & Hself & Hp).
  destruct (negdiag_any G wf s1 HI1 Hself) as (v & H1 & H2 & _ & H3 & H4). pose proof (nd_true_why s1 v HI1 Hself H1) as Hw.
  destruct (has_negative_diagonal G s1) as [o s2]; cbn [fst snd] in *; subst o.
  destruct (negm_ok G wf s2 H3 ltac:(apply (proj1 H4); assumption)) as (H5 & H6 & _). destruct (has_negative_edgesm false G s2) as [o s3]; cbn [fst snd] in *; subst o.
  apply Hf; [exact Hw|assumption].
Qed.
Lemma wpath_nodes l : forall u w, node G u -> wpath (weight G) (u :: l) w -> forall x, In x (u :: l) -> node G x.
Proof.
  induction l as [|v l IH]; intros u w Hu Hp x Hx.
  - destruct Hx as [<-|[]]. exact Hu.
  - inversion Hp; subst. destruct Hx as [<-|Hx]; [exact Hu|]. eapply IH; [|eassumption|exact Hx]. match goal with H : weight G u v = Some _ |- _ => apply weight_nodes in H; apply H end.
Qed.
(** failures without a negative cycle *)
Definition spurious (e : exn) : Prop :=
  (e = EUnbounded /\ g_iso G = true /\ den_bool G (KNeg SP) = true) \/
  ((e = EUnbounded \/ e = EValue) /\ g_iso G = false /\ den_bool G KSelf = true /\ den_bool G (KNeg SP) = true).
Lemma bf_path_any fuel u v src t : kid G u = Some src -> kid G v = Some t -> n <= fuel -> ~ neg_cycle_from F src ->
  answers G (bf_path fuel G u v) (fun o => path_ok G u v src t o \/ exists e, o = Raise e /\ spurious e).
Proof.
  intros Hu Hv Hf Hno. assert (Hs : src < n) by (eapply kid_lt; eassumption). assert (Ht : t < n) by (eapply kid_lt; eassumption).
  destruct (Bool.bool_dec (g_iso G) true) as [Hi|Hi]; [|apply not_true_is_false in Hi].
  - destruct (Bool.bool_dec (den_bool G (KNeg SP)) true) as [Hn|Hn]; [|apply not_true_is_false in Hn].
    + unfold bf_path. rewrite Hu, Hv. cbn [idx]. change (bind (ret src) ?f) with (f src). cbv beta. change (bind (ret t) ?f) with (f t). cbv beta zeta.
      eapply answers_bind_GV; [apply (is_iso_ok G true)|]. simpl den_bool. rewrite Hi.
      eapply answers_bind_GV; [apply (has_negative_edgesp_ok G wf true eq_refl)|]. rewrite Hn. cbn [negb]. apply answers_raise. right. exists EUnbounded. split; [reflexivity|]. left. auto.
    + assert (HP : forall i j x, F i j = Some x -> (0 <= x)%Z).
      { intros i j x Hx. destruct (Z_lt_le_dec x 0) as [L|L]; [|exact L]. assert (C : den_bool G (KNeg SP) = true); [|congruence].
        apply (neg_true_iff G wf). exists i, j, x. auto. }
      assert (HD : den_bool G KNegDiag = false).
      { apply not_true_is_false. rewrite (negdiag_true_iff G wf). intros (a & z & Ha & Hz). apply HP in Ha. lia. }
      intros s HI. destruct (bf_path_ok G wf fuel u v src t Hu Hv Hf Hno HD (fun _ => HP) s HI) as [H1 H2]; [left; assumption|]. auto.
  - unfold bf_path. rewrite Hu, Hv. cbn [idx]. change (bind (ret src) ?f) with (f src). cbv beta. change (bind (ret t) ?f) with (f t). cbv beta zeta.
    eapply answers_bind_GV; [apply (is_iso_ok G true)|]. simpl den_bool. rewrite Hi.
    eapply nd_off3 with (f := fun A nd neg => _). cbv beta. intros nd Hnd.
    pose proof (bfp_ok (den_mat G KOff) (off_wf G) (off_sq G) src) as HB. rewrite off_rows in *.
    assert (Hno' : ~ neg_cycle_from W src) by (intros C; apply Hno; apply (neg_strip F W (off_get G wf)); left; exact C).
    specialize (HB Hs Hno' t (negb (den_bool G (KNeg SM))) fuel Ht Hf ltac:(intros C; apply (nonneg_off G wf); apply negb_true_iff; exact C)).
    unfold d0 in HB. rewrite off_rows in HB.
    destruct (bfp_loop _ _ _ _ _ _ _ _) as [[[[b c'] d] p] cur]. destruct HB as (B1 & B2 & B3).
    assert (Hnb : ~ bad F W src).
    { intros Hb. apply Hno. apply (neg_strip F W (off_get G wf)). right. exact Hb. }
    destruct (reconstruct_ok G wf fuel u v src t p Hu Hv) as (l & El & Hl).
    + intros Hn Hr. apply B2 in Hn. apply Hn. apply (wreach_strip F W (off_get G wf)). assumption.
    + intros Hn. destruct (B3 Hn) as (l & w & E & Hw & Hsh & Hla). exists l, w. split; [exact E|]. split; [|split; [|exact Hla]].
      * clear -Hw wf. induction Hw; econstructor; [eapply (W_F F W (off_get G wf)); eassumption|assumption].
      * apply (shortest_strip F W (off_get G wf)); assumption.
    + assert (E : b && mVb (vinter Z.ltb (if b then bf_cand (den_mat G KOff) c' cur else cur) d) t = false) by (destruct b; [exact B1|reflexivity]).
      rewrite E, El. destruct nd; [|apply answers_ret; left; assumption]. destruct l as [|k l]; [apply answers_ret; left; assumption|].
      specialize (Hnd eq_refl). assert (SU : spurious EUnbounded) by (right; auto). assert (SV : spurious EValue) by (right; auto).
      cbn [andb negb]. destruct Hl as [[C _]|(l' & w & EL & Hla & Hp & Hsh)]; [discriminate|]. injection EL as -> ->.
      assert (Hn : forall x, In x (u :: l') -> node G x) by (apply (wpath_nodes l' u w); [apply node_kid; eauto|exact Hp]).
      eapply answers_bind_v; [apply answers_ret; reflexivity|].
      destruct (list_to_ids_ok G (u :: l') wf Hn) as (ids & Ei & _). rewrite Ei. eapply answers_bind_v; [apply answers_lifto; reflexivity|].
      eapply answers_bind_GV; [apply (get_diag_ok G wf true)|].
      assert (PO : path_ok G u v src t (Val (Some (u :: l')))) by (right; exists l', w; auto).
      destruct (0 <? nvals _); [apply answers_raise; right; exists EUnbounded; auto|].
      destruct (vindices _) as [|i0 [|i1 [|i2 r]]].
      * apply answers_ret. left. exact PO.
      * apply answers_raise. right. exists EValue. auto.
      * eapply answers_bind with (R := fun o => exists q, o = Val q).
        -- intros s HI. split.
           ++ unfold bfs_plain_ix. 
              pose proof (bfs_matrix_ok G wf true false s HI) as H. unfold wp in H. unfold bind. destruct (bfs_matrix G false s) as [o s']. cbn [fst snd] in *. destruct H as (-> & _). eexists. reflexivity.
           ++ unfold bfs_plain_ix. pose proof (bfs_matrix_ok G wf true false s HI) as H. unfold wp in H. unfold bind. destruct (bfs_matrix G false s) as [o s']. cbn [fst snd] in *. destruct H as (-> & H & _). exact H.
        -- intros q _. destruct (has _); [apply answers_raise; right; exists EUnbounded; auto|apply answers_ret; left; exact PO].
        -- intros e (q & C). discriminate.
      * apply answers_raise. right. exists EValue. auto.
Qed.
End K.

(** ** C16 in every consistent state of the cache, for a source from which no negative cycle is reachable: a path that is returned is a
    shortest one, [] stands for "no path", and a failure on nodes needs an iso-valued graph with negative weights, or a graph with both a
    self-loop and a negative edge *)
Theorem C16_returned (G : graph) (fuel : nat) (u v : nkey) : gwf G -> glen G <= fuel -> ~ neg_cycle_from (weight G) u ->
  answers G (nx_bf_path fuel G u v) (fun o =>
    match o with
    | Val (Some l) => node G u /\ node G v /\
        ((l = [] /\ ~ wreach (weight G) u v) \/
         exists l' w, l = u :: l' /\ List.last l u = v /\ wpath (weight G) l w /\ shortest (weight G) u v w)
    | Val None => False
    | Raise e => (e = EKey /\ ~ (node G u /\ node G v)) \/
        (e = EUnbounded /\ g_iso G = true /\ exists x y w, weight G x y = Some w /\ (w < 0)%Z) \/
        ((e = EUnbounded \/ e = EValue) /\ g_iso G = false /\ (exists x, edge G x x) /\ exists x y w, weight G x y = Some w /\ (w < 0)%Z)
    end).
Proof.
  intros wf Hf Hno. unfold nx_bf_path.
  destruct (kid G u) as [i|] eqn:Hu.
  2:{ unfold bf_path. rewrite Hu. intros s HI. split; [|exact HI]. left. split; [reflexivity|]. apply not_node in Hu. tauto. }
  destruct (kid G v) as [j|] eqn:Hv.
  2:{ unfold bf_path. rewrite Hu, Hv. intros s HI. split; [|exact HI]. left. split; [reflexivity|]. apply not_node in Hv. tauto. }
  assert (Nu : node G u) by (apply node_kid; eauto). assert (Nv : node G v) by (apply node_kid; eauto).
  assert (NE : den_bool G (KNeg SP) = true -> exists x y w, weight G x y = Some w /\ (w < 0)%Z).
  { intros H. apply (neg_true_iff G wf) in H as (a & b & w & Hw & L). simpl in Hw. destruct (F_lt G wf _ _ _ Hw) as [La Lb].
    destruct (kid_key G wf a La) as [x Hx]. destruct (kid_key G wf b Lb) as [y Hy]. exists x, y, w. rewrite (weight_ids G x y a b Hx Hy). auto. }
  assert (SE : den_bool G KSelf = true -> exists x, edge G x x).
  { intros H. simpl in H. apply negb_true_iff, Nat.eqb_neq in H. unfold dcount in H.
    destruct (proj1 (cnt_pos _ _) (proj1 (Nat.neq_0_lt_0 _) H)) as (a & La & Ha). destruct (mget (g_A G) a a) as [w|] eqn:E; [|discriminate].
    destruct (kid_key G wf a La) as [x Hx]. exists x, w. rewrite (weight_ids G x x a a Hx Hx). exact E. }
  intros s HI. destruct (bf_path_any G wf fuel u v i j Hu Hv Hf) with (s := s) as [[[[Ho Hr]|(l & w & Ho & Hl & Hp & Hsh)]|(e & Ho & He)] HI']; try assumption.
  - rewrite <- (negf_lift G wf u i Hu). assumption.
  - rewrite Ho. split; [|assumption]. split; [assumption|]. split; [assumption|]. left. split; [reflexivity|]. rewrite (wreach_lift G wf u i v Hu).
    intros (j' & Hj' & H). congruence.
  - rewrite Ho. split; [|assumption]. split; [assumption|]. split; [assumption|]. right. exists l, w. split; [reflexivity|]. split; [assumption|]. split; [assumption|].
    apply (shortest_lift G wf u i v w Hu). eauto.
  - rewrite Ho. split; [|assumption]. right. destruct He as [(-> & H1 & H2)|(H0 & H1 & H2 & H3)]; [left|right]; auto 6.
Qed.
(** so on a graph without self-loops, or without negative edges, the claim holds after every history *)
Theorem C16_every_history (G : graph) (fuel : nat) (u v : nkey) : gwf G -> glen G <= fuel -> ~ neg_cycle_from (weight G) u ->
  (forall x y w, weight G x y = Some w -> (0 <= w)%Z) \/ (g_iso G = false /\ forall x, ~ edge G x x) ->
  answers G (nx_bf_path fuel G u v) (fun o =>
    match o with
    | Val (Some l) => node G u /\ node G v /\
        ((l = [] /\ ~ wreach (weight G) u v) \/
         exists l' w, l = u :: l' /\ List.last l u = v /\ wpath (weight G) l w /\ shortest (weight G) u v w)
    | Val None => False
    | Raise e => e = EKey /\ ~ (node G u /\ node G v)
    end).
Proof.
  intros wf Hf Hno H. eapply answers_conseq; [apply (C16_returned G fuel u v wf Hf Hno)|]. intros [[l|]|e]; auto. intros [K|[(E & Hi & x & y & w & Hw & L)|(E & Hi & (x & Hx) & x' & y & w & Hw & L)]]; [exact K| |].
  - exfalso. destruct H as [H|[H _]]; [|congruence]. apply H in Hw. lia.
  - exfalso. destruct H as [H|[_ H]]; [apply H in Hw; lia|exact (H x Hx)].
Qed.
(** on an iso-valued graph with a negative weight every call on nodes raises, cycle or no cycle *)
Theorem C16_iso_exact (G : graph) (fuel : nat) (u v : nkey) : gwf G -> g_iso G = true -> (exists x y w, weight G x y = Some w /\ (w < 0)%Z) ->
  node G u -> node G v -> answers G (nx_bf_path fuel G u v) (eq (Raise EUnbounded)).
Proof.
  intros wf Hi (x & y & w & Hw & L) Nu Nv. apply node_kid in Nu as [i Hu]. apply node_kid in Nv as [j Hv].
  unfold nx_bf_path, bf_path. rewrite Hu, Hv. cbn [idx]. change (bind (ret i) ?f) with (f i). cbv beta. change (bind (ret j) ?f) with (f j). cbv beta zeta.
  eapply answers_bind_GV; [apply (is_iso_ok G true)|]. simpl den_bool. rewrite Hi.
  eapply answers_bind_GV; [apply (has_negative_edgesp_ok G wf true eq_refl)|].
  assert (Hn : den_bool G (KNeg SP) = true).
  { unfold weight in Hw. destruct (kid G x) as [a|]; [|discriminate]. destruct (kid G y) as [b|]; [|discriminate]. apply (neg_true_iff G wf). exists a, b, w. auto. }
  rewrite Hn. cbn [negb]. apply answers_raise. reflexivity.
Qed.
(** ** C17 in every consistent state: on undirected graphs, on graphs without self-loops, without negative edges or iso-valued ones the answer is right
    after every history (C17_refuted needs a DiGraph with a self-loop and a negative edge) *)
Lemma nd_fine G s : gwf G -> Inv G s -> g_iso G = true \/ (forall x, ~ edge G x x) \/ (forall x y w, weight G x y = Some w -> (0 <= w)%Z) -> nd_ok G s.
Proof.
  intros wf HI [H|[H|H]]; [left; exact H|right; left|right; right].
  - apply not_true_is_false. intros E. simpl in E. apply negb_true_iff, Nat.eqb_neq in E. unfold dcount in E.
    destruct (proj1 (cnt_pos _ _) (proj1 (Nat.neq_0_lt_0 _) E)) as (a & La & Ha). destruct (mget (g_A G) a a) as [w|] eqn:Ea; [|discriminate].
    destruct (kid_key G wf a La) as [x Hx]. apply (H x). exists w. rewrite (weight_ids G x x a a Hx Hx). exact Ea.
  - destruct (nd_safe_dec G s) as [Hd|Hd]; [exact Hd|]. exfalso. destruct (nd_unsafe G true s HI Hd) as (_ & Hn & _).
    apply (neg_true_iff G wf) in Hn as (a & b & w & Hw & L). simpl in Hw. destruct (F_lt G wf _ _ _ Hw) as [La Lb].
    destruct (kid_key G wf a La) as [x Hx]. destruct (kid_key G wf b Lb) as [y Hy]. specialize (H x y w). rewrite (weight_ids G x y a b Hx Hy) in H. apply H in Hw. lia.
Qed.
Theorem C17_every_history (G : graph) : gwf G ->
  g_dir G = false \/ g_iso G = true \/ (forall x, ~ edge G x x) \/ (forall x y w, weight G x y = Some w -> (0 <= w)%Z) ->
  answers G (nx_negative_edge_cycle G) (fun o => exists b, o = Val b /\ (b = true <-> exists u, neg_cycle (weight G) u)).
Proof.
  intros wf H s HI. assert (D : nd_ok G s \/ (g_dir G = false /\ ~ nd_safe G s)).
  { destruct H as [H|H]; [|left; apply nd_fine; assumption]. destruct (nd_safe_dec G s) as [Hd|Hd]; [left; right; right; exact Hd|right; auto]. }
  destruct D as [D|[Hdir Hd]].
  - destruct (C17_negative_edge_cycle_partial G wf s HI D) as [(b & E & Hb & _) HI']. split; [|exact HI']. eauto.
  - destruct (C17_never_missed G wf s HI) as [(b & E & Hb) HI']. split; [|exact HI']. exists b. split; [exact E|]. split; [|intros He; destruct b; [reflexivity|exfalso; exact (Hb eq_refl He)]].
    intros _. destruct (nd_unsafe G true s HI Hd) as (_ & Hn & _). apply (neg_true_iff G wf) in Hn as (i & j & w & Hw & L). simpl in Hw. destruct (F_lt G wf _ _ _ Hw) as [La Lb].
    destruct (kid_key G wf i La) as [x Hx]. destruct (kid_key G wf j Lb) as [y Hy].
    destruct (C17_negative_edge_cycle_partial G wf st0 (Inv_st0 G true) (nd_ok_st0 G)) as [(b0 & _ & H1 & H2) _]. apply H1. apply (H2 Hdir). exists x, y, w.
    rewrite (weight_ids G x y i j Hx Hy). auto.
Qed.
(** the state after has_negative_edges+ (in which C16_path_partial does not apply) on a graph with a negative edge *)
Definition g_ph : graph := mkg true 3 [(0, 1, 2%Z); (1, 2, (-1)%Z); (0, 2, 3%Z)].
Example C16_every_history_ex : let s := snd (has_negative_edgesp g_ph st0) in gwf g_ph /\ glen g_ph <= 3 /\ Inv g_ph s /\ ~ neg_cycle_from (weight g_ph) (KI 0) /\
  g_iso g_ph = false /\ (forall x, ~ edge g_ph x x) /\ fst (nx_bf_path 3 g_ph (KI 0) (KI 2) s) = Val (Some [KI 0; KI 1; KI 2]).
Proof.
  cbv zeta. assert (wf : gwf g_ph) by apply mkg_wf. split; [exact wf|]. split; [apply Nat.leb_le; reflexivity|].
  split; [|split; [|split; [reflexivity|split; [|vm_compute; reflexivity]]]].
  - pose proof (has_negative_edgesp_ok g_ph wf true eq_refl st0 (Inv_st0 _ true)) as H. apply H.
  - pose proof (C14_single_source g_ph (KI 0) wf ltac:(intros C; vm_compute in C; discriminate) st0 (Inv_st0 _ true)) as [H _].
    destruct (fst (nx_single_source_bf g_ph (KI 0) st0)) as [m|e] eqn:E; [apply H|]. vm_compute in E. discriminate.
  - intros x (w & Hw). assert (N : node g_ph x) by (apply weight_nodes in Hw; apply Hw). simpl in N. destruct N as [<-|[<-|[<-|[]]]]; vm_compute in Hw; discriminate.
Qed.
Example C16_iso_exact_ex : let G := mkg_iso true 3 [(0, 1)] (-1) in gwf G /\ g_iso G = true /\ (exists x y w, weight G x y = Some w /\ (w < 0)%Z) /\ node G (KI 0) /\ node G (KI 1) /\
  ~ neg_cycle_from (weight G) (KI 0).
Proof.
  cbv zeta. split; [apply mkg_iso_wf|]. split; [reflexivity|]. split; [exists (KI 0), (KI 1), (-1)%Z; split; [vm_compute; reflexivity|lia]|].
  split; [vm_compute; auto|]. split; [vm_compute; auto|]. exact (proj1 (proj2 C16_iso_refuted)).
Qed.
(** an undirected graph with a positive self-loop and a negative edge, where has_negative_diagonal is answered wrongly *)
Definition g_un : graph := mkg false 3 [(0, 0, 1%Z); (0, 1, 2%Z); (1, 2, (-1)%Z)].
Example C17_every_history_ex : let s := snd (has_negative_edgesp g_un st0) in gwf g_un /\ g_dir g_un = false /\ Inv g_un s /\ ~ nd_safe g_un s /\
  fst (nx_negative_edge_cycle g_un s) = Val true.
Proof.
  cbv zeta. assert (wf : gwf g_un) by apply mkg_wf. split; [exact wf|]. split; [reflexivity|]. split; [|split; [|vm_compute; reflexivity]].
  - pose proof (has_negative_edgesp_ok g_un wf true eq_refl st0 (Inv_st0 _ true)) as H. apply H.
  - vm_compute. intuition congruence.
Qed.
Print Assumptions C16_returned.
Print Assumptions C16_every_history.
Print Assumptions C16_iso_exact.
Print Assumptions C17_every_history.
