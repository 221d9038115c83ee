(** * C20/C21: sessions of transitivity and average_clustering calls.
    What a whole-graph average answers after any history, although its cache key omits [weight] *)
From Verif Require Import Base BaseProofs Model_Graph Model_Cache Spec_Cache CacheMath CacheProofs CacheProofs2
  Model_Keys Spec KeyProofs Spec_Run RunProofs Model_Operators OperatorProofs Spec_Count Model_Measures CountProofs Props_Cuts
  Model_Cluster ClusterMath ClusterMath2 Spec_Cluster ClusterProofs Props_Cluster Spec_Containers Props_Histories Concrete.
From Coq Require Import QArith Qcanon.
Open Scope nat_scope.

(** ** Specification *)
(** the calls of a session *)
Inductive ccall := CTransitivity | CAverage (a : nodes_arg) (weighted count_zeros : bool).
(** [first cz]: the [weight is not None] of the first whole-graph average_clustering with that [count_zeros]
    that returned *)
Definition firsts := bool -> option bool.
Section Spec.
Variable G : graph.
Variable mhr : bool.
Variable cbrt : Qc -> Qc.
Variable m : Z.
(** the mean of the (weighted) coefficients over a list *)
Definition average_of (weighted count_zeros : bool) (l : list nkey) : Qc :=
  mean G count_zeros (clustering_at G (coef G cbrt (if weighted then Some m else None))) l.
Definition averaged (a : nodes_arg) : list nkey := match a with Nodes l => members G (fun u => mem u l) | _ => gnodes G end.
Definition cluster_step (f : firsts) (c : ccall) (r : outcome Qc) (f' : firsts) : Prop :=
  match c with
  | CTransitivity => r = Val (transitivity_of G) /\ forall b, f' b = f b
  | CAverage a weighted cz =>
      let whole := match a with AllNodes => true | _ => false end in
      match r with
      | Val q =>
          mean_count G cz (averaged a) <> 0 /\
          (* a whole-graph average is that of the first such call; one over a list honours its own [weight] *)
          q = average_of (if whole then oget weighted (f cz) else weighted) cz (averaged a) /\
          forall b, f' b = if whole && Bool.eqb b cz then Some (oget weighted (f cz)) else f b
      | Raise e =>
          (forall b, f' b = f b) /\ (whole = true -> f cz = None) /\
          ((e = EZeroDiv /\ mean_count G cz (averaged a) = 0) \/
           (e = EKey /\ exists l u, a = Nodes l /\ In u l /\ ~ node G u) \/
           (e = EAttr /\ weighted = true /\ mhr = false /\ ~ loop_free G))
      end
  end.
(** the session: every call starts from its own state of the property cache (anything may have been computed in
    between), the values of earlier transitivity and average_clustering calls are carried along in [x] *)
Definition cluster_call (c : ccall) (x : xcache) (s : st) : outcome Qc * xcache :=
  match fst (match c with CTransitivity => nx_transitivity G x s | CAverage a w cz => nx_average_clustering mhr cbrt G a w cz x s end) with
  | Val (q, x') => (Val q, x')
  | Raise e => (Raise e, x)
  end.
Fixpoint cluster_session (x : xcache) (l : list (ccall * st)) : list (outcome Qc) :=
  match l with [] => [] | (c, s) :: l' => let (r, x') := cluster_call c x s in r :: cluster_session x' l' end.
End Spec.

(** ** Proof *)
Section H.
Variable G : graph.
Hypothesis wf : gwf G.
Variable mhr : bool.
Variable cbrt : Qc -> Qc.
Variable m : Z.
Hypothesis Hm : max_weight G m.
Hypothesis LF : g_dir G = true -> loop_free G.

Definition x_known (f : firsts) (x : xcache) : Prop :=
  trans_cached G x /\ forall cz, match f cz with
    | None => x_avg x cz = None
    | Some w => mean_count G cz (gnodes G) <> 0 /\ x_avg x cz = Some (average_of G cbrt m w cz (gnodes G))
    end.
Lemma scale_of w : scale G w (if w then Some m else None).
Proof. destruct w; [split; [reflexivity|exact Hm]|reflexivity]. Qed.
Lemma avg_core cz w v (P : nkey -> bool) :
  (v = None /\ (forall u, node G u -> P u = true) \/ omap nvals v = Some (List.length (members G P))) ->
  (forall u i, kid G u = Some i -> inm (omap mS v) i = P u) ->
  answers G (average_clustering mhr cbrt G cz w v) (fun o => match o with
    | Val q => mean_count G cz (members G P) <> 0 /\ q = average_of G cbrt m w cz (members G P)
    | Raise e => (e = EZeroDiv /\ mean_count G cz (members G P) = 0) \/ (e = EAttr /\ w = true /\ mhr = false /\ ~ loop_free G) end).
Proof.
  intros Hnm HP. unfold average_clustering. eapply answers_bind; [apply (clustering_any_ok G wf mhr cbrt w _ LF)| |].
  - cbv beta iota. intros c (mx' & Hs' & Hc). rewrite (wok_fun G _ _ _ Hs' (scale_of w)) in Hc. apply answers_lifto.
    assert (Hnm' : omap nvals v = None /\ (forall u, node G u -> P u = true) \/ omap nvals v = Some (List.length (members G P))).
    { destruct Hnm as [[-> H]|H]; [left; split; [reflexivity|assumption]|right; assumption]. }
    rewrite (average_eq G wf cbrt c _ P _ _ cz Hc HP Hnm'). cbv zeta. unfold average_of.
    destruct (Nat.eqb_spec (mean_count G cz (members G P)) 0); auto.
  - cbv beta iota. intros e [-> [[-> H]|(-> & H & H')]]; [|auto]. exfalso. destruct Hm as [(u & v' & H1 & _) _]. rewrite H in H1. discriminate.
Qed.
Lemma members_all : members G (fun _ => true) = gnodes G.
Proof. unfold members. induction (gnodes G) as [|y l0 IH]; [reflexivity|]; cbn [filter]; f_equal; assumption. Qed.
Lemma nonempty : glen G <> 0.
Proof.
  intros E. destruct Hm as [(u & v & _ & H) _]. unfold weight in H. destruct (kid G u) as [i|] eqn:Ei; [|discriminate].
  pose proof (kid_lt G wf _ _ Ei) as L. unfold glen in E. lia.
Qed.
Lemma cluster_call_ok f x c s : Inv G s -> (forall k w cz, c <> CAverage (OneNode k) w cz) -> x_known f x ->
  let (r, x') := cluster_call G mhr cbrt c x s in exists f', cluster_step G mhr cbrt m f c r f' /\ x_known f' x'.
Proof.
  intros HI Hc [Ht Hk]. unfold cluster_call. destruct c as [|a w cz].
  - destruct (C20_transitivity G wf x Ht s HI) as [(x' & E & T & A) _]. rewrite E. exists f. split; [split; reflexivity|]. split; [exact T|]. intros cz. rewrite A. apply Hk.
  - unfold nx_average_clustering. destruct (Nat.eqb_spec (glen G) 0) as [E|_]; [destruct (nonempty E)|].
    destruct a as [|k|l]; [|destruct (Hc k w cz eq_refl)|].
    + cbn [arg_vec]. specialize (Hk cz) as Hz. cbn [cluster_step averaged]. destruct (f cz) as [w0|] eqn:Ef.
      * destruct Hz as [Hz1 Hz2]. unfold bind. cbn [ret fst snd]. rewrite Hz2. cbn [fst]. exists f. split.
        -- cbn [oget]. split; [assumption|]. split; [reflexivity|]. intros b. cbn [andb]. destruct (Bool.eqb b cz) eqn:Eb; [|reflexivity]. apply Bool.eqb_prop in Eb as ->. assumption.
        -- split; assumption.
      * destruct (avg_core cz w None (fun _ => true) ltac:(left; auto) ltac:(intros; reflexivity) s HI) as [H _].
        unfold bind. cbn [ret fst snd]. rewrite Hz. destruct (average_clustering mhr cbrt G cz w None s) as [[q|e] s']; cbn [fst] in H |- *.
        -- rewrite members_all in H. destruct H as [H1 H2]. exists (fun b => if Bool.eqb b cz then Some w else f b).
           cbn [oget]. split; [split; [assumption|]; split; [assumption|]; intros b; reflexivity|].
           split; [exact Ht|]. intros b. cbn [x_avg]. destruct (Bool.eqb b cz) eqn:Eb; [|apply Hk]. apply Bool.eqb_prop in Eb as ->. rewrite <- H2. split; [assumption|reflexivity].
        -- rewrite members_all in H. exists f. split; [|split; assumption]. split; [reflexivity|]. split; [auto|]. destruct H as [H|H]; auto.
    + cbn [arg_vec]. unfold list_vec_of. cbn [cluster_step averaged]. destruct (list_vec_ok G wf l) as [(v & E1 & Hv & Hn)|(E1 & u & Hu & Nu)]; rewrite E1.
      * destruct (avg_core cz w (Some v) (fun u => mem u l)
           ltac:(right; cbn [omap]; f_equal; apply (svec_nvals G wf); assumption)
           ltac:(intros u i Hu; cbn [omap inm]; unfold mS; apply (svec_has G _ _ _ _ Hv Hu)) s HI) as [H _].
        unfold bind, lifto. cbn [ret fst snd]. destruct (average_clustering mhr cbrt G cz w (Some v) s) as [[q|e] s']; cbn [fst] in H |- *.
        -- exists f. split; [|split; assumption]. destruct H as [H1 H2]. split; [assumption|]. split; [assumption|]. reflexivity.
        -- exists f. split; [|split; assumption]. split; [reflexivity|]. split; [discriminate|]. destruct H as [H|H]; auto.
      * unfold bind, lifto. cbn [ret fst snd]. exists f. split; [|split; assumption]. split; [reflexivity|]. split; [discriminate|]. right. left. split; [reflexivity|]. exists l, u. auto.
Qed.
(** every session on an undirected graph, or a directed one without self-loops, with an edge between two nodes
    (m = 0 would be a division by zero, which the code turns into inf or nan) *)
Theorem C21_average_every_history l : m <> 0%Z -> (forall c s, In (c, s) l -> Inv G s /\ forall k w cz, c <> CAverage (OneNode k) w cz) ->
  run_of (cluster_step G mhr cbrt m) (fun _ => None) (map fst l) (cluster_session G mhr cbrt x0 l).
Proof.
  assert (H : forall l x f, (forall c s, In (c, s) l -> Inv G s /\ forall k w cz, c <> CAverage (OneNode k) w cz) -> x_known f x ->
    run_of (cluster_step G mhr cbrt m) f (map fst l) (cluster_session G mhr cbrt x l)).
  { induction l0 as [|[c s] l0 IH]; intros x f Hl Hx; [constructor|]. cbn [map fst cluster_session].
    destruct (Hl c s (or_introl eq_refl)) as [HI Hc]. pose proof (cluster_call_ok f x c s HI Hc Hx) as H.
    destruct (cluster_call G mhr cbrt c x s) as [r x']. destruct H as (f' & H1 & H2). econstructor; [exact H1|]. apply IH; [|exact H2].
    intros c' s' Hin. apply Hl. right. exact Hin. }
  intros _ Hl. apply H; [exact Hl|]. split; [discriminate|]. intros cz. reflexivity.
Qed.
End H.
(** the defect of [C21_average_history_refuted] in a session: unweighted, weighted, weighted over a list,
    weighted with the other [count_zeros] *)
Example C21_every_ex : gwf g_881 /\ max_weight g_881 8 /\
  cluster_session g_881 true cb x0
    [(CAverage AllNodes false true, st0); (CAverage AllNodes true true, st0); (CAverage (Nodes (gnodes g_881)) true true, st0);
     (CAverage AllNodes true false, st0); (CTransitivity, st0)] =
    [Val 1%Qc; Val 1%Qc; Val (Q2Qc (1 # 2)); Val (Q2Qc (1 # 2)); Val 1%Qc].
Proof.
  split; [apply mkg_wf|]. split; [apply C21_average_history_refuted|].
  assert (E : forall l l' : list (outcome Qc), map (fun o => match o with Val q => Val (this q) | Raise e => Raise e end) l =
                            map (fun o => match o with Val q => Val (this q) | Raise e => Raise e end) l' -> l = l').
  { induction l as [|[q|e] l IH]; intros [|[q'|e'] l'] H; cbn [map] in H; try discriminate; [reflexivity| |];
      injection H as H1 H2; f_equal; try (apply IH; assumption); f_equal; [|assumption]. apply Qc_is_canon. rewrite H1. reflexivity. }
  apply E. vm_compute. reflexivity.
Qed.
Print Assumptions C21_average_every_history.
