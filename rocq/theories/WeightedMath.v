(** * Weighted walks, Bellman-Ford relaxation and its invariants (mathematics only) *)
From Verif Require Import Base BaseProofs Model_Graph Model_Keys Spec Spec_Weighted BfsProofs Walks.
Local Open Scope Z_scope.

Section G.
Context {X : Type}.
Variable W : X -> X -> option Z.
Lemma wwalk_app x d w y d' w' z : wwalk W x d w y -> wwalk W y d' w' z -> wwalk W x (d + d') (w + w') z.
Proof.
  intros H. induction 1 as [|d' w' y' v z H' IH HW].
  - rewrite Nat.add_0_r, Z.add_0_r. assumption.
  - rewrite Nat.add_succ_r, Z.add_assoc. econstructor; eassumption.
Qed.
Lemma wwalk_one x y v : W x y = Some v -> wwalk W x 1 v y.
Proof. intros H. change v with (0 + v). econstructor; [constructor|assumption]. Qed.
Lemma wwalk_split x z a : forall b w, wwalk W x (a + b) w z ->
  exists y w1 w2, wwalk W x a w1 y /\ wwalk W y b w2 z /\ w = w1 + w2.
Proof.
  intros b. revert z. induction b as [|b IH]; intros z w H.
  - rewrite Nat.add_0_r in H. exists z, w, 0. repeat split; [assumption|constructor|lia].
  - rewrite Nat.add_succ_r in H. inversion H as [|d w0 y v z' H1 H2]; subst.
    apply IH in H1 as (y' & w1 & w2 & H3 & H4 & ->). exists y', w1, (w2 + v).
    repeat split; [assumption|econstructor; eassumption|lia].
Qed.
Lemma wwalk_fun x d w y : wwalk W x d w y ->
  exists (f : nat -> X) (g : nat -> Z), f 0%nat = x /\ f d = y /\ g 0%nat = 0 /\ g d = w /\
    forall k, (k < d)%nat -> W (f k) (f (S k)) = Some (g (S k) - g k).
Proof.
  induction 1 as [|d w y v z _ (f & g & F0 & Fd & G0 & Gd & Hf) HW].
  - exists (fun _ => x), (fun _ => 0). repeat split; intros; lia.
  - exists (fun k => if (k <=? d)%nat then f k else z), (fun k => if (k <=? d)%nat then g k else w + v).
    split; [assumption|]. split; [destruct (Nat.leb_spec (S d) d); [lia|reflexivity]|]. split; [assumption|].
    split; [destruct (Nat.leb_spec (S d) d); [lia|reflexivity]|].
    intros k Hk. destruct (Nat.leb_spec k d); [|lia]. destruct (Nat.leb_spec (S k) d).
    + apply Hf. lia.
    + assert (k = d) by lia. subst. rewrite HW. f_equal. lia.
Qed.
Lemma fun_wwalk (f : nat -> X) (g : nat -> Z) d : (forall k, (k < d)%nat -> W (f k) (f (S k)) = Some (g (S k) - g k)) ->
  forall i j, (i <= j)%nat -> (j <= d)%nat -> wwalk W (f i) (j - i) (g j - g i) (f j).
Proof.
  intros Hf i j Hij. induction Hij as [|j Hij IH]; intros Hj.
  - rewrite Nat.sub_diag, Z.sub_diag. constructor.
  - replace (S j - i)%nat with (S (j - i)) by lia. replace (g (S j) - g i) with ((g j - g i) + (g (S j) - g j)) by lia.
    econstructor; [apply IH; lia|]. apply Hf. lia.
Qed.
Lemma wreach_trans x y z : wreach W x y -> wreach W y z -> wreach W x z.
Proof. intros (d & w & H) (d' & w' & H'). exists (d + d')%nat, (w + w'). eapply wwalk_app; eassumption. Qed.
Lemma wreach_refl x : wreach W x x. Proof. exists 0%nat, 0. constructor. Qed.
Lemma neg_from_trans x y : wreach W x y -> neg_cycle_from W y -> neg_cycle_from W x.
Proof. intros H (z & Hz & Hn). exists z. split; [eapply wreach_trans; eassumption|assumption]. Qed.
Lemma wwalk_mono (W' : X -> X -> option Z) x d w y : (forall a b v, W a b = Some v -> W' a b = Some v) -> wwalk W x d w y -> wwalk W' x d w y.
Proof. intros H. induction 1; econstructor; eauto. Qed.
Lemma wwalk_walk x d w y : wwalk W x d w y -> walk (fun a b => exists v, W a b = Some v) x d y.
Proof. induction 1; econstructor; eauto. Qed.
Lemma walk_wwalk x d y : walk (fun a b => exists v, W a b = Some v) x d y -> exists w, wwalk W x d w y.
Proof. induction 1 as [|d y z _ (w & IH) (v & Hv)]; [exists 0; constructor|]. exists (w + v). econstructor; eassumption. Qed.
Lemma wwalk_nonneg x d w y : (forall a b v, W a b = Some v -> 0 <= v) -> wwalk W x d w y -> 0 <= w.
Proof. intros H. induction 1 as [|d w y v z _ IH HW]; [lia|]. apply H in HW. lia. Qed.
Lemma shortest_unique x y w w' : shortest W x y w -> shortest W x y w' -> w = w'.
Proof. intros [(d & H1) H2] [(d' & H3) H4]. apply H2 in H3. apply H4 in H1. lia. Qed.
(** paths as lists *)
Lemma wpath_snoc l w x z v : wpath W (l ++ [x]) w -> W x z = Some v -> wpath W (l ++ [x; z]) (w + v).
Proof.
  revert w. induction l as [|a l IH]; intros w H HW; simpl in *.
  - inversion H; subst. rewrite Z.add_0_l. replace v with (v + 0) by lia. econstructor; [assumption|constructor].
  - destruct l as [|b l]; simpl in *.
    + inversion H as [|? ? ? v' w' H1 H2]; subst. rewrite <- Z.add_assoc. econstructor; [assumption|]. apply IH; assumption.
    + inversion H as [|? ? ? v' w' H1 H2]; subst. rewrite <- Z.add_assoc. econstructor; [assumption|]. apply IH; assumption.
Qed.
Lemma wpath_wwalk l w x y : wpath W (x :: l) w -> List.last (x :: l) x = y -> wwalk W x (List.length l) w y.
Proof.
  revert w x. induction l as [|b l IH]; intros w x H Hl.
  - inversion H; subst. simpl. constructor.
  - inversion H as [|? ? ? v' w' H1 H2]; subst. change (List.length (b :: l)) with (1 + List.length l)%nat.
    eapply wwalk_app; [apply wwalk_one; eassumption|]. apply IH; [assumption|].
    cbn [List.last]. destruct l; [reflexivity|]. clear. revert x0. induction l as [|? l IH]; [reflexivity|]. intros. cbn [List.last] in *. destruct l; auto.
Qed.
End G.

Section C.
Variable n : nat.
Variable W : nat -> nat -> option Z.
Hypothesis Wlt : forall a b v, W a b = Some v -> (a < n)%nat /\ (b < n)%nat.
(** removing a cycle that is not negative *)
Lemma walk_cut0 x d w y : (x < n)%nat -> wwalk W x d w y ->
  neg_cycle_from W x \/ exists d' w', (d' < n)%nat /\ w' <= w /\ wwalk W x d' w' y.
Proof.
  intros Hx. revert w. induction d as [d IH] using lt_wf_ind. intros w H.
  destruct (Nat.lt_ge_cases d n) as [Hd|Hd]; [right; exists d, w; repeat split; [assumption|lia|assumption]|].
  destruct (wwalk_fun W _ _ _ _ H) as (f & g & F0 & Fd & G0 & Gd & Hf).
  destruct (pigeonhole n f) as (i & j & Hij & Hj & E).
  { intros k Hk. destruct k as [|k]; [rewrite F0; assumption|]. apply (Wlt _ _ _ (Hf k ltac:(lia))). }
  pose proof (fun_wwalk W f g d Hf 0 i ltac:(lia) ltac:(lia)) as H1.
  pose proof (fun_wwalk W f g d Hf i j ltac:(lia) ltac:(lia)) as H2.
  pose proof (fun_wwalk W f g d Hf j d ltac:(lia) ltac:(lia)) as H3.
  rewrite F0, G0 in H1. rewrite Fd, Gd in H3. rewrite <- E in H2, H3.
  destruct (Z.lt_ge_cases (g j - g i) 0) as [Hc|Hc].
  { left. exists (f i). split; [do 2 eexists; exact H1|]. do 2 eexists. split; eassumption. }
  destruct (IH (i - 0 + (d - j))%nat ltac:(lia) _ (wwalk_app W _ _ _ _ _ _ _ H1 H3)) as [Hneg|(d' & w' & H4 & H5 & H6)]; [left; assumption|].
  right. exists d', w'. repeat split; [assumption|lia|assumption].
Qed.
End C.

Section B.
Variable n : nat.
Variable W : nat -> nat -> option Z.
Hypothesis Wlt : forall a b v, W a b = Some v -> (a < n)%nat /\ (b < n)%nat.

(** removing a cycle that is not negative *)
Definition wwalk_cut := walk_cut0 n W Wlt.

(** ** Bellman-Ford *)
(** initial values and cutoff *)
Definition okc (c : option Z) (x : Z) : Prop := match c with None => True | Some c => x <= c end.
Definition cutf (c : option Z) (o : option Z) : option Z :=
  match o, c with Some x, Some c => if x <=? c then Some x else None | o, _ => o end.
Lemma cutf_some c o x : cutf c o = Some x <-> o = Some x /\ okc c x.
Proof.
  unfold cutf, okc. destruct o as [y|]; [|destruct c; intuition discriminate]. destruct c as [c|]; [|intuition].
  destruct (Z.leb_spec y c); split.
  - intros [= ->]. auto.
  - tauto.
  - discriminate.
  - intros [[= ->] ?]. lia.
Qed.
Variable S0 : nat -> option Z.
Hypothesis S0lt : forall i z, S0 i = Some z -> (i < n)%nat.
(** walks from the initial values all of whose steps stay within the cutoff *)
Inductive bw (c : option Z) : nat -> Z -> nat -> Prop :=
| bw0 j z : S0 j = Some z -> bw c 0 z j
| bwS d w i v j : bw c d w i -> W i j = Some v -> okc c (w + v) -> bw c (S d) (w + v) j.
Lemma bw_lt c d w j : bw c d w j -> (j < n)%nat.
Proof. destruct 1; [eapply S0lt; eassumption|eapply Wlt; eassumption]. Qed.
Lemma bw_mono c c' d w j : (forall x, okc c' x -> okc c x) -> bw c' d w j -> bw c d w j.
Proof. intros H. induction 1; econstructor; eauto. Qed.
Lemma bw_wwalk c d w j : bw c d w j -> exists i z w', S0 i = Some z /\ wwalk W i d w' j /\ w = z + w'.
Proof.
  induction 1 as [j z H|d w i v j _ (a & z & w' & H1 & H2 & ->) HW _].
  - exists j, z, 0. repeat split; [assumption|constructor|lia].
  - exists a, z, (w' + v). repeat split; [assumption|econstructor; eassumption|lia].
Qed.
Lemma wwalk_bw i z d w j : S0 i = Some z -> wwalk W i d w j -> bw None d (z + w) j.
Proof.
  intros H. induction 1 as [|d w y v k _ IH HW].
  - rewrite Z.add_0_r. constructor. assumption.
  - rewrite Z.add_assoc. econstructor; [eassumption|assumption|exact I].
Qed.
(** the candidates of one relaxation and those that improve *)
Definition cand (c : option Z) (cur : nat -> option Z) (j : nat) : option Z :=
  cutf c (ored Z.min n (fun i => oboth Z.add (cur i) (W i j))).
Definition better (x d : option Z) : option Z :=
  match x, d with Some x, Some y => if x <? y then Some x else None | x, None => x | None, _ => None end.
Definition onew (x d : option Z) : option Z := match x with Some x => Some x | None => d end.
Lemma cand_le c cur i j x v : cur i = Some x -> W i j = Some v -> okc c (x + v) -> exists y, cand c cur j = Some y /\ y <= x + v.
Proof.
  intros H1 H2 H3. assert (Hi := proj1 (Wlt _ _ _ H2)). unfold cand.
  destruct (ored Z.min n (fun i => oboth Z.add (cur i) (W i j))) as [y|] eqn:E.
  - pose proof (proj2 (proj1 (ored_min_some _ _ _) E) i (x + v) Hi) as H. cbv beta in H. rewrite H1, H2 in H. specialize (H eq_refl).
    exists y. split; [|assumption]. apply cutf_some. split; [reflexivity|]. destruct c; simpl in *; lia.
  - rewrite ored_none in E. specialize (E i Hi). rewrite H1, H2 in E. discriminate.
Qed.
Lemma cand_from c cur j y : cand c cur j = Some y -> okc c y /\ exists i x v, (i < n)%nat /\ cur i = Some x /\ W i j = Some v /\ y = x + v.
Proof.
  intros H. apply cutf_some in H as [H Hc]. split; [assumption|]. apply ored_min_some in H as [(i & Hi & H) _].
  destruct (cur i) as [x|] eqn:E1; [|discriminate]. destruct (W i j) as [v|] eqn:E2; [|discriminate]. injection H as <-. eauto 10.
Qed.
(** the invariant after k rounds; [c0] is the initial cutoff, [c] the present one *)
Record BI (c0 c : option Z) (k : nat) (d cur : nat -> option Z) : Prop := {
  b_c : forall x, okc c x -> okc c0 x;
  b_sound : forall j x, d j = Some x -> exists m, (m <= k)%nat /\ bw c0 m x j;
  b_low : forall m w j, (m <= k)%nat -> bw c m w j -> exists x, d j = Some x /\ x <= w;
  b_cur : forall i x, cur i = Some x -> d i = Some x;
  b_done : forall i x j v, d i = Some x -> cur i = None -> W i j = Some v -> okc c (x + v) -> exists y, d j = Some y /\ y <= x + v }.
Lemma BI0 c : BI c c 0 S0 S0.
Proof.
  constructor; auto.
  - intros j x H. exists 0%nat. split; [lia|]. constructor. assumption.
  - intros m w j Hm H. assert (m = 0)%nat by lia. subst. inversion H; subst. eexists. split; [eassumption|lia].
  - congruence.
Qed.
(** a smaller cutoff *)
Lemma BI_cut c0 c c' k d cur : (forall x, okc c' x -> okc c x) -> BI c0 c k d cur -> BI c0 c' k d cur.
Proof.
  intros Hc [H1 H2 H3 H4 H5]. constructor; auto.
  - intros m w j Hm H. eapply H3; [eassumption|]. eapply bw_mono; eassumption.
  - intros i x j v A B C D. eapply H5; eauto.
Qed.
Lemma better_some x d y : better x d = Some y <-> x = Some y /\ (forall z, d = Some z -> y < z).
Proof.
  unfold better. destruct x as [x|]; [|split; [destruct d; discriminate|intros [? _]; discriminate]].
  destruct d as [z|]; [|split; [intros [= ->]; split; [reflexivity|discriminate]|tauto]].
  destruct (Z.ltb_spec x z); split.
  - intros [= ->]. split; [reflexivity|]. intros ? [= <-]. assumption.
  - tauto.
  - discriminate.
  - intros [[= ->] H']. specialize (H' z eq_refl). lia.
Qed.
Lemma better_none x d y : better x d = None -> x = Some y -> exists z, d = Some z /\ z <= y.
Proof.
  unfold better. intros H ->. destruct d as [z|]; [|discriminate]. destruct (Z.ltb_spec y z); [discriminate|]. eauto.
Qed.
Lemma BI_step c0 c k d cur : BI c0 c k d cur ->
  BI c0 c (S k) (fun j => onew (better (cand c cur j) (d j)) (d j)) (fun j => better (cand c cur j) (d j)).
Proof.
  intros [H1 H2 H3 H4 H5].
  assert (Dle : forall j x, d j = Some x -> exists y, onew (better (cand c cur j) (d j)) (d j) = Some y /\ y <= x).
  { intros j x Hj. destruct (better (cand c cur j) (d j)) as [y|] eqn:E; simpl.
    - exists y. split; [reflexivity|]. apply better_some in E as [_ E]. specialize (E x Hj). lia.
    - exists x. split; [assumption|lia]. }
  assert (Relax : forall i x j v, d i = Some x -> W i j = Some v -> okc c (x + v) -> exists y, onew (better (cand c cur j) (d j)) (d j) = Some y /\ y <= x + v).
  { intros i x j v Hi Hv Hc. destruct (cur i) as [x'|] eqn:Ec.
    - pose proof (H4 _ _ Ec) as Hx. rewrite Hi in Hx. injection Hx as <-.
      destruct (cand_le c cur i j x v Ec Hv Hc) as (y & Hy & Hle).
      destruct (better (cand c cur j) (d j)) as [z|] eqn:E; simpl.
      + apply better_some in E as [E _]. exists z. split; [reflexivity|]. rewrite Hy in E. injection E as <-. assumption.
      + destruct (better_none _ _ _ E Hy) as (z & Hz & Hle'). exists z. split; [assumption|lia].
    - destruct (H5 _ _ _ _ Hi Ec Hv Hc) as (y & Hy & Hle). destruct (Dle _ _ Hy) as (z & Hz & Hle'). exists z. split; [assumption|lia]. }
  constructor.
  - assumption.
  - intros j x. destruct (better (cand c cur j) (d j)) as [y|] eqn:E; simpl.
    + intros [= ->]. apply better_some in E as [E _]. apply cand_from in E as (Hc & i & x' & v & Hi & Hx' & Hv & ->).
      destruct (H2 _ _ (H4 _ _ Hx')) as (m & Hm & Hb). exists (S m). split; [lia|]. econstructor; eauto.
    + intros Hj. destruct (H2 _ _ Hj) as (m & Hm & Hb). exists m. split; [lia|assumption].
  - intros m w j Hm Hb. inversion Hb as [j' z Hz|m' w' i v j' Hb' Hv Hc]; subst.
    + destruct (H3 0%nat w j ltac:(lia) Hb) as (x & Hx & Hle). destruct (Dle _ _ Hx) as (y & Hy & Hle'). exists y. split; [assumption|lia].
    + destruct (H3 m' w' i ltac:(lia) Hb') as (x & Hx & Hle).
      destruct (Relax i x j v Hx Hv) as (y & Hy & Hle'); [destruct c; simpl in *; lia|]. exists y. split; [assumption|lia].
  - intros i x H. rewrite H. reflexivity.
  - intros i x j v Hi Hn Hv Hc. rewrite Hn in Hi. simpl in Hi. eapply Relax; eassumption.
Qed.
(** nothing improves any more *)
Definition closed (c : option Z) (d : nat -> option Z) : Prop :=
  (forall i z, S0 i = Some z -> exists x, d i = Some x /\ x <= z) /\
  forall i x j v, d i = Some x -> W i j = Some v -> okc c (x + v) -> exists y, d j = Some y /\ y <= x + v.
Lemma BI_break c0 c k d cur : BI c0 c k d cur -> (forall j, better (cand c cur j) (d j) = None) -> closed c d.
Proof.
  intros H Hb. pose proof (BI_step _ _ _ _ _ H) as [_ _ H3 _ H5]. split.
  - intros i z Hz. destruct (H3 0%nat z i ltac:(lia) (bw0 _ _ _ Hz)) as (x & Hx & Hle). rewrite Hb in Hx. eauto.
  - intros i x j v Hi Hv Hc. specialize (H5 i x j v). rewrite !Hb in H5. apply H5; auto.
Qed.
Lemma closed_low c d : closed c d -> forall m w j, bw c m w j -> exists x, d j = Some x /\ x <= w.
Proof.
  intros [H0 H]. induction 1 as [j z Hz|m w i v j _ (x & Hx & Hle) Hv Hc]; [eauto|].
  destruct (H i x j v Hx Hv) as (y & Hy & Hle'); [destruct c; simpl in *; lia|]. exists y. split; [assumption|lia].
Qed.
Lemma closed_walk d : closed None d -> forall i x m w j, d i = Some x -> wwalk W i m w j -> exists y, d j = Some y /\ y <= x + w.
Proof.
  intros [_ H] i x m w j Hi. induction 1 as [|m w k v j _ (y & Hy & Hle) Hv]; [exists x; split; [assumption|lia]|].
  destruct (H k y j v Hy Hv I) as (z & Hz & Hle'). exists z. split; [assumption|lia].
Qed.
(** negative cycles reachable from the initial values *)
Definition S0neg : Prop := exists i z, S0 i = Some z /\ neg_cycle_from W i.
Lemma closed_noneg d : closed None d -> ~ S0neg.
Proof.
  intros H (i & z & Hi & y & (m & w & Hw) & m' & w' & Hc & Hneg).
  destruct (proj1 H _ _ Hi) as (x & Hx & _). destruct (closed_walk d H _ _ _ _ _ Hx Hw) as (u & Hu & _).
  destruct (closed_walk d H _ _ _ _ _ Hu Hc) as (u' & Hu' & Hle). rewrite Hu in Hu'. injection Hu' as <-. lia.
Qed.
(** w is the least value of a walk from the initial values to j *)
Definition smin (j : nat) (x : Z) : Prop := (exists m, bw None m x j) /\ forall m w, bw None m w j -> x <= w.
Lemma closed_smin k d cur : BI None None k d cur -> closed None d -> forall j x, d j = Some x <-> smin j x.
Proof.
  intros H Hc j x. split.
  - intros Hj. destruct (b_sound _ _ _ _ _ H _ _ Hj) as (m & _ & Hb). split; [eauto|]. intros m' w Hw.
    destruct (closed_low _ _ Hc _ _ _ Hw) as (y & Hy & Hle). congruence.
  - intros [(m & Hm) Hle]. destruct (closed_low _ _ Hc _ _ _ Hm) as (y & Hy & Hle').
    destruct (b_sound _ _ _ _ _ H _ _ Hy) as (m' & _ & Hb). apply Hle in Hb. assert (x = y) by lia. congruence.
Qed.
Lemma bw_cut c d w j : bw c d w j -> S0neg \/ exists d' w', (d' < n)%nat /\ w' <= w /\ bw c d' w' j.
Proof.
  revert w j. induction d as [d IH] using lt_wf_ind. intros w j H.
  destruct (Nat.lt_ge_cases d n) as [Hd|Hd]; [right; exists d, w; repeat split; [assumption|lia|assumption]|].
  (* as functions *)
  assert (F : exists (f : nat -> nat) (g : nat -> Z), S0 (f 0%nat) = Some (g 0%nat) /\ f d = j /\ g d = w /\
     (forall k, (k < d)%nat -> W (f k) (f (S k)) = Some (g (S k) - g k)) /\ forall k, (0 < k <= d)%nat -> okc c (g k)).
  { clear IH Hd. induction H as [j z Hz|d w i v j _ (f & g & F0 & Fd & Gd & Hf & Hg) Hv Hc].
    - exists (fun _ => j), (fun _ => z). repeat split; auto; intros; lia.
    - exists (fun k => if (k <=? d)%nat then f k else j), (fun k => if (k <=? d)%nat then g k else w + v).
      split; [assumption|]. split; [destruct (Nat.leb_spec (S d) d); [lia|reflexivity]|].
      split; [destruct (Nat.leb_spec (S d) d); [lia|reflexivity]|]. split.
      + intros k Hk. destruct (Nat.leb_spec k d); [|lia]. destruct (Nat.leb_spec (S k) d).
        * apply Hf. lia.
        * assert (k = d) by lia. subst. rewrite Hv. f_equal. lia.
      + intros k Hk. destruct (Nat.leb_spec k d); [|assumption]. apply Hg. lia. }
  destruct F as (f & g & F0 & Fd & Gd & Hf & Hg).
  destruct (pigeonhole n f) as (i & k & Hij & Hj & E).
  { intros k Hk. destruct k as [|k]; [eapply S0lt; eassumption|]. apply (Wlt _ _ _ (Hf k ltac:(lia))). }
  destruct (Z.lt_ge_cases (g k - g i) 0) as [Hc|Hc].
  { left. exists (f 0%nat), (g 0%nat). split; [assumption|].
    exists (f i). split; [do 2 eexists; apply (fun_wwalk W f g d Hf 0 i); lia|].
    pose proof (fun_wwalk W f g d Hf i k ltac:(lia) ltac:(lia)) as H2. rewrite <- E in H2. do 2 eexists. split; eassumption. }
  assert (P : forall m, (m <= i)%nat -> bw c m (g m) (f m)).
  { induction m as [|m IHm]; intros Hm; [constructor; assumption|]. replace (g (S m)) with (g m + (g (S m) - g m)) by lia.
    econstructor; [apply IHm; lia|apply Hf; lia|]. replace (g m + (g (S m) - g m)) with (g (S m)) by lia. apply Hg. lia. }
  assert (Q : forall m, (k + m <= d)%nat -> exists w', w' <= g (k + m)%nat /\ bw c (i + m) w' (f (k + m)%nat)).
  { induction m as [|m IHm]; intros Hm.
    - rewrite !Nat.add_0_r. exists (g i). split; [lia|]. rewrite <- E. apply P. lia.
    - destruct (IHm ltac:(lia)) as (w' & Hw' & Hb). rewrite !Nat.add_succ_r. exists (w' + (g (S (k + m)) - g (k + m)%nat)). split; [lia|].
      econstructor; [exact Hb|apply Hf; lia|]. pose proof (Hg (S (k + m)) ltac:(lia)) as Ho. destruct c; simpl in *; lia. }
  destruct (Q (d - k)%nat ltac:(lia)) as (w' & Hw' & Hb). replace (k + (d - k))%nat with d in * by lia. rewrite Fd in Hb. rewrite Gd in Hw'.
  destruct (IH (i + (d - k))%nat ltac:(lia) _ _ Hb) as [Hneg|(d' & w2 & H1 & H2 & H3)]; [left; assumption|]. right. exists d', w2. repeat split; [assumption|lia|assumption].
Qed.
(** after n - 1 rounds every reachable node has a value *)
Lemma bw_reach_cut d w j : bw None d w j -> exists d' w', (d' < n)%nat /\ bw None d' w' j.
Proof.
  intros H. apply bw_wwalk in H as (i & z & w' & Hi & Hw & ->).
  assert (Hi' : (i < n)%nat) by (eapply S0lt; eassumption).
  set (W0 := fun a b => omap (fun _ => 0) (W a b)).
  assert (W0lt : forall a b v, W0 a b = Some v -> (a < n)%nat /\ (b < n)%nat).
  { intros a b v. unfold W0. destruct (W a b) eqn:E; [|discriminate]. intros _. eapply Wlt; eassumption. }
  assert (HW0 : forall d w j, wwalk W i d w j -> wwalk W0 i d 0 j).
  { clear. induction 1 as [|d w y v z _ IH HW]; [constructor|]. change 0 with (0 + 0) at 1. econstructor; [eassumption|]. unfold W0. rewrite HW. reflexivity. }
  assert (N0 : forall x, ~ neg_cycle_from W0 x).
  { intros x (y & _ & m & u & Hu & Hneg). apply (wwalk_nonneg W0) in Hu; [lia|]. intros a b v. unfold W0. destruct (W a b); [intros [= <-]; lia|discriminate]. }
  apply HW0 in Hw. destruct (walk_cut0 n W0 W0lt i d 0 j Hi' Hw) as [C|C]; [destruct (N0 _ C)|].
  destruct C as (d' & w0 & Hd' & _ & Hw0). 
  assert (HB : forall d w j, wwalk W0 i d w j -> exists u, wwalk W i d u j).
  { clear. induction 1 as [|d w y v z _ (u & IH) HW]; [exists 0; constructor|]. unfold W0 in HW. destruct (W y z) eqn:E; [|discriminate].
    exists (u + z0). econstructor; eassumption. }
  apply HB in Hw0 as (u & Hu). exists d', (z + u). split; [assumption|]. eapply wwalk_bw; eassumption.
Qed.
(** the check after n - 1 rounds *)
Definition improves (x d : option Z) : bool := match x, d with Some x, Some y => x <? y | _, _ => false end.
Lemma BI_else k d cur : (n - 1 <= k)%nat -> BI None None k d cur -> (forall j, improves (cand None cur j) (d j) = false) -> closed None d.
Proof.
  intros Hk H Hi. apply (BI_break _ _ _ _ _ H). intros j. destruct (cand None cur j) as [x|] eqn:E; [|destruct (d j); reflexivity].
  specialize (Hi j). rewrite E in Hi. simpl in *. destruct (d j) as [y|] eqn:Ed; [rewrite Hi; reflexivity|]. exfalso.
  apply cand_from in E as (_ & i & x' & v & _ & Hx' & Hv & ->). apply (b_cur _ _ _ _ _ H) in Hx'.
  destruct (b_sound _ _ _ _ _ H _ _ Hx') as (m & _ & Hb).
  assert (Hb' : bw None (S m) (x' + v) j) by (econstructor; [eassumption|assumption|exact I]).
  apply bw_reach_cut in Hb' as (m' & w' & Hm' & Hb'). destruct (b_low _ _ _ _ _ H m' w' j ltac:(lia) Hb') as (y & Hy & _). congruence.
Qed.
Lemma BI_improves c k d cur j : (n - 1 <= k)%nat -> BI c c k d cur -> improves (cand c cur j) (d j) = true -> S0neg.
Proof.
  intros Hk H Hi. destruct (cand c cur j) as [x|] eqn:E; [|discriminate]. destruct (d j) as [y|] eqn:Ed; [|discriminate].
  simpl in Hi. apply Z.ltb_lt in Hi. apply cand_from in E as (Ho & i & x' & v & _ & Hx' & Hv & ->). apply (b_cur _ _ _ _ _ H) in Hx'.
  destruct (b_sound _ _ _ _ _ H _ _ Hx') as (m & _ & Hb).
  assert (Hb' : bw c (S m) (x' + v) j) by (econstructor; eassumption).
  apply bw_cut in Hb' as [Hneg|(m' & w' & Hm' & Hle & Hb')]; [assumption|]. destruct (b_low _ _ _ _ _ H m' w' j ltac:(lia) Hb') as (z & Hz & Hle'). 
  rewrite Ed in Hz. injection Hz as <-. lia.
Qed.
End B.
