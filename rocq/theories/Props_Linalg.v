(** * C55: graph matrices *)
From Verif Require Import Base BaseProofs Model_Graph Model_Cache Model_Keys Spec KeyProofs Spec_Cache CacheMath CacheProofs CacheProofs2 CacheHist
  Spec_Run RunProofs Spec_Count CountProofs Model_Measures Model_Cluster Spec_Cluster ClusterMath ClusterProofs Model_Operators OperatorProofs Props_Operators
  Concrete Model_Linalg Spec_Linalg.
From Coq Require Import Permutation QArith Qcanon.
Open Scope nat_scope.

(** ** Sums over positions and over nodes *)
Lemma map_nth_seq {X} (l : list X) : map (nth_error l) (seq 0 (List.length l)) = map Some l.
Proof.
  induction l as [|x l IH]; [reflexivity|]. cbn [List.length seq map]. f_equal. rewrite <- seq_shift, map_map. exact IH.
Qed.
Lemma gsum_nth {V X} (zero : V) add (l : list X) (f : nat -> V) (g : X -> V) :
  (forall b x, nth_error l b = Some x -> f b = g x) -> gsum zero add (List.length l) f = gtotal zero add g l.
Proof.
  intros H. unfold gsum, gtotal. f_equal.
  transitivity (map (fun o => match o with Some x => g x | None => zero end) (map (nth_error l) (seq 0 (List.length l)))).
  - rewrite map_map. apply map_ext_in. intros b Hb. apply in_seq in Hb. destruct (nth_error l b) as [x|] eqn:E; [apply H; assumption|].
    apply nth_error_None in E. lia.
  - rewrite map_nth_seq, map_map. reflexivity.
Qed.
Lemma zsum_nth {X} (l : list X) (f : nat -> Z) (g : X -> Z) :
  (forall b x, nth_error l b = Some x -> f b = g x) -> zsum (List.length l) f = total g l.
Proof. apply (gsum_nth 0%Z Z.add). Qed.
Lemma total_ext {X} (f g : X -> Z) l : (forall x, In x l -> f x = g x) -> total f l = total g l.
Proof. apply (gtotal_ext 0%Z Z.add). Qed.

Lemma total_some {X} (f : X -> Z) l : total f l <> 0%Z -> exists x, In x l /\ f x <> 0%Z.
Proof.
  induction l as [|y l IH]; [intros H; destruct H; reflexivity|]. rewrite total_cons. intros H. destruct (Z.eq_dec (f y) 0) as [E|E].
  - destruct IH as (x & Hx & Hf); [lia|]. exists x. split; [right; assumption|assumption].
  - exists y. split; [left; reflexivity|assumption].
Qed.
Section P.
Variable G : graph.
Hypothesis wf : gwf G.
Notation n := (glen G).

Definition wopt (w : bool) (u v : nkey) : option Z := omap (fun x => if w then x else 1%Z) (weight G u v).
Lemma wopt_adj w u v : oz (wopt w u v) = adj G w u v.
Proof. unfold wopt, adj. destruct (weight G u v); reflexivity. Qed.
(** [B] is the adjacency matrix of the nodes [l] *)
Definition posmat (w : bool) (l : list nkey) (B : mat Z) : Prop :=
  mwf B /\ nrows B = List.length l /\ ncols B = List.length l /\
  forall a b u v, nth_error l a = Some u -> nth_error l b = Some v -> mget B a b = wopt w u v.
Definition rowvec (B : mat Z) (d : vec Z) : Prop := vsize d = nrows B /\ forall a, a < nrows B -> vget d a = ored Z.add (ncols B) (mget B a).
Definition colvec (B : mat Z) (d : vec Z) : Prop := vsize d = ncols B /\ forall b, b < ncols B -> vget d b = ored Z.add (nrows B) (fun a => mget B a b).

Lemma opt_ids_ok nodelist : answers G (opt_ids G nodelist) (fun o =>
  match o with
  | Val None => nodelist = None
  | Val (Some ids) => exists l, nodelist = Some l /\ mapO (kid G) l = Some ids
  | Raise e => e = EKey /\ bad_list G nodelist
  end).
Proof.
  destruct nodelist as [l|]; cbn [opt_ids]; [|apply answers_ret; reflexivity].
  unfold list_to_ids. change (mapO (dget (g_kid G)) l) with (mapO (kid G) l). destruct (mapO (kid G) l) as [ids|] eqn:E; cbn [okey].
  - eapply answers_bind_v; [apply answers_lifto; reflexivity|]. apply answers_ret. eauto.
  - eapply answers_bind_e; [apply answers_lifto; reflexivity|]. split; [reflexivity|]. apply mapO_none in E as (u & Hu & Hn).
    exists l. split; [reflexivity|]. exists u. split; [assumption|]. rewrite node_kid. intros [i Hi]. congruence.
Qed.
Lemma list_nodes l ids : mapO (kid G) l = Some ids -> forall u, In u l -> node G u.
Proof. intros E u Hu. apply In_nth_error in Hu as [a Ha]. destruct (mapO_nth _ _ _ E _ _ Ha) as (i & _ & Hi). apply node_kid. eauto. Qed.
Lemma extract_pos w l ids : mapO (kid G) l = Some ids ->
  posmat w l (if w then mextract (g_A G) ids ids else mone (mextract (g_A G) ids ids)).
Proof.
  intros E. pose proof (mapO_length _ _ _ E) as Hl.
  assert (X : mwf (mextract (g_A G) ids ids)) by apply mwf_mbuild.
  assert (Y : forall a b u v, nth_error l a = Some u -> nth_error l b = Some v -> mget (mextract (g_A G) ids ids) a b = weight G u v).
  { intros a b u v Hu Hv. destruct (mapO_nth _ _ _ E _ _ Hu) as (i & Hi & Ki). destruct (mapO_nth _ _ _ E _ _ Hv) as (j & Hj & Kj).
    rewrite (mget_mextract _ _ _ a b i j Hi Hj). unfold weight. rewrite Ki, Kj. reflexivity. }
  destruct w.
  - split; [assumption|]. unfold mextract at 1 2. rewrite nrows_mbuild, ncols_mbuild. split; [assumption|]. split; [assumption|].
    intros a b u v Hu Hv. rewrite (Y a b u v Hu Hv). unfold wopt. destruct (weight G u v); reflexivity.
  - split; [apply mwf_mbuild|]. unfold mone, mmap at 1 2. rewrite nrows_mbuild, ncols_mbuild. unfold mextract at 1 2. rewrite nrows_mbuild, ncols_mbuild.
    split; [assumption|]. split; [assumption|]. intros a b u v Hu Hv. rewrite mget_mmap by assumption. rewrite (Y a b u v Hu Hv). reflexivity.
Qed.
(** the nodes by internal number *)
Lemma row_order_ex : exists l, row_order G None l.
Proof.
  unfold row_order. enough (forall m, m <= n -> exists l, map (kid G) l = map Some (seq 0 m)) as H by (apply H; lia).
  induction m as [|m IH]; intros L; [exists []; reflexivity|]. destruct IH as [l Hl]; [lia|]. destruct (kid_key G wf m) as [u Hu]; [unfold glen in L; lia|].
  exists (l ++ [u]). rewrite seq_snoc, !map_app, Hl. cbn. rewrite Hu. reflexivity.
Qed.
Lemma row_order_nth l a u : row_order G None l -> nth_error l a = Some u -> kid G u = Some a.
Proof.
  intros H Ha. pose proof (map_nth_error (kid G) a l Ha) as H1. rewrite H in H1. 
  assert (a < n). { assert (X : nth_error (map Some (seq 0 n)) a <> None) by congruence. apply nth_error_Some in X. rewrite map_length, seq_length in X. assumption. }
  rewrite (map_nth_error Some a (seq 0 n) (d := a)) in H1; [congruence|].
  rewrite (nth_error_nth' _ 0) by (rewrite seq_length; assumption). rewrite seq_nth by assumption. reflexivity.
Qed.
Lemma row_order_len l : row_order G None l -> List.length l = n.
Proof. intros H. apply (f_equal (@List.length _)) in H. rewrite !map_length, seq_length in H. assumption. Qed.
Lemma row_order_nd l : row_order G None l -> NoDup l.
Proof.
  intros H. apply (NoDup_map_inv (kid G)). rewrite H. apply FinFun.Injective_map_NoDup; [intros x y E; injection E; auto|apply seq_NoDup].
Qed.
Lemma row_order_nodes l : row_order G None l -> forall u, In u l <-> node G u.
Proof.
  intros H u. rewrite node_kid. split.
  - intros Hu. apply In_nth_error in Hu as [a Ha]. exists a. eapply row_order_nth; eassumption.
  - intros [i Hi]. pose proof (kid_lt G wf _ _ Hi) as L. pose proof (row_order_len l H) as E0. unfold glen in E0. rewrite <- E0 in L. apply nth_error_Some in L.
    destruct (nth_error l i) as [v|] eqn:E; [|congruence]. pose proof (row_order_nth l i v H E) as Hv.
    rewrite (kid_inj G wf _ _ _ Hi Hv). eapply nth_error_In; eassumption.
Qed.
Lemma full_pos w l : row_order G None l -> posmat w l (if w then g_A G else mone (g_A G)).
Proof.
  intros H. pose proof (row_order_len l H) as Hl. assert (X : mwf (g_A G)) by apply wf.
  assert (Y : forall a b u v, nth_error l a = Some u -> nth_error l b = Some v -> mget (g_A G) a b = weight G u v).
  { intros a b u v Hu Hv. unfold weight. rewrite (row_order_nth l a u H Hu), (row_order_nth l b v H Hv). reflexivity. }
  destruct w.
  - split; [assumption|]. split; [symmetry; exact Hl|]. split; [rewrite (gw_sq G wf); symmetry; exact Hl|].
    intros a b u v Hu Hv. rewrite (Y a b u v Hu Hv). unfold wopt. destruct (weight G u v); reflexivity.
  - split; [apply mwf_mbuild|]. unfold mone, mmap at 1 2. rewrite nrows_mbuild, ncols_mbuild.
    split; [symmetry; exact Hl|]. split; [rewrite (gw_sq G wf); symmetry; exact Hl|]. intros a b u v Hu Hv. rewrite mget_mmap by assumption. rewrite (Y a b u v Hu Hv). reflexivity.
Qed.

(** row and column sums *)
Lemma red_row_ok w l B : posmat w l B -> rowvec B (mred_row Z.add B).
Proof. intros (W & _). split; [apply vsize_vbuild|]. intros a _. apply vget_mred_row. assumption. Qed.
Lemma red_col_ok w l B : posmat w l B -> colvec B (mred_col Z.add B).
Proof. intros (W & _). split; [apply vsize_vbuild|]. intros a _. apply vget_mred_col. assumption. Qed.
Lemma full_row (w : bool) : rowvec (if w then g_A G else mone (g_A G)) (den_red G Row (if w then RPlus else RCount) SP).
Proof.
  assert (Sq := gw_sq G wf). destruct w; split; try apply vsize_vbuild.
  - intros a La. cbn [den_red]. rewrite vget_vbuild_lt by exact La. unfold rfold. rewrite Sq. apply ored_ext. intros j _. cbn. destruct (mget (g_A G) a j); reflexivity.
  - cbn [den_red]. rewrite vsize_vbuild. unfold mone, mmap. rewrite nrows_mbuild. reflexivity.
  - intros a La. unfold mone, mmap in La. rewrite nrows_mbuild in La. cbn [den_red]. rewrite vget_vbuild_lt by exact La. unfold rfold.
    unfold mone at 1, mmap at 1. rewrite ncols_mbuild, Sq. apply ored_ext. intros j _. unfold mone. rewrite mget_mmap by apply wf. reflexivity.
Qed.
Lemma full_col (w : bool) : colvec (if w then g_A G else mone (g_A G)) (den_red G Col (if w then RPlus else RCount) SP).
Proof.
  assert (Sq := gw_sq G wf). destruct w; split.
  - cbn [den_red]. rewrite vsize_vbuild. symmetry. exact Sq.
  - intros a La. rewrite Sq in La. cbn [den_red]. rewrite vget_vbuild_lt by exact La. unfold rfold. apply ored_ext. intros j _. cbn. destruct (mget (g_A G) j a); reflexivity.
  - cbn [den_red]. rewrite vsize_vbuild. unfold mone, mmap. rewrite ncols_mbuild. symmetry. exact Sq.
  - intros a La. unfold mone, mmap in La. rewrite ncols_mbuild, Sq in La. cbn [den_red]. rewrite vget_vbuild_lt by exact La. unfold rfold.
    unfold mone at 1, mmap at 1. rewrite nrows_mbuild. apply ored_ext. intros j _. unfold mone. rewrite mget_mmap by apply wf. reflexivity.
Qed.
Lemma rowvec_sum w l B d a u : posmat w l B -> rowvec B d -> nth_error l a = Some u -> oz (vget d a) = rsum G w l u.
Proof.
  intros (W & R & C & P) [_ D] Ha. assert (La : a < List.length l) by (apply nth_error_Some; congruence).
  rewrite D by (rewrite R; assumption). rewrite oz_ored_plus, C. unfold rsum. apply zsum_nth. intros b v Hb. rewrite (P a b u v Ha Hb). apply wopt_adj.
Qed.
Lemma colvec_sum w l B d b v : posmat w l B -> colvec B d -> nth_error l b = Some v -> oz (vget d b) = csum G w l v.
Proof.
  intros (W & R & C & P) [_ D] Hb. assert (Lb : b < List.length l) by (apply nth_error_Some; congruence).
  rewrite D by (rewrite C; assumption). rewrite oz_ored_plus, R. unfold csum. apply zsum_nth. intros a u Ha. rewrite (P a b u v Ha Hb). apply wopt_adj.
Qed.

(** ** adjacency *)
(** the outcome of a call with a nodelist: a matrix in the right order, or KeyError for a foreign node *)
Definition matrix_ans {V} (nodelist : option (list nkey)) (o : outcome (mat V)) (P : mat V -> list nkey -> Prop) : Prop :=
  match o with
  | Val M => exists l, row_order G nodelist l /\ (forall u, In u l -> node G u) /\ P M l
  | Raise e => e = EKey /\ bad_list G nodelist
  end.
Theorem C55_adjacency nodelist weighted :
  answers G (nx_adjacency_matrix G nodelist weighted) (fun o => matrix_ans nodelist o (fun M l =>
    is_matrix 0%Z M l (adj G weighted) /\
    forall a b u v, nth_error l a = Some u -> nth_error l b = Some v -> (has (mget M a b) = true <-> edge G u v))).
Proof.
  unfold nx_adjacency_matrix.
  assert (F : forall l B, posmat weighted l B -> is_matrix 0%Z B l (adj G weighted) /\
    forall a b u v, nth_error l a = Some u -> nth_error l b = Some v -> (has (mget B a b) = true <-> edge G u v)).
  { intros l B (W & R & C & P). split.
    - split; [assumption|]. split; [assumption|]. intros a b u v Hu Hv. rewrite (P a b u v Hu Hv). apply wopt_adj.
    - intros a b u v Hu Hv. rewrite (P a b u v Hu Hv). unfold wopt, edge. destruct (weight G u v) as [x|]; cbn; split; try discriminate; eauto. intros [? ?]. discriminate. }
  eapply answers_bind; [apply opt_ids_ok| |intros e He; exact He].
  intros [ids|] H; cbv beta.
  - destruct H as (l & -> & E). apply answers_ret. exists l. split; [reflexivity|]. split; [eapply list_nodes; eassumption|].
    apply F. apply extract_pos. assumption.
  - subst. destruct row_order_ex as [l Hl]. apply answers_ret. exists l. split; [assumption|]. split; [intros u Hu; apply (row_order_nodes l Hl); assumption|].
    apply F. apply full_pos. assumption.
Qed.

(** ** Laplacian *)
Lemma helper_ok nodelist weighted : (g_dir G = true -> weighted = true \/ nodelist <> None) -> no_dup nodelist ->
  answers G (laplacian_helper G nodelist weighted) (fun o =>
    match o with
    | Val (d, B) => exists l, row_order G nodelist l /\ NoDup l /\ (forall u, In u l -> node G u) /\ posmat weighted l B /\ rowvec B d
    | Raise e => e = EKey /\ bad_list G nodelist
    end).
Proof.
  intros HD ND. unfold laplacian_helper. eapply answers_bind; [apply opt_ids_ok| |intros e He; exact He].
  intros [ids|] H; cbv beta.
  - destruct H as (l & -> & E). apply answers_ret. exists l. split; [reflexivity|]. split; [exact ND|]. split; [eapply list_nodes; eassumption|].
    pose proof (extract_pos weighted l ids E) as P. split; [exact P|]. eapply red_row_ok. exact P.
  - subst. destruct row_order_ex as [l Hl]. pose proof (full_pos weighted l Hl) as P. pose proof (full_row weighted) as R.
    assert (X : forall d, d = den_red G Row (if weighted then RPlus else RCount) SP ->
      exists l, row_order G None l /\ NoDup l /\ (forall u, In u l -> node G u) /\ posmat weighted l (if weighted then g_A G else mone (g_A G)) /\ rowvec (if weighted then g_A G else mone (g_A G)) d).
    { intros d ->. exists l. split; [assumption|]. split; [apply row_order_nd; assumption|]. split; [intros u Hu; apply (row_order_nodes l Hl); assumption|]. auto. }
    destruct weighted.
    + eapply answers_bind_GV; [apply (get_red_ok G wf true eq_refl)|]. apply answers_ret. apply X. reflexivity.
    + unfold get_degrees. destruct (g_dir G); [destruct (HD eq_refl) as [|N]; [discriminate|destruct N; reflexivity]|].
      eapply answers_bind_GV; [apply (get_red_ok G wf true eq_refl)|]. apply answers_ret. apply X. reflexivity.
Qed.
Lemma nkey_nth l a b u v : NoDup l -> nth_error l a = Some u -> nth_error l b = Some v -> nkey_eqb u v = (a =? b).
Proof.
  intros ND Ha Hb. destruct (nkey_dec u v) as [->|N].
  - rewrite nkey_eqb_refl. symmetry. apply Nat.eqb_eq. apply (proj1 (NoDup_nth_error l) ND); [apply nth_error_Some; congruence|congruence].
  - rewrite (nkey_eqb_neq _ _ N). symmetry. apply Nat.eqb_neq. intros ->. congruence.
Qed.
Lemma lap_ok w l B d : NoDup l -> posmat w l B -> rowvec B d -> is_matrix 0%Z (msubz (vdiag d) B) l (lap G w l).
Proof.
  intros ND P R. pose proof P as (W & N & C & Q). pose proof R as [S D]. unfold msubz, vdiag. rewrite nrows_mbuild, ncols_mbuild.
  split; [rewrite nrows_mbuild; congruence|]. split; [rewrite ncols_mbuild; congruence|].
  intros a b u v Ha Hb. assert (La : a < vsize d) by (rewrite S, N; apply nth_error_Some; congruence). assert (Lb : b < vsize d) by (rewrite S, N; apply nth_error_Some; congruence).
  rewrite mget_mbuild_lt by assumption. rewrite mget_mbuild_lt by assumption. rewrite (Q a b u v Ha Hb). unfold lap, diag_z. rewrite (nkey_nth l a b u v ND Ha Hb).
  rewrite <- (wopt_adj w u v). pose proof (rowvec_sum w l B d a u P R Ha) as E. rewrite <- E. clear E.
  destruct (a =? b); [|destruct (wopt w u v); cbn; lia]. destruct (vget d a), (wopt w u v); cbn; lia.
Qed.
(** DiGraphs only with weights or with a nodelist: see [C55_directed_refuted] *)
Theorem C55_laplacian nodelist weighted : (g_dir G = true -> weighted = true \/ nodelist <> None) -> no_dup nodelist ->
  answers G (nx_laplacian_matrix G nodelist weighted) (fun o => matrix_ans nodelist o (fun M l => is_matrix 0%Z M l (lap G weighted l))).
Proof.
  intros HD ND. unfold nx_laplacian_matrix. eapply answers_bind; [apply (helper_ok nodelist weighted HD ND)| |intros e He; exact He].
  intros [d B] (l & Hl & N & Hn & P & R). apply answers_ret. exists l. split; [assumption|]. split; [assumption|]. apply lap_ok; assumption.
Qed.
(** ... and its rows sum to zero *)
Theorem C55_laplacian_rows weighted l u : NoDup l -> In u l -> total (lap G weighted l u) l = 0%Z.
Proof.
  intros ND Hu. assert (X : forall f g : nkey -> Z, total (fun v => (f v - g v)%Z) l = (total f l - total g l)%Z).
  { intros f g. unfold total. clear. induction l as [|x l IH]; cbn; [reflexivity|]. rewrite IH. lia. }
  unfold lap. rewrite X. change (total (adj G weighted u) l) with (rsum G weighted l u). enough (total (fun v => diag_z u v (rsum G weighted l u)) l = rsum G weighted l u) by lia.
  generalize (rsum G weighted l u). intros z. unfold diag_z. clear X. induction l as [|x l' IH]; [destruct Hu|]. inversion ND as [|? ? Nx ND']; subst.
  unfold total in *. cbn [map fold_right]. destruct (nkey_dec u x) as [->|Ne].
  - rewrite nkey_eqb_refl. enough (fold_right Z.add 0%Z (map (fun v => if nkey_eqb x v then z else 0%Z) l') = 0%Z) by lia.
    clear -Nx. induction l' as [|y l IH]; [reflexivity|]. cbn [map fold_right]. destruct (nkey_dec x y) as [->|Nxy]; [destruct Nx; left; reflexivity|]. rewrite (nkey_eqb_neq _ _ Nxy).
    rewrite IH; [reflexivity|]. intros H. apply Nx. right. assumption.
  - rewrite (nkey_eqb_neq _ _ Ne). rewrite IH; auto. destruct Hu; [congruence|assumption].
Qed.

(** presence in the row sums: some neighbour among the listed nodes *)
Lemma rowvec_has w l B d a u : posmat w l B -> rowvec B d -> nth_error l a = Some u ->
  (has (vget d a) = true <-> exists v, In v l /\ edge G u v).
Proof.
  intros (W & R & C & P) [_ D] Ha. assert (La : a < List.length l) by (apply nth_error_Some; congruence).
  rewrite D by (rewrite R; assumption). rewrite has_ored_true. split.
  - intros (b & Hb & H). rewrite C in Hb. apply nth_error_Some in Hb. destruct (nth_error l b) as [v|] eqn:Ev; [|congruence].
    exists v. split; [eapply nth_error_In; eassumption|]. rewrite (P a b u v Ha Ev) in H. unfold wopt in H. unfold edge. destruct (weight G u v) as [x|]; [eauto|discriminate].
  - intros (v & Hv & [x Hx]). apply In_nth_error in Hv as [b Hb]. exists b. split; [rewrite C; apply nth_error_Some; congruence|].
    rewrite (P a b u v Ha Hb). unfold wopt. rewrite Hx. reflexivity.
Qed.
(** the sums of the non-empty rows are not zero (otherwise the code divides by zero) *)
Definition rows_nonzero (w : bool) (l : list nkey) : Prop :=
  forall u v, In u l -> In v l -> edge G u v -> rsum G w l u <> 0%Z.
Lemma adj_edge w u v : ~ edge G u v -> adj G w u v = 0%Z.
Proof. intros H. unfold adj. destruct (weight G u v) eqn:E; [destruct H; unfold edge; eauto|reflexivity]. Qed.
Lemma total_pos {X} (f : X -> Z) l : (forall x, In x l -> (0 <= f x)%Z) -> (0 <= total f l)%Z /\ forall x, In x l -> (0 < f x)%Z -> (0 < total f l)%Z.
Proof.
  induction l as [|y l IH]; intros H; [split; [cbn; lia|intros ? []]|]. rewrite total_cons. destruct IH as [I1 I2]; [intros; apply H; right; assumption|].
  pose proof (H y (or_introl eq_refl)). split; [lia|]. intros x [->|Hx] L; [lia|]. specialize (I2 x Hx L). lia.
Qed.
Lemma rows_nonzero_unweighted l : rows_nonzero false l.
Proof.
  intros u v Hu Hv [x E]. destruct (total_pos (adj G false u) l) as [_ H].
  - intros y _. unfold adj. destruct (weight G u y); lia.
  - change (rsum G false l u) with (total (adj G false u) l). assert (0 < total (adj G false u) l)%Z; [|lia]. apply (H v Hv). unfold adj. rewrite E. lia.
Qed.
Lemma rows_nonzero_positive l : (forall u v x, weight G u v = Some x -> (0 < x)%Z) -> rows_nonzero true l.
Proof.
  intros HP u v Hu Hv [x E]. destruct (total_pos (adj G true u) l) as [_ H].
  - intros y _. unfold adj. destruct (weight G u y) as [z|] eqn:Ez; [apply HP in Ez|]; lia.
  - change (rsum G true l u) with (total (adj G true u) l). assert (0 < total (adj G true u) l)%Z; [|lia]. apply (H v Hv). unfold adj. rewrite E. eapply HP. eassumption.
Qed.
Lemma rowvec_some w l B d a u x : rows_nonzero w l -> posmat w l B -> rowvec B d -> nth_error l a = Some u -> vget d a = Some x ->
  rsum G w l u = x /\ x <> 0%Z.
Proof.
  intros NZ P R Ha E. pose proof (rowvec_sum w l B d a u P R Ha) as S. rewrite E in S. cbn in S. split; [congruence|].
  assert (has (vget d a) = true) as H by (rewrite E; reflexivity). apply (rowvec_has w l B d a u P R Ha) in H as (v & Hv & He).
  rewrite S. apply (NZ u v); try assumption. eapply nth_error_In; eassumption.
Qed.
Lemma rowvec_none w l B d a u : posmat w l B -> rowvec B d -> nth_error l a = Some u -> vget d a = None ->
  rsum G w l u = 0%Z /\ forall v, In v l -> adj G w u v = 0%Z.
Proof.
  intros P R Ha E. pose proof (rowvec_sum w l B d a u P R Ha) as S. rewrite E in S. cbn in S. split; [congruence|].
  intros v Hv. apply adj_edge. intros He. assert (has (vget d a) = true) as X by (apply (rowvec_has w l B d a u P R Ha); eauto). rewrite E in X. discriminate.
Qed.
Lemma nlap_ok sqr w l B d : NoDup l -> rows_nonzero w l -> posmat w l B -> rowvec B d ->
  let dis := vmap (fun x => / sqr (zq x))%Qc d in
  is_matrix 0%Qc (msubq (vdiag (vmap (fun _ => 1%Qc) dis)) (minter Qcmult (mrestrict (msS B) (vouter Qcmult dis dis)) (mmap zq B))) l (nlap sqr G w l).
Proof.
  intros ND NZ P R dis. pose proof P as (W & N & C & Q). pose proof R as [S D].
  assert (Sd : vsize dis = List.length l) by (unfold dis, vmap; rewrite vsize_vbuild; congruence).
  assert (So : vsize (vmap (fun _ => 1%Qc) dis) = List.length l) by (unfold vmap at 1; rewrite vsize_vbuild; exact Sd).
  unfold msubq. split; [rewrite nrows_mbuild; unfold vdiag; rewrite nrows_mbuild; exact So|].
  split; [rewrite ncols_mbuild; unfold vdiag; rewrite ncols_mbuild; exact So|].
  intros a b u v Ha Hb. assert (La : a < List.length l) by (apply nth_error_Some; congruence). assert (Lb : b < List.length l) by (apply nth_error_Some; congruence).
  rewrite mget_mbuild_lt by (unfold vdiag; rewrite ?nrows_mbuild, ?ncols_mbuild, So; assumption).
  unfold vdiag. rewrite mget_mbuild_lt by (rewrite So; assumption).
  rewrite mget_minter by apply mwf_mbuild. unfold mrestrict. rewrite mget_mselect by apply mwf_mbuild. rewrite mget_mmap by assumption.
  unfold vouter. rewrite mget_mbuild_lt by (rewrite Sd; assumption). unfold msS. rewrite (Q a b u v Ha Hb).
  unfold nlap, diag_q. rewrite (nkey_nth l a b u v ND Ha Hb).
  assert (X : forall c y, nth_error l c = Some y -> exists o, vget dis c = o /\ oget 0%Qc o = isq sqr (rsum G w l y) /\ (has o = negb (rsum G w l y =? 0)%Z)).
  { intros c y Hc. exists (vget dis c). split; [reflexivity|]. unfold dis. rewrite vget_vmap. unfold isq. destruct (vget d c) as [x|] eqn:Ex.
    - destruct (rowvec_some w l B d c y x NZ P R Hc Ex) as [-> Hx]. apply Z.eqb_neq in Hx. rewrite Hx. split; reflexivity.
    - destruct (rowvec_none w l B d c y P R Hc Ex) as [-> _]. split; reflexivity. }
  destruct (X a u Ha) as (oa & Ea & Va & Pa). destruct (X b v Hb) as (ob & Eb & Vb & Pb).
  rewrite vget_vmap, Ea, Eb, <- Va, <- Vb. rewrite <- (wopt_adj w u v).
  assert (K : (if (rsum G w l u =? 0)%Z then 0%Qc else 1%Qc) = oget 0%Qc (omap (fun _ => 1%Qc) oa)).
  { destruct oa; cbn in *; destruct (rsum G w l u =? 0)%Z; try discriminate; reflexivity. }
  rewrite K. assert (Z0 : qz 0 = 0%Qc) by reflexivity.
  change zq with qz. clear. 
  destruct (a =? b), (wopt w u v), oa, ob; cbn [has omap oboth ounion oget oz]; rewrite ?Z0; try (change (qz 0) with (Q2Qc 0)); ring.
Qed.
Theorem C55_normalized_laplacian sqr nodelist weighted : (g_dir G = true -> weighted = true \/ nodelist <> None) -> no_dup nodelist ->
  (forall l, row_order G nodelist l -> rows_nonzero weighted l) ->
  answers G (nx_normalized_laplacian sqr G nodelist weighted) (fun o => matrix_ans nodelist o (fun M l => is_matrix 0%Qc M l (nlap sqr G weighted l))).
Proof.
  intros HD ND NZ. unfold nx_normalized_laplacian. eapply answers_bind; [apply (helper_ok nodelist weighted HD ND)| |intros e He; exact He].
  intros [d B] (l & Hl & N & Hn & P & R). apply answers_ret. exists l. split; [assumption|]. split; [assumption|]. apply nlap_ok; auto.
Qed.

(** ** Modularity *)
Lemma modularity_ok w l B ko ki : posmat w l B -> rowvec B ko -> vsize ki = List.length l ->
  (forall b v, nth_error l b = Some v -> oz (vget ki b) = csum G w l v) ->
  is_matrix 0%Qc (modularity ko ki B) l (modul G w l).
Proof.
  intros P R Sk Hk. pose proof P as (W & N & C & Q). pose proof R as [S D]. unfold modularity.
  set (m := zq (oz (vreduce Z.add ko))).
  assert (Em : m = qz (total (rsum G w l) l)).
  { unfold m, vreduce. rewrite oz_ored_plus, S, N. rewrite (zsum_nth l _ (rsum G w l)); [reflexivity|]. intros a u Ha. apply (rowvec_sum w l B ko a u P R Ha). }
  unfold msubq. split; [rewrite nrows_mbuild; unfold mmap; rewrite nrows_mbuild; exact N|]. split; [rewrite ncols_mbuild; unfold mmap; rewrite ncols_mbuild; exact C|].
  intros a b u v Ha Hb. assert (La : a < List.length l) by (apply nth_error_Some; congruence). assert (Lb : b < List.length l) by (apply nth_error_Some; congruence).
  rewrite mget_mbuild_lt by (unfold mmap; rewrite ?nrows_mbuild, ?ncols_mbuild, ?N, ?C; assumption).
  rewrite !mget_mmap by (try assumption; apply mwf_mbuild). unfold vouter. rewrite mget_mbuild_lt by (rewrite ?Sk, ?S, ?N; assumption).
  rewrite (Q a b u v Ha Hb). unfold modul. rewrite <- Em, <- (wopt_adj w u v), <- (rowvec_sum w l B ko a u P R Ha), <- (Hk b v Hb).
  assert (Z0 : qz 0 = 0%Qc) by reflexivity. change zq with qz. clear Em. unfold Qcdiv.
  destruct (wopt w u v), (vget ko a) as [x|], (vget ki b) as [y|]; cbn [oboth omap ounion oz oget]; rewrite ?Z.mul_0_l, ?Z.mul_0_r, ?Z0; ring.
Qed.
(** the sum of all entries is not zero if there is any (otherwise the code divides by zero) *)
Definition total_nonzero (w : bool) (l : list nkey) : Prop :=
  forall u v, In u l -> In v l -> edge G u v -> total (rsum G w l) l <> 0%Z.
Theorem C55_modularity nodelist weighted : no_dup nodelist -> (forall l, row_order G nodelist l -> total_nonzero weighted l) ->
  answers G (nx_modularity_matrix G nodelist weighted) (fun o =>
    if g_dir G then o = Raise ENotImpl else matrix_ans nodelist o (fun M l => is_matrix 0%Qc M l (modul G weighted l))).
Proof.
  intros ND _. unfold nx_modularity_matrix. destruct (g_dir G) eqn:Dir; [apply answers_raise; reflexivity|].
  eapply answers_bind; [apply (helper_ok nodelist weighted)| |intros e He; exact He]; [congruence|assumption|].
  intros [d B] (l & Hl & N & Hn & P & R). apply answers_ret. exists l. split; [assumption|]. split; [assumption|].
  apply modularity_ok; try assumption; [rewrite (proj1 R); apply P|]. intros b v Hb. rewrite (rowvec_sum weighted l B d b v P R Hb).
  unfold rsum, csum. apply total_ext. intros x _. unfold adj. rewrite (weight_sym G v x wf Dir). reflexivity.
Qed.
Theorem C55_directed_modularity nodelist weighted : (forall l, row_order G nodelist l -> total_nonzero weighted l) ->
  answers G (nx_directed_modularity G nodelist weighted) (fun o =>
    if g_dir G then matrix_ans nodelist o (fun M l => is_matrix 0%Qc M l (modul G weighted l)) else o = Raise ENotImpl).
Proof.
  intros _. unfold nx_directed_modularity. destruct (g_dir G) eqn:Dir; cbn [negb]; [|apply answers_raise; reflexivity].
  eapply answers_bind; [apply opt_ids_ok| |intros e He; exact He].
  intros [ids|] H; cbv beta.
  - destruct H as (l & -> & E). apply answers_ret. exists l. split; [reflexivity|]. split; [eapply list_nodes; eassumption|].
    pose proof (extract_pos weighted l ids E) as P. pose proof (red_col_ok weighted l _ P) as RC.
    apply modularity_ok; [assumption|eapply red_row_ok; eassumption|rewrite (proj1 RC); apply P|].
    intros b v Hb. eapply colvec_sum; eassumption.
  - subst. destruct row_order_ex as [l Hl]. pose proof (full_pos weighted l Hl) as P. pose proof (full_row weighted) as R. pose proof (full_col weighted) as RC.
    assert (X : matrix_ans None (Val (modularity (den_red G Row (if weighted then RPlus else RCount) SP) (den_red G Col (if weighted then RPlus else RCount) SP)
        (if weighted then g_A G else mone (g_A G)))) (fun M l => is_matrix 0%Qc M l (modul G weighted l))).
    { exists l. split; [assumption|]. split; [intros u Hu; apply (row_order_nodes l Hl); assumption|].
      apply modularity_ok; try assumption; [rewrite (proj1 RC); apply P|]. intros b v Hb. eapply colvec_sum; eassumption. }
    destruct weighted; (eapply answers_bind_GV; [apply (get_red_ok G wf true eq_refl)|]; eapply answers_bind_GV; [apply (get_red_ok G wf true eq_refl)|]; apply answers_ret; exact X).
Qed.

(** ** Bethe Hessian *)
Lemma bethe_ok l B d r : NoDup l -> posmat true l B -> rowvec B d ->
  is_matrix 0%Qc (let n := nrows B in let ri := vbuild n (fun i => Some (r * r - 1 + zq (oz (vget d i)))%Qc) in
    mbuild n n (fun i j => omerge Qcplus (mget (vdiag ri) i j) (omap (fun x => - r * zq x)%Qc (mget B i j)))) l (bethe G r l).
Proof.
  intros ND P R. pose proof P as (W & N & C & Q). pose proof R as [S D]. cbv zeta.
  split; [rewrite nrows_mbuild; exact N|]. split; [rewrite ncols_mbuild; exact N|].
  intros a b u v Ha Hb. assert (La : a < List.length l) by (apply nth_error_Some; congruence). assert (Lb : b < List.length l) by (apply nth_error_Some; congruence).
  rewrite mget_mbuild_lt by (rewrite N; assumption). unfold vdiag. rewrite vsize_vbuild, mget_mbuild_lt by (rewrite N; assumption).
  rewrite vget_vbuild_lt by (rewrite N; assumption). rewrite (Q a b u v Ha Hb). unfold bethe, diag_q. rewrite (nkey_nth l a b u v ND Ha Hb), <- (wopt_adj true u v).
  rewrite <- (rowvec_sum true l B d a u P R Ha). change zq with qz. assert (Z0 : qz 0 = 0%Qc) by reflexivity.
  destruct (a =? b), (wopt true u v); cbn [omerge omap oget oz]; rewrite ?Z0; ring.
Qed.
Lemma degs_ok u i : kid G u = Some i -> oz (vget (den_red G Row RCount SP) i) = Z.of_nat (out_degree G u).
Proof.
  intros Hi. pose proof (kid_lt G wf u i Hi) as L. rewrite (out_degree_id G wf u i Hi). 
  destruct row_order_ex as [l Hl]. cbn [den_red]. rewrite vget_vbuild_lt by exact L. unfold rfold, outdeg.
  rewrite oz_ored_plus. cbn. rewrite cnt_zsum. apply zsum_ext. intros j _. destruct (mget (g_A G) i j); reflexivity.
Qed.
Theorem C55_bethe_hessian r nodelist : no_dup nodelist ->
  answers G (nx_bethe_hessian G r nodelist) (fun o =>
    if g_dir G then o = Raise ENotImpl else
    match o with
    | Raise EZeroDiv => r = None /\ (forall u v, ~ edge G u v)
    | _ => matrix_ans nodelist o (fun M l => is_matrix 0%Qc M l (bethe G (match r with Some r => r | None => default_r (out_degree G) G end) l)) /\
           ((exists M, o = Val M) -> r = None -> exists u v, edge G u v)
    end).
Proof.
  intros ND. unfold nx_bethe_hessian. destruct (g_dir G) eqn:Dir; [apply answers_raise; reflexivity|].
  eapply answers_bind; [apply opt_ids_ok| |].
  2:{ intros e [-> He]. split; [split; [reflexivity|assumption]|]. intros [M [=]]. }
  intros o Ho; cbv beta.
  assert (HS : answers G (match o with
       | Some ids => let A := mextract (g_A G) ids ids in ret (mred_row Z.add A, A)
       | None => d <- get_red G Row RPlus SP None ;; ret (d, g_A G) end) (fun p => match p with
         | Val (d, B) => exists l, row_order G nodelist l /\ NoDup l /\ (forall u, In u l -> node G u) /\ posmat true l B /\ rowvec B d
         | Raise _ => False end)).
  { destruct o as [ids|].
    - destruct Ho as (l & -> & E). apply answers_ret. exists l. split; [reflexivity|]. split; [exact ND|]. split; [eapply list_nodes; eassumption|].
      pose proof (extract_pos true l ids E) as P. split; [exact P|]. eapply red_row_ok. exact P.
    - subst. destruct row_order_ex as [l Hl]. eapply answers_bind_GV; [apply (get_red_ok G wf true eq_refl)|]. apply answers_ret.
      exists l. split; [assumption|]. split; [apply row_order_nd; assumption|]. split; [intros u Hu; apply (row_order_nodes l Hl); assumption|].
      split; [apply (full_pos true l Hl)|apply (full_row true)]. }
  eapply answers_bind; [exact HS| |intros e []]. intros [d B] (l & Hl & N & Hn & P & R). cbv beta iota.
  assert (HR : answers G (match r with
       | Some r => ret r
       | None => degrees <- get_degrees G ;;
           let k := oz (vreduce Z.add degrees) in
           let k2 := oz (vdot Z.add Z.mul degrees degrees) in
           q <- lifto (qdiv (zq k2) (zq k)) ;; ret (q - 1)%Qc
       end) (fun q => match q with
         | Val q => q = match r with Some r => r | None => default_r (out_degree G) G end /\ (r = None -> exists u v, edge G u v)
         | Raise e => e = EZeroDiv /\ r = None /\ forall u v, ~ edge G u v end)).
  { destruct r as [r|]; [apply answers_ret; split; [reflexivity|discriminate]|]. unfold get_degrees. rewrite Dir.
    eapply answers_bind_GV; [apply (get_red_ok G wf true eq_refl)|]. cbv zeta. set (dd := den_red G Row RCount SP).
    assert (Sd : vsize dd = n) by apply vsize_vbuild.
    assert (E1 : oz (vreduce Z.add dd) = total (fun u => Z.of_nat (out_degree G u)) (gnodes G)).
    { unfold vreduce. rewrite oz_ored_plus, Sd. symmetry. apply (total_nodes G wf). intros u i Hi. symmetry. apply degs_ok. assumption. }
    assert (E2 : oz (vdot Z.add Z.mul dd dd) = total (fun u => Z.of_nat (out_degree G u) * Z.of_nat (out_degree G u))%Z (gnodes G)).
    { unfold vdot. rewrite oz_ored_plus, Sd. symmetry. apply (total_nodes G wf). intros u i Hi. rewrite <- (degs_ok u i Hi).
      fold dd. destruct (vget dd i); reflexivity. }
    cbn [msk]. rewrite E1, E2. set (k2 := total _ (gnodes G)). set (k := total _ (gnodes G)).
    destruct (Z.eq_dec k 0) as [E|E].
    - unfold qdiv. replace (Qc_eq_bool (zq k) 0) with true by (rewrite E; reflexivity).
      eapply answers_bind_e; [apply answers_lifto; reflexivity|]. split; [reflexivity|]. split; [reflexivity|].
      intros u v [x Hx]. destruct (total_pos (fun u => Z.of_nat (out_degree G u)) (gnodes G)) as [_ H]; [intros; lia|].
      assert (0 < k)%Z; [|lia]. apply (H u); [apply (weight_nodes G u v x Hx)|]. 
      enough (0 < out_degree G u) by lia. apply (count_nodes_pos G). exists v. split; [apply (weight_nodes G u v x Hx)|]. unfold has_edge. rewrite Hx. reflexivity.
    - rewrite (qdiv_ok _ k E). eapply answers_bind_v; [apply answers_lifto; reflexivity|]. apply answers_ret. split; [reflexivity|]. intros _.
      apply total_some in E as (u & Hu & Hd). assert (0 < out_degree G u) as Hp by lia. apply (count_nodes_pos G) in Hp as (v & _ & Hv).
      exists u, v. apply has_edge_true. assumption. }
  eapply answers_bind; [exact HR| |].
  2:{ intros e (-> & Hr & He). split; assumption. }
  intros q (-> & He). cbv beta. apply answers_ret. split.
  - exists l. split; [assumption|]. split; [assumption|]. apply bethe_ok; assumption.
  - intros _. exact He.
Qed.
End P.

(** without self-loops the default parameter is networkx's *)
Theorem C55_default_r G : g_dir G = false -> loop_free G -> default_r (out_degree G) G = default_r (degree G) G.
Proof.
  intros D L. assert (E : forall u, degree G u = out_degree G u).
  { intros u. unfold degree. rewrite D. destruct (has_edge G u u) eqn:E; [|lia]. apply has_edge_true in E. destruct (L u E). }
  unfold default_r. f_equal. f_equal; f_equal; apply total_ext; intros; rewrite E; reflexivity.
Qed.
(** with one it is not: a triangle with a self-loop *)
Definition g_bh : graph := mkg false 3 [(0, 0, 1%Z); (0, 1, 1%Z); (1, 2, 1%Z); (0, 2, 1%Z)].
Theorem C55_bethe_loops_refuted : gwf g_bh /\ exists M, fst (nx_bethe_hessian g_bh None None st0) = Val M /\
  ~ is_matrix 0%Qc M [KI 0; KI 1; KI 2] (bethe g_bh (default_r (degree g_bh) g_bh) [KI 0; KI 1; KI 2]).
Proof.
  split; [apply mkg_wf|]. eexists. split; [vm_compute; reflexivity|]. intros (_ & _ & H). specialize (H 0 1 (KI 0) (KI 1) eq_refl eq_refl).
  apply (f_equal this) in H. vm_compute in H. discriminate.
Qed.
(** laplacian_matrix, normalized_laplacian_matrix of any DiGraph without weights and nodelist: KeyError ("degrees+" is a
    property of Graphs only) *)
Theorem C55_directed_refuted G : gwf G -> g_dir G = true ->
  raises G (nx_laplacian_matrix G None false) EKey /\ forall sqr, raises G (nx_normalized_laplacian sqr G None false) EKey.
Proof.
  intros wf D. assert (H : answers G (laplacian_helper G None false) (fun o => o = Raise EKey)).
  { unfold laplacian_helper, get_degrees. rewrite D. cbn [opt_ids]. eapply answers_bind_v; [apply answers_ret; reflexivity|]. 
    eapply answers_bind_e; [apply answers_raise; reflexivity|reflexivity]. }
  split; [|intros sqr]; (eapply answers_bind; [exact H|discriminate|]; intros e [= ->]; reflexivity).
Qed.

(** ** the hypotheses are met *)
Definition g_la : graph := mkg false 4 [(0, 1, 3%Z); (0, 2, 5%Z); (1, 1, 2%Z)].
Definition g_ld : graph := mkg true 3 [(0, 1, 3%Z); (1, 2, 5%Z); (0, 2, 4%Z)].
Example C55_adjacency_ex : gwf g_la /\ exists M, fst (nx_adjacency_matrix g_la (Some [KI 1; KI 0]) true st0) = Val M /\
  mget M 0 0 = Some 2%Z /\ mget M 0 1 = Some 3%Z /\ mget M 1 1 = None.
Proof. split; [apply mkg_wf|]. eexists. split; [vm_compute; reflexivity|]. repeat split; vm_compute; reflexivity. Qed.
Example C55_laplacian_ex : gwf g_la /\ row_order g_la None [KI 0; KI 1; KI 2; KI 3] /\ exists M, fst (nx_laplacian_matrix g_la None true st0) = Val M /\
  mget M 0 0 = Some 8%Z /\ mget M 0 1 = Some (-3)%Z /\ mget M 1 1 = Some 3%Z /\ mget M 3 3 = None.
Proof. split; [apply mkg_wf|]. split; [vm_compute; reflexivity|]. eexists. split; [vm_compute; reflexivity|]. repeat split; vm_compute; reflexivity. Qed.
Example C55_rows_nonzero_ex : gwf g_ld /\ rows_nonzero g_ld true [KI 0; KI 1; KI 2] /\ rows_nonzero g_la true [KI 0; KI 1; KI 2; KI 3].
Proof.
  assert (P : forall l, (forall p, In p l -> (0 < snd p)%Z) -> forall i j x, efind l i j = Some x -> (0 < x)%Z).
  { induction l as [|[[a b] w] l IH]; cbn; [discriminate|]. intros H i j x. destruct ((a =? i) && (b =? j)); [intros [= <-]; apply (H (a, b, w)); auto|]. apply IH. auto. }
  split; [apply mkg_wf|]. split; apply rows_nonzero_positive; intros u v x; unfold weight; match goal with |- context [kid ?g u] => destruct (kid g u), (kid g v) end; try discriminate;
    unfold g_ld, g_la, mkg, eget; cbn [g_A]; rewrite mget_mbuild; destruct (_ && _); try discriminate; apply P;
    cbn; intros p H; repeat (destruct H as [<-|H]; [cbn; lia|]); destruct H.
Qed.
Example C55_modularity_ex : gwf g_ld /\ total_nonzero g_ld true [KI 0; KI 1; KI 2] /\
  exists M, fst (nx_directed_modularity g_ld None true st0) = Val M /\ oget 0%Qc (mget M 0 2) = Q2Qc (-5 # 4).
Proof.
  split; [apply mkg_wf|]. split; [intros u v _ _ _; vm_compute; discriminate|]. eexists. split; [vm_compute; reflexivity|]. apply Qc_is_canon. vm_compute. reflexivity.
Qed.
Example C55_bethe_ex : gwf g_la /\ exists M, fst (nx_bethe_hessian g_la None (Some [KI 2; KI 0]) st0) = Val M /\ oget 0%Qc (mget M 0 1) = Q2Qc (-4).
Proof. split; [apply mkg_wf|]. eexists. split; [vm_compute; reflexivity|]. apply Qc_is_canon. vm_compute. reflexivity. Qed.
Print Assumptions C55_adjacency.
Print Assumptions C55_laplacian.
Print Assumptions C55_laplacian_rows.
Print Assumptions C55_normalized_laplacian.
Print Assumptions C55_modularity.
Print Assumptions C55_directed_modularity.
Print Assumptions C55_bethe_hessian.
Print Assumptions C55_default_r.
Print Assumptions C55_bethe_loops_refuted.
Print Assumptions C55_directed_refuted.
