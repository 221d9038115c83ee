(** * C56: google_matrix *)
From Verif Require Import Base BaseProofs Model_Graph Model_Cache Model_Keys Spec KeyProofs Spec_Cache CacheMath CacheProofs CacheProofs2 CacheHist
  Spec_Run RunProofs Spec_Count CountProofs Model_Measures Model_Cluster Spec_Cluster ClusterMath ClusterProofs OperatorProofs Props_Containers
  Concrete Model_Linalg Spec_Linalg Props_Linalg Model_Rank Spec_Rank RankProofs RankMath Props_Pagerank.
From Coq Require Import Permutation QArith Qcanon Qcabs.
Open Scope nat_scope.

(** the conditions under which the code handles dangling rows as specified, for rows labelled by [l]:
    - a nodelist as long as the graph must have dangling nodes at the same positions as the graph
      (the code then reads a property of the whole graph, see C56_permuted_refuted);
    - a dangling distribution is ignored if no node of the whole graph is dangling
      (see C56_dangling_refuted) *)
Definition rows_match (G : graph) (nodelist : option (list nkey)) : Prop :=
  forall l a u w, nodelist = Some l -> List.length l = List.length (gnodes G) -> nth_error l a = Some u -> kid G w = Some a ->
    dangling G l u = dangling G (gnodes G) w.
Definition dangling_read (G : graph) (l : list nkey) (dang : option (list (nkey * Qc))) : Prop :=
  dang = None \/ existsb (dangling G (gnodes G)) (gnodes G) = true \/ existsb (dangling G l) l = false.

Lemma answers_unassoc G {X Y Z'} (m : M X) (f : X -> M Y) (g : Y -> M Z') R :
  answers G (bind (bind m f) g) R -> answers G (bind m (fun x => bind (f x) g)) R.
Proof. intros H s HI. specialize (H s HI). unfold bind in *. destruct (m s) as [[x|e] s']; exact H. Qed.
Lemma answers_get G {X Y Z' W} (o : outcome X) (m : M Y) v P (h : Y -> Z') (k : X -> Z' -> M W) R : GV G true m v P ->
  answers G (bind (lifto o) (fun x => bind (ret (h v)) (k x))) R -> answers G (bind (lifto o) (fun x => bind (bind m (fun y => ret (h y))) (k x))) R.
Proof.
  intros H HR. destruct o as [x|e].
  - change (answers G (bind (bind m (fun y => ret (h y))) (k x)) R). apply answers_assoc. eapply answers_bind_GV; [exact H|]. exact HR.
  - intros s HI. apply (HR s HI).
Qed.
Section P.
Variable G : graph.
Hypothesis wf : gwf G.
Notation n := (glen G).
Notation nodes := (gnodes G).

Section L.
Variable l : list nkey.
Notation N := (List.length l).
(** the vector [x] holds the values [f] of the listed nodes *)
Definition prep (x : vec Qc) (f : nkey -> Qc) : Prop := vsize x = N /\ forall a u, nth_error l a = Some u -> oq (vget x a) = f u.
Lemma prep_sum x f : prep x f -> vsumq x = qtotal f l.
Proof. intros [S H]. unfold vsumq, vreduce. rewrite gsum_oq, S. apply (gsum_nth 0%Qc Qcplus). assumption. Qed.
Lemma prep_map h x f : h 0%Qc = 0%Qc -> prep x f -> prep (vmap h x) (fun u => h (f u)).
Proof.
  intros H0 [S H]. split; [unfold vmap; rewrite vsize_vbuild; assumption|]. intros a u Ha. rewrite vget_vmap, <- (H a u Ha).
  destruct (vget x a); [reflexivity|symmetry; assumption].
Qed.
Lemma prep_ext x f g : prep x f -> (forall u, In u l -> f u = g u) -> prep x g.
Proof. intros [S H] E. split; [assumption|]. intros a u Ha. rewrite (H a u Ha). apply E. eapply nth_error_In; eassumption. Qed.
Lemma prep_const q : prep (vconst N q) (fun _ => q).
Proof. split; [apply vsize_vbuild|]. intros a u Ha. unfold vconst. rewrite vget_vbuild_lt; [reflexivity|]. apply nth_error_Some. congruence. Qed.
Lemma prep_nonzero v x f : prep x f -> (forall a, a < N -> vget v a = None \/ vget v a = Some 0%Qc -> oq (vget x a) = 0%Qc) -> prep (vrestrict (mVq v) x) f.
Proof.
  intros [S H] Hz. split; [unfold vrestrict; rewrite vsize_vbuild; assumption|]. intros a u Ha. rewrite vget_vrestrict. unfold mVq.
  assert (La : a < N) by (apply nth_error_Some; congruence). destruct (vget v a) as [q|] eqn:E.
  - destruct (is0 q) eqn:E0; cbn [negb]; [|apply H; assumption]. apply is0_iff in E0. subst q. cbn. rewrite <- (H a u Ha). symmetry. apply Hz; [exact La|right; exact E].
  - cbn. rewrite <- (H a u Ha). symmetry. apply Hz; [exact La|left; exact E].
Qed.
Lemma pshare_ok v d : prep v (dval d) ->
  match share v with
  | Val x => prep (vrestrict (mVq v) x) (distr l (Some d)) /\ ~ sums_to_zero l (Some d)
  | Raise e => e = EZeroDiv /\ sums_to_zero l (Some d)
  end.
Proof.
  intros R. unfold share. rewrite (prep_sum _ _ R). destruct (is0 (qtotal (dval d) l)) eqn:E.
  - apply is0_iff in E. split; [reflexivity|]. exists d. auto.
  - split; [|intros (d' & [= <-] & H); apply is0_iff in H; congruence]. apply prep_nonzero.
    + apply (prep_map (fun y => y / qtotal (dval d) l)%Qc); [unfold Qcdiv; ring|assumption].
    + intros a La [Ha|Ha]; rewrite vget_vmap, Ha; cbn; [reflexivity|]. unfold Qcdiv. ring.
Qed.

Variable B : mat Z.
Hypothesis HB : posmat G true l B.
Notation A0 := (mmap zq B).
Lemma A0_wf : mwf A0. Proof. apply mwf_mbuild. Qed.
Lemma A0_rows : nrows A0 = N. Proof. unfold mmap. rewrite nrows_mbuild. apply HB. Qed.
Lemma A0_cols : ncols A0 = N. Proof. destruct HB as (_ & R & C & _). unfold mmap. destruct (Nat.eq_dec (nrows B) 0); rewrite ncols_mbuild; exact C. Qed.
Lemma A0_get a b u v : nth_error l a = Some u -> nth_error l b = Some v -> mget A0 a b = omap zq (weight G u v).
Proof.
  intros Ha Hb. destruct HB as (W & _ & _ & P). rewrite mget_mmap by assumption. rewrite (P a b u v Ha Hb). unfold wopt. destruct (weight G u v); reflexivity.
Qed.
Lemma nth_ex a : a < N -> exists u, nth_error l a = Some u.
Proof. intros L. destruct (nth_error l a) eqn:E; [eauto|]. apply nth_error_None in E. lia. Qed.
Lemma row_nonempty a u : nth_error l a = Some u -> mS (mred_row op_first A0) a = negb (dangling G l u).
Proof.
  intros Ha. unfold mS. rewrite vget_mred_row by apply A0_wf. rewrite A0_cols. unfold dangling. rewrite negb_involutive. apply eq_true_iff_eq.
  rewrite has_ored_true, existsb_exists. split.
  - intros (b & Lb & Hb). destruct (nth_ex b Lb) as [v Hv]. exists v. split; [eapply nth_error_In; eassumption|]. rewrite (A0_get a b u v Ha Hv) in Hb.
    unfold has_edge. destruct (weight G u v); [reflexivity|discriminate].
  - intros (v & Hv & He). apply In_nth_error in Hv as [b Hb]. exists b. split; [apply nth_error_Some; congruence|]. rewrite (A0_get a b u v Ha Hb).
    unfold has_edge in He. destruct (weight G u v); [reflexivity|discriminate].
Qed.

(** rows of dangling nodes filled in *)
Variable ne : nat -> bool.
Hypothesis Hne : forall a u, nth_error l a = Some u -> ne a = negb (dangling G l u).
Lemma cnt_ne : (cnt N ne <? N) = existsb (dangling G l) l.
Proof.
  apply eq_true_iff_eq. rewrite Nat.ltb_lt, cnt_lt_n, existsb_exists. split.
  - intros (a & La & Ha). destruct (nth_ex a La) as [u Hu]. exists u. split; [eapply nth_error_In; eassumption|]. rewrite (Hne a u Hu) in Ha. apply negb_false_iff in Ha. exact Ha.
  - intros (u & Hu & Hd). apply In_nth_error in Hu as [a Ha]. exists a. split; [apply nth_error_Some; congruence|]. rewrite (Hne a u Ha), Hd. reflexivity.
Qed.
Definition filled_ok (w : nkey -> Qc) (A1 : mat Qc) : Prop := mwf A1 /\ nrows A1 = N /\ ncols A1 = N /\
  forall a u, nth_error l a = Some u ->
    (dangling G l u = true -> forall b v, nth_error l b = Some v -> oq (mget A1 a b) = w v) /\
    (dangling G l u = false -> forall b v, nth_error l b = Some v -> mget A1 a b = omap zq (weight G u v)).
Lemma fill_ok wv w : prep wv w -> filled_ok w (mfirst (vouter op_second (vbuild N (fun i => if ne i then None else Some 1%Qc)) wv) A0).
Proof.
  intros [Sw Hw]. set (er := vbuild N (fun i => if ne i then None else Some 1%Qc)). set (X := vouter op_second er wv).
  assert (XW : mwf X) by apply mwf_mbuild.
  assert (XR : nrows X = N) by (unfold X, vouter; rewrite nrows_mbuild; apply vsize_vbuild).
  assert (XC : ncols X = N) by (unfold X, vouter; rewrite ncols_mbuild; assumption).
  split; [apply mwf_mbuild|]. split; [unfold mfirst, munion; rewrite nrows_mbuild; assumption|]. split; [unfold mfirst, munion; rewrite ncols_mbuild; assumption|].
  intros a u Ha. assert (La : a < N) by (apply nth_error_Some; congruence).
  assert (GX : forall b v, nth_error l b = Some v -> mget X a b = if dangling G l u then vget wv b else None).
  { intros b v Hb. assert (Lb : b < N) by (apply nth_error_Some; congruence). unfold X, vouter. rewrite mget_mbuild. unfold er at 1. rewrite vsize_vbuild, Sw.
    apply Nat.ltb_lt in La, Lb. rewrite La, Lb. cbn [andb]. unfold er. rewrite vget_vbuild, La, (Hne a u Ha). destruct (dangling G l u); cbn [negb oboth]; [|reflexivity].
    destruct (vget wv b); reflexivity. }
  assert (GG : forall b v, nth_error l b = Some v -> mget (mfirst X A0) a b = omerge op_first (if dangling G l u then vget wv b else None) (omap zq (weight G u v))).
  { intros b v Hb. unfold mfirst. rewrite mget_munion; [|assumption|apply A0_wf|rewrite A0_rows; assumption|rewrite A0_cols; assumption].
    rewrite (GX b v Hb), (A0_get a b u v Ha Hb). reflexivity. }
  split; intros Hd b v Hb; rewrite (GG b v Hb), Hd.
  - assert (E : weight G u v = None).
    { destruct (weight G u v) as [x|] eqn:E; [|reflexivity]. exfalso. assert (D : dangling G l u = false); [|congruence]. apply dangling_false. exists v.
      split; [eapply nth_error_In; eassumption|]. exists x. assumption. }
    rewrite E. cbn [omap]. rewrite <- (Hw b v Hb). destruct (vget wv b); reflexivity.
  - cbn [omerge]. destruct (weight G u v); reflexivity.
Qed.
Lemma nofill_ok w : existsb (dangling G l) l = false -> filled_ok w A0.
Proof.
  intros He. split; [apply A0_wf|]. split; [apply A0_rows|]. split; [apply A0_cols|]. intros a u Ha. split.
  - intros Hd. assert (existsb (dangling G l) l = true); [|congruence]. apply existsb_exists. exists u. split; [eapply nth_error_In; eassumption|assumption].
  - intros _ b v Hb. apply A0_get; assumption.
Qed.
(** scaling and teleport *)
Lemma finish_ok alpha w A1 pv p : filled_ok w A1 -> prep pv p -> rows_nonzero G true l -> (existsb (dangling G l) l = true -> qtotal w l = 1%Qc) ->
  is_matrix 0%Qc (mbuild N N (fun i j => omerge Qcplus (mget (vm_inter Qcmult (vmap (fun s => alpha / s)%Qc (mred_row Qcplus A1)) A1) i j)
     (vget (vmap (fun y => y * (1 - alpha))%Qc pv) j))) l (google G l alpha p w).
Proof.
  intros (W & R & C & HA) [Sp Hp] NZ Hw. split; [apply nrows_mbuild|]. split; [apply ncols_mbuild|]. intros a b u v Ha Hb.
  assert (La : a < N) by (apply nth_error_Some; congruence). assert (Lb : b < N) by (apply nth_error_Some; congruence).
  rewrite mget_mbuild. rewrite (proj2 (Nat.ltb_lt a N) La), (proj2 (Nat.ltb_lt b N) Lb). cbn [andb].
  rewrite mget_vm_inter by assumption. rewrite !vget_vmap, vget_mred_row by assumption. rewrite C.
  destruct (HA a u Ha) as [HT HF].
  assert (K : oq (oboth Qcmult (omap (fun s => alpha / s)%Qc (ored Qcplus N (fun j => mget A1 a j))) (mget A1 a b)) = (alpha * step G l w u v)%Qc).
  { unfold step. destruct (dangling G l u) eqn:Ed.
    - assert (E : oq (ored Qcplus N (fun j => mget A1 a j)) = 1%Qc).
      { rewrite gsum_oq. transitivity (qtotal w l); [apply (gsum_nth 0%Qc Qcplus); intros; apply HT; auto|]. apply Hw. apply existsb_exists. exists u. split; [eapply nth_error_In; eassumption|assumption]. }
      rewrite <- (HT eq_refl b v Hb). destruct (ored Qcplus N (fun j => mget A1 a j)) as [s|]; [|discriminate E]. cbn [oq oget] in E. subst s.
      cbn [omap oboth]. destruct (mget A1 a b) as [y|]; cbn [oboth oq oget]; [|ring]. unfold Qcdiv. replace (/ 1)%Qc with 1%Qc by (apply Qc_is_canon; reflexivity). ring.
    - assert (E : oq (ored Qcplus N (fun j => mget A1 a j)) = qz (rsum G true l u)).
      { rewrite gsum_oq. transitivity (qtotal (fun v => qz (Spec_Linalg.adj G true u v)) l); [|apply qtotal_qz]. apply (gsum_nth 0%Qc Qcplus). intros c x Hc. rewrite (HF eq_refl c x Hc).
        unfold Spec_Linalg.adj. destruct (weight G u x); reflexivity. }
      apply dangling_false in Ed as (x & Hx & He). pose proof (NZ u x (nth_error_In _ _ Ha) Hx He) as Hz.
      destruct (ored Qcplus N (fun j => mget A1 a j)) as [s|]; cbn [oq oget] in E; [subst s|exfalso; apply Hz; apply (zq_inj _ 0); symmetry; exact E].
      rewrite (HF eq_refl b v Hb). unfold Spec_Linalg.adj. destruct (weight G u v) as [y|]; cbn [omap oboth oq oget]; unfold Qcdiv; change zq with qz; [ring|]. change (qz 0) with 0%Qc. ring. }
  unfold google. rewrite <- K, <- (Hp b v Hb). clear K. destruct (oboth _ _ _) as [y|], (vget pv b) as [z|]; cbn [omerge omap oq oget]; ring.
Qed.
End L.

Lemma prep_extract l ids v f : mapO (kid G) l = Some ids -> rep G v f -> prep l (vextract v ids) f.
Proof.
  intros E [S H]. pose proof (mapO_length _ _ _ E) as Hl. split; [unfold vextract; rewrite vsize_vbuild; exact Hl|].
  intros a u Ha. destruct (mapO_nth _ _ _ E _ _ Ha) as (i & Hi & Ki). unfold vextract. rewrite vget_vbuild_lt by (apply nth_error_Some; congruence).
  rewrite (nth_error_nth _ _ 0 Hi). apply H. assumption.
Qed.
Lemma prep_full l v f : row_order G None l -> rep G v f -> prep l v f.
Proof.
  intros Hl [S H]. split; [rewrite S; symmetry; apply (row_order_len G l Hl)|]. intros a u Ha. apply H. eapply row_order_nth; eassumption.
Qed.
Lemma dangling_same l u : (forall v, In v l <-> node G v) -> dangling G l u = dangling G nodes u.
Proof.
  intros H. unfold dangling. f_equal. apply eq_true_iff_eq. rewrite !existsb_exists. split; intros (v & Hv & He); exists v; split; auto; apply H; assumption.
Qed.
Lemma any_row i w : kid G w = Some i -> mS (den_red G Row RAny SP) i = negb (dangling G nodes w).
Proof.
  intros Hi. unfold mS. rewrite (row_has G wf w i Hi), negb_involutive. cbn [den_red]. rewrite vget_vbuild_lt by (eapply kid_lt; eassumption).
  apply eq_true_iff_eq. unfold rfold. rewrite !has_ored_true. split; intros (j & Lj & Hj); exists j; (split; [exact Lj|]); cbn in *; destruct (mget (g_A G) i j); (exact Hj || reflexivity || discriminate).
Qed.

Section Main.
Variables (alpha : Qc) (pers dang : option (list (nkey * Qc))).
(** the dangling distribution for rows [l], as far as it is looked at *)
Definition used_in (l : list nkey) : option (list (nkey * Qc)) := if existsb (dangling G l) l then dang else None.
(** the outcome for rows labelled by [l] *)
Definition google_ans (nodelist : option (list nkey)) (o : outcome (mat Qc)) : Prop :=
  match o with
  | Val M => exists l, row_order G nodelist l /\ (forall u, In u l -> node G u) /\
      is_matrix 0%Qc M l (google G l alpha (distr l pers) (distr l (pr_dangling pers dang))) /\
      (l <> [] -> ~ sums_to_zero l pers /\ ~ sums_to_zero l (used_in l))
  | Raise EKey => bad_list G nodelist \/ foreign G pers \/ foreign G (used G dang)
  | Raise EValue => no_entries pers \/ no_entries (used G dang)
  | Raise EZeroDiv => exists l, row_order G nodelist l /\ (sums_to_zero l pers \/ sums_to_zero l (used_in l))
  | Raise _ => False
  end.
Lemma google_rest l B sub p dv ne : l <> [] -> posmat G true l B -> arg_ok G pers p -> arg_ok G (used G dang) dv -> dangling_read G l dang ->
  rows_nonzero G true l -> (forall v f, rep G v f -> prep l (sub v) f) -> (forall a u, nth_error l a = Some u -> ne a = negb (dangling G l u)) ->
  forall nodelist, row_order G nodelist l -> (forall u, In u l -> node G u) ->
  let N := List.length l in let A := mmap zq B in
  answers G (p <- lifto (match p with
              | None => Val (vconst N (1 / qn N)%Qc)
              | Some v => let v := sub v in match share v with Val p => Val (vrestrict (mVq v) p) | Raise e => Raise e end
              end) ;;
    ne <- ret ne ;;
    A <- lifto (if cnt N ne <? N then
                let er := vbuild N (fun i => if ne i then None else Some 1%Qc) in
                match dv with
                | Some dv => let dv := sub dv in let s := vsumq dv in
                    if is0 s then Raise EZeroDiv
                    else Val (mfirst (vouter op_second er (vrestrict (mVq dv) (vmap (fun y => 1 / s * y)%Qc dv))) A)
                | None => Val (mfirst (vouter op_second er p) A)
                end
              else Val A) ;;
    let scale := vmap (fun s => alpha / s)%Qc (mred_row Qcplus A) in
    let A := vm_inter Qcmult scale A in
    let p := vmap (fun y => y * (1 - alpha))%Qc p in
    ret (mbuild N N (fun i j => omerge Qcplus (mget A i j) (vget p j)))) (google_ans nodelist).
Proof.
  intros Hl HB Hp Hdv HR NZ Hsub Hne nodelist RO HN N A.
  assert (IP : match match p with None => Val (vconst N (1 / qn N)%Qc) | Some v => let v := sub v in match share v with Val p => Val (vrestrict (mVq v) p) | Raise e => Raise e end end with
    | Val pv => prep l pv (distr l pers) /\ ~ sums_to_zero l pers
    | Raise e => e = EZeroDiv /\ sums_to_zero l pers end).
  { destruct p as [v|]; cbn [arg_ok] in Hp.
    - destruct Hp as (d & -> & R). pose proof (pshare_ok l (sub v) d (Hsub v _ R)) as H. cbv zeta. destruct (share (sub v)); exact H.
    - subst pers. split; [|intros (d & H & _); discriminate]. eapply prep_ext; [apply prep_const|]. intros u _. reflexivity. }
  destruct (match p with None => _ | Some v => _ end) as [pv|e].
  2:{ destruct IP as [-> IP]. eapply answers_bind_e with (e := EZeroDiv); [apply answers_lifto; reflexivity|]. exists l. auto. }
  destruct IP as [Rp Zp]. eapply answers_bind_v; [apply answers_lifto; reflexivity|]. apply answers_ret_bind.
  pose proof (cnt_ne l ne Hne) as Hc. unfold N in *. rewrite Hc. destruct (existsb (dangling G l) l) eqn:Ex.
  - destruct dv as [dv|]; cbn [arg_ok] in Hdv.
    + destruct Hdv as (d & Ed & R). assert (U : dang = Some d) by (unfold used in Ed; destruct (existsb _ nodes); [assumption|discriminate]).
      pose proof (Hsub dv _ R) as Rd. cbv zeta. rewrite (prep_sum l _ _ Rd). destruct (is0 (qtotal (dval d) l)) eqn:E0.
      * apply is0_iff in E0. eapply answers_bind_e; [apply answers_lifto; reflexivity|]. exists l. split; [assumption|]. right. unfold used_in. rewrite Ex, U. exists d. auto.
      * eapply answers_bind_v; [apply answers_lifto; reflexivity|]. apply answers_ret. exists l. split; [assumption|]. split; [assumption|].
        assert (Z2 : ~ sums_to_zero l dang). { rewrite U. intros (d' & [= <-] & H). apply is0_iff in H. congruence. }
        split; [|intros _; split; [assumption|unfold used_in; rewrite Ex; assumption]].
        assert (Rw : prep l (vrestrict (mVq (sub dv)) (vmap (fun y => 1 / qtotal (dval d) l * y)%Qc (sub dv))) (distr l (pr_dangling pers dang))).
        { apply prep_nonzero.
          - eapply prep_ext; [apply (prep_map l (fun y => 1 / qtotal (dval d) l * y)%Qc); [ring|exact Rd]|]. intros u _. rewrite U. cbn [pr_dangling distr]. unfold Qcdiv. ring.
          - intros a La [Ha|Ha]; rewrite vget_vmap, Ha; cbn; [reflexivity|]. ring. }
        apply (finish_ok l alpha _ _ pv); try assumption; [apply fill_ok; assumption|]. intros _. apply distr_sum; [assumption|]. rewrite U. rewrite U in Z2. exact Z2.
    + assert (U : dang = None). { unfold used in Hdv. destruct HR as [HR|[HR|HR]]; [assumption|rewrite HR in Hdv; assumption|congruence]. }
      eapply answers_bind_v; [apply answers_lifto; reflexivity|]. apply answers_ret. exists l. split; [assumption|]. split; [assumption|].
      split; [|intros _; split; [assumption|unfold used_in; rewrite Ex, U; intros (d & H & _); discriminate]].
      rewrite U. cbn [pr_dangling]. apply (finish_ok l alpha _ _ pv); try assumption; [apply fill_ok; assumption|]. intros _. apply distr_sum; assumption.
  - eapply answers_bind_v; [apply answers_lifto; reflexivity|]. apply answers_ret. exists l. split; [assumption|]. split; [assumption|].
    split; [|intros _; split; [assumption|unfold used_in; rewrite Ex; intros (d & H & _); discriminate]].
    apply (finish_ok l alpha _ _ pv); try assumption; [apply nofill_ok; assumption|]. intros; congruence.
Qed.
(** ** C56: the entries of the Google matrix *)
Theorem C56_google nodelist : is_dict pers -> is_dict dang -> rows_match G nodelist ->
  (forall l, row_order G nodelist l -> rows_nonzero G true l /\ dangling_read G l dang) ->
  answers G (nx_google_matrix G alpha pers nodelist dang) (google_ans nodelist).
Proof.
  intros D1 D2 RM HL. unfold nx_google_matrix.
  eapply answers_bind; [apply dict_vec_ok; assumption| |intros e [[-> H]|[-> H]]; cbn; auto]. intros p Hp0.
  assert (Hp : arg_ok G pers p) by (destruct p; [destruct Hp0 as (d & -> & R & _); exists d; auto|exact Hp0]). clear Hp0.
  assert (Hnv : (nvals (den_red G Row RCount SP) <? n) = existsb (dangling G nodes) nodes).
  { apply nvals_lt; [assumption|cbn [den_red]; apply vsize_vbuild|]. intros u i Hi. rewrite (row_has G wf u i Hi), negb_involutive. cbn [den_red]. rewrite vget_vbuild_lt by (eapply kid_lt; eassumption).
    apply eq_true_iff_eq. unfold rfold. rewrite !has_ored_true. split; intros (j & Lj & Hj); exists j; (split; [exact Lj|]); cbn in *; destruct (mget (g_A G) i j); (exact Hj || reflexivity || discriminate). }
  assert (X : answers G (dw <- (b <- (if has dang then v <- get_red G Row RCount SP None ;; ret (nvals v <? n) else ret false) ;; (if b : bool then dict_vec G dang else ret None)) ;;
     google_matrix G alpha p nodelist dw) (google_ans nodelist)).
  2:{ apply answers_unassoc in X. exact X. }
  eapply answers_bind with (R := fun o => match o with Val dv => arg_ok G (used G dang) dv | Raise e => (e = EKey /\ foreign G (used G dang)) \/ (e = EValue /\ no_entries (used G dang)) end).
  { destruct dang as [d|] eqn:Ed; cbn [has].
    - apply answers_assoc. eapply answers_bind_GV; [apply (get_red_ok G wf true eq_refl)|]. cbn [msk]. rewrite Hnv. apply answers_ret_bind.
      unfold used. destruct (existsb (dangling G nodes) nodes); [|apply answers_ret; reflexivity].
      eapply answers_conseq; [apply dict_vec_ok; assumption|]. intros [[v|]|e] H; try exact H. destruct H as (d' & E & R & _). exists d'. auto.
    - apply answers_ret_bind. apply answers_ret. unfold used. destruct (existsb _ _); reflexivity. }
  2:{ intros e [[-> H]|[-> H]]; cbn; auto. }
  intros dv Hdv. unfold google_matrix. eapply answers_bind; [apply opt_ids_ok| |intros e [-> H]; left; exact H].
  intros [ids|] Hi; cbv beta.
  - destruct Hi as (l & -> & E). pose proof (mapO_length _ _ _ E) as Hlen. pose proof (list_nodes G l ids E) as HN.
    pose proof (extract_pos G true l ids E) as HB. cbn beta iota in HB.
    assert (NR : nrows (mmap zq (mextract (g_A G) ids ids)) = List.length l) by (unfold mmap; rewrite nrows_mbuild; apply HB).
    cbv zeta. rewrite NR. destruct (Nat.eqb_spec (List.length l) 0) as [L0|L0].
    { assert (l = []) by (destruct l; [reflexivity|discriminate L0]). subst l. apply answers_ret. exists []. split; [reflexivity|]. split; [intros u []|]. split; [|congruence].
      split; [assumption|]. split; [apply (A0_cols []); exact HB|]. intros [|a] b u v Ha; discriminate Ha. }
    destruct (HL l eq_refl) as [NZ DR]. assert (Hl : l <> []) by (intros ->; apply L0; reflexivity). rewrite Hlen.
    assert (Go : forall ne, (forall a u, nth_error l a = Some u -> ne a = negb (dangling G l u)) -> _) by
      exact (fun ne Hne => google_rest l (mextract (g_A G) ids ids) (fun v => vextract v ids) p dv ne Hl HB Hp Hdv DR NZ (fun v f => prep_extract l ids v f E) Hne (Some l) eq_refl HN).
    destruct (Nat.eqb_spec (List.length l) n) as [Ln|Ln].
    + specialize (Go (mS (den_red G Row RAny SP))). cbv zeta in Go.
      assert (Go' := Go ltac:(intros a u Ha; assert (La : a < n) by (rewrite <- Ln; apply nth_error_Some; congruence); destruct (kid_key G wf a La) as [w Hw];
        rewrite (any_row a w Hw); f_equal; symmetry; apply (RM l a u w eq_refl); [rewrite (nodes_len G wf); exact Ln|assumption|assumption])). clear Go.
      eapply answers_get; [apply (get_red_ok G wf true eq_refl Row RAny SP None)|]. exact Go'.
    + specialize (Go (mS (mred_row op_first (mmap zq (mextract (g_A G) ids ids))))). apply Go. intros a u Ha. apply row_nonempty; assumption.
  - subst nodelist. destruct (row_order_ex G wf) as [l Hl]. pose proof (row_order_len G l Hl) as Hlen. pose proof (full_pos G wf true l Hl) as HB. cbn beta iota in HB.
    assert (HN : forall u, In u l <-> node G u) by (apply row_order_nodes; assumption).
    assert (NR : nrows (mmap zq (g_A G)) = List.length l) by (unfold mmap; rewrite nrows_mbuild; apply HB).
    cbv zeta. rewrite NR. destruct (Nat.eqb_spec (List.length l) 0) as [L0|L0].
    { assert (l = []) by (destruct l; [reflexivity|discriminate L0]). subst l. apply answers_ret. exists []. split; [assumption|]. split; [intros u []|]. split; [|congruence].
      split; [assumption|]. split; [apply (A0_cols []); exact HB|]. intros [|a] b u v Ha; discriminate Ha. }
    destruct (HL l Hl) as [NZ DR]. assert (Hne : l <> []) by (intros ->; apply L0; reflexivity).
    pose proof (google_rest l (g_A G) (fun v => v) p dv (mS (den_red G Row RAny SP)) Hne HB Hp Hdv DR NZ (fun v f => prep_full l v f Hl)
      ltac:(intros a u Ha; rewrite (any_row a u (row_order_nth G l a u Hl Ha)); f_equal; symmetry; apply dangling_same; assumption) None Hl (fun u => proj1 (HN u))) as Go'.
    cbv zeta in Go'.
    eapply answers_get; [apply (get_red_ok G wf true eq_refl Row RAny SP None)|]. exact Go'.
Qed.
End Main.

(** ** every row of the result sums to 1 *)
Theorem C56_row_stochastic alpha pers dang nodelist s M : is_dict pers -> is_dict dang -> rows_match G nodelist ->
  (forall l, row_order G nodelist l -> rows_nonzero G true l /\ dangling_read G l dang) -> Inv G s ->
  fst (nx_google_matrix G alpha pers nodelist dang s) = Val M ->
  forall a, a < nrows M -> qtotal (fun b => oget 0%Qc (mget M a b)) (seq 0 (ncols M)) = 1%Qc.
Proof.
  intros D1 D2 RM HL HI E a La. destruct (C56_google alpha pers dang nodelist D1 D2 RM HL s HI) as [H _]. rewrite E in H.
  destruct H as (l & RO & HN & (R & C & HM) & Z). rewrite R in La. rewrite C. destruct (nth_ex l a La) as [u Hu].
  assert (NE : l <> []) by (intros ->; inversion La). destruct (Z NE) as [Z1 Z2].
  transitivity (qtotal (google G l alpha (distr l pers) (distr l (pr_dangling pers dang)) u) l).
  - apply (gsum_nth 0%Qc Qcplus). intros b v Hb. apply HM; assumption.
  - apply google_row_sum; [apply (HL l RO)|eapply nth_error_In; eassumption|apply distr_sum; assumption|].
    intros Hd. apply distr_sum; [assumption|]. assert (Ex : existsb (dangling G l) l = true) by (apply existsb_exists; exists u; split; [eapply nth_error_In; eassumption|assumption]).
    unfold used_in in Z2. rewrite Ex in Z2. unfold pr_dangling. destruct dang; assumption.
Qed.
(** ** nodelists for which the hypothesis [rows_match] holds *)
Lemma rows_match_none : rows_match G None.
Proof. intros l a u w [=]. Qed.
Lemma rows_match_shorter l : List.length l <> List.length nodes -> rows_match G (Some l).
Proof. intros H l' a u w [= <-] E. contradiction. Qed.
Lemma rows_match_order l : row_order G None l -> rows_match G (Some l).
Proof.
  intros H l' a u w [= <-] _ Ha Hw. pose proof (row_order_nth G l a u H Ha) as Hu. rewrite (kid_inj G wf _ _ _ Hu Hw). apply dangling_same. apply row_order_nodes; assumption.
Qed.
Lemma rows_match_perm l : Permutation l nodes -> existsb (dangling G nodes) nodes = false -> rows_match G (Some l).
Proof.
  intros P He l' a u w [= <-] _ Ha Hw. assert (X : forall x, In x nodes -> dangling G nodes x = false).
  { intros x Hx. destruct (dangling G nodes x) eqn:E; [|reflexivity]. assert (existsb (dangling G nodes) nodes = true); [|congruence]. apply existsb_exists. eauto. }
  assert (S : forall v, In v l <-> node G v) by (intros v; split; apply Permutation_in; [assumption|symmetry; assumption]).
  rewrite (dangling_same l u S), (X u), (X w); [reflexivity| |]; [apply node_kid; eauto|]. apply (Permutation_in _ P). eapply nth_error_In; eassumption.
Qed.
End P.

(** ** Where the property fails *)
(** a nodelist holding all the nodes in another order: the rows of dangling nodes are looked for in the graph's order, so
    a dangling row is left without its links (it does not sum to 1) and another node's links are replaced *)
Theorem C56_permuted_refuted : exists G l M, gwf G /\ Permutation l (gnodes G) /\
  fst (nx_google_matrix G (Q2Qc (17 # 20)) None (Some l) None st0) = Val M /\
  (exists a, a < nrows M /\ qtotal (fun b => oget 0%Qc (mget M a b)) (seq 0 (ncols M)) <> 1%Qc) /\
  exists a b u v, nth_error l a = Some u /\ nth_error l b = Some v /\ dangling G l u = false /\
    oget 0%Qc (mget M a b) <> google G l (Q2Qc (17 # 20)) (distr l None) (distr l None) u v.
Proof.
  exists (mkg true 3 [(0, 1, 1%Z); (1, 2, 1%Z)]), [KI 2; KI 1; KI 0]. eexists. split; [apply mkg_wf|]. split; [vm_compute; apply perm_trans with [KI 1; KI 2; KI 0]; [apply perm_swap|]; apply perm_trans with [KI 1; KI 0; KI 2]; [apply perm_skip, perm_swap|apply perm_swap]|].
  split; [vm_compute; reflexivity|]. split.
  - exists 0. split; [vm_compute; lia|]. intros H. apply (f_equal this) in H. vm_compute in H. discriminate.
  - exists 2, 2, (KI 0), (KI 0). split; [reflexivity|]. split; [reflexivity|]. split; [vm_compute; reflexivity|]. intros H. apply (f_equal this) in H. vm_compute in H. discriminate.
Qed.
(** a dangling distribution is ignored for the nodes that are dangling only among the listed nodes *)
Theorem C56_dangling_refuted : exists G l d M, gwf G /\ NoDup l /\ is_dict (Some d) /\ rows_match G (Some l) /\
  fst (nx_google_matrix G (Q2Qc (17 # 20)) None (Some l) (Some d) st0) = Val M /\
  exists a b u v, nth_error l a = Some u /\ nth_error l b = Some v /\ dangling G l u = true /\
    oget 0%Qc (mget M a b) <> google G l (Q2Qc (17 # 20)) (distr l None) (distr l (Some d)) u v.
Proof.
  exists (mkg true 3 [(0, 1, 1%Z); (1, 2, 1%Z); (2, 0, 1%Z)]), [KI 0; KI 1], ((KI 0, 1%Qc) :: nil). eexists. split; [apply mkg_wf|].
  split; [repeat constructor; cbn; intuition discriminate|]. split; [cbn; repeat constructor; cbn; tauto|]. split; [apply rows_match_shorter; vm_compute; discriminate|].
  split; [vm_compute; reflexivity|]. exists 1, 0, (KI 1), (KI 0). split; [reflexivity|]. split; [reflexivity|]. split; [vm_compute; reflexivity|].
  intros H. apply (f_equal this) in H. vm_compute in H. discriminate.
Qed.

(** ** The hypotheses hold for concrete graphs *)
Lemma mkg_positive dir k l : (forall p, In p l -> (0 < snd p)%Z) -> forall u v x, weight (mkg dir k l) u v = Some x -> (0 < x)%Z.
Proof.
  assert (P : forall l, (forall p, In p l -> (0 < snd p)%Z) -> forall i j x, efind l i j = Some x -> (0 < x)%Z).
  { clear. induction l as [|[[a b] w] l IH]; cbn; [discriminate|]. intros H i j x. destruct ((a =? i) && (b =? j)); [intros [= <-]; apply (H (a, b, w)); auto|]. apply IH. auto. }
  intros H u v x. unfold weight. destruct (kid (mkg dir k l) u), (kid (mkg dir k l) v); try discriminate. unfold mkg, eget. cbn [g_A]. rewrite mget_mbuild.
  destruct (_ && _); [|discriminate]. destruct dir; apply P; assumption.
Qed.
Definition g_go : graph := mkg true 4 [(0, 1, 3%Z); (1, 2, 5%Z); (0, 2, 1%Z); (2, 0, 2%Z)].
Example C56_google_ex : gwf g_go /\ rows_match g_go (Some [KI 3; KI 0; KI 1]) /\ rows_nonzero g_go true [KI 3; KI 0; KI 1] /\
  dangling_read g_go [KI 3; KI 0; KI 1] (Some ((KI 0, 1%Qc) :: nil)) /\ exists M,
  fst (nx_google_matrix g_go (Q2Qc (17 # 20)) None (Some [KI 3; KI 0; KI 1]) (Some ((KI 0, 1%Qc) :: nil)) st0) = Val M /\ mget M 0 1 <> mget M 0 0 /\ mget M 1 2 <> mget M 1 1.
Proof.
  split; [apply mkg_wf|]. split; [apply rows_match_shorter; vm_compute; discriminate|]. split.
  - apply rows_nonzero_positive. apply mkg_positive. cbn. intros p H; repeat (destruct H as [<-|H]; [cbn; lia|]); destruct H.
  - split; [right; left; vm_compute; reflexivity|]. eexists. split; [vm_compute; reflexivity|]. split; vm_compute; discriminate.
Qed.
Print Assumptions C56_google.
Print Assumptions C56_row_stochastic.
Print Assumptions C56_permuted_refuted.
Print Assumptions C56_dangling_refuted.
