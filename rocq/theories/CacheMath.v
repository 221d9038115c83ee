(** * Facts about the denotations of property names *)
From Verif Require Import Base BaseProofs Model_Graph Model_Cache Spec_Cache.

Lemma sgn_eqb_refl s : sgn_eqb s s = true. Proof. destruct s; reflexivity. Qed.
Lemma rop_eqb_refl s : rop_eqb s s = true. Proof. destruct s; reflexivity. Qed.
Lemma ax_eqb_refl s : ax_eqb s s = true. Proof. destruct s; reflexivity. Qed.
Lemma mkey_eqb_eq a b : mkey_eqb a b = true <-> a = b.
Proof.
  split; [|intros ->; destruct b; simpl; auto using sgn_eqb_refl].
  destruct a as [| |[]|[]], b as [| |[]|[]]; simpl; intros H; try discriminate; reflexivity.
Qed.
Lemma vkey_eqb_eq a b : vkey_eqb a b = true <-> a = b.
Proof.
  split; [|intros ->; destruct b; simpl; rewrite ?ax_eqb_refl, ?rop_eqb_refl, ?sgn_eqb_refl; reflexivity].
  destruct a as [|[] [] []|[]|[]|[]|[]|[]], b as [|[] [] []|[]|[]|[]|[]|[]]; simpl; intros H;
    try discriminate; reflexivity.
Qed.
Lemma skey_eqb_eq a b : skey_eqb a b = true <-> a = b.
Proof.
  split; [|intros ->; destruct b; simpl; rewrite ?rop_eqb_refl, ?sgn_eqb_refl; reflexivity].
  destruct a as [[] []|[]], b as [[] []|[]]; simpl; intros H; try discriminate; reflexivity.
Qed.
Lemma bkey_eqb_eq a b : bkey_eqb a b = true <-> a = b.
Proof.
  split; [|intros ->; destruct b; simpl; rewrite ?sgn_eqb_refl; reflexivity].
  destruct a as [| |[]|], b as [| |[]|]; simpl; intros H; try discriminate; reflexivity.
Qed.
Lemma sgn_eqb_eq a b : sgn_eqb a b = true <-> a = b.
Proof. destruct a, b; simpl; split; intros H; try discriminate; reflexivity. Qed.

Lemma rbin_assoc o x y z : rbin o x (rbin o y z) = rbin o (rbin o x y) z.
Proof. destruct o; simpl; lia. Qed.
Lemma rbin_comm o x y : rbin o x y = rbin o y x.
Proof. destruct o; simpl; lia. Qed.

Lemma mselect_mbuild {V} p nr nc (f : nat -> nat -> option V) :
  mselect p (mbuild nr nc f) = mbuild nr nc (fun i j => if p i j then f i j else None).
Proof.
  unfold mselect. rewrite nrows_mbuild, ncols_mbuild. apply mbuild_ext. intros i j Hi Hj.
  rewrite mget_mbuild_lt by assumption. reflexivity.
Qed.
Lemma mnvals_mbuild {V} nr nc (f : nat -> nat -> option V) :
  mnvals (mbuild nr nc f) = nsum nr (fun i => cnt nc (fun j => has (f i j))).
Proof.
  unfold mnvals. rewrite nrows_mbuild, ncols_mbuild. apply nsum_ext. intros i Hi.
  apply cnt_ext. intros j Hj. rewrite mget_mbuild_lt by assumption. reflexivity.
Qed.
Lemma red_row_mbuild o nr nc f :
  red_row o (mbuild nr nc f) = vbuild nr (fun i => ored (rbin o) nc (fun j => omap (rmap o) (f i j))).
Proof.
  unfold red_row, mred_row, mmap. rewrite !nrows_mbuild, !ncols_mbuild. apply vbuild_ext.
  intros i Hi. apply ored_ext. intros j Hj. do 2 rewrite mget_mbuild_lt by assumption. reflexivity.
Qed.
Lemma red_col_mbuild o nr nc f :
  red_col o (mbuild nr nc f) = vbuild nc (fun j => ored (rbin o) nr (fun i => omap (rmap o) (f i j))).
Proof.
  unfold red_col, mred_col, mmap. rewrite !nrows_mbuild, !ncols_mbuild. apply vbuild_ext.
  intros i Hi. apply ored_ext. intros j Hj. do 2 rewrite mget_mbuild_lt by assumption. reflexivity.
Qed.
Lemma red_mat_mbuild o nr nc f :
  red_mat o (mbuild nr nc f) =
  ored (rbin o) nr (fun i => ored (rbin o) nc (fun j => omap (rmap o) (f i j))).
Proof.
  unfold red_mat, mred_scalar.
  replace (mred_row (rbin o) (mmap (rmap o) (mbuild nr nc f))) with (red_row o (mbuild nr nc f))
    by reflexivity.
  rewrite red_row_mbuild. unfold vreduce. rewrite vsize_vbuild. apply ored_ext. intros i Hi.
  rewrite vget_vbuild_lt by assumption. reflexivity.
Qed.
Lemma vunion_vbuild op nn (f g : nat -> option Z) :
  vunion op (vbuild nn f) (vbuild nn g) = vbuild nn (fun i => omerge op (f i) (g i)).
Proof.
  unfold vunion. rewrite vsize_vbuild. apply vbuild_ext. intros i Hi.
  rewrite !vget_vbuild_lt by assumption. reflexivity.
Qed.
Lemma vrestrict_vbuild p nn (f : nat -> option Z) :
  vrestrict p (vbuild nn f) = vbuild nn (fun i => if p i then f i else None).
Proof.
  unfold vrestrict. rewrite vsize_vbuild. apply vbuild_ext. intros i Hi.
  rewrite !vget_vbuild_lt by assumption. reflexivity.
Qed.
Lemma msk_vunion op mask u v :
  vsize u = vsize v -> vunion op (msk mask u) (msk mask v) = msk mask (vunion op u v).
Proof.
  intros E. destruct mask as [p|]; [|reflexivity]. simpl.
  rewrite <- (vbuild_vget u), <- (vbuild_vget v), E, !vrestrict_vbuild, !vunion_vbuild,
    !vrestrict_vbuild.
  apply vbuild_ext. intros i Hi. destruct (p i); reflexivity.
Qed.
Lemma vmap_vbuild {V W} (h : V -> W) nn (f : nat -> option V) :
  vmap h (vbuild nn f) = vbuild nn (fun i => omap h (f i)).
Proof.
  unfold vmap. rewrite vsize_vbuild. apply vbuild_ext. intros i Hi.
  rewrite !vget_vbuild_lt by assumption. reflexivity.
Qed.
Lemma nvals_vbuild {V} nn (f : nat -> option V) : nvals (vbuild nn f) = cnt nn (fun i => has (f i)).
Proof.
  unfold nvals. rewrite vsize_vbuild. apply cnt_ext. intros i Hi.
  rewrite !vget_vbuild_lt by assumption. reflexivity.
Qed.
Lemma minter_mbuild {X Y Z'} (op : X -> Y -> Z') nr nc f g :
  minter op (mbuild nr nc f) (mbuild nr nc g) = mbuild nr nc (fun i j => oboth op (f i j) (g i j)).
Proof.
  unfold minter. rewrite nrows_mbuild, ncols_mbuild. apply mbuild_ext. intros i j Hi Hj.
  rewrite !mget_mbuild_lt by assumption. reflexivity.
Qed.
Lemma mtrans_mbuild {V} nr nc (f : nat -> nat -> option V) :
  mtrans (mbuild nr nc f) = mbuild nc nr (fun i j => f j i).
Proof.
  unfold mtrans. rewrite nrows_mbuild, ncols_mbuild. apply mbuild_ext. intros i j Hi Hj.
  rewrite !mget_mbuild_lt by assumption. reflexivity.
Qed.
Lemma mdiag_mbuild {V} nn (f : nat -> nat -> option V) : mdiag (mbuild nn nn f) = vbuild nn (fun i => f i i).
Proof.
  unfold mdiag. rewrite nrows_mbuild. apply vbuild_ext. intros i Hi.
  rewrite !mget_mbuild_lt by assumption. reflexivity.
Qed.
Lemma onz_zsum k : oz (onz k) = Z.of_nat k.
Proof. unfold onz. destruct (Nat.eqb_spec k 0); subst; reflexivity. Qed.
Lemma has_onz k : has (onz k) = negb (k =? 0).
Proof. unfold onz. destruct (k =? 0); reflexivity. Qed.
Lemma omerge_onz a b : omerge Z.add (onz a) (onz b) = onz (a + b).
Proof.
  unfold onz. destruct (Nat.eqb_spec a 0), (Nat.eqb_spec b 0), (Nat.eqb_spec (a + b) 0); subst; simpl;
    try lia; try reflexivity; f_equal; lia.
Qed.

Section Facts.
Variable G : graph.
Hypothesis wf : gwf G.
Notation A := (g_A G).
Notation n := (nrows (g_A G)).

Lemma A_build : A = mbuild n n (mget A).
Proof. rewrite <- (mbuild_mget A) at 1 by apply (gw_mwf _ wf). rewrite (gw_sq _ wf). reflexivity. Qed.
Lemma ent_SP i j : ent G SP i j = mget A i j. Proof. reflexivity. Qed.

Lemma self_false_iff : den_bool G KSelf = false <-> forall i, i < n -> mget A i i = None.
Proof.
  simpl. rewrite negb_false_iff, Nat.eqb_eq. unfold dcount. rewrite cnt_zero.
  split; intros H i Hi; [apply has_false, H, Hi|rewrite H by assumption; reflexivity].
Qed.
Lemma noself_all : den_bool G KSelf = false -> forall i, mget A i i = None.
Proof.
  intros H i. destruct (Nat.lt_ge_cases i n); [apply self_false_iff; assumption|].
  apply mget_out; auto using (gw_mwf _ wf).
Qed.
Lemma noself_ent : den_bool G KSelf = false -> forall i j, ent G SM i j = ent G SP i j.
Proof.
  intros H i j. simpl. destruct (Nat.eqb_spec i j) as [->|]; [|reflexivity].
  symmetry. apply noself_all. assumption.
Qed.
Lemma noself_off : den_bool G KSelf = false -> den_mat G KOff = A.
Proof.
  intros H. rewrite A_build at 1. simpl. apply mbuild_ext. intros i j Hi Hj.
  destruct (Nat.eqb_spec i j) as [->|]; simpl; [|reflexivity].
  symmetry. apply noself_all. assumption.
Qed.
Lemma noself_tri K : K = KU \/ K = KL -> den_bool G KSelf = false -> den_mat G (K SP) = den_mat G (K SM).
Proof.
  intros HK H. destruct HK as [-> | ->]; simpl; apply mbuild_ext; intros i j Hi Hj.
  - destruct (Nat.leb_spec i j), (Nat.ltb_spec i j); try reflexivity; try lia.
    replace j with i by lia. apply noself_all. assumption.
  - destruct (Nat.leb_spec j i), (Nat.ltb_spec j i); try reflexivity; try lia.
    replace j with i by lia. apply noself_all. assumption.
Qed.
Lemma rfold_ext o f g : (forall i, i < n -> f i = g i) -> rfold G o f = rfold G o g.
Proof. intros H. apply ored_ext. intros i Hi. rewrite H by assumption. reflexivity. Qed.
Lemma noself_red a o : den_bool G KSelf = false -> den_red G a o SP = den_red G a o SM.
Proof.
  intros H. destruct a; simpl; apply vbuild_ext; intros i Hi; apply rfold_ext; intros j Hj;
    symmetry; apply noself_ent; assumption.
Qed.
Lemma noself_recipdeg i : den_bool G KSelf = false -> recipdeg G SP i = recipdeg G SM i.
Proof.
  intros H. apply cnt_ext. intros j Hj. rewrite !(noself_ent H). reflexivity.
Qed.
Lemma noself_recip : den_bool G KSelf = false -> den_vec G (KRecip SP) = den_vec G (KRecip SM).
Proof.
  intros H. cbn [den_vec]. apply vbuild_ext. intros i Hi. rewrite noself_recipdeg by assumption. reflexivity.
Qed.
Lemma noself_total : den_bool G KSelf = false -> den_vec G (KTotal SP) = den_vec G (KTotal SM).
Proof.
  intros H. cbn [den_vec]. apply vbuild_ext. intros i Hi. do 2 f_equal; apply cnt_ext; intros j Hj;
    rewrite (noself_ent H); reflexivity.
Qed.
Lemma noself_int : den_bool G KSelf = false -> den_int G SP = den_int G SM.
Proof. intros H. unfold den_int. f_equal. apply nsum_ext. intros. apply noself_recipdeg; assumption. Qed.
Lemma noself_elem o : den_bool G KSelf = false -> den_scal G (KElem o SP) = den_scal G (KElem o SM).
Proof.
  intros H. simpl. apply ored_ext. intros i Hi. apply rfold_ext. intros j Hj. symmetry.
  apply (noself_ent H).
Qed.

(** *** counting entries *)
Definition Nsel (p : nat -> nat -> bool) : nat := nsum n (fun i => cnt n (fun j => p i j && has (mget A i j))).
Lemma mnvals_A : mnvals A = Nsel (fun _ _ => true).
Proof. rewrite A_build at 1. rewrite mnvals_mbuild. reflexivity. Qed.
Lemma mnvals_den k : k <> KAT -> mnvals (den_mat G k) = Nsel (msel k).
Proof.
  intros Hk.
  replace (den_mat G k) with (mbuild n n (fun i j => if msel k i j then mget A i j else None))
    by (destruct k; try reflexivity; congruence).
  rewrite mnvals_mbuild. apply nsum_ext. intros i Hi. apply cnt_ext. intros j Hj.
  destruct (msel k i j); reflexivity.
Qed.
Lemma Nsel_add p q r :
  (forall i j, i < n -> j < n -> b2n (p i j) = b2n (q i j) + b2n (r i j)) -> Nsel p = Nsel q + Nsel r.
Proof.
  intros H. unfold Nsel. rewrite <- nsum_add. apply nsum_ext. intros i Hi.
  rewrite !cnt_nsum, <- nsum_add. apply nsum_ext. intros j Hj. specialize (H i j Hi Hj).
  destruct (p i j), (q i j), (r i j); simpl in *; try lia; destruct (has (mget A i j)); reflexivity.
Qed.
Lemma Nsel_eq : Nsel (fun i j => i =? j) = dcount G.
Proof.
  unfold Nsel, dcount. rewrite cnt_nsum. apply nsum_ext. intros i Hi.
  rewrite cnt_single with (k := i); [rewrite Nat.eqb_refl; reflexivity|assumption|].
  intros j Hj E. apply andb_prop in E as [E _]. apply Nat.eqb_eq in E. congruence.
Qed.
Lemma Nsel_swap p : g_dir G = false -> Nsel p = Nsel (fun i j => p j i).
Proof.
  intros Hd. unfold Nsel. rewrite (nsum_ext n _ (fun i => nsum n (fun j => b2n (p i j && has (mget A i j)))))
    by (intros; apply cnt_nsum).
  rewrite nsum_swap. apply nsum_ext. intros j Hj. rewrite cnt_nsum. apply nsum_ext. intros i Hi.
  rewrite (gw_sym _ wf Hd i j). reflexivity.
Qed.
Lemma N_off : mnvals A = mnvals (den_mat G KOff) + dcount G.
Proof.
  rewrite mnvals_A, mnvals_den by discriminate. rewrite <- Nsel_eq. apply Nsel_add.
  intros i j _ _. simpl. destruct (i =? j); reflexivity.
Qed.
Lemma N_tri K : K = KU \/ K = KL -> mnvals (den_mat G (K SP)) = mnvals (den_mat G (K SM)) + dcount G.
Proof.
  intros HK. rewrite !mnvals_den by (destruct HK as [-> | ->]; discriminate).
  rewrite <- Nsel_eq. apply Nsel_add. intros i j _ _.
  destruct HK as [-> | ->]; simpl.
  - destruct (Nat.leb_spec i j), (Nat.ltb_spec i j), (Nat.eqb_spec i j); simpl; lia.
  - destruct (Nat.leb_spec j i), (Nat.ltb_spec j i), (Nat.eqb_spec i j); simpl; lia.
Qed.
Lemma N_both : mnvals A = mnvals (den_mat G (KU SM)) + mnvals (den_mat G (KL SM)) + dcount G.
Proof.
  rewrite mnvals_A, !mnvals_den by discriminate. rewrite <- Nsel_eq.
  rewrite (Nsel_add (fun _ _ => true) (fun i j => i <? j) (fun i j => j <=? i)).
  - rewrite <- Nat.add_assoc. f_equal. apply Nsel_add. intros i j _ _. simpl.
    destruct (Nat.leb_spec j i), (Nat.ltb_spec j i), (Nat.eqb_spec i j); simpl; lia.
  - intros i j _ _. destruct (Nat.leb_spec j i), (Nat.ltb_spec i j); simpl; lia.
Qed.
Lemma N_sym : g_dir G = false -> mnvals (den_mat G (KU SM)) = mnvals (den_mat G (KL SM)).
Proof. intros Hd. rewrite !mnvals_den by discriminate. apply (Nsel_swap _ Hd). Qed.

Lemma ltb_dcount a b : a = b + dcount G -> (b <? a) = den_bool G KSelf.
Proof.
  intros H. simpl. destruct (Nat.eqb_spec (dcount G) 0), (Nat.ltb_spec b a); try reflexivity; lia.
Qed.
Lemma self_off : (mnvals (den_mat G KOff) <? mnvals A) = den_bool G KSelf.
Proof. apply ltb_dcount, N_off. Qed.
Lemma self_tri K : K = KU \/ K = KL -> (mnvals (den_mat G (K SM)) <? mnvals (den_mat G (K SP))) = den_bool G KSelf.
Proof. intros HK. apply ltb_dcount, N_tri, HK. Qed.
Lemma self_pp : (mnvals A <? mnvals (den_mat G (KU SP)) + mnvals (den_mat G (KL SP))) = den_bool G KSelf.
Proof.
  apply ltb_dcount. rewrite (N_tri KU), (N_tri KL), N_both by auto. lia.
Qed.
Lemma self_mm : (mnvals (den_mat G (KU SM)) + mnvals (den_mat G (KL SM)) <? mnvals A) = den_bool G KSelf.
Proof. apply ltb_dcount, N_both. Qed.
Lemma self_2p K : K = KU \/ K = KL -> g_dir G = false -> (mnvals A <? 2 * mnvals (den_mat G (K SP))) = den_bool G KSelf.
Proof.
  intros HK Hd. rewrite <- self_pp. pose proof (N_sym Hd). pose proof (N_tri KU (or_introl eq_refl)).
  pose proof (N_tri KL (or_intror eq_refl)). f_equal. destruct HK as [-> | ->]; lia.
Qed.
Lemma self_2m K : K = KU \/ K = KL -> g_dir G = false -> (2 * mnvals (den_mat G (K SM)) <? mnvals A) = den_bool G KSelf.
Proof.
  intros HK Hd. rewrite <- self_mm. pose proof (N_sym Hd). f_equal. destruct HK as [-> | ->]; lia.
Qed.

(** *** selections of selections *)
Lemma off_A : offdiagm A = den_mat G KOff.
Proof. rewrite A_build at 1. unfold offdiagm. rewrite mselect_mbuild. reflexivity. Qed.
Lemma triu_A : triu A = den_mat G (KU SP).
Proof. rewrite A_build at 1. unfold triu. rewrite mselect_mbuild. reflexivity. Qed.
Lemma tril_A : tril A = den_mat G (KL SP).
Proof. rewrite A_build at 1. unfold tril. rewrite mselect_mbuild. reflexivity. Qed.
Lemma triu1_A : triu1 A = den_mat G (KU SM).
Proof. rewrite A_build at 1. unfold triu1. rewrite mselect_mbuild. reflexivity. Qed.
Lemma tril1_A : tril1 A = den_mat G (KL SM).
Proof. rewrite A_build at 1. unfold tril1. rewrite mselect_mbuild. reflexivity. Qed.
Lemma triu1_off : triu1 (den_mat G KOff) = den_mat G (KU SM).
Proof.
  unfold triu1. simpl. rewrite mselect_mbuild. apply mbuild_ext. intros i j _ _.
  destruct (Nat.ltb_spec i j), (Nat.eqb_spec i j); simpl; try reflexivity; lia.
Qed.
Lemma tril1_off : tril1 (den_mat G KOff) = den_mat G (KL SM).
Proof.
  unfold tril1. simpl. rewrite mselect_mbuild. apply mbuild_ext. intros i j _ _.
  destruct (Nat.ltb_spec j i), (Nat.eqb_spec i j); simpl; try reflexivity; lia.
Qed.
Lemma triu1_U : triu1 (den_mat G (KU SP)) = den_mat G (KU SM).
Proof.
  unfold triu1. simpl. rewrite mselect_mbuild. apply mbuild_ext. intros i j _ _.
  destruct (Nat.ltb_spec i j), (Nat.leb_spec i j); simpl; try reflexivity; lia.
Qed.
Lemma tril1_L : tril1 (den_mat G (KL SP)) = den_mat G (KL SM).
Proof.
  unfold tril1. simpl. rewrite mselect_mbuild. apply mbuild_ext. intros i j _ _.
  destruct (Nat.ltb_spec j i), (Nat.leb_spec j i); simpl; try reflexivity; lia.
Qed.
Lemma diag_A : mdiag A = den_vec G KDiag.
Proof. rewrite A_build at 1. rewrite mdiag_mbuild. reflexivity. Qed.
Lemma diag_U : mdiag (den_mat G (KU SP)) = den_vec G KDiag.
Proof. simpl. rewrite mdiag_mbuild. apply vbuild_ext. intros. rewrite Nat.leb_refl. reflexivity. Qed.
Lemma diag_L : mdiag (den_mat G (KL SP)) = den_vec G KDiag.
Proof. simpl. rewrite mdiag_mbuild. apply vbuild_ext. intros. rewrite Nat.leb_refl. reflexivity. Qed.
Lemma noself_diag : den_bool G KSelf = false -> vempty n = den_vec G KDiag.
Proof.
  intros H. simpl. unfold vempty. apply vbuild_ext. intros i Hi. symmetry. apply noself_all. assumption.
Qed.
Lemma self_diag : (0 <? nvals (den_vec G KDiag)) = den_bool G KSelf.
Proof.
  simpl. rewrite nvals_vbuild. fold (dcount G). destruct (dcount G); reflexivity.
Qed.
Lemma trans_A : mtrans A = den_mat G KAT.
Proof. rewrite A_build at 1. rewrite mtrans_mbuild. reflexivity. Qed.
Lemma undir_AT : g_dir G = false -> A = den_mat G KAT.
Proof.
  intros Hd. rewrite A_build at 1. simpl. apply mbuild_ext. intros i j _ _. apply (gw_sym _ wf Hd).
Qed.

(** *** reductions *)
Lemma red_A a o : red_ax a o A = den_red G a o SP.
Proof. rewrite A_build at 1. destruct a; simpl; rewrite ?red_row_mbuild, ?red_col_mbuild; reflexivity. Qed.
Lemma red_AT o : red_row o (den_mat G KAT) = den_red G Col o SP.
Proof. simpl. rewrite red_row_mbuild. reflexivity. Qed.
Lemma red_off a o : red_ax a o (den_mat G KOff) = den_red G a o SM.
Proof.
  destruct a; simpl; rewrite ?red_row_mbuild, ?red_col_mbuild; apply vbuild_ext; intros i Hi;
    apply ored_ext; intros j Hj; [|rewrite Nat.eqb_sym];
    (destruct (Nat.eqb_spec i j); [subst|]; simpl; rewrite ?Nat.eqb_refl; try reflexivity).
Qed.
Lemma red_LU a o : vunion (rbin o) (red_ax a o (den_mat G (KL SM))) (red_ax a o (den_mat G (KU SM)))
                   = den_red G a o SM.
Proof.
  destruct a; simpl; rewrite ?red_row_mbuild, ?red_col_mbuild, vunion_vbuild; apply vbuild_ext;
    intros i Hi; rewrite <- (ored_merge (rbin o) (rbin_assoc o) (rbin_comm o)); apply ored_ext;
    intros j Hj.
  - destruct (Nat.ltb_spec i j), (Nat.ltb_spec j i), (Nat.eqb_spec i j); simpl; try lia;
      try reflexivity; rewrite ?omerge_none_r; reflexivity.
  - destruct (Nat.ltb_spec i j), (Nat.ltb_spec j i), (Nat.eqb_spec j i); simpl; try lia;
      try reflexivity; rewrite ?omerge_none_r; reflexivity.
Qed.
Lemma vsize_den_red a o s : vsize (den_red G a o s) = n.
Proof. destruct a; apply vsize_vbuild. Qed.
Lemma vsize_red_ax a o k : k <> KAT -> vsize (red_ax a o (den_mat G k)) = n.
Proof. intros Hk. destruct k, a; try congruence; simpl; unfold red_row, red_col, mred_row, mred_col;
   rewrite ?vsize_vbuild; unfold mmap; rewrite ?nrows_mbuild, ?ncols_mbuild; reflexivity. Qed.
Lemma undir_red o s : g_dir G = false -> den_red G Row o s = den_red G Col o s.
Proof.
  intros Hd. simpl. apply vbuild_ext. intros i Hi. apply rfold_ext. intros j Hj.
  destruct s; simpl; rewrite (gw_sym _ wf Hd i j); [reflexivity|].
  rewrite Nat.eqb_sym. reflexivity.
Qed.
Lemma rmap_id o x : o <> RCount -> rmap o x = x.
Proof. destruct o; try reflexivity. congruence. Qed.
Lemma omap_rmap o x : o <> RCount -> omap (rmap o) x = x.
Proof. intros H. destruct x; simpl; [rewrite rmap_id by assumption|]; reflexivity. Qed.
Lemma red_vec_red a o s : o <> RCount -> red_vec o (den_red G a o s) = den_scal G (KElem o s).
Proof.
  intros Ho. unfold red_vec, vreduce. rewrite vsize_vmap, vsize_den_red.
  destruct a; simpl.
  - apply ored_ext. intros i Hi. rewrite vget_vmap, vget_vbuild_lt, omap_rmap by assumption. reflexivity.
  - unfold rfold at 2. rewrite (ored_swap (rbin o) (rbin_assoc o) (rbin_comm o)).
    apply ored_ext. intros i Hi. rewrite vget_vmap, vget_vbuild_lt, omap_rmap by assumption. reflexivity.
Qed.
Lemma red_mat_A o : red_mat o A = den_scal G (KElem o SP).
Proof. rewrite A_build at 1. rewrite red_mat_mbuild. reflexivity. Qed.
Lemma red_mat_off o : red_mat o (den_mat G KOff) = den_scal G (KElem o SM).
Proof.
  simpl. rewrite red_mat_mbuild. apply ored_ext. intros i Hi. apply ored_ext. intros j Hj.
  destruct (i =? j); reflexivity.
Qed.
Lemma red_mat_LU o : omerge (rbin o) (red_mat o (den_mat G (KL SM))) (red_mat o (den_mat G (KU SM)))
                     = den_scal G (KElem o SM).
Proof.
  simpl. rewrite !red_mat_mbuild, <- (ored_merge (rbin o) (rbin_assoc o) (rbin_comm o)).
  apply ored_ext. intros i Hi. rewrite <- (ored_merge (rbin o) (rbin_assoc o) (rbin_comm o)).
  apply ored_ext. intros j Hj.
  destruct (Nat.ltb_spec i j), (Nat.ltb_spec j i), (Nat.eqb_spec i j); simpl; try lia;
    try reflexivity; rewrite ?omerge_none_r; reflexivity.
Qed.
Lemma red_diag o : red_vec o (den_vec G KDiag) = den_scal G (KDiagRed o).
Proof.
  unfold red_vec, vreduce. simpl. rewrite vmap_vbuild, vsize_vbuild. apply ored_ext.
  intros i Hi. rewrite vget_vbuild_lt by assumption. reflexivity.
Qed.
Lemma noself_diagred o : den_bool G KSelf = false -> None = den_scal G (KDiagRed o).
Proof.
  intros H. simpl. symmetry. apply ored_none. intros i Hi. rewrite noself_all by assumption. reflexivity.
Qed.

(** *** reciprocal and total degrees *)
Lemma den_count a s : den_red G a RCount s =
  vbuild n (fun i => onz (match a with Row => outdeg G s i | Col => indeg G s i end)).
Proof.
  destruct a; simpl; apply vbuild_ext; intros i Hi; unfold rfold; simpl.
  - rewrite (ored_ext _ _ _ (fun j => if has (ent G s i j) then Some 1%Z else None))
      by (intros; destruct (ent G s i i0); reflexivity).
    apply ored_plus_ones.
  - rewrite (ored_ext _ _ _ (fun j => if has (ent G s j i) then Some 1%Z else None))
      by (intros; destruct (ent G s i0 i); reflexivity).
    apply ored_plus_ones.
Qed.
Lemma total_sum s : vunion Z.add (den_red G Row RCount s) (den_red G Col RCount s) = den_vec G (KTotal s).
Proof. rewrite !den_count, vunion_vbuild. apply vbuild_ext. intros. apply omerge_onz. Qed.
Lemma pair_red_gen f g :
  pair_red (mbuild n n f) (mbuild n n g) = vbuild n (fun i => onz (cnt n (fun j => has (f i j) && has (g i j)))).
Proof.
  unfold pair_red. rewrite minter_mbuild. unfold mred_row. rewrite nrows_mbuild, ncols_mbuild.
  apply vbuild_ext. intros i Hi. unfold onz. rewrite <- ored_plus_ones. apply ored_ext. intros j Hj.
  rewrite mget_mbuild_lt by assumption. destruct (f i j), (g i j); reflexivity.
Qed.
Lemma recip_A : pair_red A (den_mat G KAT) = den_vec G (KRecip SP).
Proof. rewrite A_build at 1. simpl. apply pair_red_gen. Qed.
Lemma recip_off_AT : pair_red (den_mat G KOff) (den_mat G KAT) = den_vec G (KRecip SM).
Proof.
  simpl. rewrite pair_red_gen. apply vbuild_ext. intros i Hi. f_equal. apply cnt_ext. intros j Hj.
  simpl. rewrite (Nat.eqb_sym j i). destruct (i =? j); reflexivity.
Qed.
Lemma recip_off_offT : pair_red (den_mat G KOff) (mtrans (den_mat G KOff)) = den_vec G (KRecip SM).
Proof.
  simpl. rewrite mtrans_mbuild, pair_red_gen. apply vbuild_ext. intros i Hi. f_equal. apply cnt_ext. intros j Hj.
  simpl. rewrite (Nat.eqb_sym j i). destruct (i =? j); reflexivity.
Qed.
Lemma cnt_tri_split (f : nat -> bool) i : 
  cnt n (fun j => (j <? i) && f j) + cnt n (fun j => (i <? j) && f j) = cnt n (fun j => negb (i =? j) && f j).
Proof.
  rewrite !cnt_nsum, <- nsum_add. apply nsum_ext. intros j _.
  destruct (Nat.ltb_spec i j), (Nat.ltb_spec j i), (Nat.eqb_spec i j); simpl; try lia; destruct (f j); reflexivity.
Qed.
Lemma recip_LU_AT : vunion Z.add (pair_red (den_mat G (KL SM)) (den_mat G KAT)) (pair_red (den_mat G (KU SM)) (den_mat G KAT))
  = den_vec G (KRecip SM).
Proof.
  simpl. rewrite !pair_red_gen, vunion_vbuild. apply vbuild_ext. intros i Hi.
  rewrite omerge_onz. f_equal. unfold recipdeg.
  rewrite (cnt_ext n _ (fun j => (j <? i) && (has (mget A i j) && has (mget A j i))))
    by (intros; destruct (i0 <? i); reflexivity).
  rewrite (cnt_ext n (fun j => has (if i <? j then _ else _) && _) (fun j => (i <? j) && (has (mget A i j) && has (mget A j i))))
    by (intros; destruct (i <? i0); reflexivity).
  rewrite cnt_tri_split. apply cnt_ext. intros j Hj. simpl. rewrite (Nat.eqb_sym j i).
  destruct (i =? j); reflexivity.
Qed.
(** recip+ = recip- plus one at each self-edge *)
Lemma recipdeg_split' i : i < n ->
  nsum n (fun j => if j =? i then b2n (has (mget A i i)) else 0) = b2n (has (mget A i i)).
Proof.
  intros Hi. rewrite nsum_single with (k := i); [rewrite Nat.eqb_refl; reflexivity|assumption|].
  intros j Hj Hne. apply Nat.eqb_neq in Hne. rewrite Hne. reflexivity.
Qed.
Lemma recipdeg_split i : i < n -> recipdeg G SP i = recipdeg G SM i + b2n (has (mget A i i)).
Proof.
  intros Hi. unfold recipdeg. rewrite !cnt_nsum. rewrite <- (recipdeg_split' i Hi).
  rewrite <- nsum_add. apply nsum_ext. intros j Hj. simpl. rewrite (Nat.eqb_sym j i).
  destruct (Nat.eqb_spec i j) as [->|]; simpl; [|lia]. destruct (has (mget A j j)); reflexivity.
Qed.
Lemma recip_add_diag : vunion Z.add (vones (den_vec G KDiag)) (den_vec G (KRecip SM)) = den_vec G (KRecip SP).
Proof.
  unfold vones. simpl. rewrite vmap_vbuild, vunion_vbuild. apply vbuild_ext. intros i Hi.
  rewrite recipdeg_split by assumption.
  replace (omap (fun _ : Z => 1%Z) (mget A i i)) with (onz (b2n (has (mget A i i))))
    by (destruct (mget A i i); reflexivity).
  rewrite omerge_onz. f_equal. lia.
Qed.
Lemma drop0_minus mask :
  drop0 (msk mask (vminus (den_vec G (KRecip SP)) (vones (den_vec G KDiag)))) = msk mask (den_vec G (KRecip SM)).
Proof.
  assert (E : forall i, i < n ->
    omerge Z.sub (onz (recipdeg G SP i)) (omap (fun _ => 1%Z) (mget A i i)) =
    if has (mget A i i) then Some (Z.of_nat (recipdeg G SM i)) else onz (recipdeg G SM i)).
  { intros i Hi. rewrite recipdeg_split by assumption. destruct (mget A i i); simpl.
    - unfold onz. destruct (Nat.eqb_spec (recipdeg G SM i + 1) 0); [lia|]. cbn [omerge]. f_equal. lia.
    - rewrite omerge_none_r, Nat.add_0_r. reflexivity. }
  unfold vminus, vones. simpl. rewrite vmap_vbuild, vunion_vbuild.
  assert (D : forall p : nat -> bool, drop0 (vbuild n (fun i => if p i then omerge Z.sub (onz (recipdeg G SP i)) (omap (fun _ => 1%Z) (mget A i i)) else None))
     = vbuild n (fun i => if p i then onz (recipdeg G SM i) else None)).
  { intros p. unfold drop0, vwrite. rewrite vsize_vbuild. apply vbuild_ext. intros i Hi.
    unfold mV. rewrite !vget_vbuild_lt by assumption. destruct (p i); [|reflexivity].
    rewrite E by assumption. unfold onz. destruct (has (mget A i i)).
    - destruct (Nat.eqb_spec (recipdeg G SM i) 0) as [E0|Hne]; [rewrite E0; reflexivity|].
      destruct (Z.eqb_spec (Z.of_nat (recipdeg G SM i)) 0); [lia|reflexivity].
    - destruct (Nat.eqb_spec (recipdeg G SM i) 0) as [E0|Hne]; [reflexivity|].
      destruct (Z.eqb_spec (Z.of_nat (recipdeg G SM i)) 0); [lia|reflexivity]. }
  destruct mask as [p|]; simpl.
  - rewrite !vrestrict_vbuild. apply (D p).
  - apply (D (fun _ => true)).
Qed.
Lemma msk_vminus mask u v : vsize u = vsize v -> vminus (msk mask u) (msk mask v) = msk mask (vminus u v).
Proof. apply msk_vunion. Qed.
Lemma msk_vones mask v : vones (msk mask v) = msk mask (vones v).
Proof.
  destruct mask as [p|]; [|reflexivity]. simpl. unfold vones.
  rewrite <- (vbuild_vget v), vrestrict_vbuild, !vmap_vbuild, vrestrict_vbuild.
  apply vbuild_ext. intros i _. destruct (p i); reflexivity.
Qed.
Lemma vsum_recip s : vsum (den_vec G (KRecip s)) = den_int G s.
Proof.
  unfold vsum, vreduce. simpl. rewrite vsize_vbuild, oz_ored_plus. unfold den_int. rewrite nsum_zsum.
  apply zsum_ext. intros i Hi. rewrite vget_vbuild_lt by assumption. apply onz_zsum.
Qed.
Lemma total_recip_A : oz (mred_scalar Z.add (minter op_pairz A (den_mat G KAT))) = den_int G SP.
Proof. rewrite <- vsum_recip, <- recip_A. reflexivity. Qed.
Lemma int_split : den_int G SP = (den_int G SM + Z.of_nat (dcount G))%Z.
Proof.
  unfold den_int, dcount. rewrite <- Nat2Z.inj_add. f_equal. rewrite cnt_nsum, <- nsum_add.
  apply nsum_ext. intros i Hi. apply recipdeg_split. assumption.
Qed.
Lemma self_int : (den_int G SM <? den_int G SP)%Z = den_bool G KSelf.
Proof.
  rewrite int_split. simpl. destruct (Nat.eqb_spec (dcount G) 0), (Z.ltb_spec (den_int G SM) (den_int G SM + Z.of_nat (dcount G)));
    try reflexivity; lia.
Qed.
Lemma deg_split a s' : s' = a -> forall i, i < n ->
  (match a with Row => outdeg G SP i | Col => indeg G SP i end) =
  (match a with Row => outdeg G SM i | Col => indeg G SM i end) + b2n (has (mget A i i)).
Proof.
  intros _ i Hi. destruct a; unfold outdeg, indeg; rewrite !cnt_nsum, <- (recipdeg_split' i Hi), <- nsum_add;
    apply nsum_ext; intros j Hj; simpl.
  - rewrite (Nat.eqb_sym j i). destruct (Nat.eqb_spec i j) as [->|]; simpl; lia.
  - destruct (Nat.eqb_spec j i) as [->|]; simpl; lia.
Qed.
Lemma total_split i : i < n ->
  outdeg G SP i + indeg G SP i = outdeg G SM i + indeg G SM i + 2 * b2n (has (mget A i i)).
Proof.
  intros Hi. pose proof (deg_split Row Row eq_refl i Hi). pose proof (deg_split Col Col eq_refl i Hi).
  simpl in *. lia.
Qed.
Lemma vsum_onz f : vsum (vbuild n (fun i => onz (f i))) = Z.of_nat (nsum n f).
Proof.
  unfold vsum, vreduce. rewrite vsize_vbuild, oz_ored_plus, nsum_zsum. apply zsum_ext.
  intros i Hi. rewrite vget_vbuild_lt by assumption. apply onz_zsum.
Qed.
Lemma sum_outdeg : nsum n (outdeg G SP) = mnvals A.
Proof. rewrite mnvals_A. reflexivity. Qed.
Lemma sum_indeg : nsum n (indeg G SP) = mnvals A.
Proof.
  rewrite <- sum_outdeg. unfold indeg, outdeg.
  rewrite (nsum_ext n _ (fun j => nsum n (fun i => b2n (has (ent G SP i j))))) by (intros; apply cnt_nsum).
  rewrite nsum_swap. apply nsum_ext. intros. rewrite cnt_nsum. reflexivity.
Qed.
Lemma self_total_m : (vsum (den_vec G (KTotal SM)) <? 2 * Z.of_nat (mnvals A))%Z = den_bool G KSelf.
Proof.
  cbn [den_vec]. rewrite vsum_onz.
  assert (E : 2 * mnvals A = nsum n (fun i => outdeg G SM i + indeg G SM i) + 2 * dcount G).
  { unfold dcount. rewrite cnt_nsum, <- nsum_scale, <- nsum_add.
    rewrite (nsum_ext n _ (fun i => outdeg G SP i + indeg G SP i)) by (intros; symmetry; apply total_split; assumption).
    rewrite nsum_add, sum_outdeg, sum_indeg. lia. }
  simpl den_bool. destruct (Nat.eqb_spec (dcount G) 0) as [Hd|Hd]; destruct (Z.ltb_spec (Z.of_nat (nsum n (fun i => outdeg G SM i + indeg G SM i))) (2 * Z.of_nat (mnvals A)));
    try reflexivity; lia.
Qed.
(** digraph.py 367-368: the total of total_degrees+ is exactly 2*nvals, never greater *)
Lemma total_p_never : (2 * Z.of_nat (mnvals A) <? vsum (den_vec G (KTotal SP)))%Z = false.
Proof.
  cbn [den_vec]. rewrite vsum_onz, nsum_add, sum_outdeg, sum_indeg. apply Z.ltb_ge. lia.
Qed.
Lemma visequal_eq u v : visequal u v = true <-> u = v.
Proof.
  unfold visequal. rewrite andb_true_iff, Nat.eqb_eq, forallb_forall. split.
  - intros [E H]. apply vec_ext; [assumption|]. intros i Hi. specialize (H i ltac:(apply in_seq; lia)).
    destruct (vget u i), (vget v i); simpl in H; try discriminate; [|reflexivity].
    apply Z.eqb_eq in H. congruence.
  - intros ->. split; [reflexivity|]. intros i _. destruct (vget v i); simpl; [apply Z.eqb_refl|reflexivity].
Qed.
Lemma visequal_self u v (f g : nat -> nat) :
  u = vbuild n (fun i => onz (f i)) -> v = vbuild n (fun i => onz (g i)) ->
  (exists c, 0 < c /\ forall i, i < n -> g i = f i + c * b2n (has (mget A i i))) ->
  negb (visequal u v) = den_bool G KSelf.
Proof.
  intros -> -> (c & Hc & H).
  destruct (den_bool G KSelf) eqn:E.
  - apply negb_true_iff. apply not_true_is_false. rewrite visequal_eq. intros Heq.
    assert (En : den_bool G KSelf = false); [|congruence].
    apply self_false_iff. intros i Hi. apply (f_equal (fun v => oz (vget v i))) in Heq.
    rewrite !vget_vbuild_lt, !onz_zsum in Heq by assumption. specialize (H i Hi).
    destruct (mget A i i); simpl in *; [lia|reflexivity].
  - apply negb_false_iff, visequal_eq. apply vbuild_ext. intros i Hi. rewrite H by assumption.
    rewrite (noself_all E). simpl. f_equal. lia.
Qed.
Lemma self_iseq_recip : negb (visequal (den_vec G (KRecip SM)) (den_vec G (KRecip SP))) = den_bool G KSelf.
Proof.
  eapply visequal_self; try reflexivity. exists 1. split; [lia|]. intros i Hi.
  rewrite recipdeg_split by assumption. lia.
Qed.
Lemma self_iseq_total : negb (visequal (den_vec G (KTotal SM)) (den_vec G (KTotal SP))) = den_bool G KSelf.
Proof.
  eapply visequal_self; try reflexivity. exists 2. split; [lia|]. intros i Hi.
  apply total_split; assumption.
Qed.
Lemma self_iseq_alias_row : negb (visequal (den_vec G (KAliasRow SM)) (den_vec G (KAliasRow SP))) = den_bool G KSelf.
Proof.
  eapply visequal_self; [apply (den_count Row)|apply (den_count Row)|]. exists 1. split; [lia|]. intros i Hi.
  rewrite (deg_split Row Row) by auto. lia.
Qed.
Lemma self_iseq_alias_col : negb (visequal (den_vec G (KAliasCol SM)) (den_vec G (KAliasCol SP))) = den_bool G KSelf.
Proof.
  eapply visequal_self; [apply (den_count Col)|apply (den_count Col)|]. exists 1. split; [lia|]. intros i Hi.
  rewrite (deg_split Col Col) by auto. lia.
Qed.
Lemma self_sum_alias a : (vsum (den_red G a RCount SM) <? Z.of_nat (mnvals A))%Z = den_bool G KSelf.
Proof.
  rewrite den_count, vsum_onz.
  assert (E : mnvals A = nsum n (fun i => match a with Row => outdeg G SM i | Col => indeg G SM i end) + dcount G).
  { unfold dcount. rewrite cnt_nsum, <- nsum_add.
    rewrite (nsum_ext n _ (fun i => match a with Row => outdeg G SP i | Col => indeg G SP i end))
      by (intros; symmetry; apply (deg_split a a); auto).
    destruct a; [symmetry; apply sum_outdeg|symmetry; apply sum_indeg]. }
  simpl den_bool. destruct (Nat.eqb_spec (dcount G) 0) as [Hd|Hd]; destruct (Z.ltb_spec (Z.of_nat (nsum n (fun i => match a with Row => outdeg G SM i | Col => indeg G SM i end))) (Z.of_nat (mnvals A)));
    try reflexivity; lia.
Qed.

(** *** negative values *)
Lemma ored_min_neg (nn : nat) (f : nat -> option Z) :
  (oz (ored Z.min nn f) <? 0)%Z = existsb (fun i => match f i with Some x => (x <? 0)%Z | None => false end) (seq 0 nn).
Proof.
  apply eq_true_iff_eq. rewrite existsb_exists. split.
  - intros H. destruct (ored Z.min nn f) as [m|] eqn:E; [|discriminate].
    apply ored_min_some in E as [(i & Hi & Hf) _]. exists i. split; [apply in_seq; lia|].
    rewrite Hf. assumption.
  - intros (i & Hi & H). apply in_seq in Hi. destruct (f i) as [x|] eqn:Ef; [|discriminate].
    destruct (ored Z.min nn f) as [m|] eqn:E.
    + apply ored_min_some in E as [_ Hm]. specialize (Hm i x ltac:(lia) Ef). simpl.
      apply Z.ltb_lt in H. apply Z.ltb_lt. lia.
    + rewrite ored_none in E. rewrite E in Ef by lia. discriminate.
Qed.
Lemma neg_diag_min : (oz (den_scal G (KDiagRed RMin)) <? 0)%Z = den_bool G KNegDiag.
Proof.
  simpl. unfold rfold. simpl.
  rewrite (ored_ext _ _ _ (fun i => mget A i i)) by (intros; destruct (mget A i i); reflexivity).
  apply ored_min_neg.
Qed.
Lemma existsb_ext_in {X} (f g : X -> bool) l : (forall x, In x l -> f x = g x) -> existsb f l = existsb g l.
Proof.
  induction l; intros H; simpl; [reflexivity|]. rewrite H by (left; reflexivity).
  f_equal. apply IHl. intros; apply H; right; assumption.
Qed.
Lemma neg_elem_min s : (oz (den_scal G (KElem RMin s)) <? 0)%Z = den_bool G (KNeg s).
Proof.
  simpl. rewrite ored_min_neg. unfold negent. apply existsb_ext_in. intros i _.
  rewrite <- ored_min_neg. unfold rfold. simpl.
  rewrite (ored_ext _ _ _ (fun j => ent G s i j)) by (intros; destruct (ent G s i i0); reflexivity).
  destruct (ored Z.min n (fun j => ent G s i j)); reflexivity.
Qed.
Lemma neg_true_iff s : den_bool G (KNeg s) = true <-> exists i j x, ent G s i j = Some x /\ (x < 0)%Z.
Proof.
  simpl. unfold negent. rewrite existsb_exists. split.
  - intros (i & Hi & H). apply existsb_exists in H as (j & Hj & H).
    destruct (ent G s i j) as [x|] eqn:E; [|discriminate]. exists i, j, x. split; [assumption|].
    apply Z.ltb_lt. assumption.
  - intros (i & j & x & E & Hx).
    assert (E' : mget A i j = Some x) by (destruct s; simpl in E; [|destruct (i =? j)]; congruence).
    destruct (mget_some_lt _ _ _ _ (gw_mwf _ wf) E') as [Hi Hj]. rewrite (gw_sq _ wf) in Hj.
    exists i. split; [apply in_seq; lia|]. apply existsb_exists. exists j. split; [apply in_seq; lia|].
    rewrite E. apply Z.ltb_lt. assumption.
Qed.
Lemma negdiag_true_iff : den_bool G KNegDiag = true <-> exists i x, mget A i i = Some x /\ (x < 0)%Z.
Proof.
  simpl. rewrite existsb_exists. split.
  - intros (i & Hi & H). destruct (mget A i i) as [x|] eqn:E; [|discriminate]. exists i, x.
    split; [assumption|]. apply Z.ltb_lt. assumption.
  - intros (i & x & E & Hx). destruct (mget_some_lt _ _ _ _ (gw_mwf _ wf) E) as [Hi Hj].
    exists i. split; [apply in_seq; lia|]. rewrite E. apply Z.ltb_lt. assumption.
Qed.
Lemma neg_split : den_bool G (KNeg SP) = den_bool G (KNeg SM) || den_bool G KNegDiag.
Proof.
  apply eq_true_iff_eq. rewrite orb_true_iff, !neg_true_iff, negdiag_true_iff. split.
  - intros (i & j & x & E & Hx). destruct (Nat.eqb_spec i j) as [->|Hne].
    + right. exists j, x. split; assumption.
    + left. exists i, j, x. split; [|assumption]. simpl. apply Nat.eqb_neq in Hne. rewrite Hne. assumption.
  - intros [(i & j & x & E & Hx)|(i & x & E & Hx)].
    + simpl in E. destruct (i =? j); [discriminate|]. exists i, j, x. split; assumption.
    + exists i, i, x. split; assumption.
Qed.
Lemma nonneg_neg s : nonneg_dtype (g_dt G) = true -> den_bool G (KNeg s) = false.
Proof.
  intros H. apply not_true_is_false. rewrite neg_true_iff. intros (i & j & x & E & Hx).
  assert (E' : mget A i j = Some x) by (destruct s; simpl in E; [|destruct (i =? j)]; congruence).
  pose proof (gw_nn _ wf H _ _ _ E'). lia.
Qed.
Lemma nonneg_negdiag : nonneg_dtype (g_dt G) = true -> den_bool G KNegDiag = false.
Proof.
  intros H. pose proof (nonneg_neg SP H) as E. rewrite neg_split in E.
  apply orb_false_iff in E. tauto.
Qed.
Lemma noself_negdiag : den_bool G KSelf = false -> den_bool G KNegDiag = false.
Proof.
  intros H. apply not_true_is_false. rewrite negdiag_true_iff. intros (i & x & E & _).
  rewrite noself_all in E by assumption. discriminate.
Qed.
Lemma negdiag_self : den_bool G KNegDiag = true -> true = den_bool G KSelf.
Proof.
  intros H. destruct (den_bool G KSelf) eqn:E; [reflexivity|]. rewrite noself_negdiag in H by assumption. discriminate.
Qed.
(** iso-valued: every value is the common one *)
Lemma iso_elem_in m : den_scal G (KElem RAny SP) = Some m -> exists i j, mget A i j = Some m.
Proof.
  { simpl.
    assert (K : forall nn (f : nat -> option Z) m', ored Z.max nn f = Some m' -> exists i, i < nn /\ f i = Some m').
    { induction nn; intros f m' H; [discriminate|]. simpl in H.
      destruct (ored Z.max nn f) as [a|] eqn:Ea, (f nn) as [b|] eqn:Eb; simpl in H; try discriminate.
      - injection H as H. destruct (Z.max_spec a b) as [[_ E]|[_ E]]; rewrite E in H; subst.
        + exists nn. split; [lia|assumption].
        + destruct (IHnn _ _ Ea) as (i & Hi & Hf). exists i. split; [lia|assumption].
      - injection H as <-. destruct (IHnn _ _ Ea) as (i & Hi & Hf). exists i. split; [lia|assumption].
      - injection H as <-. exists nn. split; [lia|assumption]. }
    intros H. apply K in H as (i & Hi & H). apply K in H as (j & Hj & H). exists i, j.
    destruct (mget A i j); [simpl in H; congruence|discriminate]. }
Qed.
Lemma iso_max_neg : g_iso G = true -> (oz (den_scal G (KElem RAny SP)) <? 0)%Z = den_bool G (KNeg SP).
Proof.
  intros Hiso. pose proof iso_elem_in as Hval.
  apply eq_true_iff_eq. rewrite neg_true_iff. split.
  - intros H. destruct (den_scal G (KElem RAny SP)) as [m|]; [|discriminate].
    destruct (Hval m ltac:(first [reflexivity|assumption])) as (i & j & E). exists i, j, m. split; [assumption|]. apply Z.ltb_lt. assumption.
  - intros (i & j & x & E & Hx). simpl in E.
    destruct (den_scal G (KElem RAny SP)) as [m|] eqn:Em.
    + destruct (Hval m ltac:(first [reflexivity|assumption])) as (i' & j' & E'). rewrite (gw_iso _ wf Hiso _ _ _ _ _ _ E E') in Hx.
      apply Z.ltb_lt. assumption.
    + exfalso. simpl in Em. rewrite ored_none in Em. destruct (mget_some_lt _ _ _ _ (gw_mwf _ wf) E) as [Hi Hj].
      rewrite (gw_sq _ wf) in Hj. specialize (Em i Hi). unfold rfold in Em. rewrite ored_none in Em.
      specialize (Em j Hj). simpl in Em. rewrite E in Em. discriminate.
Qed.
End Facts.
