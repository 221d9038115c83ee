(** * Every getter computes what its name denotes, from every consistent cache *)
From Verif Require Import Base BaseProofs Model_Graph Model_Cache Spec_Cache CacheMath.

Definition wp {X} (m : M X) (s : st) (Q : outcome X -> st -> Prop) : Prop :=
  Q (fst (m s)) (snd (m s)).
Lemma wp_bind {X Y} (m : M X) (f : X -> M Y) s Q :
  wp m s (fun o s' => match o with Val x => wp (f x) s' Q | Raise e => Q (Raise e) s' end) ->
  wp (bind m f) s Q.
Proof. unfold wp, bind. destruct (m s) as [[x|e] s']; simpl; auto. Qed.
Lemma wp_ret {X} (x : X) s (Q : outcome X -> st -> Prop) : Q (Val x) s -> wp (ret x) s Q. Proof. exact id. Qed.
Lemma wp_raise {X} e s (Q : outcome X -> st -> Prop) : Q (Raise e) s -> wp (raise e : M X) s Q. Proof. exact id. Qed.
Lemma wp_conseq {X} (m : M X) s (Q Q' : outcome X -> st -> Prop) :
  wp m s Q -> (forall o s', Q o s' -> Q' o s') -> wp m s Q'.
Proof. unfold wp. auto. Qed.
Lemma wp_if {X} (b : bool) (m1 m2 : M X) s Q :
  (b = true -> wp m1 s Q) -> (b = false -> wp m2 s Q) -> wp (if b then m1 else m2) s Q.
Proof. destruct b; auto. Qed.

Lemma ext_refl s : ext s s. Proof. repeat split; auto. Qed.
Lemma ext_trans a b c : ext a b -> ext b c -> ext a c.
Proof. intros (A1 & A2 & A3 & A4 & A5 & A6) (B1 & B2 & B3 & B4 & B5 & B6). repeat split; auto. Qed.
Lemma ext_mat s s' k : ext s s' -> has (c_mat s k) = true -> has (c_mat s' k) = true.
Proof. intros H; apply H. Qed.
Lemma ext_vec s s' k : ext s s' -> has (c_vec s k) = true -> has (c_vec s' k) = true.
Proof. intros H; apply H. Qed.
Lemma ext_scal s s' k : ext s s' -> has (c_scal s k) = true -> has (c_scal s' k) = true.
Proof. intros H; apply H. Qed.
Lemma ext_int s s' k : ext s s' -> has (c_int s k) = true -> has (c_int s' k) = true.
Proof. intros H; apply H. Qed.
Lemma ext_bool s s' k : ext s s' -> has (c_bool s k) = true -> has (c_bool s' k) = true.
Proof. intros H; apply H. Qed.

Lemma upd_same {K V} (eqb : K -> K -> bool) f k (v : V) (H : eqb k k = true) : upd eqb f k v k = Some v.
Proof. unfold upd. rewrite H. reflexivity. Qed.
Lemma has_upd {K V} (eqb : K -> K -> bool) f k (v : V) k' :
  has (f k') = true -> has (upd eqb f k v k') = true.
Proof. unfold upd. destruct (eqb k' k); auto. Qed.
Lemma upd_inv {K V} (eqb : K -> K -> bool) (Heq : forall a b, eqb a b = true <-> a = b) f k (v : V) k' x :
  upd eqb f k v k' = Some x -> (k' = k /\ x = v) \/ f k' = Some x.
Proof. unfold upd. destruct (eqb k' k) eqn:E; [apply Heq in E; intros [= <-]; auto|auto]. Qed.
Lemma upd_has_inv {K V} (eqb : K -> K -> bool) (Heq : forall a b, eqb a b = true <-> a = b) f k (v : V) k' :
  has (upd eqb f k v k') = true -> k' = k \/ has (f k') = true.
Proof. unfold upd. destruct (eqb k' k) eqn:E; [apply Heq in E; auto|auto]. Qed.

Definition isF (o : option bool) : bool := match o with Some false => true | _ => false end.
Definition isT (o : option bool) : bool := match o with Some true => true | _ => false end.

Section P.
Variable mhr : bool.
Variable G : graph.
Hypothesis wf : gwf G.
Variable b : bool.
Notation I := (InvF G b).
Notation self := (den_bool G KSelf).
Notation A := (g_A G).

(** *** primitive rules *)
Lemma wp_in_mat {Y} k (f : bool -> M Y) s Q : wp (f (has (c_mat s k))) s Q -> wp (bind (in_mat k) f) s Q.
Proof. exact id. Qed.
Lemma wp_in_vec {Y} k (f : bool -> M Y) s Q : wp (f (has (c_vec s k))) s Q -> wp (bind (in_vec k) f) s Q.
Proof. exact id. Qed.
Lemma wp_in_scal {Y} k (f : bool -> M Y) s Q : wp (f (has (c_scal s k))) s Q -> wp (bind (in_scal k) f) s Q.
Proof. exact id. Qed.
Lemma wp_in_int {Y} k (f : bool -> M Y) s Q : wp (f (has (c_int s k))) s Q -> wp (bind (in_int k) f) s Q.
Proof. exact id. Qed.
Lemma wp_in_bool {Y} k (f : bool -> M Y) s Q : wp (f (has (c_bool s k))) s Q -> wp (bind (in_bool k) f) s Q.
Proof. exact id. Qed.
Lemma wp_is_False {Y} k (f : bool -> M Y) s Q : wp (f (isF (c_bool s k))) s Q -> wp (bind (is_False k) f) s Q.
Proof. exact id. Qed.
Lemma wp_is_True {Y} k (f : bool -> M Y) s Q : wp (f (isT (c_bool s k))) s Q -> wp (bind (is_True k) f) s Q.
Proof. exact id. Qed.
Lemma wp_get_st {Y} (f : st -> M Y) s Q : wp (f s) s Q -> wp (bind get_st f) s Q.
Proof. exact id. Qed.
Lemma wp_ret_bind {X Y} (x : X) (f : X -> M Y) s Q : wp (f x) s Q -> wp (bind (ret x) f) s Q.
Proof. exact id. Qed.
Lemma wp_lk_mat k s (Q : outcome (mat Z) -> st -> Prop) : I s -> has (c_mat s k) = true -> Q (Val (den_mat G k)) s -> wp (lk_mat k) s Q.
Proof.
  intros HI H HQ. unfold wp, lk_mat, idx. destruct (c_mat s k) eqn:E; [|discriminate].
  simpl. rewrite (i_mat _ _ _ HI _ _ E). assumption.
Qed.
Lemma wp_lk_mat_raw k s m (Q : outcome (mat Z) -> st -> Prop) :
  c_mat s k = Some m -> Q (Val m) s -> wp (lk_mat k) s Q.
Proof. intros E HQ. unfold wp, lk_mat, idx. rewrite E. assumption. Qed.
Lemma wp_lk_vec k s (Q : outcome (vec Z) -> st -> Prop) : I s -> has (c_vec s k) = true -> Q (Val (den_vec G k)) s -> wp (lk_vec k) s Q.
Proof.
  intros HI H HQ. unfold wp, lk_vec, idx. destruct (c_vec s k) eqn:E; [|discriminate].
  simpl. rewrite (i_vec _ _ _ HI _ _ E). assumption.
Qed.
Lemma wp_lk_int k s (Q : outcome Z -> st -> Prop) : I s -> has (c_int s k) = true -> Q (Val (den_int G k)) s -> wp (lk_int k) s Q.
Proof.
  intros HI H HQ. unfold wp, lk_int, idx. destruct (c_int s k) eqn:E; [|discriminate].
  simpl. rewrite (i_int _ _ _ HI _ _ E). assumption.
Qed.
Lemma i_boolx k v s : I s -> c_bool s k = Some v -> k <> KNegDiag -> v = den_bool G k.
Proof. intros HI E Hk. destruct (i_bool _ _ _ HI _ _ E) as [H|(H & _)]; [exact H|contradiction]. Qed.
Lemma wp_lk_bool k s (Q : outcome bool -> st -> Prop) : k <> KNegDiag -> I s -> has (c_bool s k) = true -> Q (Val (den_bool G k)) s -> wp (lk_bool k) s Q.
Proof.
  intros Hk HI H HQ. unfold wp, lk_bool, idx. destruct (c_bool s k) eqn:E; [|discriminate].
  simpl. rewrite (i_boolx k _ s HI E Hk). assumption.
Qed.
(** scalars: the value is the denoted one except for counts *)
Lemma wp_lk_scal k s (Q : outcome (option Z) -> st -> Prop) : I s -> has (c_scal s k) = true ->
  (forall x, ((forall sg, k <> KElem RCount sg) -> x = den_scal G k) -> Q (Val x) s) -> wp (lk_scal k) s Q.
Proof.
  intros HI H HQ. unfold wp, lk_scal, idx. destruct (c_scal s k) eqn:E; [|discriminate].
  simpl. apply HQ. apply (i_scal _ _ _ HI _ _ E).
Qed.
Lemma isF_self s : I s -> isF (c_bool s KSelf) = true -> self = false /\ has (c_bool s KSelf) = true.
Proof.
  intros HI H. destruct (c_bool s KSelf) as [[|]|] eqn:E; try discriminate.
  split; [symmetry; apply (i_boolx KSelf _ s HI E ltac:(discriminate))|reflexivity].
Qed.
Lemma isF_den s k : I s -> isF (c_bool s k) = true -> den_bool G k = false.
Proof.
  intros HI H. destruct (c_bool s k) as [[|]|] eqn:E; try discriminate.
  destruct (i_bool _ _ _ HI _ _ E) as [H1|(_ & H1 & _)]; [auto|discriminate].
Qed.
Lemma isT_den s k : I s -> isT (c_bool s k) = true -> k <> KNegDiag -> den_bool G k = true.
Proof.
  intros HI H Hk. destruct (c_bool s k) as [[|]|] eqn:E; try discriminate.
  symmetry; apply (i_boolx k _ s HI E Hk).
Qed.
(** a stored True may be wrong about the diagonal but not about self-edges and negative edges *)
Lemma isT_nd s : I s -> isT (c_bool s KNegDiag) = true -> den_bool G KSelf = true /\ den_bool G (KNeg SP) = true.
Proof.
  intros HI H. destruct (c_bool s KNegDiag) as [[|]|] eqn:E; try discriminate.
  destruct (i_bool _ _ _ HI _ _ E) as [H1|(_ & _ & H1)]; [|exact H1].
  split; [symmetry; apply negdiag_self; auto|]. rewrite neg_split, <- H1 by assumption. apply orb_true_r.
Qed.

Lemma Inv_set_mat k m s : I s -> m = den_mat G k -> (k = KOff -> has (c_bool s KSelf) = true) ->
  I (set_mat k m s) /\ ext s (set_mat k m s) /\ has (c_mat (set_mat k m s) k) = true.
Proof.
  intros HI E HK. split; [|split].
  - constructor; simpl; try apply HI.
    + intros k' m' H. apply (upd_inv _ mkey_eqb_eq) in H as [[-> ->]|H]; [exact E|]. eapply (i_mat _ _ _ HI); eauto.
    + intros H. apply (upd_has_inv _ mkey_eqb_eq) in H as [<-|H]; [apply HK; reflexivity|apply (i_off _ _ _ HI H)].
  - repeat split; simpl; auto using has_upd.
  - simpl. rewrite upd_same; [reflexivity|]. apply mkey_eqb_eq. reflexivity.
Qed.
Definition vec_ok (s : st) (k : vkey) : Prop :=
  match k with
  | KRed _ o SM => o = RCount -> has (c_bool s KSelf) = true
  | KTotal SP => b = true -> self = true -> has (c_bool s KSelf) = true
  | _ => True
  end.
Lemma Inv_set_vec k v s : I s -> v = den_vec G k -> vec_ok s k ->
  I (set_vec k v s) /\ ext s (set_vec k v s) /\ has (c_vec (set_vec k v s) k) = true.
Proof.
  intros HI E HK. split; [|split].
  - constructor; simpl; try apply HI.
    + intros k' m' H. apply (upd_inv _ vkey_eqb_eq) in H as [[-> ->]|H]; [exact E|]. eapply (i_vec _ _ _ HI); eauto.
    + intros a H. apply (upd_has_inv _ vkey_eqb_eq) in H as [<-|H]; [apply HK; reflexivity|apply (i_rcnt _ _ _ HI _ H)].
    + intros Hb Hs H. apply (upd_has_inv _ vkey_eqb_eq) in H as [<-|H]; [apply HK; assumption|apply (i_tot _ _ _ HI Hb Hs H)].
  - repeat split; simpl; auto using has_upd.
  - simpl. rewrite upd_same; [reflexivity|]. apply vkey_eqb_eq. reflexivity.
Qed.
Lemma Inv_set_scal k v s : I s -> ((forall sg, k <> KElem RCount sg) -> v = den_scal G k) ->
  (k = KElem RCount SM -> has (c_bool s KSelf) = true) ->
  I (set_scal k v s) /\ ext s (set_scal k v s) /\ has (c_scal (set_scal k v s) k) = true.
Proof.
  intros HI E HK. split; [|split].
  - constructor; simpl; try apply HI.
    + intros k' m' H. apply (upd_inv _ skey_eqb_eq) in H as [[-> ->]|H]; [exact E|]. eapply (i_scal _ _ _ HI); eauto.
    + intros H. apply (upd_has_inv _ skey_eqb_eq) in H as [<-|H]; [apply HK; reflexivity|apply (i_cnt _ _ _ HI H)].
  - repeat split; simpl; auto using has_upd.
  - simpl. rewrite upd_same; [reflexivity|]. apply skey_eqb_eq. reflexivity.
Qed.
Lemma Inv_set_int k v s : I s -> v = den_int G k ->
  I (set_int k v s) /\ ext s (set_int k v s) /\ has (c_int (set_int k v s) k) = true.
Proof.
  intros HI E. split; [|split].
  - constructor; simpl; try apply HI.
    intros k' m' H. apply (upd_inv _ sgn_eqb_eq) in H as [[-> ->]|H]; [exact E|]. eapply (i_int _ _ _ HI); eauto.
  - repeat split; simpl; auto using has_upd.
  - simpl. rewrite upd_same; [reflexivity|]. apply sgn_eqb_refl.
Qed.
Lemma Inv_set_boolw k v s : I s -> v = den_bool G k \/ (k = KNegDiag /\ v = true /\ den_bool G KSelf = true /\ den_bool G (KNeg SP) = true) ->
  I (set_bool k v s) /\ ext s (set_bool k v s) /\ has (c_bool (set_bool k v s) k) = true.
Proof.
  intros HI E. split; [|split].
  - constructor; simpl; try apply HI.
    + intros k' m' H. apply (upd_inv _ bkey_eqb_eq) in H as [[-> ->]|H]; [exact E|]. eapply (i_bool _ _ _ HI); eauto.
    + intros; apply has_upd, (i_cnt _ _ _ HI); assumption.
    + intros a Ha; apply has_upd, (i_rcnt _ _ _ HI a); assumption.
    + intros; apply has_upd, (i_off _ _ _ HI); assumption.
    + intros; apply has_upd, (i_tot _ _ _ HI); assumption.
  - repeat split; simpl; auto using has_upd.
  - simpl. rewrite upd_same; [reflexivity|]. apply bkey_eqb_eq. reflexivity.
Qed.
Lemma Inv_set_bool k v s : I s -> v = den_bool G k ->
  I (set_bool k v s) /\ ext s (set_bool k v s) /\ has (c_bool (set_bool k v s) k) = true.
Proof. intros HI E. apply Inv_set_boolw; [exact HI|left; exact E]. Qed.
Lemma Inv_set_iso v s : I s -> v = den_iso G -> I (set_iso v s) /\ ext s (set_iso v s).
Proof.
  intros HI E. split; [|repeat split; simpl; auto].
  constructor; simpl; try apply HI. intros x [= <-]. assumption.
Qed.
Lemma Inv_set_reg r c s : I s -> I (set_reg r c s) /\ ext s (set_reg r c s).
Proof. intros HI. split; [|repeat split; auto]. constructor; apply HI. Qed.
Lemma Inv_st0 : I st0.
Proof. constructor; simpl; try discriminate. Qed.

(** *** total getters: [GV m v P] runs to value [v], keeps consistency, establishes [P] *)
Definition GV {X} (m : M X) (v : X) (P : st -> Prop) : Prop :=
  forall s, I s -> wp m s (fun o s' => o = Val v /\ I s' /\ ext s s' /\ P s').
Lemma wp_GV {X} (m : M X) v P s (Q : outcome X -> st -> Prop) : GV m v P -> I s ->
  (forall s', I s' -> ext s s' -> P s' -> Q (Val v) s') -> wp m s Q.
Proof. intros H HI HQ. eapply wp_conseq; [apply H, HI|]. intros o s' (-> & H1 & H2 & H3). auto. Qed.
Lemma GV_intro {X} (m : M X) v P :
  (forall s0 s, I s -> ext s0 s -> wp m s (fun o s' => o = Val v /\ I s' /\ ext s0 s' /\ P s')) -> GV m v P.
Proof. intros H s HI. apply H; [assumption|apply ext_refl]. Qed.
Definition mod_ok (f : st -> st) (s : st) (P : st -> Prop) : Prop :=
  I (f s) /\ ext s (f s) /\ P (f s).
Lemma wp_modify f s P (Q : outcome unit -> st -> Prop) :
  (I (f s) /\ ext s (f s) /\ P (f s)) ->
  (forall s', I s' -> ext s s' -> P s' -> Q (Val tt) s') -> wp (modify f) s Q.
Proof. intros (H1 & H2 & H3) HQ. apply HQ; assumption. Qed.
Lemma wp_set_mat k m s (Q : outcome unit -> st -> Prop) :
  I s -> m = den_mat G k -> (k = KOff -> has (c_bool s KSelf) = true) ->
  (forall s', I s' -> ext s s' -> has (c_mat s' k) = true -> Q (Val tt) s') -> wp (modify (set_mat k m)) s Q.
Proof. intros. eapply wp_modify with (P := fun s' => has (c_mat s' k) = true); [apply Inv_set_mat; assumption|]. auto. Qed.
Lemma wp_set_vec k m s (Q : outcome unit -> st -> Prop) :
  I s -> m = den_vec G k -> vec_ok s k ->
  (forall s', I s' -> ext s s' -> has (c_vec s' k) = true -> Q (Val tt) s') -> wp (modify (set_vec k m)) s Q.
Proof. intros. eapply wp_modify with (P := fun s' => has (c_vec s' k) = true); [apply Inv_set_vec; assumption|]. auto. Qed.
Lemma wp_set_scal k m s (Q : outcome unit -> st -> Prop) :
  I s -> ((forall sg, k <> KElem RCount sg) -> m = den_scal G k) ->
  (k = KElem RCount SM -> has (c_bool s KSelf) = true) ->
  (forall s', I s' -> ext s s' -> has (c_scal s' k) = true -> Q (Val tt) s') -> wp (modify (set_scal k m)) s Q.
Proof. intros. eapply wp_modify with (P := fun s' => has (c_scal s' k) = true); [apply Inv_set_scal; assumption|]. auto. Qed.
Lemma wp_set_int k m s (Q : outcome unit -> st -> Prop) :
  I s -> m = den_int G k ->
  (forall s', I s' -> ext s s' -> has (c_int s' k) = true -> Q (Val tt) s') -> wp (modify (set_int k m)) s Q.
Proof. intros. eapply wp_modify with (P := fun s' => has (c_int s' k) = true); [apply Inv_set_int; assumption|]. auto. Qed.
Lemma wp_set_bool k m s (Q : outcome unit -> st -> Prop) :
  I s -> m = den_bool G k ->
  (forall s', I s' -> ext s s' -> has (c_bool s' k) = true -> Q (Val tt) s') -> wp (modify (set_bool k m)) s Q.
Proof. intros. eapply wp_modify with (P := fun s' => has (c_bool s' k) = true); [apply Inv_set_bool; assumption|]. auto. Qed.

End P.

(** move facts from the old state to the new one *)
Ltac adv :=
  lazymatch goal with
  | HI : InvF _ _ ?s, HI' : InvF _ _ ?s', HE : ext ?s ?s' |- _ =>
      repeat match goal with
      | H : has (c_mat s ?k) = true |- _ => apply (ext_mat _ _ _ HE) in H
      | H : has (c_vec s ?k) = true |- _ => apply (ext_vec _ _ _ HE) in H
      | H : has (c_scal s ?k) = true |- _ => apply (ext_scal _ _ _ HE) in H
      | H : has (c_int s ?k) = true |- _ => apply (ext_int _ _ _ HE) in H
      | H : has (c_bool s ?k) = true |- _ => apply (ext_bool _ _ _ HE) in H
      | H : ext ?s0 s |- _ => apply (fun h => ext_trans _ _ _ h HE) in H
      end; clear HI HE;
      repeat match goal with H : context [s] |- _ => clear H end; try clear s
  end.
Ltac casb t :=
  lazymatch t with
  | true => fail
  | false => fail
  | ?a && ?c => first [casb a | casb c]
  | ?a || ?c => first [casb a | casb c]
  | negb ?a => casb a
  | _ =>
      match goal with
      | H : t = _ |- _ => rewrite H
      | _ =>
        let E := fresh "E" in
        destruct t eqn:E;
        try match goal with
        | HI : InvF ?G ?b ?s |- _ =>
          match type of E with
          | isF (c_bool s KSelf) = true =>
              let E1 := fresh "Hself" in let E2 := fresh "HKself" in
              destruct (isF_self G b s HI E) as [E1 E2]; clear E
          | isF (c_bool s _) = true => apply (isF_den G b s _ HI) in E
          | isT (c_bool s KNegDiag) = true =>
              match goal with W : gwf G |- _ =>
                let E1 := fresh "Hself" in let E2 := fresh "Hneg" in
                destruct (isT_nd G W b s HI E) as [E1 E2]; clear E; symmetry in E1
              end
          | isT (c_bool s _) = true => apply (isT_den G b s _ HI) in E; [|discriminate]
          | isF _ = false => clear E
          | isT _ = false => clear E
          end
        end
      end
  end.
Ltac wnorm := cbv beta iota delta [when]; cbn [negb andb orb].
Ltac stp :=
  wnorm;
  lazymatch goal with
  | |- wp (bind (bind _ _) _) _ _ => apply wp_bind
  | |- wp (bind (in_mat _) _) _ _ => apply wp_in_mat
  | |- wp (bind (in_vec _) _) _ _ => apply wp_in_vec
  | |- wp (bind (in_scal _) _) _ _ => apply wp_in_scal
  | |- wp (bind (in_int _) _) _ _ => apply wp_in_int
  | |- wp (bind (in_bool _) _) _ _ => apply wp_in_bool
  | |- wp (bind (is_False _) _) _ _ => apply wp_is_False
  | |- wp (bind (is_True _) _) _ _ => apply wp_is_True
  | |- wp (bind get_st _) _ _ => apply wp_get_st
  | |- wp (bind (ret _) _) _ _ => apply wp_ret_bind
  | |- wp (bind _ _) _ _ => apply wp_bind
  | |- wp (ret _) _ _ => apply wp_ret
  | |- wp (raise _) _ _ => apply wp_raise
  | |- wp (if ?c then _ else _) _ _ => casb c
  | |- wp (lk_mat _) _ _ => eapply wp_lk_mat; [eassumption|eassumption|]
  | |- wp (lk_vec _) _ _ => eapply wp_lk_vec; [eassumption|eassumption|]
  | |- wp (lk_int _) _ _ => eapply wp_lk_int; [eassumption|eassumption|]
  | |- wp (lk_bool _) _ _ => eapply wp_lk_bool; [discriminate|eassumption|eassumption|]
  | |- wp (lk_scal _) _ _ => eapply wp_lk_scal; [eassumption|eassumption|intros ? ?]
  | |- wp (modify (set_mat _ _)) _ _ => eapply wp_set_mat; [eassumption| | |intros ? ? ? ?; adv]
  | |- wp (modify (set_vec _ _)) _ _ => eapply wp_set_vec; [eassumption| | |intros ? ? ? ?; adv]
  | |- wp (modify (set_scal _ _)) _ _ => eapply wp_set_scal; [eassumption| | |intros ? ? ? ?; adv]
  | |- wp (modify (set_int _ _)) _ _ => eapply wp_set_int; [eassumption| |intros ? ? ? ?; adv]
  | |- wp (modify (set_bool _ _)) _ _ => eapply wp_set_bool; [eassumption| |intros ? ? ? ?; adv]
  | |- wp _ _ _ => fail
  end.
Definition selfk (s : st) : Prop := has (c_bool s KSelf) = true.
Ltac call L := eapply (wp_GV _ _ _ _ _ _ _ L);
  [eassumption|let HP := fresh "HP" in
    intros ? ? ? HP; cbv beta in HP; unfold selfk in HP; lazymatch type of HP with _ /\ _ => destruct HP as [? ?] | _ => idtac end; adv].
Ltac start := apply GV_intro; intros ?s0 ?s ?HI ?Hext.
Ltac fino := try (lazymatch goal with |- _ /\ _ /\ _ => split; [|split] end); auto;
  try exact Logic.I; try discriminate.
Ltac fin := try (lazymatch goal with |- _ /\ _ /\ _ /\ _ => split; [|split; [|split]] end); auto;
  try exact Logic.I; try discriminate.

Section P2.
Variable mhr : bool.
Variable G : graph.
Hypothesis wf : gwf G.
Variable b : bool.
Notation I := (InvF G b).
Notation self := (den_bool G KSelf).
Notation A := (g_A G).
Notation GV := (GV G b).
Definition any (_ : st) : Prop := True.

Lemma get_AT_ok : GV (get_AT G) (den_mat G KAT) any.
Proof.
  start. unfold get_AT. destruct (g_dir G) eqn:Hd.
  - repeat stp; fin; apply trans_A; assumption.
  - repeat stp; fin; [apply undir_AT; assumption|]. rewrite <- undir_AT by assumption. reflexivity.
Qed.
Lemma get_diag_ok mask : GV (get_diag G mask) (msk mask (den_vec G KDiag))
   (fun s => has (c_bool s KSelf) = true).
Proof.
  start. unfold get_diag.
  repeat stp; fin; try (apply self_diag);
    auto using noself_diag, diag_A, diag_U, diag_L.
Qed.

(** offdiag: KOff is stored before KSelf, so this one is done by cases *)
Lemma get_offdiag_ok : GV (get_offdiag G) (den_mat G KOff)
   (fun s => has (c_bool s KSelf) = true /\ has (c_mat s KOff) = true).
Proof.
  start. unfold get_offdiag.
  destruct (has (c_bool s KSelf)) eqn:Es.
  - repeat stp; fin; try (apply off_A; assumption); symmetry; apply noself_off; auto;
      match goal with H : _ |- _ => apply negb_true_iff; exact H end.
  - apply wp_in_mat. destruct (has (c_mat s KOff)) eqn:Eo.
    { rewrite (i_off _ _ _ HI Eo) in Es. discriminate. }
    apply has_false in Es. 
    unfold when at 1. cbn [negb]. apply wp_bind, wp_is_False. rewrite Es. cbn [isF].
    unfold wp at 1. cbn [modify fst snd]. 
    apply wp_in_bool. cbn [set_mat c_bool]. rewrite Es. cbn [has negb when]. apply wp_bind, wp_bind.
    eapply wp_lk_mat_raw; [cbn [set_mat c_mat]; apply upd_same; reflexivity|].
    rewrite off_A, self_off by assumption.
    unfold wp at 1. cbn [modify fst snd].
    change (set_bool KSelf self (set_mat KOff (den_mat G KOff) s)) 
      with (set_mat KOff (den_mat G KOff) (set_bool KSelf self s)).
    destruct (Inv_set_bool G b KSelf self s HI eq_refl) as (H1 & H2 & H3).
    destruct (Inv_set_mat G b KOff (den_mat G KOff) _ H1 eq_refl (fun _ => H3)) as (H4 & H5 & H6).
    generalize dependent (set_mat KOff (den_mat G KOff) (set_bool KSelf self s)). intros s' H4 H5 H6.
    apply (ext_bool _ _ _ H5) in H3.
    pose proof (ext_trans _ _ _ (ext_trans _ _ _ Hext H2) H5) as Hext'.
    clear - wf H4 H3 H6 Hext'.
    repeat stp; fin. symmetry; apply noself_off; auto.
Qed.

Lemma has_self_edges_u_ok : g_dir G = false -> GV (has_self_edges_u G) self selfk.
Proof.
  intros Hd. start. unfold has_self_edges_u, selfk.
  repeat stp; fin; try (auto using self_2p, self_2m, self_off, negdiag_self; fail).
  call (get_diag_ok None). repeat stp; fin.
Qed.
Lemma has_self_edges_d_ok : b = true -> GV (has_self_edges_d G) self selfk.
Proof.
  intros Hb. start. unfold has_self_edges_d, selfk.
  repeat stp; fin; try (auto using self_tri, self_off, negdiag_self, self_pp, self_mm, self_int,
    self_iseq_recip, self_iseq_total, self_iseq_alias_row, self_iseq_alias_col, self_total_m; fail).
  all: try (rewrite Nat.add_comm; auto using self_pp, self_mm; fail).
  all: try (apply (self_sum_alias G wf Row) || apply (self_sum_alias G wf Col)).
  all: try (call (get_diag_ok None); repeat stp; fin; fail).
  all: rewrite total_p_never by assumption; destruct self eqn:Eself; [|reflexivity].
  all: match goal with HI : InvF _ _ ?s, H : has (c_bool ?s KSelf) = false |- _ =>
       rewrite (i_tot _ _ _ HI Hb Eself) in H by assumption; discriminate end.
Qed.
Lemma has_self_edges_ok : b = true -> GV (has_self_edges G) self selfk.
Proof.
  intros Hb. unfold has_self_edges. destruct (g_dir G) eqn:Hd; [apply has_self_edges_d_ok|apply has_self_edges_u_ok]; assumption.
Qed.

(** *** triangles *)
Definition triK (K : sgn -> mkey) (selp selm : mat Z -> mat Z) : Prop :=
  (K = KU /\ selp = triu /\ selm = triu1) \/ (K = KL /\ selp = tril /\ selm = tril1).
Lemma triK_or K p m : triK K p m -> K = KU \/ K = KL.
Proof. intros [(-> & _)|(-> & _)]; auto. Qed.
Lemma triK_A K p m : triK K p m -> p A = den_mat G (K SP) /\ m A = den_mat G (K SM) /\
  m (den_mat G KOff) = den_mat G (K SM) /\ m (den_mat G (K SP)) = den_mat G (K SM).
Proof.
  intros [(-> & -> & ->)|(-> & -> & ->)]; repeat split;
    auto using triu_A, triu1_A, triu1_off, triu1_U, tril_A, tril1_A, tril1_off, tril1_L.
Qed.
Lemma triK_ne K p m s : triK K p m -> K s <> KOff.
Proof. intros [(-> & _)|(-> & _)]; discriminate. Qed.
Hypothesis Hb : b = true.
Ltac hse := call (has_self_edges_ok Hb).
Ltac tri HK := destruct (triK_A _ _ _ HK) as (HpA & HmA & HmO & HmP); pose proof (triK_or _ _ _ HK) as Hor;
  pose proof (triK_ne _ _ _ SP HK); pose proof (triK_ne _ _ _ SM HK); clear HK.
Lemma get_plus_u_ok K p m : g_dir G = false -> triK K p m -> GV (get_plus_u G K p) (den_mat G (K SP)) any.
Proof.
  intros Hd HK. tri HK. start. unfold get_plus_u.
  repeat (stp || hse); fin; try congruence; auto using self_2p, noself_tri.
  all: try (symmetry; auto using noself_tri; fail).
Qed.
Lemma get_minus_u_ok K p m : g_dir G = false -> triK K p m -> GV (get_minus_u G K m) (den_mat G (K SM)) any.
Proof.
  intros Hd HK. tri HK. start. unfold get_minus_u.
  repeat (stp || hse); fin; try congruence; auto using self_2m, noself_tri.
  all: try (symmetry; auto using noself_tri; fail).
Qed.
Lemma get_plus_d_ok K O p m p' m' : triK K p m -> triK O p' m' -> K <> O -> GV (get_plus_d G K O p) (den_mat G (K SP)) any.
Proof.
  intros HK HO Hne.
  assert (Hpp : (mnvals A <? mnvals (den_mat G (K SP)) + mnvals (den_mat G (O SP))) = self).
  { destruct HK as [(-> & _)|(-> & _)], HO as [(-> & _)|(-> & _)]; try congruence;
      [|rewrite Nat.add_comm]; apply self_pp; assumption. }
  tri HK. start. unfold get_plus_d.
  repeat (stp || hse); fin; try congruence; auto using self_tri, noself_tri.
  all: try (symmetry; auto using noself_tri; fail).
Qed.
Lemma get_minus_d_ok K O p m p' m' : triK K p m -> triK O p' m' -> K <> O -> GV (get_minus_d G K O m) (den_mat G (K SM)) any.
Proof.
  intros HK HO Hne.
  assert (Hpp : (mnvals (den_mat G (K SM)) + mnvals (den_mat G (O SM)) <? mnvals A) = self).
  { destruct HK as [(-> & _)|(-> & _)], HO as [(-> & _)|(-> & _)]; try congruence;
      [|rewrite Nat.add_comm]; apply self_mm; assumption. }
  tri HK. start. unfold get_minus_d.
  repeat (stp || hse); fin; try congruence; auto using self_tri, noself_tri.
  all: try (symmetry; auto using noself_tri; fail).
Qed.
Lemma triK_U : triK KU triu triu1. Proof. left. auto. Qed.
Lemma triK_L : triK KL tril tril1. Proof. right. auto. Qed.
Lemma KU_KL : KU <> KL.
Proof. intros H. apply (f_equal (fun f => f SP)) in H. discriminate. Qed.
Lemma get_Up_ok : GV (get_Up G) (den_mat G (KU SP)) any.
Proof.
  unfold get_Up. destruct (g_dir G) eqn:Hd.
  - eapply get_plus_d_ok; eauto using triK_U, triK_L, KU_KL.
  - eapply get_plus_u_ok; eauto using triK_U.
Qed.
Lemma get_Lp_ok : GV (get_Lp G) (den_mat G (KL SP)) any.
Proof.
  unfold get_Lp. destruct (g_dir G) eqn:Hd.
  - eapply get_plus_d_ok; eauto using triK_U, triK_L. intros E. symmetry in E. exact (KU_KL E).
  - eapply get_plus_u_ok; eauto using triK_L.
Qed.
Lemma get_Um_ok : GV (get_Um G) (den_mat G (KU SM)) any.
Proof.
  unfold get_Um. destruct (g_dir G) eqn:Hd.
  - eapply get_minus_d_ok; eauto using triK_U, triK_L, KU_KL.
  - eapply get_minus_u_ok; eauto using triK_U.
Qed.
Lemma get_Lm_ok : GV (get_Lm G) (den_mat G (KL SM)) any.
Proof.
  unfold get_Lm. destruct (g_dir G) eqn:Hd.
  - eapply get_minus_d_ok; eauto using triK_U, triK_L. intros E. symmetry in E. exact (KU_KL E).
  - eapply get_minus_u_ok; eauto using triK_L.
Qed.

(** *** reductions to vectors *)
Lemma wp_resolve a o sg s (Q : outcome ax -> st -> Prop) : I s ->
  (forall a' s', I s' -> ext s s' -> (g_dir G = true -> a' = a) -> Q (Val a') s') -> wp (resolve G a o sg) s Q.
Proof.
  intros HI HQ. unfold resolve. destruct (g_dir G) eqn:Hd.
  - apply wp_ret. apply HQ; auto using ext_refl.
  - apply wp_get_st. destruct a.
    + destruct (r_row s o sg).
      * apply wp_ret. apply HQ; auto using ext_refl.
      * apply wp_bind. edestruct Inv_set_reg as [H1 H2]; [exact HI|]. apply HQ; [exact H1|exact H2|discriminate].
    + destruct (r_col s o sg).
      * apply wp_ret. apply HQ; auto using ext_refl. discriminate.
      * apply wp_bind. edestruct Inv_set_reg as [H1 H2]; [exact HI|]. apply HQ; [exact H1|exact H2|discriminate].
Qed.
Lemma den_red_ax a a' o s : (g_dir G = true -> a' = a) -> den_red G a' o s = den_red G a o s.
Proof.
  intros H. destruct (g_dir G) eqn:Hd; [rewrite H by reflexivity; reflexivity|].
  pose proof (undir_red G wf o s Hd). destruct a, a'; congruence.
Qed.
Lemma ne_red a o : (nvals (den_red G a o SP) =? nvals (den_red G a o SM)) = false -> true = self.
Proof.
  intros H. destruct self eqn:E; [reflexivity|]. rewrite (noself_red G wf a o E), Nat.eqb_refl in H. discriminate.
Qed.
Lemma ne_red' a o : (nvals (den_red G a o SM) =? nvals (den_red G a o SP)) = false -> true = self.
Proof. rewrite Nat.eqb_sym. apply ne_red. Qed.
Lemma red_plus_ok a ma o mask : (g_dir G = true -> ma = a) ->
  GV (red_plus G a ma o mask) (msk mask (den_red G a o SP)) any.
Proof.
  intros Hma. start. unfold red_plus.
  assert (E1 : red_ax ma o A = den_red G a o SP) by (rewrite red_A, (den_red_ax a ma) by assumption; reflexivity).
  assert (E2 : ma = Col -> red_row o (den_mat G KAT) = den_red G a o SP)
    by (intros ->; rewrite red_AT, (den_red_ax a Col) by assumption; reflexivity).
  destruct mask; repeat stp; fin; cbn [den_vec] in *; eauto using ne_red, noself_red;
    try (symmetry; apply noself_red; assumption).
  all: try (rewrite (noself_red G wf) by assumption; reflexivity).
  all: try (rewrite E1; reflexivity).
  all: try (rewrite E2 by (destruct ma; [discriminate|reflexivity]); reflexivity).
  all: try (intros _; assumption).
Qed.
Lemma meth_ok a a' : (g_dir G = true -> a' = a) -> g_dir G = true -> meth G a' = a'.
Proof. intros H Hd. unfold meth. rewrite Hd. reflexivity. Qed.
Lemma get_red_plus_ok a o mask : GV (get_red_plus G a o mask) (msk mask (den_red G a o SP)) any.
Proof.
  start. unfold get_red_plus. apply wp_bind. eapply wp_resolve; [eassumption|]. intros a' s' HI' HE Ha. adv.
  call (red_plus_ok a' (meth G a') o mask (meth_ok a a' Ha)). fin. rewrite (den_red_ax a a' o SP Ha). reflexivity.
Qed.
Lemma red_minus_ok a ma o mask : (g_dir G = true -> ma = a) ->
  GV (red_minus G a ma o mask) (msk mask (den_red G a o SM)) any.
Proof.
  intros Hma. start. unfold red_minus.
  assert (E1 : red_ax ma o (den_mat G KOff) = den_red G a o SM) by (rewrite red_off, (den_red_ax a ma) by assumption; reflexivity).
  assert (E2 : vunion (rbin o) (red_ax ma o (den_mat G (KL SM))) (red_ax ma o (den_mat G (KU SM))) = den_red G a o SM)
    by (rewrite red_LU, (den_red_ax a ma) by assumption; reflexivity).
  assert (E3 : vsize (red_ax ma o (den_mat G (KL SM))) = vsize (red_ax ma o (den_mat G (KU SM))))
    by (rewrite !vsize_red_ax by discriminate; reflexivity).
  destruct mask as [p|]; repeat (stp || hse || (call get_offdiag_ok) || (call (get_red_plus_ok a o None)) || (call (get_red_plus_ok a o (Some p))));
    fin; cbn [den_vec msk] in *; eauto using ne_red', noself_red;
    try (symmetry; apply noself_red; assumption).
  all: try (rewrite (noself_red G wf) by assumption; reflexivity).
  all: try (rewrite E1; reflexivity).
  all: try (intros _; eapply i_off; eassumption).
  all: try (intros _; assumption).
  all: try (change (vrestrict p) with (msk (Some p)); rewrite msk_vunion, E2 by assumption; reflexivity).
  all: try (intros _; match goal with H : _ /\ _ |- _ => apply H end).
Qed.
Lemma get_red_ok a o sg mask : GV (get_red G a o sg mask) (msk mask (den_red G a o sg)) any.
Proof.
  destruct sg; [apply get_red_plus_ok|].
  start. unfold get_red, get_red_minus. apply wp_bind. eapply wp_resolve; [eassumption|]. intros a' s' HI' HE Ha. adv.
  call (red_minus_ok a' (meth G a') o mask (meth_ok a a' Ha)). fin. rewrite (den_red_ax a a' o SM Ha). reflexivity.
Qed.

(** *** reductions to scalars *)
Definition GO {X} (m : M X) (R : outcome X -> Prop) : Prop :=
  forall s, I s -> wp m s (fun o s' => R o /\ I s' /\ ext s s').
Lemma GO_intro {X} (m : M X) R :
  (forall s0 s, I s -> ext s0 s -> wp m s (fun o s' => R o /\ I s' /\ ext s0 s')) -> GO m R.
Proof. intros H s HI. apply H; [assumption|apply ext_refl]. Qed.
Lemma wp_GO {X} (m : M X) (R : outcome X -> Prop) s (Q : outcome X -> st -> Prop) : GO m R -> I s ->
  (forall o s', I s' -> ext s s' -> R o -> Q o s') -> wp m s Q.
Proof. intros H HI HQ. eapply wp_conseq; [apply H, HI|]. intros o s' (H1 & H2 & H3). auto. Qed.
Lemma GV_GO {X} (m : M X) v P : GV m v P -> GO m (eq (Val v)).
Proof. intros H s HI. eapply wp_conseq; [apply H, HI|]. intros o s' (-> & H1 & H2 & _). auto. Qed.

Definition elemval (o : rop) (sg : sgn) (r : outcome (option Z)) : Prop :=
  exists x, r = Val x /\ (o <> RCount -> x = den_scal G (KElem o sg)).
Lemma nelem o sg : (forall sg', KElem o sg <> KElem RCount sg') <-> o <> RCount.
Proof. split; [intros H ->; exact (H sg eq_refl)|intros H sg' [= E _]; auto]. Qed.
Lemma ne_elem o (v w : option Z) :
  o <> RCount -> v = den_scal G (KElem o SP) -> w = den_scal G (KElem o SM) -> oZ_eqb v w = false -> true = self.
Proof.
  intros _ -> -> H. destruct self eqn:E; [reflexivity|]. rewrite (noself_elem G wf o E) in H.
  destruct (den_scal G (KElem o SM)); simpl in H; [rewrite Z.eqb_refl in H|]; discriminate.
Qed.
Lemma ne_elem' o (v w : option Z) :
  o <> RCount -> w = den_scal G (KElem o SP) -> v = den_scal G (KElem o SM) -> oZ_eqb v w = false -> true = self.
Proof.
  intros _ -> -> H. destruct self eqn:E; [reflexivity|]. rewrite (noself_elem G wf o E) in H.
  destruct (den_scal G (KElem o SM)); simpl in H; [rewrite Z.eqb_refl in H|]; discriminate.
Qed.
Lemma rop_count_dec (o : rop) : {o = RCount} + {o <> RCount}.
Proof. destruct o; (left; reflexivity) || (right; discriminate). Qed.
(** the last lines of "<op>_element±" *)
Lemma elem_plus_ok o : GO (elem_plus G o) (elemval o SP).
Proof.
  apply GO_intro. intros s0 s HI Hext. unfold elem_plus.
  repeat stp; fino.
  all: try (match goal with |- elemval _ _ (Val ?x) => exists x; split; [reflexivity|] end).
  all: try (intros Hk; rewrite nelem in *).
  all: try (intros [= ->]).
  all: try rewrite nelem in *.
  all: auto using red_mat_A.
  all: try (cbn [den_vec]; rewrite ?red_vec_red by assumption; try reflexivity).
  all: try (match goal with H : _ -> ?x = _ |- ?x = _ => rewrite H by assumption end).
  all: try (symmetry; apply noself_elem; assumption).
  all: try (apply noself_elem; assumption).
  all: try (destruct (rop_count_dec o) as [->|Hc];
     [match goal with HI : InvF _ _ ?s, H : has (c_bool ?s KSelf) = false |- _ => 
         rewrite (i_cnt _ _ _ HI) in H by assumption; discriminate end|
      eapply ne_elem; [exact Hc| | |eassumption]; auto; fail]).
Qed.
Definition elemval_m (o : rop) (r : outcome (option Z)) : Prop :=
  elemval o SM r \/ (r = Raise EAttr /\ mhr = false /\ self = true /\ o <> RCount).
Lemma elem_minus_ok o : GO (elem_minus mhr G o) (elemval_m o).
Proof.
  apply GO_intro. intros s0 s HI Hext. unfold elem_minus.
  repeat (stp || hse || call get_offdiag_ok ||
    (eapply (wp_GO _ _ _ _ (elem_plus_ok o)); [eassumption|intros ? ? ? ? (? & -> & ?); adv])); fino.
  all: try (match goal with |- elemval_m _ (Val ?x) => left; exists x; split; [reflexivity|] end).
  all: try (right; repeat split; auto; intros ->; discriminate).
  all: try (intros Hk; rewrite nelem in *).
  all: try (intros [= ->]).
  all: try rewrite nelem in *.
  all: auto using red_mat_off, red_mat_LU.
  all: try (cbn [den_vec]; rewrite ?red_vec_red by assumption; try reflexivity).
  all: try (match goal with H : _ -> ?x = _ |- ?x = _ => rewrite H by assumption end).
  all: try (symmetry; apply noself_elem; assumption).
  all: try (apply noself_elem; assumption).
  all: try (eapply i_off; eassumption).
  all: try (eapply i_rcnt; eassumption).
  all: try (destruct (rop_count_dec o) as [->|Hc];
     [match goal with HI : InvF _ _ ?s, H : has (c_bool ?s KSelf) = false |- _ => 
         rewrite (i_cnt _ _ _ HI) in H by assumption; discriminate end|
      eapply ne_elem'; [exact Hc| | |eassumption]; auto; fail]).
Qed.
End P2.
