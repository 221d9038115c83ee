(** * C73: no call changes data that existed before it, and what a call hands
      out is independent of the graph *)
From Coq Require Import List String Arith Bool Lia.
From Verif Require Import Model_Effects EffectProofs Model_EffGetters Model_EffAlgos.
Import ListNotations.
Open Scope string_scope.

Definition public : list func := nx_funcs ++ core_funcs.

Lemma getters_ok : forallb getter_ok getters = true.
Proof. vm_compute. reflexivity. Qed.
Lemma public_ok : forallb func_ok public = true.
Proof. vm_compute. reflexivity. Qed.

(** A state in which a public function is called: every object the graphs hold
    and every argument exists, and nothing has been yielded yet. *)
Definition call_state (st : est) : Prop :=
  given st = [] /\ (forall x l, look (env st) x = Some l -> l < next st) /\
  (forall l, In l (held st) -> l < next st).

(** Whatever a public function does, and however it ends (a result or an
    exception): every object that existed before the call keeps its content;
    the graphs still hold what they held, and the objects newly cached are new;
    what a generator yielded and what a function returned is new and is not
    held by any graph, so it can be updated in place without changing a graph
    or an object the caller had before. *)
Theorem C73_call : forall f st b st',
  In f public -> call_state st -> exec getters (f_body f) st b st' ->
  (forall l, l < next st -> heap st' l = heap st l) /\
  (forall l, In l (held st) -> In l (held st')) /\
  (forall l, In l (held st') -> In l (held st) \/ next st <= l) /\
  (forall l, In l (given st') -> next st <= l /\ ~ In l (held st')) /\
  (b = true -> forall r l, In r (f_res f) -> look (env st') r = Some l ->
     next st <= l /\ ~ In l (held st') /\ ~ In l (given st')).
Proof.
  intros f st b st' Hf (Hg & He & Hh) Hx.
  pose proof (proj1 (forallb_forall _ _) public_ok _ Hf) as Hok.
  destruct (call_ok getters getters_ok f st b st' Hok Hg He Hh Hx) as (C1 & C2 & C3 & C4 & C5 & C6).
  split; [auto|]. split; [auto|]. split; [|split].
  - intros l Hl. destruct (C4 _ Hl) as [|[]]; auto.
  - intros l Hl. destruct (C5 _ Hl) as [[] ?]. auto.
  - intros E r l Hr Hl. destruct (C6 E _ _ Hr Hl) as ([] & ? & ?). auto.
Qed.

(** Any number of calls, of in-place updates by the user of objects they were
    given or made, and of graphs made of such objects: nothing a graph holds
    ever changes, and an object changes only when the user updates it. *)
Theorem C73_history : forall u ms u',
  usteps getters public u ms u' ->
  (forall l, In l (u_held u) -> l < u_next u) ->
  (forall l, In l (u_mine u) -> l < u_next u /\ ~ In l (u_held u)) ->
  (forall l, In l (u_held u) -> In l (u_held u') /\ u_heap u' l = u_heap u l) /\
  (forall l, l < u_next u -> ~ In l ms -> u_heap u' l = u_heap u l) /\
  (forall l, In l (u_mine u') -> ~ In l (u_held u')).
Proof.
  intros u ms u' Hs H1 H2.
  assert (Ha : apart u).
  { split; [auto|]. split; intros l Hl; apply (H2 l Hl). }
  destruct (usteps_ok getters getters_ok public public_ok _ _ _ Hs Ha) as ((_ & _ & A3) & _ & Hk & Hf & _).
  auto.
Qed.

(** Two calls never hand out the same object. *)
Theorem C73_results_distinct : forall f g st b st1 st2 b2 st3 r l q k,
  In f public -> In g public -> call_state st -> call_state st2 ->
  exec getters (f_body f) st b st1 -> next st1 <= next st2 ->
  exec getters (f_body g) st2 b2 st3 ->
  b = true -> In r (f_res f) -> look (env st1) r = Some l ->
  b2 = true -> In q (f_res g) -> look (env st3) q = Some k ->
  l <> k.
Proof.
  intros f g st b st1 st2 b2 st3 r l q k Hf Hg Hc (Hg2 & He2 & Hh2) Hx Hn Hy -> Hr Hl -> Hq Hk.
  pose proof (proj1 (forallb_forall _ _) public_ok _ Hf) as Hokf.
  pose proof (proj1 (forallb_forall _ _) public_ok _ Hg) as Hokg.
  destruct Hc as (Hg1 & He1 & Hh1).
  destruct (call_ok getters getters_ok f st true st1 Hokf Hg1 He1 Hh1 Hx) as (_ & _ & _ & _ & _ & C6).
  destruct (C6 eq_refl _ _ Hr Hl) as ([_ Hlt] & _).
  destruct (call_ok getters getters_ok g st2 true st3 Hokg Hg2 He2 Hh2 Hy) as (_ & _ & _ & _ & _ & D6).
  destruct (D6 eq_refl _ _ Hq Hk) as ([Hge _] & _). lia.
Qed.

(** ** The exceptions *)

(** [G.get_property(..)] and [G.matrix] hand out the object the graph holds,
    so updating it changes the graph: the claim is false of them. *)
Definition get_property_func : func := mkF "get_property" [] (GetP "ret" "degrees+") ["ret"].
Theorem C73_get_property_refuted :
  exists st st' l, call_state st /\ exec getters (f_body get_property_func) st true st' /\
    look (env st') "ret" = Some l /\ In l (held st').
Proof.
  exists (mkE (fun _ => 7) 1 [] [0] []).
  exists (mkE (fun _ => 7) 1 [("ret", 0)] [0] []). exists 0.
  split; [|split; [|split]]; simpl; auto.
  - repeat split; simpl; try discriminate. intros l [<-|[]]. auto.
  - apply (x_prop_hit getters (mkE (fun _ => 7) 1 [] [0] [])). simpl. auto.
Qed.

(** [reverse(G, copy=False)] gives a graph over the matrix of [G]. *)
Definition reverse_view_func : func := obj "reverse" false (e_reverse false).
Theorem C73_reverse_view_refuted :
  exists st st' l, call_state st /\ exec getters (f_body reverse_view_func) st true st' /\
    look (env st') "result" = Some l /\ In l (held st).
Proof.
  set (s0 := mkE (fun _ => 7) 1 [] [0] []).
  exists s0, (mkE (fun _ => 7) 1 [("result", 0)] [0] []). exists 0.
  split; [|split; [|split]]; simpl; auto.
  - repeat split; simpl; try discriminate. intros l [<-|[]]. auto.
  - unfold wrap. cbn [block]. apply x_seq with (st' := mkE (fun _ => 7) 1 [("result", 0)] [0] []).
    2: apply x_skip.
    apply (x_call getters "result" [] (e_reverse false) "ret" s0 []
             (mkE (fun _ => 7) 1 [("ret", 0); ("A", 0); ("A0", 0)] [0] []) 0); simpl; auto.
    unfold e_reverse. cbn [block].
    apply x_seq with (st' := bindv s0 "A0" 0). { apply (x_adj getters s0). simpl. auto. }
    apply x_seq with (st' := bindv (bindv s0 "A0" 0) "A" 0). { apply (x_view getters (bindv s0 "A0" 0)). reflexivity. }
    apply x_seq with (st' := bindv (bindv s0 "A0" 0) "A" 0). { apply x_skip. }
    apply (x_view getters (bindv (bindv s0 "A0" 0) "A" 0)). reflexivity.
Qed.

(** ** The hypotheses are met, and the model can express the bugs ruled out *)

(** One run of [complement] on a graph whose matrix is object 0. *)
Definition ex0 : est := mkE (fun l => if Nat.eqb l 0 then 5 else 0) 1 [] [0] [].
Definition ex1 : est :=
  mkE (write (write (heap ex0) 1 3) 1 9) 2 [("result", 1)] [0] [].
Example complement_runs : call_state ex0 /\
  exec getters (f_body (obj "complement" false e_complement)) ex0 true ex1 /\
  heap ex1 1 = 9 /\ heap ex1 0 = 5.
Proof.
  split. { repeat split; simpl; try discriminate. intros l [<-|[]]. auto. }
  split; [|split; reflexivity].
  unfold ex1. set (h2 := write (write (heap ex0) 1 3) 1 9).
  simpl. unfold wrap. cbn [block]. apply x_seq with (st' := mkE h2 2 [("result", 1)] [0] []). 2: apply x_skip.
  apply (x_call getters "result" [] e_complement "ret" ex0 []
           (mkE h2 2 [("ret", 1); ("R", 1); ("A", 0)] [0] []) 1); simpl; auto.
  unfold e_complement. cbn [block].
  apply x_seq with (st' := bindv ex0 "A" 0). { apply (x_adj getters ex0). simpl. auto. }
  apply x_seq with (st' := alloc (bindv ex0 "A" 0) "R" 3). { apply x_new. }
  apply x_seq with (st' := mkE h2 2 [("R", 1); ("A", 0)] [0] []).
  { apply (x_mut getters (alloc (bindv ex0 "A" 0) "R" 3) "R" 1 9). reflexivity. }
  apply (x_view getters (mkE h2 2 [("R", 1); ("A", 0)] [0] [])). reflexivity.
Qed.

(** A history: the user takes the complement, updates its matrix, makes a graph
    of it. *)
Example history_runs :
  usteps getters public (mkU (heap ex0) 1 [0] []) [1]
    (mkU (write (heap ex1) 1 4) 2 [1; 0] []).
Proof.
  apply (us_cons getters public (mkU (heap ex0) 1 [0] []) None (mkU (heap ex1) 2 [0] [1])).
  { apply (us_call getters public (mkU (heap ex0) 1 [0] []) (obj "complement" false e_complement) [] [] ex1 true).
    - unfold public. apply in_or_app. left. unfold nx_funcs. cbn [In]. repeat (first [left; reflexivity|right]).
    - reflexivity.
    - constructor.
    - reflexivity.
    - apply complement_runs. }
  apply (us_cons getters public (mkU (heap ex1) 2 [0] [1]) (Some 1) (mkU (write (heap ex1) 1 4) 2 [0] [1]) []).
  { apply (us_mut getters public (mkU (heap ex1) 2 [0] [1])). simpl. auto. }
  apply (us_cons getters public (mkU (write (heap ex1) 1 4) 2 [0] [1]) None (mkU (write (heap ex1) 1 4) 2 [1; 0] []) []).
  { apply (us_graph getters public (mkU (write (heap ex1) 1 4) 2 [0] [1])). simpl. auto. }
  apply us_nil.
Qed.

(** A program that updates a cached vector is a program of the language; it
    runs, it changes what the graph holds, and the check rejects it. *)
Definition bad : func := mkF "bad" [] (block [GetP "d" "degrees+"; Mut "d"; New "ret"]) ["ret"].
Example bad_changes_the_graph : func_ok bad = false /\
  exists st', exec getters (f_body bad) ex0 true st' /\ heap st' 0 <> heap ex0 0 /\ In 0 (held ex0).
Proof.
  split; [vm_compute; reflexivity|].
  set (s1 := bindv ex0 "d" 0).
  set (s2 := mkE (write (heap ex0) 0 6) 1 [("d", 0)] [0] []).
  exists (alloc s2 "ret" 1). split; [|simpl; split; [|auto]; vm_compute; discriminate].
  simpl. apply x_seq with (st' := s1). { apply (x_prop_hit getters ex0). simpl. auto. }
  apply x_seq with (st' := s2). { apply (x_mut getters s1 "d" 0 6). reflexivity. }
  apply x_new.
Qed.

Print Assumptions C73_call.
Print Assumptions C73_history.
Print Assumptions C73_results_distinct.
Print Assumptions C73_get_property_refuted.
Print Assumptions C73_reverse_view_refuted.
