(** * Objects, sharing and in-place updates

    The other models are pure: a Matrix or Vector is a value, so they cannot
    see two names for one object, an in-place update ([C << ...], [C[i] = x],
    [C(mask) << ...], [del], [+=]) or an object handed out while the graph's
    cache still holds it.  This file models exactly that part of the code and
    forgets everything else: a statement only says which objects it creates,
    which it makes another name for, which it updates in place and which it
    puts in the cache of the graph.  Tests and loop counts are left to chance
    (a condition may go either way, a loop may run any number of times, any
    statement may raise), so every real execution is one of the executions
    below.  The programs that transcribe the code are in Model_EffGetters.v and
    Model_EffAlgos.v. *)
From Coq Require Import List String Arith Bool.
Import ListNotations.

(** python variables and objects, for example algorithms/link_analysis/pagerank_alg.py 12-101 *)
Definition var := string.
(** python variables and objects, for example algorithms/link_analysis/pagerank_alg.py 12-101 *)
Definition loc := nat.

(** for example algorithms/link_analysis/pagerank_alg.py 12-101: The effect-carrying statements of
    the code. *)
Inductive stmt :=
| Skip
| New (x : var)                  (* x = <expression>.new(...), .dup(), Vector(...), a number, ... *)
| View (x y : var)               (* x = y, y.T, y.S, y._vector, NodeMap(y): x shares y's data *)
| Adj (x : var)                  (* x = G._A (classes/graph.py:12-14, 377) *)
| Cached (x : var) (key : string)  (* x = G._cache[key] *)
| GetP (x : var) (key : string)  (* x = G.get_property(key) (classes/_utils.py:37-55) *)
| Mut (x : var)                  (* x << .., x(mask) << .., x[i] = .., del x[i], x.resize *)
| Store (key : string) (x : var) (* G._cache[key] = x *)
| Give (x : var)                 (* yield x: a generator hands x out and goes on *)
| GiveNew                        (* yield <expression>.new(), .dup(): hands a nameless new object out *)
| Seq (s t : stmt)
| If (s t : stmt)
| Loop (s : stmt)
| Call (x : var) (bind : list (var * var)) (body : stmt) (res : var).
                                 (* x = f(args): [bind] pairs parameters with arguments *)

(** the objects a function such as algorithms/link_analysis/pagerank_alg.py 12-101 works on: A
    state: the content of each object, the number of objects made so far,
    the local names, the objects the graphs hold (their adjacency matrices and
    what their caches hold), and the objects already yielded to the caller. *)
Record est := mkE { heap : loc -> nat; next : loc; env : list (var * loc);
                    held : list loc; given : list loc }.

(** the objects a function such as algorithms/link_analysis/pagerank_alg.py 12-101 works on *)
Fixpoint look {A} (e : list (var * A)) (x : var) : option A :=
  match e with
  | [] => None
  | (y, l) :: r => if String.eqb x y then Some l else look r x
  end.

(** the objects a function such as algorithms/link_analysis/pagerank_alg.py 12-101 works on *)
Definition bindv (s : est) (x : var) (l : loc) : est :=
  mkE (heap s) (next s) ((x, l) :: env s) (held s) (given s).

(** the objects a function such as algorithms/link_analysis/pagerank_alg.py 12-101 works on *)
Definition write (h : loc -> nat) (l : loc) (v : nat) : loc -> nat :=
  fun k => if Nat.eqb k l then v else h k.

(** the objects a function such as algorithms/link_analysis/pagerank_alg.py 12-101 works on *)
Definition alloc (s : est) (x : var) (v : nat) : est :=
  mkE (write (heap s) (next s) v) (S (next s)) ((x, next s) :: env s) (held s) (given s).

(** for example algorithms/link_analysis/pagerank_alg.py 12-101: Parameters of a call. *)
Fixpoint params (e : list (var * loc)) (b : list (var * var)) : option (list (var * loc)) :=
  match b with
  | [] => Some []
  | (p, a) :: r =>
      match look e a, params e r with
      | Some l, Some e' => Some ((p, l) :: e')
      | _, _ => None
      end
  end.

(** for example classes/graph.py 24-37: A property getter is a program whose result is the variable
    ["ret"];
    ["mask"] is its only argument besides the graph. *)
Definition getter := stmt.

(** semantics of the statements of a function such as classes/graph.py 24-37: [exec gs s st b st']:
    [s] may run from [st] to [st'], normally when [b] is
    true, by an exception when [b] is false.  [gs] are the getters
    [get_property] may call. *)
Inductive exec (gs : list getter) : stmt -> est -> bool -> est -> Prop :=
| x_raise : forall s st, exec gs s st false st
| x_skip : forall st, exec gs Skip st true st
| x_new : forall st x v, exec gs (New x) st true (alloc st x v)
| x_view : forall st x y l, look (env st) y = Some l -> exec gs (View x y) st true (bindv st x l)
| x_adj : forall st x l, In l (held st) -> exec gs (Adj x) st true (bindv st x l)
| x_cached : forall st x ky l, In l (held st) -> exec gs (Cached x ky) st true (bindv st x l)
| x_prop_hit : forall st x ky l, In l (held st) -> exec gs (GetP x ky) st true (bindv st x l)
| x_prop : forall st x ky g m st' l,
    In g gs -> m < next st ->
    exec gs g (mkE (heap st) (next st) [("mask"%string, m)] (held st) (given st)) true st' ->
    look (env st') "ret"%string = Some l ->
    exec gs (GetP x ky) st true
      (mkE (heap st') (next st') ((x, l) :: env st) (held st') (given st'))
| x_prop_raise : forall st x ky g m st',
    In g gs -> m < next st ->
    exec gs g (mkE (heap st) (next st) [("mask"%string, m)] (held st) (given st)) false st' ->
    exec gs (GetP x ky) st false (mkE (heap st') (next st') (env st) (held st') (given st'))
| x_mut : forall st x l v, look (env st) x = Some l ->
    exec gs (Mut x) st true (mkE (write (heap st) l v) (next st) (env st) (held st) (given st))
| x_store : forall st ky x l, look (env st) x = Some l ->
    exec gs (Store ky x) st true (mkE (heap st) (next st) (env st) (l :: held st) (given st))
| x_give : forall st x l, look (env st) x = Some l ->
    exec gs (Give x) st true (mkE (heap st) (next st) (env st) (held st) (l :: given st))
| x_give_new : forall st v,
    exec gs GiveNew st true
      (mkE (write (heap st) (next st) v) (S (next st)) (env st) (held st) (next st :: given st))
| x_seq : forall s t st st' b st'',
    exec gs s st true st' -> exec gs t st' b st'' -> exec gs (Seq s t) st b st''
| x_seq_raise : forall s t st st',
    exec gs s st false st' -> exec gs (Seq s t) st false st'
| x_if_l : forall s t st b st', exec gs s st b st' -> exec gs (If s t) st b st'
| x_if_r : forall s t st b st', exec gs t st b st' -> exec gs (If s t) st b st'
| x_loop_end : forall s st, exec gs (Loop s) st true st
| x_loop : forall s st st' b st'',
    exec gs s st true st' -> exec gs (Loop s) st' b st'' -> exec gs (Loop s) st b st''
| x_loop_raise : forall s st st', exec gs s st false st' -> exec gs (Loop s) st false st'
| x_call : forall x bs s r st e st' l,
    params (env st) bs = Some e ->
    exec gs s (mkE (heap st) (next st) e (held st) (given st)) true st' ->
    look (env st') r = Some l ->
    exec gs (Call x bs s r) st true
      (mkE (heap st') (next st') ((x, l) :: env st) (held st') (given st'))
| x_call_raise : forall x bs s r st e st',
    params (env st) bs = Some e ->
    exec gs s (mkE (heap st) (next st) e (held st) (given st)) false st' ->
    exec gs (Call x bs s r) st false (mkE (heap st') (next st') (env st) (held st') (given st')).

(** for example algorithms/link_analysis/pagerank_alg.py 12-101: A public function: its parameters,
    its body, and the names of the objects
    it returns (none for a number, a string, a Python list or dict). *)
Record func := mkF { f_name : string; f_params : list var; f_body : stmt; f_res : list var }.

(** ** Calls in a row

    What a user does: call public functions on graphs and on objects they
    hold, update in place the objects calls gave back to them, make objects,
    and make a graph of one ([Graph(A)] does not copy, classes/graph.py:364-382;
    so do the operators that return a graph, whose matrix is the object they
    return here).  From then on the graph holds the object and the user leaves
    it alone.  [u_mine] lists the objects the user holds and may update. *)
Record ustate := mkU { u_heap : loc -> nat; u_next : loc; u_held : list loc; u_mine : list loc }.

(** a user program that calls classes/_utils.py 37-38 and the functions of algorithms/: [ustep gs fs
    u o u']: one step from [u] to [u']; [o] is the object the user
    updated in it, if any. *)
Inductive ustep (gs : list getter) (fs : list func) : ustate -> option loc -> ustate -> Prop :=
| us_call : forall u f ls e st b,
    In f fs -> List.length ls = List.length (f_params f) ->
    Forall (fun l => In l (u_mine u)) ls ->
    e = combine (f_params f) ls ->
    exec gs (f_body f) (mkE (u_heap u) (u_next u) e (u_held u) []) b st ->
    ustep gs fs u None
      (mkU (heap st) (next st) (held st)
           ((if b then flat_map (fun x => match look (env st) x with Some l => [l] | None => [] end)
                                (f_res f) else []) ++ given st ++ u_mine u))
| us_mut : forall u l v, In l (u_mine u) ->
    ustep gs fs u (Some l) (mkU (write (u_heap u) l v) (u_next u) (u_held u) (u_mine u))
| us_make : forall u v,
    ustep gs fs u None
      (mkU (write (u_heap u) (u_next u) v) (S (u_next u)) (u_held u) (u_next u :: u_mine u))
| us_graph : forall u l, In l (u_mine u) ->
    ustep gs fs u None (mkU (u_heap u) (u_next u) (l :: u_held u) (remove Nat.eq_dec l (u_mine u))).

(** a user program that calls classes/_utils.py 37-38 and the functions of algorithms/: A history;
    [ms] lists the objects the user updated in it. *)
Inductive usteps (gs : list getter) (fs : list func) : ustate -> list loc -> ustate -> Prop :=
| us_nil : forall u, usteps gs fs u [] u
| us_cons : forall u o u' ms u'', ustep gs fs u o u' -> usteps gs fs u' ms u'' ->
    usteps gs fs u (match o with Some l => l :: ms | None => ms end) u''.

(** statement sequences, if and either-or, for example classes/graph.py 24-37: Short forms for
    writing programs. *)
Fixpoint block (l : list stmt) : stmt :=
  match l with [] => Skip | [s] => s | s :: r => Seq s (block r) end.
(** statement sequences, if and either-or, for example classes/graph.py 24-37 *)
Definition cond (l : list stmt) : stmt := If (block l) Skip.
(** statement sequences, if and either-or, for example classes/graph.py 24-37 *)
Fixpoint choose (l : list (list stmt)) : stmt :=
  match l with [] => Skip | [b] => block b | b :: r => If (block b) (choose r) end.
