(** * The property cache: classes/graph.py, classes/digraph.py, classes/_caching.py, branch by branch *)
From Verif Require Import Base Model_Graph.

(** ** reductions *)
(** the operators [op.from_string(opname)] of classes/_caching.py 7-96 *)
Definition rmap (o : rop) (x : Z) : Z := match o with RCount => 1%Z | _ => x end.
(** the operators [op.from_string(opname)] of classes/_caching.py 7-96 *)
Definition rbin (o : rop) : Z -> Z -> Z :=
  match o with
  | RCount | RPlus => Z.add | RTimes => Z.mul | RMin => Z.min | RMax | RAny => Z.max
  end.
(** classes/_caching.py 8-9, 26 and 44: [opclass in {"BinaryOp", "Monoid"}] (count is an Aggregator) *)
Definition is_monoid (o : rop) : bool := match o with RCount => false | _ => true end.
(** [A.reduce_rowwise(op)], [A.reduce_columnwise(op)] ([methodname]), classes/_caching.py 7-96 *)
Definition red_row (o : rop) (m : mat Z) : vec Z := mred_row (rbin o) (mmap (rmap o) m).
(** [A.reduce_rowwise(op)], [A.reduce_columnwise(op)] ([methodname]), classes/_caching.py 7-96 *)
Definition red_col (o : rop) (m : mat Z) : vec Z := mred_col (rbin o) (mmap (rmap o) m).
(** [A.reduce_rowwise(op)], [A.reduce_columnwise(op)] ([methodname]), classes/_caching.py 7-96 *)
Definition red_ax (a : ax) (o : rop) (m : mat Z) : vec Z :=
  match a with Row => red_row o m | Col => red_col o m end.
(** [v.reduce(op)], [A.reduce_scalar(op)], classes/_caching.py 99-185 *)
Definition red_vec (o : rop) (v : vec Z) : option Z := vreduce (rbin o) (vmap (rmap o) v).
(** [v.reduce(op)], [A.reduce_scalar(op)], classes/_caching.py 99-185 *)
Definition red_mat (o : rop) (m : mat Z) : option Z := mred_scalar (rbin o) (mmap (rmap o) m).

(** [select.offdiag(A)], [select.triu(A)], [select.triu(A, 1)] and so on, classes/graph.py 24-111:
    selections *)
Definition offdiagm (m : mat Z) : mat Z := mselect (fun i j => negb (i =? j)) m.
(** [select.offdiag(A)], [select.triu(A)], [select.triu(A, 1)] and so on, classes/graph.py 24-111 *)
Definition triu (m : mat Z) : mat Z := mselect (fun i j => i <=? j) m.
(** [select.offdiag(A)], [select.triu(A)], [select.triu(A, 1)] and so on, classes/graph.py 24-111 *)
Definition triu1 (m : mat Z) : mat Z := mselect (fun i j => i <? j) m.
(** [select.offdiag(A)], [select.triu(A)], [select.triu(A, 1)] and so on, classes/graph.py 24-111 *)
Definition tril (m : mat Z) : mat Z := mselect (fun i j => j <=? i) m.
(** [select.offdiag(A)], [select.triu(A)], [select.triu(A, 1)] and so on, classes/graph.py 24-111 *)
Definition tril1 (m : mat Z) : mat Z := mselect (fun i j => j <? i) m.

(** for example classes/graph.py 24-37: [.dup(mask=mask)] / [.new(mask=mask)] with an optional mask *)
Definition mask_t := option (nat -> bool).
(** for example classes/graph.py 24-37 *)
Definition msk (m : mask_t) (v : vec Z) : vec Z :=
  match m with Some p => vrestrict p v | None => v end.

Section Cache.
(** python-graphblas' Matrix has no [reduce] method ([reduce_rowwise], [reduce_columnwise],
    [reduce_scalar] exist); _caching.py 126-128 calls it.  [true] would be a library that has it. *)
Variable matrix_has_reduce : bool.
Variable G : graph.
Notation A := (g_A G).
Notation directed := (g_dir G).

(** ** getters of classes/graph.py *)
(** graph.py 17-21 (undirected) and digraph.py 24-30 (directed) *)
Definition get_AT : M (mat Z) :=
  if directed then
    b <- in_mat KAT ;;
    when (negb b) (modify (set_mat KAT (mtrans A))) ;;;
    lk_mat KAT
  else modify (set_mat KAT A) ;;; ret A.

(** graph.py 24-37 *)
Definition get_offdiag : M (mat Z) :=
  b <- in_mat KOff ;;
  when (negb b)
    (f <- is_False KSelf ;;
     if f : bool then modify (set_mat KOff A) else modify (set_mat KOff (offdiagm A))) ;;;
  hs <- in_bool KSelf ;;
  when (negb hs)
    (o <- lk_mat KOff ;; modify (set_bool KSelf (mnvals o <? mnvals A))) ;;;
  h <- lk_bool KSelf ;;
  when (negb h) (modify (set_mat KOff A)) ;;;
  lk_mat KOff.

(** graph.py 114-131 *)
Definition get_diag (mask : mask_t) : M (vec Z) :=
  b <- in_vec KDiag ;;
  when (negb b)
    (f <- is_False KSelf ;; u <- in_mat (KU SP) ;; l <- in_mat (KL SP) ;;
     if f : bool then modify (set_vec KDiag (vempty (nrows A)))
     else if u : bool then (m <- lk_mat (KU SP) ;; modify (set_vec KDiag (mdiag m)))
     else if l : bool then (m <- lk_mat (KL SP) ;; modify (set_vec KDiag (mdiag m)))
     else modify (set_vec KDiag (mdiag A))) ;;;
  hs <- in_bool KSelf ;;
  when (negb hs) (d <- lk_vec KDiag ;; modify (set_bool KSelf (0 <? nvals d))) ;;;
  d <- lk_vec KDiag ;;
  ret (msk mask d).

(** graph.py 195-214, undirected *)
Definition has_self_edges_u : M bool :=
  hs <- in_bool KSelf ;;
  when (negb hs)
    (lp <- in_mat (KL SP) ;; lm <- in_mat (KL SM) ;; up <- in_mat (KU SP) ;;
     um <- in_mat (KU SM) ;; od <- in_mat KOff ;; nd <- is_True KNegDiag ;;
     if lp : bool then (m <- lk_mat (KL SP) ;; modify (set_bool KSelf (mnvals A <? 2 * mnvals m)))
     else if lm : bool then (m <- lk_mat (KL SM) ;; modify (set_bool KSelf (2 * mnvals m <? mnvals A)))
     else if up : bool then (m <- lk_mat (KU SP) ;; modify (set_bool KSelf (mnvals A <? 2 * mnvals m)))
     else if um : bool then (m <- lk_mat (KU SM) ;; modify (set_bool KSelf (2 * mnvals m <? mnvals A)))
     else if od : bool then (m <- lk_mat KOff ;; modify (set_bool KSelf (mnvals m <? mnvals A)))
     else if nd : bool then modify (set_bool KSelf true)
     else (get_diag None ;;; ret tt)) ;;;
  lk_bool KSelf.

(** [v.reduce().get(0)], for example classes/graph.py 195-214 *)
Definition vsum (v : vec Z) : Z := oz (vreduce Z.add v).
(** for example classes/graph.py 195-214: [u.isequal(v)] *)
Definition oZ_eqb (a b : option Z) : bool :=
  match a, b with Some x, Some y => Z.eqb x y | None, None => true | _, _ => false end.
(** [u.isequal(v)], classes/digraph.py 332-371 *)
Definition visequal (u v : vec Z) : bool :=
  (vsize u =? vsize v) && forallb (fun i => oZ_eqb (vget u i) (vget v i)) (seq 0 (vsize u)).

(** digraph.py 332-371, directed *)
Definition has_self_edges_d : M bool :=
  hs <- in_bool KSelf ;;
  when (negb hs)
    (lp <- in_mat (KL SP) ;; lm <- in_mat (KL SM) ;; up <- in_mat (KU SP) ;;
     um <- in_mat (KU SM) ;; od <- in_mat KOff ;; nd <- is_True KNegDiag ;;
     tp <- in_int SP ;; tm <- in_int SM ;;
     rdp <- in_vec (KAliasRow SP) ;; rdm <- in_vec (KAliasRow SM) ;;
     cdp <- in_vec (KAliasCol SP) ;; cdm <- in_vec (KAliasCol SM) ;;
     tdp <- in_vec (KTotal SP) ;; tdm <- in_vec (KTotal SM) ;;
     rcp <- in_vec (KRecip SP) ;; rcm <- in_vec (KRecip SM) ;;
     if od : bool then (m <- lk_mat KOff ;; modify (set_bool KSelf (mnvals m <? mnvals A)))
     else if lp && (lm || up) then
       (m <- lk_mat (KL SP) ;;
        if lm : bool then (m' <- lk_mat (KL SM) ;; modify (set_bool KSelf (mnvals m' <? mnvals m)))
        else (m' <- lk_mat (KU SP) ;;
              modify (set_bool KSelf (mnvals A <? mnvals m + mnvals m'))))
     else if um && (up || lm) then
       (m <- lk_mat (KU SM) ;;
        if up : bool then (m' <- lk_mat (KU SP) ;; modify (set_bool KSelf (mnvals m <? mnvals m')))
        else (m' <- lk_mat (KL SM) ;;
              modify (set_bool KSelf (mnvals m + mnvals m' <? mnvals A))))
     else if nd : bool then modify (set_bool KSelf true)
     else if tm && tp then
       (a <- lk_int SP ;; b <- lk_int SM ;; modify (set_bool KSelf (b <? a)%Z))
     else if rdm && rdp then
       (a <- lk_vec (KAliasRow SM) ;; b <- lk_vec (KAliasRow SP) ;;
        modify (set_bool KSelf (negb (visequal a b))))
     else if cdm && cdp then
       (a <- lk_vec (KAliasCol SM) ;; b <- lk_vec (KAliasCol SP) ;;
        modify (set_bool KSelf (negb (visequal a b))))
     else if tdm && tdp then
       (a <- lk_vec (KTotal SM) ;; b <- lk_vec (KTotal SP) ;;
        modify (set_bool KSelf (negb (visequal a b))))
     else if rcm && rcp then
       (a <- lk_vec (KRecip SM) ;; b <- lk_vec (KRecip SP) ;;
        modify (set_bool KSelf (negb (visequal a b))))
     else if rdm : bool then
       (a <- lk_vec (KAliasRow SM) ;;
        modify (set_bool KSelf (vsum a <? Z.of_nat (mnvals A))%Z))
     else if cdm : bool then
       (a <- lk_vec (KAliasCol SM) ;;
        modify (set_bool KSelf (vsum a <? Z.of_nat (mnvals A))%Z))
     else if tdm : bool then
       (a <- lk_vec (KTotal SM) ;;
        modify (set_bool KSelf (vsum a <? 2 * Z.of_nat (mnvals A))%Z))
     else if tdp : bool then
       (a <- lk_vec (KTotal SP) ;;
        modify (set_bool KSelf (2 * Z.of_nat (mnvals A) <? vsum a)%Z))
     else (get_diag None ;;; ret tt)) ;;;
  lk_bool KSelf.

(** classes/graph.py 195-214 or classes/digraph.py 332-371 *)
Definition has_self_edges : M bool := if directed then has_self_edges_d else has_self_edges_u.

(** [key not in cache]: the sign-complementary triangle key *)
(** graph.py 40-53 / 56-69 (undirected U+, L+): [K SP] with [sel] the selection *)
Definition get_plus_u (K : sgn -> mkey) (sel : mat Z -> mat Z) : M (mat Z) :=
  b <- in_mat (K SP) ;;
  when (negb b)
    (bm <- in_mat (K SM) ;;
     hs <- (if bm : bool then has_self_edges else ret true) ;;
     if bm && negb hs then (m <- lk_mat (K SM) ;; modify (set_mat (K SP) m))
     else modify (set_mat (K SP) (sel A))) ;;;
  h <- in_bool KSelf ;;
  when (negb h)
    (m <- lk_mat (K SP) ;; modify (set_bool KSelf (mnvals A <? 2 * mnvals m))) ;;;
  h <- lk_bool KSelf ;;
  when (negb h) (m <- lk_mat (K SP) ;; modify (set_mat (K SM) m)) ;;;
  lk_mat (K SP).
(** graph.py 72-90 / 93-111 (undirected U-, L-) *)
Definition get_minus_u (K : sgn -> mkey) (sel : mat Z -> mat Z) : M (mat Z) :=
  b <- in_mat (K SM) ;;
  when (negb b)
    (bp <- in_mat (K SP) ;; od <- in_mat KOff ;;
     if bp : bool then
       (hs <- has_self_edges ;;
        m <- lk_mat (K SP) ;;
        if hs : bool then modify (set_mat (K SM) (sel m)) else modify (set_mat (K SM) m))
     else if od : bool then (m <- lk_mat KOff ;; modify (set_mat (K SM) (sel m)))
     else modify (set_mat (K SM) (sel A))) ;;;
  h <- in_bool KSelf ;;
  when (negb h)
    (m <- lk_mat (K SM) ;; modify (set_bool KSelf (2 * mnvals m <? mnvals A))) ;;;
  h <- lk_bool KSelf ;;
  when (negb h) (m <- lk_mat (K SM) ;; modify (set_mat (K SP) m)) ;;;
  lk_mat (K SM).
(** digraph.py 33-49 / 52-68 (directed U+, L+); [O] is the opposite triangle *)
Definition get_plus_d (K O : sgn -> mkey) (sel : mat Z -> mat Z) : M (mat Z) :=
  b <- in_mat (K SP) ;;
  when (negb b)
    (bm <- in_mat (K SM) ;;
     hs <- (if bm : bool then has_self_edges else ret true) ;;
     if bm && negb hs then (m <- lk_mat (K SM) ;; modify (set_mat (K SP) m))
     else modify (set_mat (K SP) (sel A))) ;;;
  h <- in_bool KSelf ;;
  when (negb h)
    (bm <- in_mat (K SM) ;; bo <- in_mat (O SP) ;;
     if bm : bool then
       (p <- lk_mat (K SP) ;; m <- lk_mat (K SM) ;; modify (set_bool KSelf (mnvals m <? mnvals p)))
     else if bo : bool then
       (p <- lk_mat (K SP) ;; o <- lk_mat (O SP) ;;
        modify (set_bool KSelf (mnvals A <? mnvals p + mnvals o)))
     else ret tt) ;;;
  f <- is_False KSelf ;;
  when f (m <- lk_mat (K SP) ;; modify (set_mat (K SM) m)) ;;;
  lk_mat (K SP).
(** digraph.py 71-92 / 95-116 (directed U-, L-) *)
Definition get_minus_d (K O : sgn -> mkey) (sel : mat Z -> mat Z) : M (mat Z) :=
  b <- in_mat (K SM) ;;
  when (negb b)
    (bp <- in_mat (K SP) ;; od <- in_mat KOff ;; f <- is_False KSelf ;;
     if bp : bool then
       (m <- lk_mat (K SP) ;;
        if f : bool then modify (set_mat (K SM) m) else modify (set_mat (K SM) (sel m)))
     else if od : bool then (m <- lk_mat KOff ;; modify (set_mat (K SM) (sel m)))
     else modify (set_mat (K SM) (sel A))) ;;;
  h <- in_bool KSelf ;;
  when (negb h)
    (bp <- in_mat (K SP) ;; bo <- in_mat (O SM) ;;
     if bp : bool then
       (p <- lk_mat (K SP) ;; m <- lk_mat (K SM) ;; modify (set_bool KSelf (mnvals m <? mnvals p)))
     else if bo : bool then
       (m <- lk_mat (K SM) ;; o <- lk_mat (O SM) ;;
        modify (set_bool KSelf (mnvals m + mnvals o <? mnvals A)))
     else ret tt) ;;;
  f <- is_False KSelf ;;
  when f (m <- lk_mat (K SM) ;; modify (set_mat (K SP) m)) ;;;
  lk_mat (K SM).
(** classes/graph.py 40-53 or classes/digraph.py 33-49 *)
Definition get_Up : M (mat Z) := if directed then get_plus_d KU KL triu else get_plus_u KU triu.
(** classes/graph.py 56-69 or classes/digraph.py 52-68 *)
Definition get_Lp : M (mat Z) := if directed then get_plus_d KL KU tril else get_plus_u KL tril.
(** classes/graph.py 72-90 or classes/digraph.py 71-92 *)
Definition get_Um : M (mat Z) := if directed then get_minus_d KU KL triu1 else get_minus_u KU triu1.
(** classes/graph.py 93-111 or classes/digraph.py 95-116 *)
Definition get_Lm : M (mat Z) := if directed then get_minus_d KL KU tril1 else get_minus_u KL tril1.

(** ** classes/_caching.py: reductions to vectors.
    [a] is the axis in the key, [ma] the axis of the method actually called. *)
(** classes/_caching.py 67-94: key ends with "+" *)
Definition red_plus (a ma : ax) (o : rop) (mask : mask_t) : M (vec Z) :=
  let key := KRed a o SP in let other := KRed a o SM in
  let compute : M (vec Z) :=
    at_ <- in_mat KAT ;;
    if ax_eqb ma Col && at_ then (m <- lk_mat KAT ;; ret (red_row o m)) else ret (red_ax ma o A) in
  match mask with
  | Some _ =>
      b <- in_vec key ;; f <- is_False KSelf ;; bo <- in_vec other ;;
      if b : bool then (v <- lk_vec key ;; ret (msk mask v))
      else if f && bo then
        (v <- lk_vec other ;; modify (set_vec key v) ;;; ret (msk mask v))
      else (v <- compute ;; ret (msk mask v))
  | None =>
      b <- in_vec key ;;
      when (negb b)
        (f <- is_False KSelf ;; bo <- in_vec other ;;
         if f && bo then (v <- lk_vec other ;; modify (set_vec key v))
         else (v <- compute ;; modify (set_vec key v))) ;;;
      hs <- in_bool KSelf ;; bo <- in_vec other ;; f <- is_False KSelf ;;
      v <- lk_vec key ;;
      ne <- (if negb hs && bo then (w <- lk_vec other ;; ret (negb (nvals v =? nvals w)))
             else ret false) ;;
      (if ne : bool then modify (set_bool KSelf true)
       else when f (modify (set_vec other v))) ;;;
      lk_vec key
  end.

(** AutoDict.__missing__: graph.py 272-300 (undirected: "x_columnwise" is registered to the
    function made for "x_rowwise" and both reduce row-wise); digraph.py 414-441 (directed) *)
Definition resolve (a : ax) (o : rop) (sg : sgn) : M ax :=
  if directed then ret a
  else
    s <- get_st ;;
    match a with
    | Row => if r_row s o sg then ret Row
             else modify (set_reg (fun o' s' => (rop_eqb o' o && sgn_eqb s' sg) || r_row s o' s')
                                  (fun o' s' => if rop_eqb o' o && sgn_eqb s' sg then Some Row
                                                else r_col s o' s')) ;;; ret Row
    | Col => match r_col s o sg with
             | Some a' => ret a'
             | None => modify (set_reg (r_row s)
                                  (fun o' s' => if rop_eqb o' o && sgn_eqb s' sg then Some Col
                                                else r_col s o' s')) ;;; ret Col
             end
    end.
(** which method the registered name calls, classes/graph.py 273-300, classes/digraph.py 415-441 *)
Definition meth (a : ax) : ax := if directed then a else Row.
(** classes/_utils.py 37-38 with classes/_caching.py 67-94: [G.get_property("<op>_<axis>wise+",
    mask=mask)] *)
Definition get_red_plus (a : ax) (o : rop) (mask : mask_t) : M (vec Z) :=
  a' <- resolve a o SP ;; red_plus a' (meth a') o mask.

(** classes/_caching.py 13-63: key ends with "-" *)
Definition red_minus (a ma : ax) (o : rop) (mask : mask_t) : M (vec Z) :=
  let key := KRed a o SM in let other := KRed a o SP in
  match mask with
  | Some _ =>
      b <- in_vec key ;; f <- is_False KSelf ;; bo <- in_vec other ;; od <- in_mat KOff ;;
      lm <- in_mat (KL SM) ;; um <- in_mat (KU SM) ;;
      if b : bool then (v <- lk_vec key ;; ret (msk mask v))
      else if f && bo then
        (v <- lk_vec other ;; modify (set_vec key v) ;;; ret (msk mask v))
      else if od : bool then (m <- lk_mat KOff ;; ret (msk mask (red_ax ma o m)))
      else
        hs1 <- (if lm && um && is_monoid o then has_self_edges else ret false) ;;
        if hs1 : bool then
          (l <- lk_mat (KL SM) ;; u <- lk_mat (KU SM) ;;
           ret (vunion (rbin o) (msk mask (red_ax ma o l)) (msk mask (red_ax ma o u))))
        else
          hs2 <- has_self_edges ;;
          if negb hs2 then get_red_plus a o mask
          else (m <- get_offdiag ;; ret (msk mask (red_ax ma o m)))
  | None =>
      b <- in_vec key ;;
      when (negb b)
        (f <- is_False KSelf ;; bo <- in_vec other ;; od <- in_mat KOff ;;
         lm <- in_mat (KL SM) ;; um <- in_mat (KU SM) ;;
         if f && bo then (v <- lk_vec other ;; modify (set_vec key v))
         else if od : bool then (m <- lk_mat KOff ;; modify (set_vec key (red_ax ma o m)))
         else
           hs1 <- (if lm && um && is_monoid o then has_self_edges else ret false) ;;
           if hs1 : bool then
             (l <- lk_mat (KL SM) ;; u <- lk_mat (KU SM) ;;
              modify (set_vec key (vunion (rbin o) (red_ax ma o l) (red_ax ma o u))))
           else
             hs2 <- has_self_edges ;;
             if negb hs2 then (v <- get_red_plus a o None ;; modify (set_vec key v))
             else (m <- get_offdiag ;; modify (set_vec key (red_ax ma o m)))) ;;;
      hs <- in_bool KSelf ;; bo <- in_vec other ;; f <- is_False KSelf ;;
      v <- lk_vec key ;;
      ne <- (if negb hs && bo then (w <- lk_vec other ;; ret (negb (nvals v =? nvals w)))
             else ret false) ;;
      (if ne : bool then modify (set_bool KSelf true)
       else when f (modify (set_vec other v))) ;;;
      lk_vec key
  end.
(** classes/_utils.py 37-38 with classes/_caching.py 7-96 *)
Definition get_red_minus (a : ax) (o : rop) (mask : mask_t) : M (vec Z) :=
  a' <- resolve a o SM ;; red_minus a' (meth a') o mask.
(** classes/_utils.py 37-38 with classes/_caching.py 7-96 *)
Definition get_red (a : ax) (o : rop) (s : sgn) (mask : mask_t) : M (vec Z) :=
  match s with SP => get_red_plus a o mask | SM => get_red_minus a o mask end.

(** ** classes/_caching.py: reductions to scalars *)
(** classes/_caching.py 145-169: "<op>_element+" *)
Definition elem_plus (o : rop) : M (option Z) :=
  let key := KElem o SP in let other := KElem o SM in
  b <- in_scal key ;;
  when (negb b)
    (f <- is_False KSelf ;; bo <- in_scal other ;;
     rp <- in_vec (KRed Row o SP) ;; cp <- in_vec (KRed Col o SP) ;;
     rm <- in_vec (KRed Row o SM) ;; cm <- in_vec (KRed Col o SM) ;;
     if f && bo then (v <- lk_scal other ;; modify (set_scal key v))
     else if rp : bool then (v <- lk_vec (KRed Row o SP) ;; modify (set_scal key (red_vec o v)))
     else if cp : bool then (v <- lk_vec (KRed Col o SP) ;; modify (set_scal key (red_vec o v)))
     else if f && rm then (v <- lk_vec (KRed Row o SM) ;; modify (set_scal key (red_vec o v)))
     else if f && cm then (v <- lk_vec (KRed Col o SM) ;; modify (set_scal key (red_vec o v)))
     else modify (set_scal key (red_mat o A))) ;;;
  hs <- in_bool KSelf ;; bo <- in_scal other ;; f <- is_False KSelf ;;
  v <- lk_scal key ;;
  ne <- (if negb hs && bo then (w <- lk_scal other ;; ret (negb (oZ_eqb v w))) else ret false) ;;
  (if ne : bool then modify (set_bool KSelf true)
   else when f (modify (set_scal other v))) ;;;
  lk_scal key.
(** classes/_caching.py 105-141: "<op>_element-" *)
Definition elem_minus (o : rop) : M (option Z) :=
  let key := KElem o SM in let other := KElem o SP in
  let finish : M (option Z) :=
    hs <- in_bool KSelf ;; bo <- in_scal other ;; f <- is_False KSelf ;;
    v <- lk_scal key ;;
    ne <- (if negb hs && bo then (w <- lk_scal other ;; ret (negb (oZ_eqb v w))) else ret false) ;;
    (if ne : bool then modify (set_bool KSelf true)
     else when f (modify (set_scal other v))) ;;;
    lk_scal key in
  b <- in_scal key ;;
  if b : bool then finish
  else
    f <- is_False KSelf ;; bo <- in_scal other ;;
    rm <- in_vec (KRed Row o SM) ;; cm <- in_vec (KRed Col o SM) ;;
    rp <- in_vec (KRed Row o SP) ;; cp <- in_vec (KRed Col o SP) ;; od <- in_mat KOff ;;
    lm <- in_mat (KL SM) ;; um <- in_mat (KU SM) ;;
    if f && bo then (v <- lk_scal other ;; modify (set_scal key v)) ;;; finish
    else if rm : bool then
      (v <- lk_vec (KRed Row o SM) ;; modify (set_scal key (red_vec o v))) ;;; finish
    else if cm : bool then
      (v <- lk_vec (KRed Col o SM) ;; modify (set_scal key (red_vec o v))) ;;; finish
    else if f && rp then
      (v <- lk_vec (KRed Row o SP) ;; modify (set_scal key (red_vec o v))) ;;; finish
    else if f && cp then
      (v <- lk_vec (KRed Col o SP) ;; modify (set_scal key (red_vec o v))) ;;; finish
    else if od : bool then (m <- lk_mat KOff ;; modify (set_scal key (red_mat o m))) ;;; finish
    else
      hs1 <- (if lm && um && is_monoid o then has_self_edges else ret false) ;;
      if hs1 : bool then
        (* lines 126-128: Matrix.reduce; the result is returned without being cached *)
        if matrix_has_reduce then
          l <- lk_mat (KL SM) ;; u <- lk_mat (KU SM) ;;
          ret (omerge (rbin o) (red_mat o l) (red_mat o u))
        else raise EAttr
      else
        hs2 <- has_self_edges ;;
        if negb hs2 then (v <- elem_plus o ;; modify (set_scal key v)) ;;; finish
        else (m <- get_offdiag ;; modify (set_scal key (red_mat o m))) ;;; finish.
(** classes/_caching.py 173-181: "<op>_diagonal" *)
Definition diag_red (o : rop) : M (option Z) :=
  let key := KDiagRed o in
  b <- in_scal key ;;
  when (negb b)
    (hs <- has_self_edges ;;
     if negb hs then modify (set_scal key None)
     else (d <- get_diag None ;; modify (set_scal key (red_vec o d)))) ;;;
  lk_scal key.
(** classes/_utils.py 37-38 with classes/_caching.py 99-185 *)
Definition get_elem (o : rop) (s : sgn) : M (option Z) :=
  match s with SP => elem_plus o | SM => elem_minus o end.

(** ** negative weights, graph.py 134-192 *)
(** classes/graph.py 154-174: [cache.get(key, 0)] and scalar comparisons; comparing an empty Scalar
    is falsy *)
Definition getd (k : skey) : M (option Z) :=
  fun s => (Val (match c_scal s k with Some v => v | None => Some 0%Z end), s).
(** classes/graph.py 154-174 *)
Definition slt (a b : option Z) : bool :=
  match a, b with Some x, Some y => (x <? y)%Z | _, _ => false end.
(** classes/graph.py 154-174 *)
Definition sge (a b : option Z) : bool :=
  match a, b with Some x, Some y => (y <=? x)%Z | _, _ => false end.

(** graph.py 134-151 *)
Definition has_negative_diagonal : M bool :=
  b <- in_bool KNegDiag ;;
  when (negb b)
    (f <- is_False KSelf ;;
     np <- is_True (KNeg SP) ;; nmf <- is_False (KNeg SM) ;;
     mm <- getd (KElem RMin SM) ;; mp <- getd (KElem RMin SP) ;;
     if nonneg_dtype (g_dt G) || f then modify (set_bool KNegDiag false)
     else if np && nmf || np && sge mm (Some 0%Z) || slt mp (Some 0%Z) && slt mp mm
     then modify (set_bool KNegDiag true)
     else (m <- diag_red RMin ;; modify (set_bool KNegDiag (oz m <? 0)%Z))) ;;;
  lk_bool KNegDiag.
(** graph.py 154-174 *)
Definition has_negative_edgesp : M bool :=
  b <- in_bool (KNeg SP) ;;
  when (negb b)
    (nm <- is_True (KNeg SM) ;; mp <- getd (KElem RMin SP) ;; mm <- getd (KElem RMin SM) ;;
     md <- getd (KDiagRed RMin) ;; nd <- is_True KNegDiag ;; nmf <- is_False (KNeg SM) ;;
     s <- get_st ;;
     if nonneg_dtype (g_dt G) then modify (set_bool (KNeg SP) false)
     else if nm || slt mp (Some 0%Z) || slt mm (Some 0%Z) || slt md (Some 0%Z) || nd
     then modify (set_bool (KNeg SP) true)
     else match c_iso s with
          | Some (Some iv) => modify (set_bool (KNeg SP) (oz iv <? 0)%Z)
          | _ =>
              if nmf : bool
              then (m <- diag_red RMin ;; modify (set_bool (KNeg SP) (oz m <? 0)%Z))
              else (m <- elem_plus RMin ;; modify (set_bool (KNeg SP) (oz m <? 0)%Z))
          end) ;;;
  lk_bool (KNeg SP).
(** graph.py 177-192 *)
Definition has_negative_edgesm : M bool :=
  b <- in_bool (KNeg SM) ;;
  when (negb b)
    (np <- is_True (KNeg SP) ;; f <- is_False KSelf ;; ndf <- is_False KNegDiag ;;
     if nonneg_dtype (g_dt G) then modify (set_bool (KNeg SM) false)
     else if np && f || np && ndf then modify (set_bool (KNeg SM) true)
     else (m <- elem_minus RMin ;; modify (set_bool (KNeg SM) (oz m <? 0)%Z))) ;;;
  lk_bool (KNeg SM).

(** ** iso-valued matrices, graph.py 217-249.  [A.ss.iso_value] is the common value. *)
Definition iso_scalar (m : mat Z) : option Z := red_mat RAny m.
(** classes/graph.py 217-227 *)
Definition is_iso : M bool :=
  b <- in_bool KIsIso ;;
  when (negb b)
    (s <- get_st ;;
     match c_iso s with
     | Some v => modify (set_bool KIsIso (has v))
     | None => modify (set_bool KIsIso (g_iso G))
     end) ;;;
  lk_bool KIsIso.
(** classes/graph.py 230-249 *)
Definition get_iso_value : M (option (option Z)) :=
  s <- get_st ;;
  when (negb (has (c_iso s)))
    (match c_bool s KIsIso with
     | Some true => modify (set_iso (Some (iso_scalar A)))
     | Some false => raise EKey            (* line 239: [cache["iso_value"]] is a lookup *)
     | None => if g_iso G then modify (set_iso (Some (iso_scalar A))) ;;; modify (set_bool KIsIso true)
               else modify (set_iso None) ;;; modify (set_bool KIsIso false)
     end) ;;;
  s <- get_st ;; idx (c_iso s).

(** ** classes/digraph.py: degree-like vectors *)
(** classes/digraph.py 119-158, classes/digraph.py 161-235: [pair(A & AT).reduce_rowwise()] *)
Definition pair_red (a b : mat Z) : vec Z := mred_row Z.add (minter op_pairz a b).
(** classes/digraph.py 119-158, classes/digraph.py 161-235 *)
Definition vones (v : vec Z) : vec Z := vmap (fun _ => 1%Z) v.
(** classes/digraph.py 119-158, classes/digraph.py 161-235: [binary.minus(u | v)]: union; where only
    one operand is present it is kept as is *)
Definition vminus (u v : vec Z) : vec Z := vunion Z.sub u v.
(** classes/digraph.py 119-158, classes/digraph.py 161-235: [rv(rv.V, replace) << rv]: drop explicit
    zeros *)
Definition drop0 (v : vec Z) : vec Z := vwrite (mV v) true v v.

(** digraph.py 119-158 *)
Definition recip_plus (mask : mask_t) : M (vec Z) :=
  let key := KRecip SP in let other := KRecip SM in
  s <- get_st ;;
  let AT := match c_mat s KAT with Some m => m | None => mtrans A end in
  match mask with
  | Some _ =>
      b <- in_vec key ;; f <- is_False KSelf ;; bo <- in_vec other ;; bd <- in_vec KDiag ;;
      if b : bool then (v <- lk_vec key ;; ret (msk mask v))
      else if f && bo then (v <- lk_vec other ;; modify (set_vec key v) ;;; ret (msk mask v))
      else if bo && bd then
        (d <- lk_vec KDiag ;; v <- lk_vec other ;; ret (msk mask (vunion Z.add (vones d) v)))
      else
        hs <- (if bo : bool then has_self_edges else ret true) ;;
        if bo && negb hs then (v <- lk_vec other ;; ret (msk mask v))
        else ret (msk mask (pair_red A AT))
  | None =>
      b <- in_vec key ;;
      when (negb b)
        (f <- is_False KSelf ;; bo <- in_vec other ;; bd <- in_vec KDiag ;;
         if f && bo then (v <- lk_vec other ;; modify (set_vec key v))
         else if bo && bd then
           (d <- lk_vec KDiag ;; v <- lk_vec other ;;
            modify (set_vec key (vunion Z.add (vones d) v)))
         else
           hs <- (if bo : bool then has_self_edges else ret true) ;;
           if bo && negb hs then (v <- lk_vec other ;; modify (set_vec key v))
           else modify (set_vec key (pair_red A AT))) ;;;
      hs <- in_bool KSelf ;; bo <- in_vec other ;; f <- is_False KSelf ;;
      v <- lk_vec key ;;
      ne <- (if negb hs && bo then (w <- lk_vec other ;; ret (negb (nvals w =? nvals v)))
             else ret false) ;;
      (if ne : bool then modify (set_bool KSelf true)
       else when f (modify (set_vec other v))) ;;;
      lk_vec key
  end.
(** digraph.py 161-235 *)
Definition recip_minus (mask : mask_t) : M (vec Z) :=
  let key := KRecip SM in let other := KRecip SP in
  s <- get_st ;;
  let AT := match c_mat s KAT, c_mat s KOff with
            | Some m, _ => m | None, Some o => mtrans o | None, None => mtrans A end in
  match mask with
  | Some _ =>
      b <- in_vec key ;; f <- is_False KSelf ;; bo <- in_vec other ;; bd <- in_vec KDiag ;;
      if b : bool then (v <- lk_vec key ;; ret (msk mask v))
      else if f && bo then (v <- lk_vec other ;; modify (set_vec key v) ;;; ret (msk mask v))
      else if bo && bd then
        (d <- lk_vec KDiag ;; v <- lk_vec other ;; ret (drop0 (msk mask (vminus v (vones d)))))
      else
        hs <- has_self_edges ;;
        if negb hs then recip_plus mask
        else
          od <- in_mat KOff ;; lm <- in_mat (KL SM) ;; um <- in_mat (KU SM) ;;
          if od : bool then (m <- lk_mat KOff ;; ret (msk mask (pair_red m AT)))
          else if lm && um then
            (l <- lk_mat (KL SM) ;; u <- lk_mat (KU SM) ;;
             ret (vunion Z.add (msk mask (pair_red l AT)) (msk mask (pair_red u AT))))
          else (d <- get_diag mask ;;
                ret (drop0 (vminus (msk mask (pair_red A AT)) (vones d))))
  | None =>
      b <- in_vec key ;;
      when (negb b)
        (f <- is_False KSelf ;; bo <- in_vec other ;; bd <- in_vec KDiag ;;
         if f && bo then (v <- lk_vec other ;; modify (set_vec key v))
         else if bo && bd then
           (d <- lk_vec KDiag ;; v <- lk_vec other ;;
            modify (set_vec key (drop0 (vminus v (vones d)))))
         else
           hs <- has_self_edges ;;
           if negb hs then (v <- recip_plus None ;; modify (set_vec key v))
           else
             od <- in_mat KOff ;; lm <- in_mat (KL SM) ;; um <- in_mat (KU SM) ;;
             if od : bool then (m <- lk_mat KOff ;; modify (set_vec key (pair_red m AT)))
             else if lm && um then
               (l <- lk_mat (KL SM) ;; u <- lk_mat (KU SM) ;;
                modify (set_vec key (vunion Z.add (pair_red l AT) (pair_red u AT))))
             else (d <- get_diag None ;;
                   modify (set_vec key (drop0 (vminus (pair_red A AT) (vones d)))))) ;;;
      hs <- in_bool KSelf ;; bo <- in_vec other ;; f <- is_False KSelf ;;
      v <- lk_vec key ;;
      ne <- (if negb hs && bo then (w <- lk_vec other ;; ret (negb (nvals v =? nvals w)))
             else ret false) ;;
      (if ne : bool then modify (set_bool KSelf true)
       else when f (modify (set_vec other v))) ;;;
      lk_vec key
  end.
(** classes/digraph.py 119-158 and classes/digraph.py 161-235 *)
Definition get_recip (s : sgn) (mask : mask_t) : M (vec Z) :=
  match s with SP => recip_plus mask | SM => recip_minus mask end.
(** digraph.py 238-265 (s = SP) and 268-295 (s = SM) *)
Definition get_total (sg : sgn) (mask : mask_t) : M (vec Z) :=
  let os := match sg with SP => SM | SM => SP end in
  let key := KTotal sg in let other := KTotal os in
  match mask with
  | Some _ =>
      b <- in_vec key ;; f <- is_False KSelf ;; bo <- in_vec other ;;
      if b : bool then (v <- lk_vec key ;; ret (msk mask v))
      else if f && bo then (v <- lk_vec other ;; modify (set_vec key v) ;;; ret (msk mask v))
      else (r <- get_red Row RCount sg mask ;; c <- get_red Col RCount sg mask ;;
            ret (vunion Z.add r c))
  | None =>
      b <- in_vec key ;;
      when (negb b)
        (f <- is_False KSelf ;; bo <- in_vec other ;;
         if f && bo then (v <- lk_vec other ;; modify (set_vec key v))
         else (r <- get_red Row RCount sg None ;; c <- get_red Col RCount sg None ;;
               modify (set_vec key (vunion Z.add r c)))) ;;;
      hs <- in_bool KSelf ;; bo <- in_vec other ;; f <- is_False KSelf ;;
      v <- lk_vec key ;;
      ne <- (if negb hs && bo then (w <- lk_vec other ;; ret (negb (nvals v =? nvals w)))
             else ret false) ;;
      (if ne : bool then modify (set_bool KSelf true)
       else when f (modify (set_vec other v))) ;;;
      lk_vec key
  end.
(** digraph.py 298-314 *)
Definition total_recip_plus : M Z :=
  b <- in_int SP ;;
  when (negb b)
    (bo <- in_int SM ;; f <- is_False KSelf ;; br <- in_vec (KRecip SP) ;; s <- get_st ;;
     if bo && f then (v <- lk_int SM ;; modify (set_int SP v))
     else if br : bool then (v <- lk_vec (KRecip SP) ;; modify (set_int SP (vsum v)))
     else
       let AT := match c_mat s KAT with Some m => m | None => mtrans A end in
       modify (set_int SP (oz (mred_scalar Z.add (minter op_pairz A AT))))) ;;;
  hs <- in_bool KSelf ;; bo <- in_int SM ;;
  when (negb hs && bo)
    (a <- lk_int SP ;; b <- lk_int SM ;; modify (set_bool KSelf (b <? a)%Z)) ;;;
  f <- is_False KSelf ;;
  when f (a <- lk_int SP ;; modify (set_int SM a)) ;;;
  lk_int SP.
(** digraph.py 317-329 *)
Definition total_recip_minus : M Z :=
  b <- in_int SM ;;
  when (negb b)
    (bo <- in_int SP ;; f <- is_False KSelf ;;
     if bo && f then (v <- lk_int SP ;; modify (set_int SM v))
     else (v <- recip_minus None ;; modify (set_int SM (vsum v)))) ;;;
  hs <- in_bool KSelf ;; bo <- in_int SP ;;
  when (negb hs && bo)
    (a <- lk_int SP ;; b <- lk_int SM ;; modify (set_bool KSelf (b <? a)%Z)) ;;;
  f <- is_False KSelf ;;
  when f (a <- lk_int SM ;; modify (set_int SP a)) ;;;
  lk_int SM.

(** ** Names, aliases and dispatch *)
(** classes/graph.py 303-361, classes/digraph.py 444-514 *)
Inductive pname :=
  | NA | NAT | Noffdiag | NU (s : sgn) | NL (s : sgn) | Ndiag
  | Nred (a : ax) (o : rop) (s : sgn)
  | Ndegrees (s : sgn) | Nrow_degrees (s : sgn) | Ncolumn_degrees (s : sgn)
  | Nrecip_degrees (s : sgn) | Ntotal_degrees (s : sgn) | Ntotal_recip (s : sgn)
  | Nelement (o : rop) (s : sgn) | Ndiagonal (o : rop)
  | Nnegdiag | Nnegedges (s : sgn) | Nself | Nis_iso | Niso_value.
(** what classes/_utils.py 37-38 may return *)
Inductive pval :=
  | PMat (m : mat Z) | PVec (v : vec Z) | PScal (x : option Z) | PInt (z : Z) | PBool (b : bool)
  | PIso (x : option (option Z)).

(** [_cache_aliases]: graph.py 354-361, digraph.py 509-514 *)
Definition alias (n : pname) : pname :=
  if directed then
    match n with
    | Nrow_degrees s => Nred Row RCount s
    | Ncolumn_degrees s => Nred Col RCount s
    | n => n
    end
  else
    match n with
    | Ndegrees s | Nrow_degrees s | Ncolumn_degrees s => Nred Row RCount s
    | n => n
    end.
(** what classes/_utils.py 37-38 may return *)
Definition lift {X} (c : X -> pval) (m : M X) : M pval := x <- m ;; ret (c x).
(** [self._get_property[name](self, mask)]: graph.py 336-353, digraph.py 485-508; an unknown name is
    a KeyError raised by AutoDict.__missing__.  Masks only affect vector-valued getters. *)
Definition dispatch (n : pname) (mask : mask_t) : M pval :=
  match n with
  | NA => ret (PMat A)                                        (* graph.py 12-14 *)
  | NAT => lift PMat get_AT
  | Noffdiag => lift PMat get_offdiag
  | NU SP => lift PMat get_Up | NU SM => lift PMat get_Um
  | NL SP => lift PMat get_Lp | NL SM => lift PMat get_Lm
  | Ndiag => lift PVec (get_diag mask)
  | Nred a o s => lift PVec (get_red a o s mask)
  | Nrecip_degrees s => if directed then lift PVec (get_recip s mask) else raise EKey
  | Ntotal_degrees s => if directed then lift PVec (get_total s mask) else raise EKey
  | Ntotal_recip SP => if directed then lift PInt total_recip_plus else raise EKey
  | Ntotal_recip SM => if directed then lift PInt total_recip_minus else raise EKey
  | Nelement o s => lift PScal (get_elem o s)
  | Ndiagonal o => lift PScal (diag_red o)
  | Nnegdiag => lift PBool has_negative_diagonal
  | Nnegedges SP => lift PBool has_negative_edgesp
  | Nnegedges SM => lift PBool has_negative_edgesm
  | Nself => lift PBool has_self_edges
  | Nis_iso => lift PBool is_iso
  | Niso_value => lift PIso get_iso_value
  | Ndegrees _ | Nrow_degrees _ | Ncolumn_degrees _ => raise EKey
  end.
(** _utils.py 37-38 *)
Definition get_property (n : pname) (mask : mask_t) : M pval := dispatch (alias n) mask.

(** [_property_priority]: graph.py 309-335, digraph.py 450-484.  Priorities are doubled so that
    the default (priority of has_self_edges minus one half) is an integer. *)
Definition priority (n : pname) : nat :=
  if directed then
    match n with
    | NA => 0 | NAT => 2 | Noffdiag => 4 | NU SP => 6 | NL SP => 8 | NU SM => 10 | NL SM => 12
    | Ndiag => 14 | Nred Row RCount SP => 16 | Nred Col RCount SP => 18
    | Nred Row RCount SM => 20 | Nred Col RCount SM => 22
    | Nrecip_degrees SP => 24 | Nrecip_degrees SM => 26 | Ntotal_degrees SP => 28
    | Ntotal_degrees SM => 30 | Ntotal_recip SP => 32 | Ntotal_recip SM => 34
    | Ndiagonal RMin => 36 | Nelement RMin SP => 38 | Nelement RMin SM => 40
    | Nnegdiag => 42 | Nnegedges SM => 44 | Nnegedges SP => 46 | Nself => 48
    | _ => 47
    end
  else
    match n with
    | NA => 0 | NAT => 2 | Noffdiag => 4 | NU SP => 6 | NL SP => 8 | NU SM => 10 | NL SM => 12
    | Ndiag => 14 | Nred Row RCount SP => 16 | Nred Row RCount SM => 18
    | Ndiagonal RMin => 20 | Nelement RMin SP => 22 | Nelement RMin SM => 24
    | Nnegdiag => 26 | Nnegedges SM => 28 | Nnegedges SP => 30 | Nself => 32
    | _ => 31
    end.
(** classes/_utils.py 47-50 *)
Fixpoint pinsert (n : pname) (l : list pname) : list pname :=
  match l with
  | [] => [n]
  | m :: l' => if priority n <? priority m then n :: l else m :: pinsert n l'
  end.
(** classes/_utils.py 47-50: stable sort by priority, python's [sorted(names, key=...)] *)
Definition psort (l : list pname) : list pname := fold_left (fun acc n => pinsert n acc) l [].

(** equality of property names, classes/_utils.py 41-55 *)
Definition pname_eqb (a b : pname) : bool :=
  match a, b with
  | NA, NA | NAT, NAT | Noffdiag, Noffdiag | Ndiag, Ndiag | Nnegdiag, Nnegdiag | Nself, Nself
  | Nis_iso, Nis_iso | Niso_value, Niso_value => true
  | NU s, NU t | NL s, NL t | Ndegrees s, Ndegrees t | Nrow_degrees s, Nrow_degrees t
  | Ncolumn_degrees s, Ncolumn_degrees t | Nrecip_degrees s, Nrecip_degrees t
  | Ntotal_degrees s, Ntotal_degrees t | Ntotal_recip s, Ntotal_recip t
  | Nnegedges s, Nnegedges t => sgn_eqb s t
  | Nred a o s, Nred a' o' s' => ax_eqb a a' && rop_eqb o o' && sgn_eqb s s'
  | Nelement o s, Nelement o' s' => rop_eqb o o' && sgn_eqb s s'
  | Ndiagonal o, Ndiagonal o' => rop_eqb o o'
  | _, _ => false
  end.
(** classes/_utils.py 41-55 *)
Fixpoint lookup_result (n : pname) (l : list (pname * pval)) : option pval :=
  match l with
  | [] => None
  | (m, v) :: l' => if pname_eqb n m then Some v else lookup_result n l'
  end.
(** the dict comprehension of _utils.py 51-54: later duplicates overwrite earlier ones *)
Fixpoint eval_all (l : list pname) (mask : mask_t) (acc : list (pname * pval))
  : M (list (pname * pval)) :=
  match l with
  | [] => ret acc
  | n :: l' => v <- dispatch n mask ;; eval_all l' mask ((n, v) :: acc)
  end.
(** classes/_utils.py 41-55 *)
Fixpoint pick_all (l : list pname) (res : list (pname * pval)) : M (list pval) :=
  match l with
  | [] => ret []
  | n :: l' => v <- idx (lookup_result n res) ;; vs <- pick_all l' res ;; ret (v :: vs)
  end.
(** _utils.py 41-55 *)
Definition get_properties (names : list pname) (mask : mask_t) : M (list pval) :=
  let names := map alias names in
  res <- eval_all (psort names) mask [] ;;
  pick_all names res.

(** classes/_utils.py 37-38, classes/_utils.py 41-55: a history: any finite list of property calls;
    exceptions are caught by the caller *)
Definition call : Type := pname * mask_t.
(** classes/_utils.py 37-38, classes/_utils.py 41-55 *)
Definition run_call (s : st) (c : call) : st := snd (get_property (fst c) (snd c) s).
(** classes/_utils.py 37-38, classes/_utils.py 41-55 *)
Definition run_history (h : list call) (s : st) : st := fold_left run_call h s.

End Cache.
