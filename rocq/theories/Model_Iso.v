(** * isomorphism/isomorph.py: fast_could_be_isomorphic *)
From Verif Require Import Base Model_Graph Model_Cache Model_Keys Model_Measures Model_Cluster.
Open Scope nat_scope.

(** ** algorithms/isomorphism/isomorph.py 12-41; nxapi/isomorphism/isomorph.py 10-13.  Two graphs,
    two caches.
    29, 30, 35, 36: [np.lexsort((d, t))] orders by t and then by d; the order is modelled by an insertion
    sort of the pairs (t, d) (pairs that agree in both components are indistinguishable afterwards). *)
Definition pleb (a b : Z * Z) : bool := ((fst a <? fst b) || ((fst a =? fst b) && (snd a <=? snd b)))%Z.
(** [np.lexsort], algorithms/isomorphism/isomorph.py 12-40 *)
Fixpoint pinsert (x : Z * Z) (l : list (Z * Z)) : list (Z * Z) :=
  match l with [] => [x] | y :: l' => if pleb x y then x :: l else y :: pinsert x l' end.
(** [np.lexsort], algorithms/isomorphism/isomorph.py 12-40 *)
Definition psort (l : list (Z * Z)) : list (Z * Z) := fold_right pinsert [] l.
(** algorithms/isomorphism/isomorph.py 23-28: [t(~t.S) << binary.second(d, 0)], only when the
    numbers of entries differ *)
Definition fill_tri (t d : vec Z) : vec Z :=
  if nvals t =? nvals d then t
  else vbuild (vsize t) (fun i => match vget t i with Some x => Some x | None => omap (fun _ => 0%Z) (vget d i) end).
(** algorithms/isomorphism/isomorph.py 12-40: lexsort of arrays of different lengths is a ValueError *)
Definition lexsorted (t d : list Z) : outcome (list (Z * Z)) :=
  if List.length t =? List.length d then Val (psort (combine t d)) else Raise EValue.
(** algorithms/isomorphism/isomorph.py 23-41 *)
Definition fast_core (d1 t1 d2 t2 : vec Z) : outcome bool :=
  match lexsorted (vvalues (fill_tri t1 d1)) (vvalues d1) with
  | Raise e => Raise e
  | Val p1 =>
      match lexsorted (vvalues (fill_tri t2 d2)) (vvalues d2) with
      | Raise e => Raise e
      | Val p2 => Val (if negb (zlist_eqb (map snd p1) (map snd p2)) then false
                       else if negb (zlist_eqb (map fst p1) (map fst p2)) then false else true)
      end
  end.
(** nxapi/isomorphism/isomorph.py 10-13 *)
Definition nx_fast_could_be_isomorphic (G1 G2 : graph) (s1 s2 : st) : outcome bool * st * st :=
  if negb (glen G1 =? glen G2) then (Val false, s1, s2) else
  match degrees_plus G1 s1 with
  | (Raise e, s1') => (Raise e, s1', s2)
  | (Val d1, s1') =>
  match degrees_plus G2 s2 with
  | (Raise e, s2') => (Raise e, s1', s2')
  | (Val d2, s2') =>
  if negb (nvals d1 =? nvals d2) then (Val false, s1', s2') else
  match triangles G1 None s1' with
  | (Raise e, s1'') => (Raise e, s1'', s2')
  | (Val t1, s1'') =>
  match triangles G2 None s2' with
  | (Raise e, s2'') => (Raise e, s1'', s2'')
  | (Val t2, s2'') =>
  if negb (nvals t1 =? nvals t2) then (Val false, s1'', s2'') else
  (fast_core d1 t1 d2 t2, s1'', s2'')
  end end end end.
