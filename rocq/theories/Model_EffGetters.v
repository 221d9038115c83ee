(** * The property getters as effect programs

    Every getter of Graph and DiGraph (classes/graph.py:12-249,
    classes/digraph.py:24-371) and the ones built on demand by
    [get_reduce_to_vector] and [get_reduce_to_scalar] (classes/_caching.py),
    reduced to the objects they make, share, update and store (see
    Model_Effects.v).  Numbers and booleans put in the cache are objects like
    any other.  A test on the cache may go either way here. *)
From Coq Require Import List String.
From Verif Require Import Model_Effects.
Import ListNotations.
Open Scope string_scope.

(** for example classes/graph.py 24-37: [cache[k] = <new object>] and [cache[k] = cache[k2]]. *)
Definition put_new (k : string) : stmt := block [New "t"; Store k "t"].
(** for example classes/graph.py 24-37 *)
Definition put_old (k k2 : string) : stmt := block [Cached "t" k2; Store k "t"].
(** for example classes/_caching.py 7-96: [cache[k] = G.get_property(p)]. *)
Definition put_prop (k p : string) : stmt := block [GetP "t" p; Store k "t"].
(** for example classes/_caching.py 7-96: [return cache[k]], [return cache[k].dup(mask=mask)]. *)
Definition ret_cached (k : string) : stmt := Cached "ret" k.
(** for example classes/_caching.py 7-96 *)
Definition ret_dup (k : string) : stmt := block [Cached "c" k; New "ret"].
(** for example classes/_caching.py 7-96 *)
Definition ret_new : stmt := New "ret".
(** for example classes/_caching.py 7-96 *)
Definition ret_prop (k : string) : stmt := GetP "ret" k.

(** graph.py:12-14. *)
Definition e_get_A : stmt := Adj "ret".
(** graph.py:17-21 (Graph). *)
Definition e_get_AT_G : stmt := block [Adj "A"; Store "AT" "A"; View "ret" "A"].
(** digraph.py:24-30 (DiGraph). *)
Definition e_get_AT_D : stmt := block [Adj "A"; cond [put_new "AT"]; ret_cached "AT"].
(** graph.py:24-37. *)
Definition e_get_offdiag : stmt :=
  block [ Adj "A";
          cond [choose [[Store "offdiag" "A"]; [put_new "offdiag"]]];
          cond [put_new "has_self_edges"];
          cond [Store "offdiag" "A"];
          ret_cached "offdiag" ].
(** graph.py:40-53 and 56-69 (Graph), digraph.py:33-49 and 52-68 (DiGraph):
    [k] is "U+" or "L+", [k'] the one without the diagonal. *)
Definition e_get_tri_plus (k k' : string) : stmt :=
  block [ Adj "A";
          cond [choose [[GetP "h" "has_self_edges"; put_old k k'];
                        [GetP "h" "has_self_edges"; put_new k]; [put_new k]]];
          cond [put_new "has_self_edges"];
          cond [put_old k' k];
          ret_cached k ].
(** graph.py:72-90 and 93-111 (Graph), digraph.py:71-92 and 95-116 (DiGraph). *)
Definition e_get_tri_minus (k k' : string) : stmt :=
  block [ Adj "A";
          cond [choose [[GetP "h" "has_self_edges"; put_new k];
                        [GetP "h" "has_self_edges"; put_old k k'];
                        [put_old k k']; [put_new k]]];
          cond [put_new "has_self_edges"];
          cond [put_old k' k];
          ret_cached k ].
(** graph.py:114-131. *)
Definition e_get_diag : stmt :=
  block [ Adj "A";
          cond [put_new "diag"];
          cond [put_new "has_self_edges"];
          If (ret_dup "diag") (ret_cached "diag") ].
(** graph.py:134-151. *)
Definition e_has_negative_diagonal : stmt :=
  block [ Adj "A";
          cond [choose [[put_new "has_negative_diagonal"];
                        [GetP "m" "min_diagonal"; put_new "has_negative_diagonal"]]];
          ret_cached "has_negative_diagonal" ].
(** graph.py:154-174. *)
Definition e_has_negative_edgesp : stmt :=
  block [ Adj "A";
          cond [choose [[put_new "has_negative_edges+"];
                        [Cached "i" "iso_value"; put_new "has_negative_edges+"];
                        [GetP "m" "min_diagonal"; put_new "has_negative_edges+"];
                        [GetP "m" "min_element+"; put_new "has_negative_edges+"]]];
          ret_cached "has_negative_edges+" ].
(** graph.py:177-192. *)
Definition e_has_negative_edgesm : stmt :=
  block [ Adj "A";
          cond [choose [[put_new "has_negative_edges-"];
                        [GetP "m" "min_element-"; put_new "has_negative_edges-"]]];
          ret_cached "has_negative_edges-" ].
(** graph.py:195-214 (Graph), digraph.py:332-371 (DiGraph). *)
Definition e_has_self_edges : stmt :=
  block [ Adj "A";
          cond [choose [[put_new "has_self_edges"]; [GetP "d" "diag"]]];
          ret_cached "has_self_edges" ].
(** graph.py:217-227. *)
Definition e_is_iso : stmt := block [Adj "A"; cond [put_new "is_iso"]; ret_cached "is_iso"].
(** graph.py:230-249.  [A.ss.iso_value] is a new Scalar. *)
Definition e_get_iso_value : stmt :=
  block [ Adj "A";
          cond [choose [[put_new "iso_value"]; [Cached "i" "iso_value"];
                        [put_new "iso_value"; put_new "is_iso"]]];
          ret_cached "iso_value" ].

(** digraph.py:119-158. *)
Definition e_get_recip_degreesp : stmt :=
  block [ Adj "A"; If (Cached "AT" "AT") (View "AT" "A");
    If (choose [ [ret_dup "recip_degrees+"];
                 [put_old "recip_degrees+" "recip_degrees-"; ret_dup "recip_degrees-"];
                 [Cached "d" "diag"; Cached "r" "recip_degrees-"; ret_new];
                 [GetP "h" "has_self_edges"; ret_dup "recip_degrees-"];
                 [GetP "h" "has_self_edges"; ret_new];
                 [ret_new] ])
       (block
          [ cond [choose [ [put_old "recip_degrees+" "recip_degrees-"];
                           [put_new "recip_degrees+"];
                           [GetP "h" "has_self_edges"; put_old "recip_degrees+" "recip_degrees-"];
                           [GetP "h" "has_self_edges"; put_new "recip_degrees+"] ]];
            choose [[put_new "has_self_edges"]; [put_old "recip_degrees-" "recip_degrees+"]; []];
            ret_cached "recip_degrees+" ]) ].

(** digraph.py:161-235.  [rv(rv.V, replace) << rv] (lines 181, 199, 208, 225)
    updates [rv] in place, before it is stored. *)
Definition e_get_recip_degreesm : stmt :=
  block [ Adj "A"; choose [[Cached "AT" "AT"]; [Cached "AT" "offdiag"]; [View "AT" "A"]];
    If (choose [ [ret_dup "recip_degrees-"];
                 [put_old "recip_degrees-" "recip_degrees+"; ret_dup "recip_degrees-"];
                 [New "rv"; Mut "rv"; View "ret" "rv"];
                 [GetP "h" "has_self_edges"; ret_prop "recip_degrees+"];
                 [GetP "h" "has_self_edges"; Cached "o" "offdiag"; ret_new];
                 [GetP "h" "has_self_edges"; Cached "l" "L-"; Cached "u" "U-"; ret_new];
                 [GetP "h" "has_self_edges"; GetP "diag" "diag"; New "overlap"; New "rv"; Mut "rv";
                  View "ret" "rv"] ])
       (block
          [ cond [choose [ [put_old "recip_degrees-" "recip_degrees+"];
                           [New "rv"; Mut "rv"; Store "recip_degrees-" "rv"];
                           [GetP "h" "has_self_edges"; put_prop "recip_degrees-" "recip_degrees+"];
                           [GetP "h" "has_self_edges"; put_new "recip_degrees-"];
                           [GetP "h" "has_self_edges"; GetP "diag" "diag"; New "overlap"; New "rv"; Mut "rv";
                            Store "recip_degrees-" "rv"] ]];
            choose [[put_new "has_self_edges"]; [put_old "recip_degrees+" "recip_degrees-"]; []];
            ret_cached "recip_degrees-" ]) ].

(** digraph.py:238-265 and 268-295: [s] is the sign, [o] the other one. *)
Definition e_get_total_degrees (s o : string) : stmt :=
  let k := "total_degrees" ++ s in
  let k' := "total_degrees" ++ o in
  If (choose [ [ret_dup k]; [put_old k k'; ret_dup k];
               [GetP "r" ("row_degrees" ++ s); GetP "c" ("column_degrees" ++ s); ret_new] ])
     (block
        [ cond [choose [ [put_old k k'];
                         [GetP "r" ("row_degrees" ++ s); GetP "c" ("column_degrees" ++ s); put_new k] ]];
          choose [[put_new "has_self_edges"]; [put_old k' k]; []];
          ret_cached k ]).

(** digraph.py:298-314. *)
Definition e_get_total_recipp : stmt :=
  block [ Adj "A";
          cond [choose [[put_old "total_recip+" "total_recip-"];
                        [Cached "r" "recip_degrees+"; put_new "total_recip+"];
                        [put_new "total_recip+"]]];
          cond [put_new "has_self_edges"];
          cond [put_old "total_recip-" "total_recip+"];
          ret_cached "total_recip+" ].
(** digraph.py:317-329. *)
Definition e_get_total_recipm : stmt :=
  block [ cond [choose [[put_old "total_recip-" "total_recip+"];
                        [GetP "r" "recip_degrees-"; put_new "total_recip-"]]];
          cond [put_new "has_self_edges"];
          cond [put_old "total_recip+" "total_recip-"];
          ret_cached "total_recip-" ].

(** _caching.py:13-64: [get_reduce_to_vector] for a key [b-]. *)
Definition e_reduce_vector_minus (b : string) : stmt :=
  let k := b ++ "-" in
  let k' := b ++ "+" in
  If (choose [ [ret_dup k]; [put_old k k'; ret_dup k];
               [Cached "o" "offdiag"; ret_new];
               [Cached "l" "L-"; Cached "u" "U-"; GetP "h" "has_self_edges"; ret_new];
               [GetP "h" "has_self_edges"; ret_prop k'];
               [GetP "h" "has_self_edges"; GetP "o" "offdiag"; ret_new] ])
     (block
        [ cond [choose [ [put_old k k']; [Cached "o" "offdiag"; put_new k];
                         [GetP "h" "has_self_edges"; put_new k];
                         [GetP "h" "has_self_edges"; put_prop k k'];
                         [GetP "h" "has_self_edges"; GetP "o" "offdiag"; put_new k] ]];
          choose [[put_new "has_self_edges"]; [put_old k' k]; []];
          ret_cached k ]).
(** _caching.py:67-95: for a key [b+]. *)
Definition e_reduce_vector_plus (b : string) : stmt :=
  let k := b ++ "+" in
  let k' := b ++ "-" in
  block [ Adj "A";
    If (choose [ [ret_dup k]; [put_old k k'; ret_dup k]; [Cached "t" "AT"; ret_new]; [ret_new] ])
       (block
          [ cond [choose [[put_old k k']; [Cached "t" "AT"; put_new k]; [put_new k]]];
            choose [[put_new "has_self_edges"]; [put_old k' k]; []];
            ret_cached k ]) ].
(** _caching.py:105-142: [get_reduce_to_scalar] for a key [b-]; one branch
    returns a new Scalar without storing it (lines 126-128). *)
Definition e_reduce_scalar_minus (b : string) : stmt :=
  let k := b ++ "-" in
  let k' := b ++ "+" in
  If (block [Cached "l" "L-"; Cached "u" "U-"; GetP "h" "has_self_edges"; ret_new])
     (block
        [ cond [choose [ [put_old k k']; [Cached "r" "rowwise"; put_new k];
                         [Cached "o" "offdiag"; put_new k];
                         [GetP "h" "has_self_edges"; put_prop k k'];
                         [GetP "h" "has_self_edges"; GetP "o" "offdiag"; put_new k] ]];
          choose [[put_new "has_self_edges"]; [put_old k' k]; []];
          ret_cached k ]).
(** _caching.py:145-170: for a key [b+]. *)
Definition e_reduce_scalar_plus (b : string) : stmt :=
  let k := b ++ "+" in
  let k' := b ++ "-" in
  block [ Adj "A";
          cond [choose [[put_old k k']; [Cached "r" "rowwise"; put_new k]; [put_new k]]];
          choose [[put_new "has_self_edges"]; [put_old k' k]; []];
          ret_cached k ].
(** _caching.py:173-181: for a key [b_diagonal]. *)
Definition e_reduce_diagonal (b : string) : stmt :=
  let k := b ++ "_diagonal" in
  block [ Adj "A";
          cond [GetP "h" "has_self_edges"; choose [[put_new k]; [GetP "d" "diag"; put_new k]]];
          ret_cached k ].

(** graph.py:336-353 and digraph.py:485-508: the tables of getters.  The
    getters built on demand have an operator name in their key; the program
    does not depend on it, and keys do not matter here ([Cached] may give any
    object the graph holds), so one of each kind stands for all. *)
Definition getters : list getter :=
  [ e_get_A; e_get_AT_G; e_get_AT_D; e_get_offdiag;
    e_get_tri_plus "U+" "U-"; e_get_tri_plus "L+" "L-";
    e_get_tri_minus "U-" "U+"; e_get_tri_minus "L-" "L+";
    e_get_diag; e_get_recip_degreesp; e_get_recip_degreesm;
    e_get_total_degrees "+" "-"; e_get_total_degrees "-" "+";
    e_get_total_recipp; e_get_total_recipm; e_is_iso; e_get_iso_value;
    e_has_negative_diagonal; e_has_negative_edgesm; e_has_negative_edgesp; e_has_self_edges;
    e_reduce_vector_plus "op_rowwise"; e_reduce_vector_minus "op_rowwise";
    e_reduce_scalar_plus "op_element"; e_reduce_scalar_minus "op_element";
    e_reduce_diagonal "op" ].
