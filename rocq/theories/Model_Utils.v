(** * nxapi/_utils.py: chunk sizes and partitions *)
From Verif Require Import Base Model_Graph.
From Coq Require Import QArith Qround String Ascii.
Open Scope nat_scope.
Open Scope list_scope.

(** nxapi/_utils.py 90-108: what a generator may yield: a slice of the list, or (partition with
    chunksize 1) a bare element *)
Inductive piece (X : Type) := Chunk (l : list X) | Elem (x : X).
Arguments Chunk {X} _. Arguments Elem {X} _.

(** nxapi/_utils.py 111-127: python slice L[a:b] for 0 <= a, b *)
Definition slice {X} (a b : nat) (L : list X) : list X := firstn (b - a) (skipn a L).

(** _utils.py 111-127 [split_evenly]: the loop [for i in range(1, k)], [c] iterations left *)
Fixpoint split_loop {X} (L : list X) (k : nat) (c i start : nat) : list (list X) * nat :=
  match c with
  | O => ([], start)
  | S c' =>
      let stop := (List.length L * i + k - 1) / k in
      if stop =? start then split_loop L k c' (S i) start
      else let (r, s) := split_loop L k c' (S i) stop in (slice start stop L :: r, s)
  end.
(** nxapi/_utils.py 111-127: the last [stop] is the last [start] (they are equal after every
    iteration) *)
Definition split_evenly {X} (k : Z) (L : list X) : list (list X) :=
  if List.length L =? 0 then [] else
  if (k <=? 1)%Z then [L] else
  let k := Z.to_nat k in
  let (r, stop) := split_loop L k (k - 1) 1 0 in
  r ++ (if stop =? List.length L then [] else [skipn stop L]).

(** nxapi/_utils.py 102: [ceil(a / b)] (an exact quotient) *)
Definition cdiv (a b : nat) : nat := (a + b - 1) / b.
(** nxapi/_utils.py 107: python's [range(0, stop, step)], step > 0 *)
Definition range0 (stop step : nat) : list nat := map (fun t => t * step) (seq 0 (cdiv stop step)).
(** nxapi/_utils.py 11-13: the inner loop [for cur in it] of [pairwise]: yields (prev, cur), then prev = cur *)
Fixpoint pairwise_inner {X} (prev : X) (it : list X) : list (X * X) :=
  match it with [] => [] | cur :: it' => (prev, cur) :: pairwise_inner cur it' end.
(** nxapi/_utils.py 8-13 [pairwise]: the outer loop takes one element from the same iterator, the inner one consumes
    the rest, after which the outer one ends *)
Definition pairwise {X} (it : list X) : list (X * X) :=
  match it with [] => [] | prev :: it' => pairwise_inner prev it' end.
(** nxapi/_utils.py 90-108 *)
Definition partition {X} (chunksize : Z) (L : list X) (evenly : bool) : list (piece X) :=
  let N := List.length L in
  if N =? 0 then [] else
  if ((chunksize <=? 0) || (chunksize >=? Z.of_nat N))%Z then [Chunk L] else
  if (chunksize =? 1)%Z then map Elem L else
  let c := Z.to_nat chunksize in
  let k := cdiv N c in
  if evenly && negb (k * c =? N) then map Chunk (split_evenly (Z.of_nat k) L) else
  map (fun p => Chunk (slice (fst p) (snd p) L)) (pairwise (range0 (N + c) c)).

(** ** [normalize_chunksize], _utils.py 36-87.  Floats are modelled as exact rationals; [pyfloat] is
    python's
    [float(str)] ([None]: ValueError). *)
Inductive chunkarg := CANone | CANum (q : Q) | CAStr (s : list ascii) | CAOther.
(** nxapi/_utils.py 36-87 *)
Definition lower (a : ascii) : ascii :=
  let k := nat_of_ascii a in if (65 <=? k) && (k <=? 90) then ascii_of_nat (k + 32) else a.
(** nxapi/_utils.py 36-87 *)
Definition isdigit (a : ascii) : bool := let k := nat_of_ascii a in (48 <=? k) && (k <=? 57).
(** nxapi/_utils.py 44: [.replace(" ", "").replace("_", "").lower()] *)
Definition clean (s : list ascii) : list ascii :=
  map lower (filter (fun c => negb (Ascii.eqb c " "%char || Ascii.eqb c "_"%char)) s).
(** nxapi/_utils.py 47-54: split after the last digit; no digit: prefix "1" *)
Fixpoint split_last_digit (s : list ascii) : option (list ascii * list ascii) :=
  match s with
  | [] => None
  | c :: s' => match split_last_digit s' with
               | Some (p, q) => Some (c :: p, q)
               | None => if isdigit c then Some ([c], s') else None
               end
  end.
(** nxapi/_utils.py 36-87 *)
Definition str (s : string) : list ascii := list_ascii_of_string s.
(** nxapi/_utils.py 36-87 *)
Fixpoint asciis_eqb (a b : list ascii) : bool :=
  match a, b with
  | [], [] => true
  | x :: a', y :: b' => Ascii.eqb x y && asciis_eqb a' b'
  | _, _ => false
  end.
(** nxapi/_utils.py 15-33 *)
Definition bytes_units : list (string * Z) :=
  [("", 1); ("b", 1); ("kb", 1000); ("mb", 1000^2); ("gb", 1000^3); ("tb", 1000^4); ("pb", 1000^5); ("eb", 1000^6);
   ("zb", 1000^7); ("kib", 1024); ("mib", 1024^2); ("gib", 1024^3); ("tib", 1024^4); ("pib", 1024^5); ("eib", 1024^6);
   ("zib", 1024^7)]%string%Z.
(** nxapi/_utils.py 15-33 *)
Definition unit_scale (s : list ascii) : option Z :=
  match find (fun p => asciis_eqb (str (fst p)) s) bytes_units with Some p => Some (snd p) | None => None end.
(** nxapi/_utils.py 36-87: python [int(x)]: truncation; [round(x)]: to even *)
Definition qtrunc (q : Q) : Z := if Qle_bool 0 q then Qfloor q else Qceiling q.
(** nxapi/_utils.py 36-87 *)
Definition qround (q : Q) : Z :=
  let f := Qfloor q in
  let r := (q - inject_Z f)%Q in
  match Qcompare r (1 # 2) with Lt => f | Gt => (f + 1)%Z | Eq => if Z.even f then f else (f + 1)%Z end.
(** nxapi/_utils.py 36-87 *)
Definition last_is_b (s : list ascii) : bool := match List.rev s with c :: _ => Ascii.eqb c "b"%char | [] => false end.
(** nxapi/_utils.py 36-87 *)
Definition clamp (rv : Z) (N : option Z) : option Z :=
  if (rv <=? 0)%Z || (match N with Some N => (rv >=? N)%Z | None => false end) then None else Some rv.
(** nxapi/_utils.py 36-87 *)
Definition normalize_chunksize (pyfloat : list ascii -> option Q) (c : chunkarg) (itemsize : Z) (N : option Z)
  : outcome (option Z) :=
  match c with
  | CANone => Val None
  | CANum q => Val (clamp (qtrunc q) N)
  | CAOther => Raise EType
  | CAStr s =>
      let cs := clean s in
      if asciis_eqb cs [] || asciis_eqb cs (str "all") then Val None else
      let '(cs, prefix, suffix) :=
        match split_last_digit cs with
        | Some (p, q) => (cs, p, q)
        | None => ("1"%char :: cs, ["1"%char], cs)
        end in
      match pyfloat prefix with
      | None => Raise EValue
      | Some number =>
          if asciis_eqb suffix (str "chunk") || asciis_eqb suffix (str "chunks") then
            if Qle_bool number 1 then Val None else
            match N with
            | None => Raise EType
            | Some n => Val (clamp (Qceiling (inject_Z n / number)) N)
            end
          else
            match unit_scale suffix with
            | None => Raise EValue
            | Some scale =>
                let number := (number * inject_Z scale)%Q in
                if last_is_b cs then
                  if (itemsize =? 0)%Z then Raise EZeroDiv else
                  let x := (number / inject_Z itemsize)%Q in
                  Val (clamp (qround (if Qle_bool 1 x then x else 1%Q)) N)
                else Val (clamp (qround number) N)
            end
      end
  end.
