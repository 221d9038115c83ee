(** * What a multigraph stands for *)
From Verif Require Import Base Model_Graph Model_Cache Model_Keys Spec Spec_Cache Spec_Run Spec_Iso Spec_Count Model_Nx Model_Convert Props_Convert
  Model_Multi Spec_Public.

(** the value of one edge: its attribute [w], 1 if it has none, and 1 if none is asked for *)
Definition edge_worth (w : option nkey) (e : nkey * attrs) : Z :=
  match w with None => 1%Z | Some a => match dget (snd e) a with Some z => z | None => 1%Z end end.
(** the sum over the parallel edges *)
Definition multi_worth (N : nxmulti) (w : option nkey) (u v : nkey) : Z := total (edge_worth w) (xm_edges N u v).
(** the simple graph's weight: the sum, or (for functions that convert to booleans) 1, where there is any edge *)
Definition multi_weight (once : bool) (N : nxmulti) (w : option nkey) (u v : nkey) : option Z :=
  match xm_edges N u v with [] => None | _ => Some (if once then 1%Z else multi_worth N w u v) end.

Definition multigraph (a : marg) : Prop := match a with MArg _ => False | _ => True end.
(** as [given], [refused], [stands_for] in Spec_Public; a library multigraph stands for the simple graph with the same matrix *)
Definition mgiven (K : graph -> st -> Prop) (d : option bool) (a : marg) : Prop :=
  match a with MArg a => given K d a | MLib G s => gwf G /\ K G s | MNx N => xmwf N end.
Definition mrefused (d : option bool) (a : marg) : option exn :=
  match a with
  | MArg a => refused d a
  | MLib G _ => match d with Some b => if Bool.eqb (g_dir G) b then None else Some ENotImpl | None => None end
  | MNx N => match d with Some b => if Bool.eqb (xm_dir N) b then None else Some ENotImpl | None => None end
  end.
Definition mstands_for (once : bool) (d : option bool) (w : option nkey) (a : marg) (G : graph) : Prop :=
  match a with
  | MArg a => stands_for d w a G
  | MLib G' _ => G = G'
  | MNx N => represents G (xm_dir N) (xm_nodes N) (multi_weight once N w)
  end.
(** the function [f] treats a multigraph as the simple graph it stands for *)
Definition mserves {X} (once : bool) (K : graph -> st -> Prop) (d : option bool) (w : option nkey) (f : marg -> outcome X * option st)
    (R : graph -> outcome X -> Prop) : Prop :=
  forall a, mgiven K d a ->
    match mrefused d a with
    | Some e => fst (f a) = Raise e
    | None => exists G, gwf G /\ mstands_for once d w a G /\ R G (fst (f a))
    end.
(** how often the pair (u, v) is in a list of edges *)
Definition occurrences {D} (u v : nkey) (l : list (nkey * nkey * D)) : nat :=
  count (fun e => nkey_eqb (fst (fst e)) u && nkey_eqb (snd (fst e)) v) l.
(** total worth of the edges from P to Q *)
Definition multi_crossing (N : nxmulti) (w : option nkey) (P Q : nkey -> bool) : Z :=
  total (fun u => total (fun v => multi_worth N w u v) (filter Q (xm_nodes N))) (filter P (xm_nodes N)).
