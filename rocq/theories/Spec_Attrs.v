(** * What is said about graph attributes (C95) *)
From Verif Require Import Base Model_Graph Model_Attrs.
Open Scope nat_scope.

(** what [G.graph[k]] shows; [None]: no such key *)
Definition attr (h : aheap) (g : nat) (k : nkey) : option aview :=
  match nth_error (a_objs h) g with
  | Some o => match dget (a_dict o) k with Some v => Some (alook h v) | None => None end
  | None => None
  end.
(** a graph object of the given class *)
Definition is_graph (h : aheap) (g : nat) (k : akind) : Prop := exists d, nth_error (a_objs h) g = Some {| a_kind := k; a_dict := d |}.
(** the object exists *)
Definition alive (h : aheap) (g : nat) : Prop := g < List.length (a_objs h).
Definition arg_mentions (x : aarg) : list nat := match x with VOf g _ => [g] | _ => [] end.
(** the graph objects an operation names *)
Definition mentions (o : aop) : list nat :=
  match o with
  | OInit _ attrs => flat_map (fun kx => arg_mentions (snd kx)) attrs
  | OSet g _ x => g :: arg_mentions x
  | OName g | OSetName g _ | OGet g _ | OAppend g _ _ | OReverse g | OToUndirected g | OToNx g => [g]
  | OOperator g more => g :: more
  | OConvert n _ => [n]
  end.
(** the heaps a program can reach *)
Definition areached (h : aheap) : Prop := exists os, h = arun os {| a_objs := []; a_lists := [] |}.
(** what an argument shows where it is passed *)
Definition arg_view (h : aheap) (x : aarg) : option aview :=
  match x with VImm v => Some (WImm v) | VNew l => Some (WList l) | VOf g k => attr h g k end.
(** a value later: a number or string is the same, a list may have got longer *)
Definition grown (a b : option aview) : Prop :=
  match a, b with
  | None, None => True
  | Some (WImm v), Some (WImm w) => v = w
  | Some (WList l), Some (WList m) => exists t, m = (l ++ t)%list
  | _, _ => False
  end.
