(** * Consuming a generator: pulls with anything in between, stopping anywhere *)
From Verif Require Import Base Model_Graph Model_Cache Model_Keys Spec_Cache Spec_Run Model_Nx Model_Convert Model_Utils Model_Lazy Spec_Session Props_Weighted.

(** how it ended: the consumer stopped, the generator was exhausted, or it raised *)
Inductive ending := Stopped | Exhausted | Failed (e : exn).
(** [pulls B g h l f h']: starting with the heap [h], [next()] was called until [f], the items [l] came out and the heap was [h'] at last;
    between two [next()] the heap may change as [B] allows *)
Inductive pulls {H X} (B : H -> H -> Prop) : gen H X -> H -> list X -> ending -> H -> Prop :=
| P_stop g h : pulls B g h [] Stopped h
| P_done g h h' : next g h = GDone h' -> pulls B g h [] Exhausted h'
| P_fail g h e h' : next g h = GFail e h' -> pulls B g h [] (Failed e) h'
| P_yield g h x h1 g' h2 l f h' : next g h = GYield x h1 g' -> B h1 h2 -> pulls B g' h2 l f h' -> pulls B g h (x :: l) f h'.
(** other generators of the library on the same graph, anywhere in their execution *)
Inductive generator (G : graph) : forall X, gen st X -> Prop :=
| GN_layers srcs : generator G _ (g_bfs_layers G srcs)
| GN_all_pairs pf isz c ch : generator G _ (g_all_pairs_spl pf isz G c ch)
| GN_all_pairs_bf pf isz ch : iso_has_edge G -> generator G _ (g_all_pairs_bf pf isz G ch)
| GN_next X (g : gen st X) s x s' g' : generator G X g -> Inv G s -> next g s = GYield x s' g' -> generator G X g'.
Definition left_by {H X} (r : gres H X) : H := match r with GDone h | GFail _ h | GYield _ h _ => h end.
(** what may happen to a library graph's cache meanwhile: any session of public calls and get_property calls (as in C69), and
    [next()] calls of other generators *)
Inductive session (mhr : bool) (G : graph) (s : st) : st -> Prop :=
| SE_refl : session mhr G s s
| SE_prop s' c : session mhr G s s' -> safe_call G s' c -> session mhr G s (run_call mhr G s' c)
| SE_call s' X (m : M X) : session mhr G s s' -> public G X m -> session mhr G s (snd (m s'))
| SE_td s' X (m : M X) : session mhr G s s' -> public_td G X m -> td_safe G s' -> session mhr G s (snd (m s'))
| SE_next s' X (g : gen st X) : session mhr G s s' -> generator G X g -> session mhr G s (left_by (next g s')).
(** ... and to an argument: a library graph's cache as above; a networkx graph or a Matrix may be changed in any way *)
Definition meanwhile (mhr : bool) (a b : garg) : Prop :=
  match a, b with
  | AGraph G s, AGraph G' s' => G = G' /\ session mhr G s s'
  | ANx _, ANx _ | AMatrix _ _, AMatrix _ _ | AOther, AOther | ANone, ANone => True
  | _, _ => False
  end.
Definition prefix {X} (l L : list X) : Prop := exists t, L = l ++ t.
