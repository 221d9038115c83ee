(** * Ego graphs: generators/ego.py and its nxapi wrapper *)
From Verif Require Import Base Model_Graph Model_Cache Model_Keys Model_Bfs Model_Operators Model_Weighted.
Open Scope nat_scope.

(** ego.py 14-21 on the graph [H] that is searched; [radius] is an integer (python also takes a float).
    [G._key_to_id] and [H._key_to_id] are the same object. *)
Definition ego_ids (H : graph) (u : nkey) (radius : Z) (center weighted : bool) : M (list nat) :=
  if weighted then
    v <- single_source_bf H u (Some radius) ;;
    v <- (if center then ret v else i <- idx (kid H u) ;; ret (vdel v i)) ;;
    ret (vindices v)
  else
    v <- bfs_plain H u (Some radius) false ;;
    v <- (if center then ret v else i <- idx (kid H u) ;; ret (vdel v i)) ;;
    ret (vindices v).
(** ego.py 7-24; nxapi/generators/ego.py 7-11 passes [is_weighted = (distance is not None)] and converts
    the graph with that attribute as weight.  [G.to_undirected()] (ego.py 9-11) is a new graph with an
    empty cache of its own, dropped at the end. *)
Definition nx_ego_graph (orc : mat Z -> bool) (pick : nat -> nat -> bool) (G : graph) (u : nkey) (radius : Z)
  (center undirected weighted : bool) : M graph :=
  ids <- (if undirected && g_dir G
          then lifto (fst (ego_ids (to_undirected orc pick false G) u radius center weighted st0))
          else ego_ids G u radius center weighted) ;;
  d <- lifto (renumber_key_to_id (g_kid G) ids) ;;
  ret (new_graph orc (g_dir G) (mextract (g_A G) ids ids) (g_dt G) d).
