(** The work of the maze generator in its disjoint set. *)
From Verif Require Import Base DisjointSet.

(** The number of sides shared by two cells of the grid. *)
Definition shared_sides (w h : nat) : nat := (w - 1) * h + w * (h - 1).

(** All calls of [find_helper] while a maze is generated. *)
Definition helper_calls (w h : nat) : nat :=
  if decide (w = 1 /\ h = 1) then 0
  else if decide (w = 1 \/ h = 1) then 10 * (w * h) - 13
  else 18 * (w * h) - 8 * w - 8 * h - 7.

(** One set with cell 0 as its root, which every other cell refers to
    directly. *)
Definition star (n : nat) : dset := Element true n :: replicate (n - 1) (Element false 0).
