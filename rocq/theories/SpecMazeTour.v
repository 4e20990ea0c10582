(** Walks that visit every cell, independent of the generation. *)
From Verif Require Import Base Maze SpecMaze SpecMazeDfs.

(** [j] is the cell after [i] in [l]. *)
Definition next_in (l : list nat) (i j : nat) : Prop :=
  exists k, l !! k = Some i /\ l !! S k = Some j.

(** [l] starts in cell 0, moves between cells with a common side and visits
    every cell once. *)
Definition tour (w h : nat) (l : list nat) : Prop :=
  head l = Some 0 /\ l ≡ₚ seq 0 (w * h) /\
  forall i j, next_in l i j -> neighbours w h i j \/ neighbours w h j i.
