(** Walks from the first cell and the columns of the exit, independent of the
    generation. *)
From Verif Require Import Base Maze SpecMaze SpecMazeDfs.

(** [l] starts in cell 0, moves between cells with a common side and visits no
    cell twice. *)
Definition simple_walk (w h : nat) (l : list nat) : Prop :=
  head l = Some 0 /\ NoDup l /\
  forall k i j, l !! k = Some i -> l !! S k = Some j -> neighbours w h i j \/ neighbours w h j i.

(** The columns below which the exit can be: with one row only the last one,
    with more rows each but column 1, and column 1 if it is the last one or the
    maze has at least four columns and three rows. *)
Definition exit_column (w h x : nat) : Prop :=
  x < w /\ (h = 1 -> x = w - 1) /\ (2 <= h -> x = 1 -> w = 2 \/ (4 <= w /\ 3 <= h)).
