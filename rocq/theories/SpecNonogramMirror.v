(** Mirror images of a grid of width [w] and height [h] stored row by row. *)
From Verif Require Import Base SpecNonogram.

(** Left and right exchanged. *)
Definition mirror {A} (w h : nat) (g : list A) : list A :=
  concat ((fun y => rev (grid_row w g y)) <$> seq 0 h).
(** Top and bottom exchanged. *)
Definition flip {A} (w h : nat) (g : list A) : list A :=
  concat ((fun y => grid_row w g (h - 1 - y)) <$> seq 0 h).
