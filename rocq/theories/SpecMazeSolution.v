(** What the directions of a walk add up to, independent of the generation. *)
From Verif Require Import Base Maze SpecMaze.

#[local] Instance direction_dec : EqDecision direction.
Proof. solve_decision. Defined.

(** How often [d] occurs in [ds]. *)
Definition times (d : direction) (ds : list direction) : nat :=
  length (filter (fun x => x = d) ds).

Definition opposite (d : direction) : direction :=
  match d with Right => Left | Left => Right | Up => Down | Down => Up end.
