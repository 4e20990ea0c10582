(** Which of several equally far cells becomes the exit. *)
From Verif Require Import Base Maze SpecMaze.

(** The directions in the order Right, Down, Left, Up. *)
Definition rank (d : direction) : nat :=
  match d with Right => 0 | Down => 1 | Left => 2 | Up => 3 end.
(** [ds] comes before [es], a list of the same length: at the first difference
    its direction has the lower rank. *)
Fixpoint lex_before (ds es : list direction) : Prop :=
  match ds, es with
  | d :: ds, e :: es => rank d < rank e \/ (d = e /\ lex_before ds es)
  | _, _ => False
  end.
(** Shorter, or of the same length and lexicographically before. *)
Definition sooner (ds es : list direction) : Prop :=
  length ds < length es \/ (length ds = length es /\ lex_before ds es).

(** A walk from [i] to [j] with as few steps as possible. *)
Definition shortest_walk (w : nat) (mz : list maze_node) (ds : list direction) (i j : nat) : Prop :=
  follows w mz ds i j /\ forall es, follows w mz es i j -> length ds <= length es.
