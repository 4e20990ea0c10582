(** The number of choices along a walk, independent of the generation. *)
From Verif Require Import Base Maze SpecMaze SpecMazeDfs SpecMazeRandom.
Local Open Scope nat_scope.

(** The product of the numbers of unvisited neighbours of the cells of [l]
    except the last, each counted when the walk gets there; [seen] are the cells
    before [l]. *)
Fixpoint tour_choices (w h : nat) (seen l : list nat) : nat :=
  match l with
  | c :: ((_ :: _) as rest) => length (fresh w h (c :: seen) c) * tour_choices w h (c :: seen) rest
  | _ => 1
  end.
