(** Properties C57 and C58. *)
From Verif Require Import Base Image Maze MazePrint SpecMaze SpecMazePrint.
From Verif Require MazeImage.
Local Open Scope N_scope.

(** C57: the printed image determines the maze. *)
Theorem C57_injective : forall (m m' : mode) w h w' h' g g' im im',
  printable m w h -> printable m' w' h' -> w * h <= 2 ^ 32 -> w' * h' <= 2 ^ 32 -> 0 < w * h ->
  print_maze m w h g = Ret (Ok im) -> print_maze m' w' h' g' = Ret (Ok im') ->
  i_width im = i_width im' -> i_height im = i_height im' ->
  (forall x y, x < i_width im -> y < i_height im -> i_pix im x y = i_pix im' x y) ->
  w = w' /\ h = h' /\ g = g'.
Proof. exact MazeImage.print_injective. Qed.
Print Assumptions C57_injective.

(** Two mazes of the same size whose images differ. *)
Example C57_example :
  printable W64 2 1 /\
  match print_maze (Mode Debug W64) 2 1 [MazeNode false true; MazeNode true false],
        print_maze (Mode Debug W64) 2 1 [MazeNode true true; MazeNode true false] with
  | Ret (Ok im), Ret (Ok im') => i_width im = i_width im' /\ i_height im = i_height im' /\
      i_pix im 10 5 = WHITE_PIXEL /\ i_pix im' 10 5 = BLACK_PIXEL
  | _, _ => False
  end.
Proof. split; [by vm_compute|]. vm_compute. done. Qed.

(** C58: an accepted solution paints over no wall of the printed maze iff it
    walks through open passages from the entrance cell to a cell that is open
    at the bottom. *)
Theorem C58_drawing : forall (m m' : mode) w h g im sol im',
  printable m w h -> w * h <= 2 ^ 32 -> i_width im < 2 ^ 32 - 10 -> i_height im < 2 ^ 32 - 10 ->
  print_maze m w h g = Ret (Ok im) -> print_maze_solution m' im sol = Ret (Ok im') ->
  (forall x y, x < i_width im -> y < i_height im -> i_pix im x y = BLACK_PIXEL -> i_pix im' x y = BLACK_PIXEL) <->
  exists j nd, follows (N.to_nat w) g (rev sol) 0 j /\ g !! j = Some nd /\ m_down nd = false.
Proof. exact MazeImage.drawing_valid. Qed.
Print Assumptions C58_drawing.

(** The same walk drawn on a maze with and on a maze without the passage. *)
Example C58_example :
  let walk g := match print_maze (Mode Debug W64) 2 2 g with
    | Ret (Ok im) => match print_maze_solution (Mode Debug W64) im [Right] with
      | Ret (Ok im') => Some (i_pix im 10 5, i_pix im' 10 5, i_pix im' 15 10) | _ => None end
    | _ => None end in
  walk [MazeNode false true; MazeNode true false; MazeNode true true; MazeNode true true]
    = Some (WHITE_PIXEL, RED_PIXEL, RED_PIXEL) /\
  walk [MazeNode true true; MazeNode true false; MazeNode true true; MazeNode true true]
    = Some (BLACK_PIXEL, RED_PIXEL, RED_PIXEL).
Proof. vm_compute. done. Qed.
Example C58_example_walk :
  follows 2 [MazeNode false true; MazeNode true false; MazeNode true true; MazeNode true true] (rev [Right]) 0 1.
Proof.
  exists 1%nat. split_and!; [done| |done]. left. split; [cbn; lia|]. exists (MazeNode false true). split; [done|]. by left.
Qed.
