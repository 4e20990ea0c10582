(** Properties C77 and C78: shape and length of the solutions, and mazes that
    are a single walk through all cells. *)
From Verif Require Import Base Maze SpecMaze SpecMazeDfs SpecMazeSolution SpecMazeTour.
From Verif Require MazeSolution MazeTour.

(** C77: bounds for the length of the solution, attained for every size. *)
Theorem C77_length : forall (m : mode) rng w h g sol, storable m w h -> create_maze m rng w h = Ret (g, sol) ->
  w + h - 2 <= length sol < w * h.
Proof. exact MazeSolution.solution_length. Qed.
Print Assumptions C77_length.

Theorem C77_shortest : forall (m : mode) w h, 1 <= w -> 1 <= h -> storable m w h ->
  exists rng g sol, create_maze m rng w h = Ret (g, sol) /\ length sol = w + h - 2.
Proof. exact MazeTour.shortest. Qed.
Print Assumptions C77_shortest.

Theorem C77_longest : forall (m : mode) w h, 1 <= w -> 1 <= h -> storable m w h ->
  exists rng g sol, create_maze m rng w h = Ret (g, sol) /\ length sol = w * h - 1.
Proof. exact MazeTour.longest. Qed.
Print Assumptions C77_longest.

(** Steps in opposite directions cancel except for the way to the exit. *)
Theorem C77_moves : forall (m : mode) rng w h g sol e, storable m w h -> create_maze m rng w h = Ret (g, sol) -> 2 <= w ->
  is_exit w h g e ->
  times Down sol = times Up sol + (h - 1) /\ times Right sol = times Left sol + e mod w.
Proof. exact MazeSolution.solution_moves. Qed.
Print Assumptions C77_moves.

(** No step takes back the one before. *)
Theorem C77_no_return : forall (m : mode) rng w h g sol k d d', storable m w h -> create_maze m rng w h = Ret (g, sol) ->
  sol !! k = Some d -> sol !! S k = Some d' -> d' <> opposite d.
Proof. exact MazeSolution.solution_no_return. Qed.
Print Assumptions C77_no_return.

(** The two mazes of size 2 x 2: solutions of length 3 = 2 * 2 - 1 and
    2 = 2 + 2 - 2. *)
Example C77_example : storable W64 2 2 /\
  create_maze (Mode Debug W64) (fun _ => 0) 2 2 =
    Ret ([MazeNode false true; MazeNode true false; MazeNode false false; MazeNode true true], [Left; Down; Right]) /\
  create_maze (Mode Debug W64) (fun _ => 1) 2 2 =
    Ret ([MazeNode true false; MazeNode true false; MazeNode false true; MazeNode true false], [Right; Down]).
Proof. split_and!; vm_compute; reflexivity. Qed.

(** C78: every walk from cell 0 that visits all cells once is the set of
    passages of a generated maze; its solution leads to the last cell of the
    last row it visits. *)
Theorem C78_tour : forall w h l, 1 <= w -> 1 <= h -> tour w h l -> forall (m : mode), storable m w h ->
  exists rng g sol, create_maze m rng w h = Ret (g, sol) /\
    (forall i j, joined w g i j <-> next_in l i j \/ next_in l j i) /\
    (exists e, in_last_row w h e /\ l !! length sol = Some e) /\
    forall k b, in_last_row w h b -> l !! k = Some b -> k <= length sol.
Proof. exact MazeTour.tour_generated. Qed.
Print Assumptions C78_tour.

Example C78_example : tour 3 2 [0; 1; 2; 5; 4; 3] /\ tour 3 2 [0; 3; 4; 1; 2; 5] /\ ~ tour 3 2 [0; 2; 1; 4; 3; 5].
Proof.
  assert (forall l, [0; 3; 4; 1; 2; 5] = l \/ [0; 1; 2; 5; 4; 3] = l -> tour 3 2 l) as H.
  { intros l Hl. split_and!.
    - by destruct Hl as [<-|<-].
    - apply (bool_decide_unpack _). destruct Hl as [<-|<-]; vm_compute; exact I.
    - intros i j (k&H1&H2). destruct Hl as [<-|<-];
        (destruct k as [|[|[|[|[|[|k]]]]]]; [..|done]; try done; injection H1 as <-; injection H2 as <-);
        unfold neighbours, beside, below; cbn; lia. }
  split_and!; [apply H; by right|apply H; by left|].
  intros (_&_&H'). destruct (H' 0 2) as [(_&_&Hn)|(_&_&Hn)]; [by exists 0|..]; unfold beside, below in Hn; lia.
Qed.
