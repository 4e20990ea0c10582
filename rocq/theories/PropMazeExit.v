(** Property C52: which exit is chosen. *)
From Verif Require Import Base Maze SpecMaze SpecMazeExit.
From Verif Require MazeOrder.

(** C52: every other cell of the last row comes sooner than the exit, that is,
    its shortest walk is shorter, or equally long and before the solution in the
    dictionary order with Right < Down < Left < Up.  (For width 1 the last row is
    one cell; see C24 for its solution.) *)
Theorem C52_exit : forall (m : mode) rng w h g sol, storable m w h -> create_maze m rng w h = Ret (g, sol) -> 2 <= w ->
  exists e, is_exit w h g e /\ shortest_walk w g (rev sol) 0 e /\
    forall b ds, in_last_row w h b -> b <> e -> shortest_walk w g ds 0 b -> sooner ds (rev sol).
Proof. exact MazeOrder.create_exit. Qed.
Print Assumptions C52_exit.

(** Hence the passages determine the exit and the solution: no draw influences
    them otherwise. *)
Theorem C52_determined : forall (m : mode) rng (m' : mode) rng' w h g sol g' sol', storable m w h -> storable m' w h -> 2 <= w ->
  create_maze m rng w h = Ret (g, sol) -> create_maze m' rng' w h = Ret (g', sol') ->
  (forall i j, joined w g i j <-> joined w g' i j) -> g = g' /\ sol = sol'.
Proof. exact MazeOrder.create_determined. Qed.
Print Assumptions C52_determined.

(** The cells 3 and 5 of this maze are equally far; the exit is below 3, since
    [Right; Down; Right] is before [Right; Down; Left].  Two different runs
    yield it. *)
Definition tie_maze : list maze_node :=
  [MazeNode false true; MazeNode true false; MazeNode true false;
   MazeNode false false; MazeNode false true; MazeNode true true].
Definition tie_rng (k : nat) : nat := match k with 1 => 1 | _ => 0 end.
Definition tie_rng' (k : nat) : nat := match k with 1 => 2 | 2 => 1 | _ => 0 end.
Example C52_example : storable W64 3 2 /\
  create_maze (Mode Debug W64) tie_rng 3 2 = Ret (tie_maze, [Left; Down; Right]) /\
  create_maze (Mode Debug W64) tie_rng' 3 2 = Ret (tie_maze, [Left; Down; Right]) /\
  is_exit 3 2 tie_maze 3 /\ in_last_row 3 2 5 /\ shortest_walk 3 tie_maze [Right; Down; Right] 0 5 /\
  sooner [Right; Down; Right] [Right; Down; Left].
Proof.
  split; [done|]. split; [vm_compute; reflexivity|]. split; [vm_compute; reflexivity|]. split; [split; [split; [lia|done]|]|].
  - intros [|[|[|[|[|[|i]]]]]] nd [Hi Hd] Hnd; try done; cbn in Hnd; injection Hnd as <-; done.
  - split; [split; [lia|done]|]. split; [split|].
    + exists 1. split; [done|]. split; [left; split; [cbn; lia|]; eexists; split; [done|]; by left|].
      exists 4. split; [done|]. split; [left; split; [cbn; lia|]; eexists; split; [done|]; by right|].
      exists 5. split; [done|]. split; [left; split; [cbn; lia|]; eexists; split; [done|]; by left|]. done.
    + intros [|d1 [|d2 [|d3 es]]]; cbn [follows length]; [done| | |lia].
      * intros (k&H1&_&->). destruct d1; cbn in H1; unfold beside, below in H1; lia.
      * intros (k&H1&_&k'&H2&_&->). destruct d1, d2; cbn in H1, H2; unfold beside, below in H1, H2; lia.
    + right. split; [done|]. right. split; [done|]. right. split; [done|]. left. cbn. lia.
Qed.
