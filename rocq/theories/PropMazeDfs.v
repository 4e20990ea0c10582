(** Properties C47-C49: which mazes can be generated. *)
From Verif Require Import Base Maze SpecMaze SpecMazeDfs.
From Verif Require MazeDfsProofs MazeComb.

(** C47: the generator yields exactly the depth-first spanning trees. *)
Theorem C47_support : forall (m : mode) w h, 1 <= w -> 1 <= h -> storable m w h -> forall g,
  (exists rng, recursive_backtrack m rng w h = Ret g) <->
  length g = w * h /\ walled w h g /\ perfect w h g /\ depth_first w h g.
Proof. exact MazeDfsProofs.support. Qed.
Print Assumptions C47_support.

Theorem C47_maze : forall (m : mode) rng w h g sol, storable m w h -> create_maze m rng w h = Ret (g, sol) ->
  depth_first w h g.
Proof. exact MazeDfsProofs.create_dfs. Qed.
Print Assumptions C47_maze.

Theorem C47_every : forall (m : mode) w h g, 1 <= w -> 1 <= h -> storable m w h ->
  length g = w * h -> walled w h g -> perfect w h g -> depth_first w h g ->
  exists rng e sol, in_last_row w h e /\ create_maze m rng w h = Ret (with_exit e g, sol).
Proof. exact MazeDfsProofs.create_every. Qed.
Print Assumptions C47_every.

(** The maze [0 - 1 - 3 - 2] is generated, hence a depth-first tree; the exit is
    below its last cell. *)
Definition c_maze : list maze_node :=
  [MazeNode false true; MazeNode true false; MazeNode false true; MazeNode true true].
Example C47_example : storable W64 2 2 /\ recursive_backtrack (Mode Debug W64) (fun _ => 0) 2 2 = Ret c_maze /\
  walled 2 2 c_maze /\ perfect 2 2 c_maze /\ depth_first 2 2 c_maze /\ neighbours 2 2 0 2 /\
  create_maze (Mode Debug W64) (fun _ => 0) 2 2 = Ret (with_exit 2 c_maze, [Left; Down; Right]).
Proof.
  assert (recursive_backtrack (Mode Debug W64) (fun _ => 0) 2 2 = Ret c_maze) as Hr by (vm_compute; reflexivity).
  split; [done|]. split; [done|]. destruct (C47_support (Mode Debug W64) 2 2) with (g := c_maze) as [H _]; [lia|lia|done|].
  destruct H as (_&H2&H3&H4); [eauto|].
  split; [exact H2|]. split; [exact H3|]. split; [exact H4|]. split; [|vm_compute; reflexivity].
  split_and!; [cbn; lia|cbn; lia|by right].
Qed.

(** C48 is false: not every perfect maze can be generated (a 2 x 2 maze whose
    first cell is open on two sides never appears). *)
Theorem C48_refuted : exists w h g, 1 <= w /\ 1 <= h /\ (forall m : mode, storable m w h) /\
  length g = w * h /\ walled w h g /\ perfect w h g /\
  forall (m : mode) rng g' sol, create_maze m rng w h = Ret (g', sol) -> exists i j, joined w g i j /\ ~ joined w g' i j.
Proof. exact MazeDfsProofs.never_generated. Qed.
Print Assumptions C48_refuted.

(** It holds for mazes with one row or one column and for no other size. *)
Theorem C48_sizes_partial : forall (m : mode) w h, 1 <= w -> 1 <= h -> storable m w h ->
  w = 1 \/ h = 1 <->
  forall g, length g = w * h -> walled w h g -> perfect w h g ->
    exists rng e sol, in_last_row w h e /\ create_maze m rng w h = Ret (with_exit e g, sol).
Proof. exact MazeComb.perfect_sizes. Qed.
Print Assumptions C48_sizes_partial.

(** The maze with three cells in one row. *)
Example C48_example :
  recursive_backtrack (Mode Debug W64) (fun _ => 0) 3 1 = Ret [MazeNode false true; MazeNode false true; MazeNode true true] /\
  walled 3 1 [MazeNode false true; MazeNode false true; MazeNode true true] /\
  perfect 3 1 [MazeNode false true; MazeNode false true; MazeNode true true].
Proof.
  assert (recursive_backtrack (Mode Debug W64) (fun _ => 0) 3 1 = Ret [MazeNode false true; MazeNode false true; MazeNode true true]) as Hr
    by (vm_compute; reflexivity).
  split; [exact Hr|].
  assert (1 <= 3 /\ 1 <= 1 /\ storable W64 3 1) as (H3 & H1 & Hst) by (split; [lia|split; [lia|done]]).
  destruct (proj1 (C47_support (Mode Debug W64) 3 1 H3 H1 Hst _) (ex_intro _ (fun _ => 0) Hr))
    as (_ & Hw & Hp & _).
  exact (conj Hw Hp).
Qed.

(** C49: exactly one passage leaves the first cell. *)
Theorem C49_dead_end : forall (m : mode) rng w h g sol, storable m w h -> create_maze m rng w h = Ret (g, sol) ->
  2 <= w * h -> exists j, forall k, joined w g 0 k <-> k = j.
Proof. exact MazeDfsProofs.create_dead_end. Qed.
Print Assumptions C49_dead_end.

Example C49_example : create_maze (Mode Debug W64) (fun _ => 0) 2 2 = Ret (with_exit 2 c_maze, [Left; Down; Right]) /\
  joined 2 (with_exit 2 c_maze) 0 1 /\ ~ joined 2 (with_exit 2 c_maze) 0 2.
Proof.
  split; [vm_compute; reflexivity|]. split.
  - left. split; [cbn; lia|]. eexists. split; [done|]. left. done.
  - intros [(_&nd&[= <-]&[[_ [? _]]|[? _]])|(_&nd&[= <-]&[[_ [? _]]|[_ ?]])]; done.
Qed.
