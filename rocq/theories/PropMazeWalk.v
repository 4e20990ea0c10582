(** Property C92: which walks the mazes have; C93: which columns can have the
    exit. *)
From Verif Require Import Base Maze SpecMaze SpecMazeDfs SpecMazeWalk.
From Verif Require MazeWalk.

(** C92: each walk from the first cell that visits no cell twice is open in some
    generated maze. *)
Theorem C92_every : forall (m : mode) w h l, 1 <= w -> 1 <= h -> storable m w h -> simple_walk w h l ->
  exists rng g sol, create_maze m rng w h = Ret (g, sol) /\
    forall k i j, l !! k = Some i -> l !! S k = Some j -> joined w g i j.
Proof. exact MazeWalk.create_walk. Qed.
Print Assumptions C92_every.

(** No other walk through passages visits no cell twice. *)
Theorem C92_only : forall (m : mode) rng w h g sol l b, storable m w h -> create_maze m rng w h = Ret (g, sol) ->
  path (joined w g) 0 l b -> NoDup l -> simple_walk w h l.
Proof. exact MazeWalk.only_walks. Qed.
Print Assumptions C92_only.

(** The walk 0, 3, 4, 1 of the grid with three columns and two rows. *)
Definition walk_maze : list maze_node :=
  [MazeNode true false; MazeNode false false; MazeNode true false;
   MazeNode false true; MazeNode true true; MazeNode true false].
Definition walk_rng (k : nat) : nat := default 0 ([1; 0; 3] !! k).
Example C92_example : storable W64 3 2 /\ simple_walk 3 2 [0; 3; 4; 1] /\
  create_maze (Mode Debug W64) walk_rng 3 2 = Ret (walk_maze, [Down; Right; Up; Right; Down]) /\
  path (joined 3 walk_maze) 0 [0; 3; 4; 1] 1 /\ ~ simple_walk 3 2 [0; 1; 3].
Proof.
  split; [done|].
  assert (path (joined 3 walk_maze) 0 [0; 3; 4; 1] 1) as Hp.
  { split; [done|]. split; [done|]. intros [|[|[|k]]] i j Hi Hj; [..|done]; cbn in Hi, Hj; injection Hi as <-; injection Hj as <-.
    - left. split; [cbn; lia|]. eexists. split; [done|]. by right.
    - left. split; [cbn; lia|]. eexists. split; [done|]. by left.
    - right. split; [cbn; lia|]. eexists. split; [done|]. by right. }
  assert (NoDup [0; 3; 4; 1]) as Hnd by (repeat constructor; rewrite ?elem_of_cons, elem_of_nil; lia).
  assert (storable W64 3 2) as Hst by done.
  assert (create_maze (Mode Debug W64) walk_rng 3 2 = Ret (walk_maze, [Down; Right; Up; Right; Down])) as Hr by (vm_compute; reflexivity).
  split; [|split; [exact Hr|]; split; [exact Hp|]; clear Hr].
  - exact (C92_only (Mode Debug W64) walk_rng 3 2 _ _ _ _ Hst Hr Hp Hnd).
  - intros (_&_&H). destruct (H 1 1 3 eq_refl eq_refl) as [(_&_&[[? _]|?])|(_&_&[[? _]|?])]; unfold below in *; lia.
Qed.

(** C93: the exit can be below column [x] if and only if [exit_column w h x]. *)
Theorem C93_columns : forall (m : mode) w h x, 1 <= w -> 1 <= h -> storable m w h -> exit_column w h x <->
  exists rng g sol e, create_maze m rng w h = Ret (g, sol) /\ is_exit w h g e /\ e mod w = x.
Proof. exact MazeWalk.exit_columns. Qed.
Print Assumptions C93_columns.

(** In mazes with four columns and three rows the exit can be below column 1,
    with three columns or two rows it cannot. *)
Definition second_maze : list maze_node :=
  [MazeNode false true; MazeNode false true; MazeNode false true; MazeNode true false;
   MazeNode false false; MazeNode false true; MazeNode true false; MazeNode true false;
   MazeNode false true; MazeNode true false; MazeNode false true; MazeNode true true].
Definition second_rng (k : nat) : nat := default 0 ([0; 0; 0; 1; 1; 2; 3; 2; 2; 1; 0] !! k).
Example C93_example : storable W64 4 3 /\ exit_column 4 3 1 /\
  create_maze (Mode Debug W64) second_rng 4 3 =
    Ret (second_maze, [Right; Down; Left; Left; Up; Left; Down; Down; Right; Right; Right]) /\
  is_exit 4 3 second_maze 9 /\ 9 mod 4 = 1 /\ ~ exit_column 3 3 1 /\ ~ exit_column 4 2 1 /\ exit_column 4 2 2 /\
  ~ exit_column 4 1 2.
Proof.
  split; [done|]. split; [unfold exit_column; lia|]. split; [vm_compute; reflexivity|].
  split; [|split; [done|]; unfold exit_column; lia].
  split; [split; [lia|done]|]. intros i nd [Hi Hd] Hnd.
  destruct i as [|[|[|[|[|[|[|[|[|[|[|[|i]]]]]]]]]]]]; try done; cbn in Hnd; injection Hnd as <-; done.
Qed.
