(** Properties C20-C24 and C28.  The function [rng] gives the outcome of each
    random choice; [storable] says that the grid fits into memory. *)
From Verif Require Import Base Image Maze MazePrint SpecMaze SpecMazePrint.
From Verif Require MazeProofs.

(** A generated 2 x 2 maze shaped like the letter C, open below its first cell. *)
Definition sample_maze : list maze_node :=
  [MazeNode false true; MazeNode true false; MazeNode false false; MazeNode true true].

(** C20: no panic for positive dimensions, and a panic otherwise. *)
Theorem C20_total : forall (m : mode) rng w h, 1 <= w -> 1 <= h -> storable m w h ->
  exists g sol, create_maze m rng w h = Ret (g, sol) /\ length g = w * h.
Proof. exact MazeProofs.create_total. Qed.
Print Assumptions C20_total.

Theorem C20_zero : forall m rng w h, w = 0 \/ h = 0 -> create_maze m rng w h = Fault Panic.
Proof. exact MazeProofs.create_zero. Qed.
Print Assumptions C20_zero.

Example C20_example : storable W64 2 2 /\
  create_maze (Mode Debug W64) (fun _ => 0) 2 2 = Ret (sample_maze, [Left; Down; Right]).
Proof. split; [done|vm_compute; reflexivity]. Qed.
(** The largest mazes of one row and the first too large one. *)
Example C20_storable : storable W64 (N.to_nat (2 ^ 63 - 1)) 1 /\ ~ storable W64 (N.to_nat (2 ^ 63)) 1.
Proof. unfold storable. rewrite !Nat.mul_1_r, !N2Nat.id. split; by vm_compute. Qed.
Example C20_example_zero : create_maze (Mode Release W64) (fun _ => 0) 3 0 = Fault Panic.
Proof. vm_compute. reflexivity. Qed.

(** C21: the maze is a spanning tree of the grid. *)
Theorem C21_perfect : forall (m : mode) rng w h g sol, storable m w h -> create_maze m rng w h = Ret (g, sol) ->
  forall i j, i < w * h -> j < w * h -> unique_simple_path (joined w g) i j.
Proof. exact MazeProofs.create_perfect. Qed.
Print Assumptions C21_perfect.

Theorem C21_passages : forall (m : mode) rng w h g sol, storable m w h -> create_maze m rng w h = Ret (g, sol) ->
  exists ps, NoDup ps /\ length ps = w * h - 1 /\ forall i j, (i, j) ∈ ps <-> opening w g i j.
Proof. exact MazeProofs.create_count. Qed.
Print Assumptions C21_passages.

Example C21_example : path (joined 2 sample_maze) 0 [0; 1; 3; 2] 2 /\ ~ joined 2 sample_maze 0 2.
Proof.
  split.
  - split_and!; [done|done|]. intros [|[|[|[|k]]]] a b [= <-] [= <-].
    + left. split; [cbn; lia|]. eexists. split; [done|]. left. done.
    + left. split; [cbn; lia|]. eexists. split; [done|]. right. done.
    + right. split; [cbn; lia|]. eexists. split; [done|]. left. done.
  - intros [(_&nd&[= <-]&[[_ [? _]]|[? _]])|(_&nd&[= <-]&[[_ [? _]]|[_ ?]])]; done.
Qed.

(** C22: the outer wall is closed except for one exit. *)
Theorem C22_boundary : forall (m : mode) rng w h g sol, storable m w h -> create_maze m rng w h = Ret (g, sol) ->
  (forall i nd, in_last_col w h i -> g !! i = Some nd -> m_right nd = true) /\ exists e, is_exit w h g e.
Proof. exact MazeProofs.create_walls. Qed.
Print Assumptions C22_boundary.

Example C22_example : is_exit 2 2 sample_maze 2 /\ in_last_col 2 2 3 /\ sample_maze !! 3 = Some (MazeNode true true).
Proof.
  split_and!; [split; [split; [cbn; lia|done]|]|split; [cbn; lia|done]|done].
  intros i nd [H1 H2]. destruct i as [|[|[|[|i]]]]; cbn in H1; try lia; try done; intros [= <-]; done.
Qed.

(** C23 is false: in a maze of width 1 the solution goes right instead of down. *)
Theorem C23_refuted : exists (m : mode) rng w h g sol, 1 <= w /\ 1 <= h /\ storable m w h /\
  create_maze m rng w h = Ret (g, sol) /\ ~ exists e, is_exit w h g e /\ follows w g (rev sol) 0 e.
Proof. exact MazeProofs.width_one_refuted. Qed.
Print Assumptions C23_refuted.

Theorem C23_wide_partial : forall (m : mode) rng w h g sol, storable m w h -> create_maze m rng w h = Ret (g, sol) ->
  2 <= w -> exists e, is_exit w h g e /\ follows w g (rev sol) 0 e.
Proof. exact MazeProofs.create_solution. Qed.
Print Assumptions C23_wide_partial.

Theorem C23_width_one_partial : forall (m : mode) rng w h g sol, storable m w h -> create_maze m rng w h = Ret (g, sol) ->
  w = 1 -> sol = replicate (h - 1) Right.
Proof. exact MazeProofs.create_width_one. Qed.
Print Assumptions C23_width_one_partial.

Example C23_example : follows 2 sample_maze (rev [Left; Down; Right]) 0 2.
Proof.
  exists 1. split; [done|]. split; [left; split; [cbn; lia|]; eexists; split; [done|]; left; done|].
  exists 3. split; [done|]. split; [left; split; [cbn; lia|]; eexists; split; [done|]; right; done|].
  exists 2. split; [done|]. split; [right; split; [cbn; lia|]; eexists; split; [done|]; left; done|]. done.
Qed.
Example C23_example_one : storable W64 1 3 /\
  create_maze (Mode Release W64) (fun k => k) 1 3 =
    Ret ([MazeNode true false; MazeNode true false; MazeNode true false], [Right; Right]).
Proof. split; [done|vm_compute; reflexivity]. Qed.

(** C24: the solution is a shortest path, to the farthest cell of the last row. *)
Theorem C24_shortest_farthest : forall (m : mode) rng w h g sol, storable m w h -> create_maze m rng w h = Ret (g, sol) ->
  exists e, is_exit w h g e /\
    (exists l, path (joined w g) 0 l e /\ length l = S (length sol)) /\
    (forall l, path (joined w g) 0 l e -> S (length sol) <= length l) /\
    (forall b, in_last_row w h b -> exists l, path (joined w g) 0 l b /\ length l <= S (length sol)).
Proof. exact MazeProofs.create_shortest. Qed.
Print Assumptions C24_shortest_farthest.

(** The maze of [C20_example]: its exit is cell 2, three steps from the start,
    although it is directly below it; cell 3 is two steps away. *)
Example C24_example : path (joined 2 sample_maze) 0 [0; 1; 3; 2] 2 /\ path (joined 2 sample_maze) 0 [0; 1; 3] 3 /\
  in_last_row 2 2 2 /\ in_last_row 2 2 3.
Proof.
  split; [apply C21_example|]. split; [|split; (split; [cbn; lia|done])].
  split_and!; [done|done|]. intros [|[|[|k]]] a b [= <-] [= <-].
  - left. split; [cbn; lia|]. eexists. split; [done|]. left. done.
  - left. split; [cbn; lia|]. eexists. split; [done|]. right. done.
Qed.

(** C28 is false, for every created maze: the last check of
    [print_maze_solution] demands that the centre of the cell below the exit
    lies in the image. *)
Theorem C28_refuted : exists (m : mode) rng w h g sol im, 1 <= w /\ 1 <= h /\ storable m w h /\
  create_maze m rng w h = Ret (g, sol) /\ print_maze m (N.of_nat w) (N.of_nat h) g = Ret (Ok im) /\
  print_maze_solution m im sol = Ret (Err InvalidSolution).
Proof. exact MazeProofs.draw_refuted. Qed.
Print Assumptions C28_refuted.

Theorem C28_never : forall (m m' m'' : mode) rng w h g sol im, storable m w h -> create_maze m rng w h = Ret (g, sol) ->
  printable m' (N.of_nat w) (N.of_nat h) ->
  (10 * N.of_nat w + 1 < 2 ^ 32 - 10)%N -> (10 * N.of_nat h + 1 < 2 ^ 32 - 10)%N ->
  print_maze m' (N.of_nat w) (N.of_nat h) g = Ret (Ok im) ->
  print_maze_solution m'' im sol = Ret (Err InvalidSolution).
Proof. exact MazeProofs.draw_fails. Qed.
Print Assumptions C28_never.

Example C28_example : storable W64 2 2 /\ printable W64 2 2 /\
  create_maze (Mode Debug W64) (fun _ => 0) 2 2 = Ret (sample_maze, [Left; Down; Right]) /\
  (exists im, print_maze (Mode Debug W64) 2 2 sample_maze = Ret (Ok im) /\ i_height im = 21%N).
Proof.
  split; [done|]. split; [done|]. split; [vm_compute; reflexivity|]. eexists. split; [lazy; reflexivity|]. done.
Qed.
