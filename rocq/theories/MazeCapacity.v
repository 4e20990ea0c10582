(** [create_maze] with the capacity check of [vec!]: a vector that would need
    more than isize::MAX bytes panics.  Sizes of the elements:
    [MazeNode] 2 bytes, [Element] 2, [Vec<MazeDirection>] 3, [PathNode] 2 words.
    The other vectors grow by pushing to at most twice as many entries of one
    word as there are cells, which is less than the 3 words. *)
From Verif Require Import Base Util DisjointSet Maze.

(** Allocation of [vec![x; n]] with elements of [size] bytes. *)
Definition reserve (ws : word) (size : N) (n : nat) : res unit :=
  if decide (size * N.of_nat n <= isize_max ws)%N then Ret tt else Fault Panic.

Section rng.
  Context (m : mode) (rng : nat -> nat).
  (** recursive_backtrack.rs:5-38 [recursive_backtrack]. *)
  Definition generate_checked (width height : nat) : res (list maze_node) :=
    let! n := n_mul m width height in
    do! reserve m 2 n in
    do! reserve m (2 * word_bytes m) n in
    do! reserve m (3 * word_bytes m) n in
    backtrack_loop m rng (2 * n + 1) width height [0]
      (GState (replicate n maze_node_new) (with_size n)
              (replicate n [Right; Down; Left; Up]) 0).
  (** maze/mod.rs:58-132 [create_maze]. *)
  Definition create_checked (width height : nat) : res (list maze_node * list direction) :=
    let! grid := generate_checked width height in
    let! n := n_mul m width height in
    do! reserve m (2 * word_bytes m) n in
    let! tree := vec_set (replicate n PUnvisited) 0 PStart in
    bfs_loop m (S n) width height grid tree [0] 0.
End rng.
