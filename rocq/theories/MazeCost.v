(** The functions of [Maze] with counters: iterations of the main loop of the
    generator, random numbers, and cells taken from the queue of the solver.
    Apart from the counters the code is the same (C86_same). *)
From Verif Require Import Base Util DisjointSet Maze.

Record maze_cost := MazeCost { loops : nat; draws : nat; dequeued : nat }.

Section rng.
  Context (m : mode) (rng : nat -> nat).

  (** [backtrack_loop]; [g_draws] already counts the random numbers. *)
  Fixpoint backtrack_cost (fuel : nat) (width height : nat) (path : list nat) (s : gstate) (loops : nat)
      : res (list maze_node * nat * nat) :=
    match path with
    | [] => Ret (g_maze s, loops, g_draws s)
    | coordinate :: rest =>
        match fuel with
        | 0 => Fault OutOfFuel
        | S fuel =>
            let! vis := vec_get (g_visit s) coordinate in
            let! (r, mz, d, vis, k) :=
              visit_next m rng coordinate width height (g_maze s) (g_conn s) vis (g_draws s) in
            let! visit := vec_set (g_visit s) coordinate vis in
            let s := GState mz d visit k in
            match r with
            | Some next => backtrack_cost fuel width height (next :: path) s (S loops)
            | None => backtrack_cost fuel width height rest s (S loops)
            end
        end
    end.
  (** [bfs_loop]. *)
  Fixpoint bfs_cost (fuel : nat) (width height : nat) (grid : list maze_node)
      (tree : list path_node) (queue : list nat) (found : nat) (dequeued : nat)
      : res (list maze_node * list direction * nat) :=
    match fuel with
    | 0 => Fault OutOfFuel
    | S fuel =>
        match queue with
        | [] => Fault Panic
        | coordinate :: queue =>
            let! row := n_div coordinate width in
            let! h1 := n_sub m height 1 in
            let found := if Nat.eqb row h1 then S found else found in
            if Nat.eqb row h1 && Nat.eqb found width then
              let! grid := open_down grid coordinate in
              let! sol := read_path m (S (length tree)) width tree coordinate in
              Ret (grid, sol, S dequeued)
            else
              let! (tree, queue) := bfs_expand m width grid coordinate tree queue in
              bfs_cost fuel width height grid tree queue found (S dequeued)
        end
    end.
  (** [create_maze]. *)
  Definition create_cost (width height : nat) : res (list maze_node * list direction * maze_cost) :=
    let! n := n_mul m width height in
    let! (grid, loops, draws) := backtrack_cost (2 * n + 1) width height [0]
      (GState (replicate n maze_node_new) (with_size n)
              (replicate n [Right; Down; Left; Up]) 0) 0 in
    let! tree := vec_set (replicate n PUnvisited) 0 PStart in
    let! (grid, sol, dequeued) := bfs_cost (S n) width height grid tree [0] 0 0 in
    Ret (grid, sol, MazeCost loops draws dequeued).
End rng.
