(** Model of /repo/src/puzzles/maze/recursive_backtrack.rs and of [create_maze]
    in /repo/src/puzzles/maze/mod.rs. *)
From Verif Require Import Base Util DisjointSet.

(** maze/mod.rs:28-41 [MazeNode]: presence of the right and bottom walls. *)
Record maze_node := MazeNode { m_right : bool; m_down : bool }.
Definition maze_node_new : maze_node := MazeNode true true.

(** maze/mod.rs:43-49 [MazeDirection]. *)
Inductive direction := Right | Down | Left | Up.

(** maze/mod.rs:51-56 [PathNode]. *)
Inductive path_node := PStart | PPath (parent : nat) | PUnvisited.

Section rng.
  Context (m : mode).
  (** The random generator: [rng k] is the k-th number drawn. *)
  Context (rng : nat -> nat).

  (** Everything mutable in the generation loop. *)
  Record gstate := GState {
    g_maze : list maze_node;
    g_conn : dset;
    g_visit : list (list direction);   (* [can_visit] *)
    g_draws : nat                      (* numbers drawn so far *)
  }.

  (** [maze[c].right = false] / [maze[c].down = false]. *)
  Definition open_right (mz : list maze_node) (c : nat) : res (list maze_node) :=
    let! n := vec_get mz c in vec_set mz c (MazeNode false (m_down n)).
  Definition open_down (mz : list maze_node) (c : nat) : res (list maze_node) :=
    let! n := vec_get mz c in vec_set mz c (MazeNode (m_right n) false).

  (** The part common to the four match arms of [visit_next]
      (recursive_backtrack.rs:58-69, 78-89, 98-109, 118-129): skip if already
      connected, else open the wall, merge the sets and return [next]. *)
  Definition try_open (coordinate next : nat) (wall : list maze_node -> res (list maze_node))
      (mz : list maze_node) (d : dset) : res (option (list maze_node) * dset) :=
    let! (c, d) := common_set d coordinate next in
    let! c := expect c in
    if c then Ret (None, d)
    else
      let! mz := wall mz in
      let! (u, d) := ds_union d coordinate next in
      do! expect u in
      Ret (Some mz, d).

  (** One iteration of the [while] loop of [visit_next] for the chosen
      direction (recursive_backtrack.rs:50-131): [None] is [continue],
      [Some (next, maze)] is [return Some(next)]. *)
  Definition visit_dir (coordinate width height : nat) (dir : direction)
      (mz : list maze_node) (d : dset) : res (option (nat * list maze_node) * dset) :=
    let finish next (r : option (list maze_node) * dset) :=
      match r with
      | (Some mz, d) => Ret (Some (next, mz), d)
      | (None, d) => Ret (None, d)
      end in
    match dir with
    | Right =>
        let! c := n_rem coordinate width in
        let! w1 := n_sub m width 1 in
        if Nat.eqb c w1 then Ret (None, d)
        else
          let! next := n_add m coordinate 1 in
          let! r := try_open coordinate next (fun mz => open_right mz coordinate) mz d in
          finish next r
    | Down =>
        let! h1 := n_sub m height 1 in
        let! lim := n_mul m width h1 in
        if Nat.leb lim coordinate then Ret (None, d)
        else
          let! next := n_add m coordinate width in
          let! r := try_open coordinate next (fun mz => open_down mz coordinate) mz d in
          finish next r
    | Left =>
        let! c := n_rem coordinate width in
        if Nat.eqb c 0 then Ret (None, d)
        else
          let! next := n_sub m coordinate 1 in
          let! r := try_open coordinate next (fun mz => open_right mz next) mz d in
          finish next r
    | Up =>
        if Nat.ltb coordinate width then Ret (None, d)
        else
          let! next := n_sub m coordinate width in
          let! r := try_open coordinate next (fun mz => open_down mz next) mz d in
          finish next r
    end.

  (** recursive_backtrack.rs:40-135 [visit_next].  The loop ends because every
      iteration removes an element of [visitable]; [fuel] is its length. *)
  Fixpoint visit_loop (fuel : nat) (coordinate width height : nat)
      (mz : list maze_node) (d : dset) (visitable : list direction) (k : nat)
      : res (option nat * list maze_node * dset * list direction * nat) :=
    match visitable with
    | [] => Ret (None, mz, d, visitable, k)
    | _ =>
        match fuel with
        | 0 => Fault OutOfFuel
        | S fuel =>
            let! (dir, visitable) := expect (choose_random (rng k) visitable) in
            let! (r, d) := visit_dir coordinate width height dir mz d in
            match r with
            | Some (next, mz) => Ret (Some next, mz, d, visitable, S k)
            | None => visit_loop fuel coordinate width height mz d visitable (S k)
            end
        end
    end.
  Definition visit_next (coordinate width height : nat)
      (mz : list maze_node) (d : dset) (visitable : list direction) (k : nat) :=
    visit_loop (length visitable) coordinate width height mz d visitable k.

  (** recursive_backtrack.rs:19-35, the main loop.  [path] is kept with its last
      element first.  [fuel] bounds the number of iterations. *)
  Fixpoint backtrack_loop (fuel : nat) (width height : nat) (path : list nat) (s : gstate)
      : res (list maze_node) :=
    match path with
    | [] => Ret (g_maze s)
    | coordinate :: rest =>
        match fuel with
        | 0 => Fault OutOfFuel
        | S fuel =>
            let! vis := vec_get (g_visit s) coordinate in
            let! (r, mz, d, vis, k) :=
              visit_next coordinate width height (g_maze s) (g_conn s) vis (g_draws s) in
            let! visit := vec_set (g_visit s) coordinate vis in
            let s := GState mz d visit k in
            match r with
            | Some next => backtrack_loop fuel width height (next :: path) s
            | None => backtrack_loop fuel width height rest s
            end
        end
    end.

  (** recursive_backtrack.rs:5-38 [recursive_backtrack].  Each cell is pushed
      at most once and popped at most once, hence the fuel. *)
  Definition recursive_backtrack (width height : nat) : res (list maze_node) :=
    let! n := n_mul m width height in
    backtrack_loop (2 * n + 1) width height [0]
      (GState (replicate n maze_node_new) (with_size n)
              (replicate n [Right; Down; Left; Up]) 0).

  (** maze/mod.rs:88-100: reads the solution off the tree, last step first. *)
  Fixpoint read_path (fuel : nat) (width : nat) (tree : list path_node) (current : nat)
      : res (list direction) :=
    match fuel with
    | 0 => Fault OutOfFuel
    | S fuel =>
        let! t := vec_get tree current in
        match t with
        | PPath parent =>
            let! r := n_add m current 1 in
            let! dir :=
              if Nat.eqb parent r then Ret Left
              else
                let! dn := n_add m current width in
                if Nat.eqb parent dn then Ret Up
                else
                  let! l := n_sub m current 1 in
                  if Nat.eqb parent l then Ret Right else Ret Down in
            let! sol := read_path fuel width tree parent in
            Ret (dir :: sol)
        | _ => Ret []
        end
    end.

  (** [matches!(path_tree[i], PathNode::Unvisited)]. *)
  Definition unvisited (tree : list path_node) (i : nat) : res bool :=
    let! t := vec_get tree i in
    Ret match t with PUnvisited => true | _ => false end.

  (** One of the four blocks of maze/mod.rs:106-130: if there is no wall
      ([wall = Ret false]) and [next] is unvisited, record and enqueue it. *)
  Definition bfs_try (wall : res bool) (coordinate next : nat)
      (tree : list path_node) (queue : list nat) : res (list path_node * list nat) :=
    let! w := wall in
    if w then Ret (tree, queue)
    else
      let! u := unvisited tree next in
      if u then
        let! tree := vec_set tree next (PPath coordinate) in
        Ret (tree, queue ++ [next])
      else Ret (tree, queue).

  Definition wall_right (grid : list maze_node) (i : nat) : res bool :=
    let! n := vec_get grid i in Ret (m_right n).
  Definition wall_down (grid : list maze_node) (i : nat) : res bool :=
    let! n := vec_get grid i in Ret (m_down n).

  (** maze/mod.rs:106-130: the four neighbours of [coordinate]. *)
  Definition bfs_expand (width : nat) (grid : list maze_node) (coordinate : nat)
      (tree : list path_node) (queue : list nat) : res (list path_node * list nat) :=
    let! rgt := n_add m coordinate 1 in
    let! (tree, queue) := bfs_try (wall_right grid coordinate) coordinate rgt tree queue in
    let! down := n_add m coordinate width in
    let! (tree, queue) := bfs_try (wall_down grid coordinate) coordinate down tree queue in
    let! (tree, queue) :=
      if decide (1 <= coordinate)
      then bfs_try (wall_right grid (coordinate - 1)) coordinate (coordinate - 1) tree queue
      else Ret (tree, queue) in
    if decide (width <= coordinate)
    then bfs_try (wall_down grid (coordinate - width)) coordinate (coordinate - width) tree queue
    else Ret (tree, queue).

  (** maze/mod.rs:75-131: the breadth-first traversal. *)
  Fixpoint bfs_loop (fuel : nat) (width height : nat) (grid : list maze_node)
      (tree : list path_node) (queue : list nat) (found : nat)
      : res (list maze_node * list direction) :=
    match fuel with
    | 0 => Fault OutOfFuel
    | S fuel =>
        match queue with
        | [] => Fault Panic
        | coordinate :: queue =>
            let! row := n_div coordinate width in
            let! h1 := n_sub m height 1 in
            let found := if Nat.eqb row h1 then S found else found in
            if Nat.eqb row h1 && Nat.eqb found width then
              let! grid := open_down grid coordinate in
              let! sol := read_path (S (length tree)) width tree coordinate in
              Ret (grid, sol)
            else
              let! (tree, queue) := bfs_expand width grid coordinate tree queue in
              bfs_loop fuel width height grid tree queue found
        end
    end.

  (** maze/mod.rs:58-132 [create_maze] (the only algorithm is
      [RecursiveBacktrack]). *)
  Definition create_maze (width height : nat) : res (list maze_node * list direction) :=
    let! grid := recursive_backtrack width height in
    let! n := n_mul m width height in
    let! tree := vec_set (replicate n PUnvisited) 0 PStart in
    bfs_loop (S n) width height grid tree [0] 0.
End rng.
