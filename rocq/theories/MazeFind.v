(** The maze generator of [Maze] with a record of its work in the disjoint set:
    for every call of [find] the number of calls of [find_helper], the newest
    first.  Apart from the record, and the disjoint set being returned at the
    end, the code is the same (C99_same). *)
From Verif Require Import Base Util DisjointSet Maze.

(** disjoint_set.rs:77-85 [find_helper]; the last component counts the calls. *)
Fixpoint find_helper_calls (fuel : nat) (d : dset) (idx : nat) : res (nat * dset * nat) :=
  match fuel with
  | 0 => Fault OutOfFuel
  | S fuel =>
      let! e := vec_get d idx in
      if e_root e then Ret (idx, d, 1)
      else
        let! (root, d, k) := find_helper_calls fuel d (e_value e) in
        let! e := vec_get d idx in
        let! d := vec_set d idx (Element (e_root e) root) in
        Ret (root, d, S k)
  end.
(** disjoint_set.rs:46-52 [find]. *)
Definition find_calls (d : dset) (idx : nat) (t : list nat) : res (option nat * dset * list nat) :=
  if decide (length d <= idx) then Ret (None, d, t)
  else let! (r, d, k) := find_helper_calls (length d) d idx in Ret (Some r, d, k :: t).
(** disjoint_set.rs:54-56 [common_set]. *)
Definition common_calls (d : dset) (i j : nat) (t : list nat) : res (option bool * dset * list nat) :=
  let! (a, d, t) := find_calls d i t in
  match a with
  | None => Ret (None, d, t)
  | Some a =>
      let! (b, d, t) := find_calls d j t in
      match b with
      | None => Ret (None, d, t)
      | Some b => Ret (Some (Nat.eqb a b), d, t)
      end
  end.
(** disjoint_set.rs:58-75 [union]. *)
Definition union_calls (d : dset) (i j : nat) (t : list nat) : res (option nat * dset * list nat) :=
  let! (a, d, t) := find_calls d i t in
  match a with
  | None => Ret (None, d, t)
  | Some root_one =>
      let! (b, d, t) := find_calls d j t in
      match b with
      | None => Ret (None, d, t)
      | Some root_two =>
          if Nat.eqb root_one root_two then Ret (Some root_one, d, t)
          else
            let! e1 := vec_get d root_one in
            let! e2 := vec_get d root_two in
            let '(smaller, larger) :=
              if Nat.ltb (e_value e1) (e_value e2) then (root_one, root_two)
              else (root_two, root_one) in
            let! es := vec_get d smaller in
            let! el := vec_get d larger in
            let! d := vec_set d larger (Element (e_root el) (e_value el + e_value es)) in
            let! d := vec_set d smaller (from_parent larger) in
            Ret (Some smaller, d, t)
      end
  end.

Section rng.
  Context (m : mode) (rng : nat -> nat).

  (** recursive_backtrack.rs:40-135 [visit_next], as in [Maze]. *)
  Definition open_calls (coordinate next : nat) (wall : list maze_node -> res (list maze_node))
      (mz : list maze_node) (d : dset) (t : list nat) : res (option (list maze_node) * dset * list nat) :=
    let! (c, d, t) := common_calls d coordinate next t in
    let! c := expect c in
    if c then Ret (None, d, t)
    else
      let! mz := wall mz in
      let! (u, d, t) := union_calls d coordinate next t in
      do! expect u in
      Ret (Some mz, d, t).
  Definition dir_calls (coordinate width height : nat) (dir : direction)
      (mz : list maze_node) (d : dset) (t : list nat) : res (option (nat * list maze_node) * dset * list nat) :=
    let finish next (r : option (list maze_node) * dset * list nat) :=
      match r with
      | (Some mz, d, t) => Ret (Some (next, mz), d, t)
      | (None, d, t) => Ret (None, d, t)
      end in
    match dir with
    | Right =>
        let! c := n_rem coordinate width in
        let! w1 := n_sub m width 1 in
        if Nat.eqb c w1 then Ret (None, d, t)
        else
          let! next := n_add m coordinate 1 in
          let! r := open_calls coordinate next (fun mz => open_right mz coordinate) mz d t in
          finish next r
    | Down =>
        let! h1 := n_sub m height 1 in
        let! lim := n_mul m width h1 in
        if Nat.leb lim coordinate then Ret (None, d, t)
        else
          let! next := n_add m coordinate width in
          let! r := open_calls coordinate next (fun mz => open_down mz coordinate) mz d t in
          finish next r
    | Left =>
        let! c := n_rem coordinate width in
        if Nat.eqb c 0 then Ret (None, d, t)
        else
          let! next := n_sub m coordinate 1 in
          let! r := open_calls coordinate next (fun mz => open_right mz next) mz d t in
          finish next r
    | Up =>
        if Nat.ltb coordinate width then Ret (None, d, t)
        else
          let! next := n_sub m coordinate width in
          let! r := open_calls coordinate next (fun mz => open_down mz next) mz d t in
          finish next r
    end.
  Fixpoint visit_calls (fuel : nat) (coordinate width height : nat)
      (mz : list maze_node) (d : dset) (visitable : list direction) (k : nat) (t : list nat)
      : res (option nat * list maze_node * dset * list direction * nat * list nat) :=
    match visitable with
    | [] => Ret (None, mz, d, visitable, k, t)
    | _ =>
        match fuel with
        | 0 => Fault OutOfFuel
        | S fuel =>
            let! (dir, visitable) := expect (choose_random (rng k) visitable) in
            let! (r, d, t) := dir_calls coordinate width height dir mz d t in
            match r with
            | Some (next, mz) => Ret (Some next, mz, d, visitable, S k, t)
            | None => visit_calls fuel coordinate width height mz d visitable (S k) t
            end
        end
    end.
  (** recursive_backtrack.rs:19-35, the main loop. *)
  Fixpoint backtrack_calls (fuel : nat) (width height : nat) (path : list nat) (s : gstate) (t : list nat)
      : res (list maze_node * dset * list nat) :=
    match path with
    | [] => Ret (g_maze s, g_conn s, t)
    | coordinate :: rest =>
        match fuel with
        | 0 => Fault OutOfFuel
        | S fuel =>
            let! vis := vec_get (g_visit s) coordinate in
            let! (r, mz, d, vis, k, t) :=
              visit_calls (length vis) coordinate width height (g_maze s) (g_conn s) vis (g_draws s) t in
            let! visit := vec_set (g_visit s) coordinate vis in
            let s := GState mz d visit k in
            match r with
            | Some next => backtrack_calls fuel width height (next :: path) s t
            | None => backtrack_calls fuel width height rest s t
            end
        end
    end.
  (** recursive_backtrack.rs:5-38 [recursive_backtrack]. *)
  Definition generate_calls (width height : nat) : res (list maze_node * dset * list nat) :=
    let! n := n_mul m width height in
    backtrack_calls (2 * n + 1) width height [0]
      (GState (replicate n maze_node_new) (with_size n)
              (replicate n [Right; Down; Left; Up]) 0) [].
End rng.
