(** The line deduction of [Nonogram] with counters.  Apart from the counters the
    code is the same (C91_same). *)
From Verif Require Import Base Nonogram.

(** Iterations of the loops of right_left.rs: [passes] of the outer loop of
    [find_left] (98), [entries] of the loop over the states (101), [active] of
    them with a match, [scanned] of the loop over the rest of the line (151),
    [compared] of the loop of [right_left] (57). *)
Record line_cost := LineCost { passes : nat; entries : nat; active : nat; scanned : nat; compared : nat }.
Definition count_pass (c : line_cost) : line_cost :=
  LineCost (S (passes c)) (entries c) (active c) (scanned c) (compared c).
Definition count_entry (c : line_cost) : line_cost :=
  LineCost (passes c) (S (entries c)) (active c) (scanned c) (compared c).
Definition count_active (c : line_cost) : line_cost :=
  LineCost (passes c) (entries c) (S (active c)) (scanned c) (compared c).
Definition count_scanned (c : line_cost) : line_cost :=
  LineCost (passes c) (entries c) (active c) (S (scanned c)) (compared c).
Definition count_compared (c : line_cost) : line_cost :=
  LineCost (passes c) (entries c) (active c) (scanned c) (S (compared c)).
Definition no_cost : line_cost := LineCost 0 0 0 0 0.

(** [push_tail]. *)
Fixpoint push_tail_cost (st : nat) (squares : list square) (path : list nat) (c : line_cost)
    : option (list nat) * line_cost :=
  match squares with
  | [] => (Some path, c)
  | Filled :: _ => (None, count_scanned c)
  | _ :: squares => push_tail_cost st squares (path ++ [st]) (count_scanned c)
  end.

(** [match_pass]. *)
Fixpoint match_pass_cost (states : list rnode) (sq : option square) (rest : list square)
    (state : nat) (old : list (option (list nat))) (new : list (option (list nat))) (c : line_cost)
    : res (list (option (list nat)) * bool * line_cost) :=
  match old with
  | [] => Ret (new, false, c)
  | None :: old => match_pass_cost states sq rest (S state) old new (count_entry c)
  | Some path :: old =>
      let c := count_active (count_entry c) in
      let! curr_state := vec_get states state in
      let! next_state := vec_get states (state + 1) in
      let! new :=
        match curr_state with
        | Start | Fill => Ret new
        | Space | End =>
            if not_filled sq then vec_set new state (Some (path ++ [state])) else Ret new
        end in
      match next_state with
      | Start => Fault Panic
      | Fill =>
          let! new := if not_blocked sq then vec_set new (state + 1) (Some (path ++ [state + 1]))
                      else Ret new in
          match_pass_cost states sq rest (S state) old new c
      | Space =>
          let! new := if not_filled sq then vec_set new (state + 1) (Some (path ++ [state + 1]))
                      else Ret new in
          match_pass_cost states sq rest (S state) old new c
      | End =>
          match states !! (state + 2) with
          | Some Fill =>
              let! new := if not_filled sq then vec_set new (state + 1) (Some (path ++ [state + 1]))
                          else Ret new in
              let! new := if not_blocked sq then vec_set new (state + 2) (Some (path ++ [state + 2]))
                          else Ret new in
              match_pass_cost states sq rest (S state) old new c
          | Some _ => Fault Panic
          | None =>
              let tail := match sq with Some s => s :: rest | None => [] end in
              let (pushed, c) := push_tail_cost (state + 1) tail path c in
              match pushed with
              | None => match_pass_cost states sq rest (S state) old new c
              | Some path =>
                  let! new := vec_set new (state + 2) (Some path) in
                  Ret (new, true, c)
              end
          end
      end
  end.

(** [match_loop]. *)
Fixpoint match_loop_cost (states : list rnode) (squares : list square) (old : list (option (list nat)))
    (c : line_cost) : res (list (option (list nat)) * line_cost) :=
  let blank := replicate (length states + 1) None in
  match squares with
  | [] => let! (new, _, c) := match_pass_cost states None [] 0 old blank (count_pass c) in Ret (new, c)
  | sq :: rest =>
      let! (new, stop, c) := match_pass_cost states (Some sq) rest 0 old blank (count_pass c) in
      if stop : bool then Ret (new, c) else match_loop_cost states rest new c
  end.

(** [find_left]. *)
Definition find_left_cost (states : list rnode) (squares : list square) (c : line_cost)
    : res (option (list bool) * line_cost) :=
  let! old := vec_set (replicate (length states + 1) None) 0 (Some []) in
  let! (new, c) := match_loop_cost states squares old c in
  let! final := vec_get new (length states) in
  match final with
  | None => Ret (None, c)
  | Some path => let! bs := mapM (state_filled states) path in Ret (Some bs, c)
  end.

(** [line_right_left]. *)
Definition line_right_left_cost (mc : machine) (grid : list square) (c : line_cost)
    : res (result (bool * list square) nonogram_error * line_cost) :=
  let! (lft, c) := find_left_cost (left_states mc) grid c in
  match lft with
  | None => Ret (Err NoSolution, c)
  | Some lft =>
      let! (rgt, c) := find_left_cost (right_states mc) (rev grid) c in
      match rgt with
      | None => Ret (Err NoSolution, c)
      | Some rgt =>
          let! (s, c) := foldM (fun i '(s, c) => let! s := rl_step lft rgt i s in Ret (s, count_compared c))
                      (seq 0 (length lft)) (RlState false 0 0 false false grid, c) in
          Ret (Ok (rl_changed s, rl_grid s), c)
      end
  end.

(** [run_line], [run_lines], [one_round] and [rounds]. *)
Definition run_line_steps (mc : machine) (positions : list nat) (grid : list square) (c : line_cost)
    : res (result (bool * list square) nonogram_error * line_cost) :=
  let! line := mapM (vec_get grid) positions in
  let! (r, c) := line_right_left_cost mc line c in
  match r with
  | Err e => Ret (Err e, c)
  | Ok (changed, line) =>
      let! grid := foldM (fun '(p, v) g => vec_set g p v) (zip positions line) grid in
      Ret (Ok (changed, grid), c)
  end.
Fixpoint run_lines_steps (positions : nat -> res (list nat)) (machines : list (nat * machine))
    (changed : bool) (grid : list square) (c : line_cost)
    : res (result (bool * list square) nonogram_error * line_cost) :=
  match machines with
  | [] => Ret (Ok (changed, grid), c)
  | (index, mc) :: machines =>
      let! ps := positions index in
      let! (r, c) := run_line_steps mc ps grid c in
      match r with
      | Err e => Ret (Err e, c)
      | Ok (ch, grid) => run_lines_steps positions machines (changed || ch) grid c
      end
  end.
Definition one_round_steps (m : mode) (width : nat) (cols rows : list machine) (grid : list square) (c : line_cost)
    : res (result (bool * list square) nonogram_error * line_cost) :=
  let! (r, c) := run_lines_steps (fun index => column_positions (length grid) index width)
              (enumerate cols) false grid c in
  match r with
  | Err e => Ret (Err e, c)
  | Ok (changed, grid) =>
      run_lines_steps (fun index => row_positions m (length grid) index width)
        (enumerate rows) changed grid c
  end.
Fixpoint rounds_steps (fuel : nat) (m : mode) (width : nat) (cols rows : list machine)
    (grid : list square) (c : line_cost) : res (result (list square) nonogram_error * line_cost) :=
  match fuel with
  | 0 => Fault OutOfFuel
  | S fuel =>
      let! (r, c) := one_round_steps m width cols rows grid c in
      match r with
      | Err e => Ret (Err e, c)
      | Ok (changed, grid) =>
          if changed : bool then rounds_steps fuel m width cols rows grid c else Ret (Ok grid, c)
      end
  end.
(** [solve_nonogram] up to the conversion of the grid. *)
Definition solve_steps (m : mode) (col row : list (list nat))
    : res (result (list square) nonogram_error * line_cost) :=
  let! n := n_mul m (length col) (length row) in
  let grid := replicate n Blank in
  rounds_steps (S (length grid)) m (length col) (machine_new <$> col) (machine_new <$> row) grid no_cost.
