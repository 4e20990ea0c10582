(** The loops of [Nonogram] with counters: rounds, and lines looked at.  Apart
    from the counters the code is the same (C87_same). *)
From Verif Require Import Base Nonogram.

(** [run_lines]; [lines] counts the calls of [run_line]. *)
Fixpoint run_lines_cost (positions : nat -> res (list nat)) (machines : list (nat * machine))
    (changed : bool) (grid : list square) (lines : nat)
    : res (result (bool * list square) nonogram_error * nat) :=
  match machines with
  | [] => Ret (Ok (changed, grid), lines)
  | (index, mc) :: machines =>
      let! ps := positions index in
      let! r := run_line mc ps grid in
      match r with
      | Err e => Ret (Err e, S lines)
      | Ok (c, grid) => run_lines_cost positions machines (changed || c) grid (S lines)
      end
  end.
(** [one_round]. *)
Definition one_round_cost (m : mode) (width : nat) (cols rows : list machine) (grid : list square) (lines : nat)
    : res (result (bool * list square) nonogram_error * nat) :=
  let! (r, lines) := run_lines_cost (fun index => column_positions (length grid) index width)
              (enumerate cols) false grid lines in
  match r with
  | Err e => Ret (Err e, lines)
  | Ok (changed, grid) =>
      run_lines_cost (fun index => row_positions m (length grid) index width)
        (enumerate rows) changed grid lines
  end.
(** [rounds]; [count] counts the iterations. *)
Fixpoint rounds_cost (fuel : nat) (m : mode) (width : nat) (cols rows : list machine)
    (grid : list square) (count lines : nat) : res (result (list square) nonogram_error * (nat * nat)) :=
  match fuel with
  | 0 => Fault OutOfFuel
  | S fuel =>
      let! (r, lines) := one_round_cost m width cols rows grid lines in
      match r with
      | Err e => Ret (Err e, (S count, lines))
      | Ok (changed, grid) =>
          if changed : bool then rounds_cost fuel m width cols rows grid (S count) lines
          else Ret (Ok grid, (S count, lines))
      end
  end.
(** [solve_nonogram] up to the conversion of the grid: the squares, the rounds
    and the lines. *)
Definition solve_cost (m : mode) (col row : list (list nat))
    : res (result (list square) nonogram_error * (nat * nat)) :=
  let! n := n_mul m (length col) (length row) in
  let grid := replicate n Blank in
  rounds_cost (S (length grid)) m (length col) (machine_new <$> col) (machine_new <$> row) grid 0 0.
