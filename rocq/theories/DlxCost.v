(** [Dlx.solve] and [Sudoku.solve_sudoku] with a counter: calls of
    [solve_helper].  Apart from the counter the code is the same (C88_same). *)
From Verif Require Import Base Dlx Sudoku.

Section fuelled.
  Variable fuel : nat.

  (** [solve_helper]; [calls] were made before. *)
  Fixpoint solve_helper_calls (depth : nat) (root : ptr) (h : heap) (partial : list nat) (calls : nat)
      : res (heap * list nat * bool * nat) :=
    match depth with
    | 0 => Fault OutOfFuel
    | S depth =>
        let calls := S calls in
        let! e := is_empty root h in
        if e : bool then Ret (h, partial, true, calls)
        else
          let! constraint := choose_column fuel root h in
          let! h := cover_column fuel constraint h in
          let! (s, found) := for_skip1 fuel (fun s : heap * list nat * nat => s.1.1) n_down constraint
            (fun row '(h, partial, calls) =>
               let! n := load h row in
               let partial := partial ++ [n_row n] in
               let! h := heap_loop fuel n_right row (cover_column fuel) h in
               let! (h, partial, ok, calls) := solve_helper_calls depth root h partial calls in
               if ok : bool then
                 let! h := heap_loop fuel n_right row (free_chain fuel) h in
                 let! h := free_chain fuel constraint h in
                 Ret ((h, partial, calls), true)
               else
                 let! h := heap_loop fuel n_left row (uncover_column fuel) h in
                 Ret ((h, take (length partial - 1) partial, calls), false)) (h, partial, calls) in
          if found : bool then Ret (s.1.1, s.1.2, true, s.2)
          else
            let! h := uncover_column fuel constraint s.1.1 in
            Ret (h, s.1.2, false, s.2)
    end.

  (** [solve]. *)
  Definition solve_calls (mx : matrix) : res (result (list nat) dlx_error * heap * nat) :=
    let! (h, partial, ok, calls) := solve_helper_calls fuel (d_root mx) (d_heap mx) (d_partial mx) 0 in
    let! h := matrix_drop fuel (d_root mx) h in
    Ret (if ok : bool then Ok partial else Err DlxNoSolution, h, calls).

  (** [solve_sudoku]. *)
  Definition sudoku_calls (puzzle : list nat) : res (result (list nat) sudoku_error * heap * nat) :=
    if decide (length puzzle <> GRID_SIZE * GRID_SIZE)
    then Ret (Err (InvalidSize (length puzzle)), ∅, 0)
    else
      let! mx := matrix_new SUDOKU_CONSTRAINTS in
      let! (r, mx) := add_clues fuel (enumerate puzzle) mx in
      match r with
      | Err e =>
          let! h := matrix_drop fuel (d_root mx) (d_heap mx) in
          Ret (Err e, h, 0)
      | Ok mx =>
          let! (s, h, calls) := solve_calls mx in
          match s with
          | Err _ => Ret (Err NoSolution, h, calls)
          | Ok sol => Ret (Ok ((fun num => num `mod` 9 + 1) <$> sort_rows sol), h, calls)
          end
      end.
End fuelled.
