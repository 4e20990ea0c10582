(** What a caller of the exact cover solver sees: the outcome of every
    [add_solution], the answer of [solve], and how many nodes are left when the
    matrix is gone; in the model with overflow checks and in the one without. *)
From Verif Require Import Base Dlx.
From Verif Require DlxRelease Sudoku.
From Verif Require Export SpecWord.

Fixpoint add_each (fuel : nat) (rows : list nat) (mx : matrix) : res (list (result unit dlx_error) * matrix) :=
  match rows with
  | [] => Ret ([], mx)
  | r :: rows =>
      let! (e, mx) := add_solution fuel mx r in
      let! (es, mx) := add_each fuel rows mx in
      Ret (e :: es, mx)
  end.
Definition session (fuel : nat) (constraints : list (list nat)) (rows : list nat)
    : res (list (result unit dlx_error) * result (list nat) dlx_error * nat) :=
  let! mx := matrix_new constraints in
  let! (es, mx) := add_each fuel rows mx in
  let! (s, h) := solve fuel mx in
  Ret (es, s, size h).
(** The matrix is dropped unsolved. *)
Definition abandoned (fuel : nat) (constraints : list (list nat)) (rows : list nat)
    : res (list (result unit dlx_error) * nat) :=
  let! mx := matrix_new constraints in
  let! (es, mx) := add_each fuel rows mx in
  let! h := matrix_drop fuel (d_root mx) (d_heap mx) in
  Ret (es, size h).

Fixpoint add_each_release (ws : word) (fuel : nat) (rows : list nat) (mx : DlxRelease.matrix)
    : res (list (result unit dlx_error) * DlxRelease.matrix) :=
  match rows with
  | [] => Ret ([], mx)
  | r :: rows =>
      let! (e, mx) := DlxRelease.add_solution ws fuel mx r in
      let! (es, mx) := add_each_release ws fuel rows mx in
      Ret (e :: es, mx)
  end.
Definition session_release (ws : word) (fuel : nat) (constraints : list (list nat)) (rows : list nat)
    : res (list (result unit dlx_error) * result (list nat) dlx_error * nat) :=
  let! mx := DlxRelease.matrix_new constraints in
  let! (es, mx) := add_each_release ws fuel rows mx in
  let! (s, h) := DlxRelease.solve ws fuel mx in
  Ret (es, s, size h).
Definition abandoned_release (ws : word) (fuel : nat) (constraints : list (list nat)) (rows : list nat)
    : res (list (result unit dlx_error) * nat) :=
  let! mx := DlxRelease.matrix_new constraints in
  let! (es, mx) := add_each_release ws fuel rows mx in
  let! h := DlxRelease.matrix_drop fuel (DlxRelease.d_root mx) (DlxRelease.d_heap mx) in
  Ret (es, size h).
(** The answer of [solve_sudoku] and the number of nodes left. *)
Definition sudoku (fuel : nat) (puzzle : list nat) : res (result (list nat) Sudoku.sudoku_error * nat) :=
  let! (r, h) := Sudoku.solve_sudoku fuel puzzle in Ret (r, size h).
Definition sudoku_release (ws : word) (fuel : nat) (puzzle : list nat) : res (result (list nat) Sudoku.sudoku_error * nat) :=
  let! (r, h) := DlxRelease.solve_sudoku ws fuel puzzle in Ret (r, size h).
