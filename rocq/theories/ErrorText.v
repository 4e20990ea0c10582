(** Model of the texts of the error types: the [#[error(...)]] attributes, from
    which thiserror derives [Display].  [{0}] writes a [char] or a [str] as it is
    and a [usize] in decimal. *)
From Verif Require Import Base Image Maze MazePrint Dlx Sudoku Nonogram.
From Coq Require Import Ascii String.

(** The characters of a string literal. *)
Fixpoint chars (s : string) : list N :=
  match s with
  | EmptyString => []
  | String c s => N_of_ascii c :: chars s
  end.

(** maze/mod.rs:15-21. *)
Definition maze_error_text (e : maze_error) : list N :=
  match e with
  | MazePrint.InvalidDimensions => chars "maze dimensions are invalid"
  | InvalidSolution => chars "maze solution is invalid"
  end.

(** sudoku/mod.rs:38-46. *)
Definition sudoku_error_text (e : sudoku_error) : list N :=
  match e with
  | InvalidInteger c => chars "invalid integer `" ++ [c] ++ chars "`, must be integer 1-9 (use `0` for an empty space)"
  | InvalidSize n => chars "sudoku must by 9 x 9, got " ++ to_decimal (N.of_nat n) ++ chars " entries"
  | Sudoku.NoSolution => chars "sudoku has no solution"
  end.

(** nonogram/mod.rs:20-32. *)
Definition nonogram_error_text (e : nonogram_error) : list N :=
  match e with
  | EmptyPuzzle => chars "puzzle cannot be empty"
  | InvalidRule s => chars "invalid rule `" ++ s ++ chars "`"
  | InvalidRuleDimension => chars "invalid rule dimension"
  | Nonogram.NoSolution => chars "puzzle has no solution"
  | Nonogram.InvalidDimensions => chars "invalid dimensions"
  end.

(** dancing_links/mod.rs:8-16. *)
Definition dlx_error_text (e : dlx_error) : list N :=
  match e with
  | IndexError => chars "Index out of bounds"
  | InvalidRow => chars "Row cannot be added to solution"
  | DlxNoSolution => chars "No solution exists"
  end.

(** Any error of the crate. *)
Definition error_text (e : maze_error + sudoku_error + nonogram_error + dlx_error) : list N :=
  match e with
  | inl (inl (inl e)) => maze_error_text e
  | inl (inl (inr e)) => sudoku_error_text e
  | inl (inr e) => nonogram_error_text e
  | inr e => dlx_error_text e
  end.
