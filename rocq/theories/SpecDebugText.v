(** When the debug texts of two errors may be the same, for C117. *)
From Verif Require Import Base MazePrint Dlx Sudoku Nonogram.

Definition any_error : Type := maze_error + sudoku_error + nonogram_error + dlx_error.
(** The variants that share their names with those of other types. *)
Definition no_solution (e : any_error) : Prop :=
  e = inl (inl (inr Sudoku.NoSolution)) \/ e = inl (inr Nonogram.NoSolution) \/ e = inr DlxNoSolution.
Definition invalid_dimensions (e : any_error) : Prop :=
  e = inl (inl (inl MazePrint.InvalidDimensions)) \/ e = inl (inr Nonogram.InvalidDimensions).
Definition same_variant (e e' : any_error) : Prop :=
  e = e' \/ (no_solution e /\ no_solution e') \/ (invalid_dimensions e /\ invalid_dimensions e').
(** Space to tilde. *)
Definition printable_ascii (c : N) : Prop := (32 <= c <= 126)%N.
