(** Property C68. *)
From Verif Require Import Base MazePrint Dlx Sudoku Nonogram ErrorText.
From Verif Require ErrorTextProofs.
From Coq Require Import String.

(** C68: the text of an error determines the error, its kind and the offending
    character, number or rule. *)
Theorem C68_injective : forall e e', error_text e = error_text e' -> e = e'.
Proof. exact ErrorTextProofs.error_text_inj. Qed.
Print Assumptions C68_injective.

Example C68_example :
  error_text (inl (inl (inl MazePrint.InvalidDimensions))) = chars "maze dimensions are invalid" /\
  error_text (inl (inl (inl InvalidSolution))) = chars "maze solution is invalid" /\
  error_text (inl (inl (inr (InvalidInteger 120%N)))) =
    chars "invalid integer `x`, must be integer 1-9 (use `0` for an empty space)" /\
  error_text (inl (inl (inr (InvalidSize 80)))) = chars "sudoku must by 9 x 9, got 80 entries" /\
  error_text (inl (inl (inr Sudoku.NoSolution))) = chars "sudoku has no solution" /\
  error_text (inl (inr EmptyPuzzle)) = chars "puzzle cannot be empty" /\
  error_text (inl (inr (InvalidRule [49; 120]%N))) = chars "invalid rule `1x`" /\
  error_text (inl (inr InvalidRuleDimension)) = chars "invalid rule dimension" /\
  error_text (inl (inr Nonogram.NoSolution)) = chars "puzzle has no solution" /\
  error_text (inl (inr Nonogram.InvalidDimensions)) = chars "invalid dimensions" /\
  error_text (inr IndexError) = chars "Index out of bounds" /\
  error_text (inr InvalidRow) = chars "Row cannot be added to solution" /\
  error_text (inr DlxNoSolution) = chars "No solution exists".
Proof. split_and!; reflexivity. Qed.
