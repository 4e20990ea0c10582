(** Property C72. *)
From Verif Require Import Base Dlx Sudoku SpecDlx SpecSudoku SpecSudokuText.
From Verif Require SudokuTextProofs SudokuProofs.

Notation enough fuel := (matrix_size SUDOKU_CONSTRAINTS < fuel).

(** C72: parsing, solving and writing the answer down again.  A text that can be
    completed is answered with a completion. *)
Theorem C72_solved : forall fuel s, enough fuel -> (exists t, text_completes s t) ->
  exists v g, parse_sudoku s = Ok v /\ solve_sudoku fuel (N.to_nat <$> v) = Ret (Ok g, ∅) /\
    text_completes s (grid_text g).
Proof. exact SudokuTextProofs.text_solved. Qed.
Print Assumptions C72_solved.
(** Every answer completes the text, and is accepted as a puzzle with itself as
    the answer. *)
Theorem C72_sound : forall fuel s v g h, enough fuel ->
  parse_sudoku s = Ok v -> solve_sudoku fuel (N.to_nat <$> v) = Ret (Ok g, h) ->
  text_completes s (grid_text g) /\ parse_sudoku (grid_text g) = Ok (N.of_nat <$> g) /\
  solve_sudoku fuel (N.to_nat <$> (N.of_nat <$> g)) = Ret (Ok g, ∅).
Proof. exact SudokuTextProofs.text_sound. Qed.
Print Assumptions C72_sound.

(** A grid with nine empty cells. *)
Definition full : list nat :=
  [1;2;3; 4;5;6; 7;8;9;  4;5;6; 7;8;9; 2;1;3;  7;8;9; 2;1;3; 4;5;6;
   2;1;4; 3;6;5; 8;9;7;  3;6;5; 8;9;7; 1;2;4;  8;9;7; 1;2;4; 3;6;5;
   5;3;1; 6;4;2; 9;7;8;  6;4;2; 9;7;8; 5;3;1;  9;7;8; 5;3;1; 6;4;2].
Example C72_example : text_completes (replicate 9 48%N ++ drop 9 (grid_text full)) (grid_text full).
Proof.
  split; [exists full; split; [|reflexivity]|].
  - apply SudokuProofs.grid_check_ok; vm_compute; reflexivity.
  - cbn. repeat (constructor; [lia|]). constructor.
Qed.
