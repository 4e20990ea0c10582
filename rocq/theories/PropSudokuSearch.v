(** Property C69. *)
From Verif Require Import Base Dlx Sudoku SpecDlx SpecSudoku SpecSudokuSearch.
From Verif Require SudokuSearch.

Notation enough fuel := (matrix_size SUDOKU_CONSTRAINTS < fuel).

(** C69: which completion is found, when a puzzle without clashing clues has
    several: the one a search on the plain grid finds that always takes the
    first question with the fewest legal answers and tries them in order. *)
Theorem C69_search : forall fuel p, puzzle_ok p -> enough fuel -> (forall i j, ~ clash p i j) ->
  solve_sudoku fuel p = Ret (match sudoku_search 81 p with Some g => Ok g | None => Err NoSolution end, ∅).
Proof. exact SudokuSearch.sudoku_is_search. Qed.
Print Assumptions C69_search.

(** Cells 0, 1, 27 and 28 can be filled in two ways: the one with the 1 in cell
    0 is found.  In the second grid cell 2 cannot be filled. *)
Definition two_ways (a b : nat) : list nat :=
  [a;b;3; 4;5;6; 7;8;9;  4;5;6; 7;8;9; 2;1;3;  7;8;9; 2;1;3; 4;5;6;
   b;a;4; 3;6;5; 8;9;7;  3;6;5; 8;9;7; 1;2;4;  8;9;7; 1;2;4; 3;6;5;
   5;3;1; 6;4;2; 9;7;8;  6;4;2; 9;7;8; 5;3;1;  9;7;8; 5;3;1; 6;4;2].
Definition no_way : list nat := <[36 := 0]> (<[2 := 0]> (<[1 := 0]> (<[0 := 3]> (two_ways 2 1)))).
Example C69_example :
  puzzle_ok (two_ways 0 0) /\ puzzle_ok no_way /\
  completes (two_ways 0 0) (two_ways 2 1) /\
  sudoku_search 81 (two_ways 0 0) = Some (two_ways 1 2) /\ sudoku_search 81 no_way = None.
Proof.
  split_and!; [by apply (bool_decide_unpack _)..| | |]; [|vm_compute; reflexivity..].
  apply SudokuSearch.completes_check; vm_compute; reflexivity.
Qed.
Example C69_no_clash : forall i j, ~ clash (two_ways 0 0) i j /\ ~ clash no_way i j.
Proof. intros i j. split; apply SudokuSearch.no_clash_check; vm_compute; reflexivity. Qed.
