(** Property C80: recognition of puzzles without solution. *)
From Verif Require Import Base SpecWord Nonogram SpecNonogram.
From Verif Require NonogramTotals.

(** C80 is false: a puzzle without solution can be answered with a grid. *)
Theorem C80_refuted : exists col row g, Forall positive col /\ Forall positive row /\
  (forall b, ~ solution col row b) /\ forall m, solve_nonogram m col row = Ret (Ok g).
Proof. exact NonogramTotals.unsolvable_refuted. Qed.
Print Assumptions C80_refuted.

(** In a solvable puzzle the clues of the columns and those of the rows have the
    same sum.  The solver does not compare them: *)
Theorem C80_totals : forall col row b, solution col row b ->
  sum_list (sum_list <$> col) = sum_list (sum_list <$> row).
Proof. exact NonogramTotals.solution_totals. Qed.
Print Assumptions C80_totals.

(** A grid of any size other than a square with clue 1 for every line has no
    solution, and the answer is the empty grid. *)
Theorem C80_accepted : forall (m : mode) w h, 2 <= w -> 2 <= h -> w <> h -> (N.of_nat (w * h) < limit m)%N ->
  (forall b, ~ solution (replicate w [1]) (replicate h [1]) b) /\
  solve_nonogram m (replicate w [1]) (replicate h [1]) = Ret (Ok (replicate (w * h) false)).
Proof. exact NonogramTotals.unsolvable_accepted. Qed.
Print Assumptions C80_accepted.

(** What does hold: puzzles with a single row or a single column are solved, or
    rejected if they have no solution. *)
Theorem C80_thin_partial : forall (m : mode) col row,
  Forall positive col -> Forall positive row -> (N.of_nat (length col * length row) < limit m)%N ->
  length col = 1 \/ length row = 1 ->
  (exists g, solve_nonogram m col row = Ret (Ok g) /\ solution col row g) \/
  (solve_nonogram m col row = Ret (Err NoSolution) /\ forall b, ~ solution col row b).
Proof. exact NonogramTotals.thin_solved. Qed.
Print Assumptions C80_thin_partial.

Example C80_example :
  solve_nonogram (Mode Debug W64) [[1]; []; [1]] [[1; 1]] = Ret (Ok [true; false; true]) /\
  solve_nonogram (Mode Debug W64) [[1]; [1]; []] [[1; 1]] = Ret (Err NoSolution) /\
  solve_nonogram (Mode Release W64) [[1]; [1]; [1]] [[1]; [1]] = Ret (Ok (replicate 6 false)).
Proof. split_and!; vm_compute; reflexivity. Qed.
