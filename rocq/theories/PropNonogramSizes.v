(** Property C84, and the sizes for which C36, C46 and C80 hold. *)
From Verif Require Import Base SpecWord Nonogram SpecNonogram SpecNonogramDeduce SpecNonogramSizes.
From Verif Require NonogramSizes NonogramLengths.

(** C84: an answer is right iff it has as many filled squares as the clues of the
    rows, or those of the columns, demand; it never has more. *)
Theorem C84_count : forall (m : mode) col row g, Forall proper col -> Forall proper row ->
  (N.of_nat (length col * length row) < limit m)%N -> 1 <= length row \/ length col <= 1 ->
  solve_nonogram m col row = Ret (Ok g) ->
  filled_squares g <= clue_total row /\ filled_squares g <= clue_total col /\
  (solution col row g <-> filled_squares g = clue_total row) /\
  (solution col row g <-> filled_squares g = clue_total col).
Proof. exact NonogramSizes.count_check. Qed.
Print Assumptions C84_count.

(** Two answers, the first a solution. *)
Example C84_example :
  solve_nonogram (Mode Debug W64) [[1; 1]; [2]; [1]] [[1; 1]; [1]; [2]] = Ret (Ok [true; false; true; false; true; false; true; true; false]) /\
  filled_squares [true; false; true; false; true; false; true; true; false] = 5 /\ clue_total [[1; 1]; [1]; [2]] = 5 /\
  solve_nonogram (Mode Debug W64) [[2]; [1]; [1]; [1]] [[3]; [1]; [1]] =
    Ret (Ok [false; true; true; false; true; false; false; false; false; false; false; false]) /\
  clue_total [[3]; [1]; [1]] = 5.
Proof. split_and!; vm_compute; reflexivity. Qed.

(** C36: the answer is a solution iff no square was left undecided. *)
Theorem C36_undecided_partial : forall (m : mode) col row k, Forall proper col -> Forall proper row ->
  (N.of_nat (length col * length row) < limit m)%N -> 1 <= length row \/ length col <= 1 ->
  grid_right_left m (replicate (length col * length row) Blank) col row = Ret (Ok k) ->
  exists g, solve_nonogram m col row = Ret (Ok g) /\ (solution col row g <-> Blank ∉ k).
Proof. exact NonogramSizes.solved_iff. Qed.
Print Assumptions C36_undecided_partial.

(** C36 holds for the sizes with one row or one column and for no other. *)
Theorem C36_sizes_partial : forall (m : mode) w h, 1 <= w -> 1 <= h -> (N.of_nat (w * h) < limit m)%N ->
  w = 1 \/ h = 1 <->
  forall col row g, length col = w -> length row = h -> Forall positive col -> Forall positive row ->
    solve_nonogram m col row = Ret (Ok g) -> solution col row g.
Proof. exact NonogramSizes.answer_sizes. Qed.
Print Assumptions C36_sizes_partial.

(** C80 holds for these and for 2 x 2. *)
Theorem C80_sizes_partial : forall (m : mode) w h, 1 <= w -> 1 <= h -> (N.of_nat (w * h) < limit m)%N ->
  w = 1 \/ h = 1 \/ w = 2 /\ h = 2 <->
  forall col row, length col = w -> length row = h -> Forall positive col -> Forall positive row ->
    (forall b, ~ solution col row b) -> solve_nonogram m col row = Ret (Err NoSolution).
Proof. exact NonogramSizes.report_sizes. Qed.
Print Assumptions C80_sizes_partial.

(** C46 holds for filled squares on lines shorter than 8 and for empty squares on
    lines shorter than 5. *)
Theorem C46_lengths_partial : forall (v : bool) n,
  n < (if v then 8 else 5) <->
  forall rule line i changed line', positive rule -> length line = n -> line !! i = Some Blank ->
    (forall b, fits rule line b -> b !! i = Some v) ->
    line_right_left (machine_new rule) line = Ret (Ok (changed, line')) ->
    line' !! i = Some (if v then Filled else Blocked).
Proof. exact NonogramLengths.line_lengths. Qed.
Print Assumptions C46_lengths_partial.

(** Puzzles at the limits. *)
Example C36_sizes_example :
  solve_nonogram (Mode Debug W64) [[1]; [1]] [[1]; [1]] = Ret (Ok [false; false; false; false]) /\
  solve_nonogram (Mode Debug W64) [[1]; [1]] [[1]; []] = Ret (Err NoSolution) /\
  solve_nonogram (Mode Debug W64) [[1]; [1]; []] [[1]; [1]; [1]] = Ret (Ok (replicate 9 false)) /\
  line_right_left (machine_new [1; 1]) [Blank; Blank; Filled; Blank; Blank] =
    Ret (Ok (false, [Blank; Blank; Filled; Blank; Blank])) /\
  line_right_left (machine_new [1; 1]) [Blank; Filled; Blank; Blank] =
    Ret (Ok (true, [Blocked; Filled; Blocked; Filled])).
Proof. split_and!; vm_compute; reflexivity. Qed.
