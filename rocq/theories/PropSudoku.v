(** Properties C04-C10.  [solve_sudoku] returns its answer and the heap left
    behind; [fuel] bounds the loops of the model and every statement holds for
    all values above the size of the matrix (3240 nodes), so the answers do not
    depend on it and [OutOfFuel] is excluded. *)
From Verif Require Import Base Dlx Sudoku SpecDlx SpecSudoku.
From Verif Require SudokuTable SudokuProofs SudokuAny.

Notation enough fuel := (matrix_size SUDOKU_CONSTRAINTS < fuel).
Example enough_example : (matrix_size SUDOKU_CONSTRAINTS =? 3240) = true.
Proof. vm_compute. reflexivity. Qed.

(** C04: soundness. *)
Theorem C04_sound : forall fuel p g h, puzzle_ok p -> enough fuel ->
  solve_sudoku fuel p = Ret (Ok g, h) -> completes p g.
Proof. exact SudokuProofs.sudoku_sound. Qed.
Print Assumptions C04_sound.

Example C04_example : let p := 0 :: 1 :: replicate 79 0 in
  puzzle_ok p /\ forall fuel, enough fuel -> exists g, solve_sudoku fuel p = Ret (Ok g, ∅).
Proof. exact (conj SudokuProofs.one_clue_ok SudokuProofs.one_clue_solved). Qed.

(** C05: completeness, without panic, invalid access or leak. *)
Theorem C05_complete : forall fuel p, puzzle_ok p -> enough fuel -> (exists g, completes p g) ->
  exists g, solve_sudoku fuel p = Ret (Ok g, ∅) /\ completes p g.
Proof. exact SudokuProofs.sudoku_complete. Qed.
Print Assumptions C05_complete.

Example C05_example : let p := 0 :: 1 :: replicate 79 0 in puzzle_ok p /\ exists g, completes p g.
Proof. exact (conj SudokuProofs.one_clue_ok (ex_intro _ _ SudokuProofs.one_clue_completes)). Qed.

(** C06: a negative answer is right. *)
Theorem C06_no_solution : forall fuel p h, puzzle_ok p -> enough fuel ->
  solve_sudoku fuel p = Ret (Err NoSolution, h) -> ~ exists g, completes p g.
Proof. exact SudokuProofs.sudoku_no_solution. Qed.
Print Assumptions C06_no_solution.

(** Two ones side by side. *)
Example C06_example : let p := 1 :: 1 :: replicate 79 0 in
  puzzle_ok p /\ forall fuel, enough fuel -> solve_sudoku fuel p = Ret (Err NoSolution, ∅).
Proof.
  split; [apply (SudokuProofs.two_clues_ok 1); lia|]. intros fuel Hf.
  apply (SudokuProofs.sudoku_box_clash fuel (SudokuProofs.two_clues 1) 0 1); [apply SudokuProofs.two_clues_ok; lia|exact Hf| |].
  - apply SudokuProofs.two_clues_first_clash; lia.
  - apply SudokuProofs.two_clues_box.
Qed.

(** C07 (refuted): "no puzzle makes the solver touch invalid memory".  Full
    statement: forall fuel p, puzzle_ok p -> enough fuel ->
    exists r, solve_sudoku fuel p = Ret (r, ∅).  The puzzle 1001000... makes
    it traverse freed nodes. *)
Theorem C07_refuted : exists p, puzzle_ok p /\
  forall fuel, enough fuel -> solve_sudoku fuel p = Fault UB.
Proof. exact SudokuProofs.sudoku_uaf_witness. Qed.
Print Assumptions C07_refuted.

(** What holds instead, covering every puzzle: without clashing clues nothing
    goes wrong; otherwise the first clash decides. *)
Theorem C07_no_clash_partial : forall fuel p, puzzle_ok p -> enough fuel ->
  (forall i j, ~ clash p i j) -> exists r, solve_sudoku fuel p = Ret (r, ∅).
Proof. exact SudokuProofs.sudoku_memory. Qed.
Print Assumptions C07_no_clash_partial.
Theorem C07_box_clash_partial : forall fuel p i j, puzzle_ok p -> enough fuel ->
  first_clash p i j -> same_box i j -> solve_sudoku fuel p = Ret (Err NoSolution, ∅).
Proof. exact SudokuProofs.sudoku_box_clash. Qed.
Print Assumptions C07_box_clash_partial.
Theorem C07_use_after_free_partial : forall fuel p i j, puzzle_ok p -> enough fuel ->
  first_clash p i j -> ~ same_box i j -> solve_sudoku fuel p = Fault UB.
Proof. exact SudokuProofs.sudoku_use_after_free. Qed.
Print Assumptions C07_use_after_free_partial.
Theorem C07_cases_partial : forall p, (exists i j, first_clash p i j) \/ forall i j, ~ clash p i j.
Proof. exact SudokuProofs.first_clash_cases. Qed.
Print Assumptions C07_cases_partial.

Example C07_example : let p := 1 :: 0 :: 0 :: 1 :: replicate 77 0 in
  puzzle_ok p /\ first_clash p 0 3 /\ ~ same_box 0 3.
Proof.
  split_and!; [apply (SudokuProofs.two_clues_ok 3); lia|apply (SudokuProofs.two_clues_first_clash 3); lia|].
  apply SudokuProofs.two_clues_box.
Qed.
Example C07_example_box : let p := 1 :: 1 :: replicate 79 0 in
  puzzle_ok p /\ first_clash p 0 1 /\ same_box 0 1.
Proof.
  split_and!; [apply (SudokuProofs.two_clues_ok 1); lia|apply (SudokuProofs.two_clues_first_clash 1); lia|].
  apply SudokuProofs.two_clues_box.
Qed.
Example C07_example_no_clash : forall i j, ~ clash (0 :: 1 :: replicate 79 0) i j.
Proof. intros i j H. exact (SudokuProofs.clash_unsolvable _ i j _ H SudokuProofs.one_clue_completes). Qed.

(** C08: the size check, for arbitrary entries. *)
Theorem C08_size : forall fuel p n h,
  solve_sudoku fuel p = Ret (Err (InvalidSize n), h) <-> length p = n /\ n <> 81 /\ h = ∅.
Proof. exact SudokuProofs.sudoku_size. Qed.
Print Assumptions C08_size.

Example C08_example_size : solve_sudoku 0 [1; 2; 3] = Ret (Err (InvalidSize 3), ∅).
Proof. reflexivity. Qed.

(** C08 (refuted for entries above 9): a grid with the entry 10 is "solved". *)
Theorem C08_refuted : exists p, length p = 81 /\ p !! 0 = Some 10 /\
  forall fuel, enough fuel -> exists g, solve_sudoku fuel p = Ret (Ok g, ∅) /\ complete_grid g.
Proof. exact SudokuProofs.sudoku_not_rejected. Qed.
Print Assumptions C08_refuted.

(** An entry whose row number does not exist is silently dropped. *)
Theorem C08_ignored_partial : forall fuel p i v, enough fuel ->
  p !! i = Some v -> 729 <= i * 9 + v - 1 -> solve_sudoku fuel p = solve_sudoku fuel (<[i := 0]> p).
Proof. exact SudokuProofs.sudoku_ignored. Qed.
Print Assumptions C08_ignored_partial.

Example C08_example_ignored : let p := replicate 80 0 ++ [10] in
  p !! 80 = Some 10 /\ (729 <=? 80 * 9 + 10 - 1) = true.
Proof. split; reflexivity. Qed.

(** Every entry [v] of cell [i] stands for row number [i * 9 + v - 1]: an answer
    shows the digit of that row in the cell of that row ([reads]).  A grid is
    returned exactly when one with all these digits exists and no two entries
    stand for the same digit and cell. *)
Theorem C08_entries_partial : forall fuel p, length p = 81 -> enough fuel ->
  (exists g, solve_sudoku fuel p = Ret (Ok g, ∅) /\ complete_grid g /\ reads p g /\ ~ repeated p) \/
  ((solve_sudoku fuel p = Ret (Err NoSolution, ∅) \/ solve_sudoku fuel p = Fault UB) /\
   (repeated p \/ forall g, complete_grid g -> ~ reads p g)).
Proof. exact SudokuAny.sudoku_any. Qed.
Print Assumptions C08_entries_partial.

(** 10 in cell 0 is read as 1 in cell 1, so 10 followed by 1 is a repetition. *)
Example C08_example_entries :
  reads (10 :: replicate 80 0) SudokuProofs.sample_grid /\ repeated (10 :: 1 :: replicate 79 0).
Proof.
  split.
  - intros [|i] v H Hv Hr; [injection H as <-; reflexivity|].
    change (replicate 80 0 !! i = Some v) in H. apply lookup_replicate in H as [-> _]. by destruct Hv.
  - exists 0, 1, 10, 1. split_and!; reflexivity || lia.
Qed.

(** Which outcome, exactly: without entries that collide, the answer is right;
    otherwise the first two colliding entries decide. *)
Theorem C08_no_collision_partial : forall fuel p, length p = 81 -> enough fuel ->
  (forall i j, ~ collision p i j) ->
  (exists g, solve_sudoku fuel p = Ret (Ok g, ∅) /\ complete_grid g /\ reads p g) \/
  (solve_sudoku fuel p = Ret (Err NoSolution, ∅) /\ forall g, complete_grid g -> ~ reads p g).
Proof. exact SudokuAny.sudoku_no_collision. Qed.
Print Assumptions C08_no_collision_partial.
Theorem C08_collision_partial : forall fuel p i j, length p = 81 -> enough fuel -> first_collision p i j ->
  (box_collision p i j -> solve_sudoku fuel p = Ret (Err NoSolution, ∅)) /\
  (~ box_collision p i j -> solve_sudoku fuel p = Fault UB).
Proof. exact SudokuAny.sudoku_collision. Qed.
Print Assumptions C08_collision_partial.
Theorem C08_cases_partial : forall p, (exists i j, first_collision p i j) \/ forall i j, ~ collision p i j.
Proof. exact SudokuAny.first_collision_cases. Qed.
Print Assumptions C08_cases_partial.

(** 10 in cell 0 is read as 1 in cell 1; a 1 in cell 1 repeats it, a 2 there
    contradicts it. *)
Example C08_example_collision :
  (let p := 10 :: 1 :: replicate 79 0 in length p = 81 /\ first_collision p 0 1 /\ box_collision p 0 1) /\
  (let p := 10 :: 2 :: replicate 79 0 in length p = 81 /\ first_collision p 0 1 /\ ~ box_collision p 0 1).
Proof.
  split.
  - destruct (SudokuAny.ten_collision 1) as (H1&H2&H3); [by left|]. split_and!; [done..|by apply H3].
  - destruct (SudokuAny.ten_collision 2) as (H1&H2&H3); [by right|]. split_and!; [done..|intros Hb%H3; discriminate].
Qed.
Example C08_example_no_collision : forall i j, ~ collision (replicate 80 0 ++ [10]) i j.
Proof.
  intros i j (_&_&_&_&_&(x&Hx&H0&->&_&Hlt)&_). apply lookup_app_Some in Hx as [[-> _]%lookup_replicate|[Hi Hx]]; [done|].
  destruct (i - length (replicate 80 0)) as [|k] eqn:E; [|by destruct k]. injection Hx as <-. rewrite replicate_length in *.
  change ((10 - 1) `div` 9) with 1 in Hlt. lia.
Qed.

(** C09: the unique solution is found, complete grids are fixed points, and
    solving again changes nothing. *)
Theorem C09_unique : forall fuel p g, puzzle_ok p -> enough fuel -> completes p g ->
  (forall g', completes p g' -> g' = g) -> solve_sudoku fuel p = Ret (Ok g, ∅).
Proof. exact SudokuProofs.sudoku_unique. Qed.
Print Assumptions C09_unique.
Theorem C09_fixpoint : forall fuel g, enough fuel -> complete_grid g ->
  solve_sudoku fuel g = Ret (Ok g, ∅).
Proof. exact SudokuProofs.sudoku_fixpoint. Qed.
Print Assumptions C09_fixpoint.
Theorem C09_idempotent : forall fuel p g h, puzzle_ok p -> enough fuel ->
  solve_sudoku fuel p = Ret (Ok g, h) -> solve_sudoku fuel g = Ret (Ok g, ∅).
Proof. exact SudokuProofs.sudoku_idempotent. Qed.
Print Assumptions C09_idempotent.

Example C09_example : complete_grid
  [2;1;3; 4;5;6; 7;8;9;  4;5;6; 7;8;9; 2;1;3;  7;8;9; 2;1;3; 4;5;6;
   1;2;4; 3;6;5; 8;9;7;  3;6;5; 8;9;7; 1;2;4;  8;9;7; 1;2;4; 3;6;5;
   5;3;1; 6;4;2; 9;7;8;  6;4;2; 9;7;8; 5;3;1;  9;7;8; 5;3;1; 6;4;2].
Proof. exact SudokuProofs.sample_complete. Qed.

(** C10: the constraint table is Sudoku. *)
Theorem C10_table : forall sel,
  exact_cover SUDOKU_CONSTRAINTS sel <-> exists g, complete_grid g /\ sel ≡ₚ choices g.
Proof. exact SudokuTable.exact_cover_sudoku. Qed.
Print Assumptions C10_table.

Example C10_example : exists sel, exact_cover SUDOKU_CONSTRAINTS sel /\ sel !! 1 = Some 9.
Proof.
  exists (choices SudokuProofs.sample_grid). split; [|reflexivity].
  apply SudokuTable.exact_cover_sudoku. exists SudokuProofs.sample_grid. split; [exact SudokuProofs.sample_complete|reflexivity].
Qed.
