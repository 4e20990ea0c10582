(** Property C111: builds with 32-bit words. *)
From Verif Require Import Base SpecWord Image Maze MazePrint Nonogram NonogramPrint NonogramRect Dlx.
From Verif Require Import MazeCapacity NonogramCapacity DlxCapacity.
From Verif Require Import SpecNonogramText SpecMazePrint SpecPrint SpecPrintAll.
From Verif Require NarrowProofs NarrowImages.
Local Open Scope N_scope.

(** With 32-bit words and overflow checks a function panics, or ends exactly as
    with 64-bit words, with or without overflow checks.  (C64 compares the two
    builds with 32-bit words.) *)
Theorem C111_create_maze : forall p rng w h,
  create_checked (Mode Debug W32) rng w h = Fault Panic \/
  create_checked (Mode Debug W32) rng w h = create_checked (Mode p W64) rng w h.
Proof. exact NarrowProofs.narrow_create_checked. Qed.
Print Assumptions C111_create_maze.
Theorem C111_print_maze : forall p w h g,
  print_maze (Mode Debug W32) w h g = Fault Panic \/ print_maze (Mode Debug W32) w h g = print_maze (Mode p W64) w h g.
Proof. exact NarrowProofs.narrow_print_maze. Qed.
Print Assumptions C111_print_maze.
Theorem C111_print_maze_solution : forall p im sol,
  print_maze_solution (Mode Debug W32) im sol = Fault Panic \/
  print_maze_solution (Mode Debug W32) im sol = print_maze_solution (Mode p W64) im sol.
Proof. exact NarrowProofs.narrow_print_maze_solution. Qed.
Print Assumptions C111_print_maze_solution.
Theorem C111_solve_nonogram : forall grow p col row,
  solve_checked grow (Mode Debug W32) col row = Fault Panic \/
  solve_checked grow (Mode Debug W32) col row = solve_checked grow (Mode p W64) col row.
Proof. exact NarrowProofs.narrow_solve_checked. Qed.
Print Assumptions C111_solve_nonogram.
Theorem C111_print_nonogram : forall p text w h col row,
  print_nonogram (Mode Debug W32) text w h col row = Fault Panic \/
  print_nonogram (Mode Debug W32) text w h col row = print_nonogram (Mode p W64) text w h col row.
Proof. exact NarrowProofs.narrow_print_nonogram. Qed.
Print Assumptions C111_print_nonogram.
Theorem C111_print_nonogram_solution : forall p w h im g,
  print_solution32 (Mode Debug W32) w h im g = Fault Panic \/
  print_solution32 (Mode Debug W32) w h im g = print_solution32 (Mode p W64) w h im g.
Proof. exact NarrowProofs.narrow_print_solution32. Qed.
Print Assumptions C111_print_nonogram_solution.
(** Here a panic is [Err]. *)
Theorem C111_new : forall growth p constraints,
  (exists h, new_checked (Mode Debug W32) growth constraints = Ret (Err h)) \/
  new_checked (Mode Debug W32) growth constraints = new_checked (Mode p W64) growth constraints.
Proof. exact NarrowProofs.narrow_new. Qed.
Print Assumptions C111_new.

(** The same texts are accepted, as the same clues. *)
Theorem C111_parse : forall p p' s bound vss, bound < 2 ^ 32 ->
  p = Debug \/ no_overflow W32 s -> p' = Debug \/ no_overflow W64 s ->
  parse_nonogram_rules (Mode p W32) s bound = Ret (Ok vss) <-> parse_nonogram_rules (Mode p' W64) s bound = Ret (Ok vss).
Proof. exact NarrowImages.parse_words. Qed.
Print Assumptions C111_parse.

(** What goes wrong in large images (C67, C103, C104) cannot happen: they do not
    fit in memory. *)
Theorem C111_maze_cells : forall (m : mode) width height grid, word_of m = W32 ->
  width * height = N.of_nat (length grid) -> printable m width height ->
  exists im, print_maze m width height grid = Ret (Ok im) /\
    i_width im = 10 * width + 1 /\ i_height im = 10 * height + 1 /\
    forall x y, x < i_width im -> y < i_height im ->
      (wall_pixel width grid x y -> i_pix im x y = BLACK_PIXEL) /\
      (~ wall_pixel width grid x y -> i_pix im x y = WHITE_PIXEL).
Proof. exact NarrowImages.maze_cells. Qed.
Print Assumptions C111_maze_cells.
Theorem C111_clues : forall (m : mode) text width height col row, word_of m = W32 ->
  keeps_size text -> width = N.of_nat (length col) -> height = N.of_nat (length row) ->
  Forall (fun vs => min_length vs <= height) col -> drawable m width height col ->
  exists im, print_nonogram m text width height col row = Ret (Ok im) /\
    i_width im = side width /\ i_height im = side height /\
    forall x y, x < i_width im -> y < i_height im ->
      (nonogram_gray width height x y -> i_pix im x y = GRAY_PIXEL) /\
      (~ nonogram_gray width height x y ->
         i_pix im x y = i_pix (draw_texts text (col_texts width col ++ row_texts height row)
           (Image (side width) (side height) (fun _ _ => WHITE_PIXEL))) x y).
Proof. exact NarrowImages.nonogram_clues. Qed.
Print Assumptions C111_clues.
Theorem C111_squares : forall (m : mode) width height im grid, word_of m = W32 ->
  N.of_nat (length grid) = width * height -> i_width im = side width -> i_height im = side height ->
  side width * side height * 3 < memory_limit m ->
  exists im', print_solution32 m width height im grid = Ret (Ok im') /\
    i_width im' = i_width im /\ i_height im' = i_height im /\
    forall x y, x < i_width im -> y < i_height im ->
      (filled_pixel width height grid x y -> i_pix im' x y = BLACK_PIXEL) /\
      (~ filled_pixel width height grid x y -> i_pix im' x y = i_pix im x y).
Proof. exact NarrowImages.nonogram_squares. Qed.
Print Assumptions C111_squares.

(** Both cases occur: an image that does not fit with 32 bits, and a maze. *)
Example C111_example :
  from_pixel W32 (2 ^ 15) (2 ^ 15) WHITE_PIXEL = Fault Panic /\
  (exists im, from_pixel W64 (2 ^ 15) (2 ^ 15) WHITE_PIXEL = Ret im) /\
  (create_checked (Mode Debug W32) (fun _ => 0%nat) 2 2 <> Fault Panic)%nat /\
  solve_checked std_grow (Mode Debug W32) [[1%nat]] [[1%nat]] = Ret (Ok [true]) /\
  printable W32 2 1 /\ ~ printable W32 5000 5000 /\
  side 2 * side 1 * 3 < memory_limit W32 /\ drawable W32 2 1 [[1]; [1]] /\ Forall (fun vs => min_length vs <= 1) [[1]; [1]].
Proof.
  split; [reflexivity|]. split; [eexists; reflexivity|]. split; [by vm_compute|]. split; [by vm_compute|].
  split; [done|]. split; [intros (_&_&H); by vm_compute in H|]. split; [done|]. split; [|by repeat constructor].
  split_and!; [done..|]. intros rule y Hr Hy.
  apply elem_of_cons in Hr as [-> |Hr]; [|apply elem_of_list_singleton in Hr as ->];
    cbn [length] in Hy; assert (y = 0%nat) as -> by lia; done.
Qed.

(** "4294967296" and "4294967295,1" are rejected for different reasons. *)
Example C111_errors : let big := [52; 50; 57; 52; 57; 54; 55; 50; 57; 54] in let sum := [52; 50; 57; 52; 57; 54; 55; 50; 57; 53; 44; 49] in
  parse_nonogram_rules (Mode Debug W32) big 9 = Ret (Err (InvalidRule big)) /\
  parse_nonogram_rules (Mode Debug W64) big 9 = Ret (Err InvalidRuleDimension) /\
  parse_nonogram_rules (Mode Debug W32) sum 9 = Fault Panic /\
  parse_nonogram_rules (Mode Debug W64) sum 9 = Ret (Err InvalidRuleDimension) /\
  parse_nonogram_rules (Mode Debug W32) [50] 9 = Ret (Ok [[2]]).
Proof. cbv zeta. split_and!; by vm_compute. Qed.
