(** Properties C41-C43. *)
From Verif Require Import Base Image Dlx Sudoku Nonogram NonogramPrint SpecPrint.
From Verif Require PrintProofs.
Local Open Scope N_scope.

(** C41: dimension check and exact pixels of [print_nonogram]. *)
Theorem C41_dimensions : forall m text width height col row,
  print_nonogram m text width height col row = Ret (Err InvalidDimensions) <->
  (width <> N.of_nat (length col) \/ height <> N.of_nat (length row)).
Proof. exact PrintProofs.print_nonogram_dim. Qed.
Print Assumptions C41_dimensions.

Theorem C41_print_nonogram : forall (m : mode) text width height col row,
  keeps_size text -> width = N.of_nat (length col) -> height = N.of_nat (length row) ->
  nonogram_printable m width height col ->
  exists im, print_nonogram m text width height col row = Ret (Ok im) /\
    i_width im = side width /\ i_height im = side height /\
    forall x y, x < i_width im -> y < i_height im ->
      (nonogram_gray width height x y -> i_pix im x y = GRAY_PIXEL) /\
      (~ nonogram_gray width height x y ->
         i_pix im x y = i_pix (draw_texts text (col_texts width col ++ row_texts height row)
           (Image (side width) (side height) (fun _ _ => WHITE_PIXEL))) x y).
Proof. exact PrintProofs.print_nonogram_exact. Qed.
Print Assumptions C41_print_nonogram.

(** A renderer that draws something, a printable puzzle, a line and a
    non-line. *)
(** The lines are gray: three equal parts, neither black nor white. *)
Theorem C41_gray : GRAY_PIXEL = Rgb 105 105 105.
Proof. exact eq_refl. Qed.
Print Assumptions C41_gray.

Example C41_example :
  keeps_size (fun im x y s t => draw_filled_rect im x y s (N.of_nat (length t)) BLACK_PIXEL) /\
  nonogram_printable W64 2 1 [[1]; [0]] /\ side 2 = 250 /\
  nonogram_gray 2 1 200 7 /\ nonogram_gray 2 1 149 7 /\ ~ nonogram_gray 2 1 199 7.
Proof.
  split_and!.
  - done.
  - unfold nonogram_printable. split_and!; [by vm_compute..|]. repeat constructor.
  - done.
  - left. exists 1. split; [done|by left].
  - left. exists 0. split; [done|]. right. split; [done|by right].
  - change (~ (grid_line 2 199 \/ grid_line 1 7)). unfold grid_line.
    change (margin 2) with 150. change (margin 1) with 150.
    intros [(k&Hk&H)|(k&Hk&H)].
    + assert (k = 0 \/ k = 1) as [-> | ->] by lia; [lia|]. destruct H as [H|[H _]]; [lia|done].
    + lia.
Qed.
(** Sizes near the limits: an image of more than 2^62 bytes, and a long side. *)
Example C41_limits :
  nonogram_printable W64 22000000 22000000 [] /\ 2 ^ 62 < side 22000000 * side 22000000 * 3 /\
  nonogram_printable W64 35000000 1 [] /\ 2 ^ 30 < side 35000000 /\ nonogram_printable W64 1 35000000 [].
Proof. unfold nonogram_printable. split_and!; try exact (List.Forall_nil _); vm_compute; reflexivity. Qed.

(** C42: dimension check and exact pixels of [print_nonogram_solution]. *)
Theorem C42_dimensions : forall (m : mode) width height im grid, width * height < limit m ->
  side width < 2 ^ 32 -> side height < 2 ^ 32 ->
  print_nonogram_solution m width height im grid = Ret (Err InvalidDimensions) <->
  (N.of_nat (length grid) <> width * height \/ i_width im <> side width \/ i_height im <> side height).
Proof. exact PrintProofs.print_solution_dim. Qed.
Print Assumptions C42_dimensions.

Theorem C42_print_solution : forall (m : mode) width height im grid, width * height < limit m ->
  N.of_nat (length grid) = width * height -> i_width im = side width -> i_height im = side height ->
  side width < 2 ^ 31 -> side height < 2 ^ 31 -> width * height <= 2 ^ 32 ->
  exists im', print_nonogram_solution m width height im grid = Ret (Ok im') /\
    i_width im' = i_width im /\ i_height im' = i_height im /\
    forall x y, (filled_pixel width height grid x y -> i_pix im' x y = BLACK_PIXEL) /\
                (~ filled_pixel width height grid x y -> i_pix im' x y = i_pix im x y).
Proof. exact PrintProofs.print_solution_exact. Qed.
Print Assumptions C42_print_solution.

Example C42_example : let grid := [false; true] in
  N.of_nat (length grid) = 2 * 1 /\ side 2 = 250 /\ side 1 = 200 /\
  filled_pixel 2 1 grid 201 199 /\
  match print_nonogram_solution (Mode Debug W64) 2 1 (Image 250 200 (fun _ _ => WHITE_PIXEL)) grid with
  | Ret (Ok im) => i_pix im 201 199 = BLACK_PIXEL /\ i_pix im 200 199 = WHITE_PIXEL /\ i_pix im 151 151 = WHITE_PIXEL
  | _ => False
  end.
Proof.
  cbv zeta. split_and!; try done. exists 1, 0. split_and!; by vm_compute.
Qed.

(** C43: size check, grid lines and digits of [print_sudoku].  The digits are
    drawn on top of the lines by the text renderer, one text per non-zero entry
    at its cell. *)
Theorem C43_print_sudoku : forall text puzzle,
  (print_sudoku text puzzle = Ret (Err (InvalidSize (length puzzle))) <-> length puzzle <> 81%nat) /\
  (length puzzle = 81%nat -> exists lines,
     print_sudoku text puzzle = Ret (Ok (draw_texts text (sudoku_texts puzzle) lines)) /\
     i_width lines = 900 /\ i_height lines = 900 /\
     forall x y, x < 900 -> y < 900 ->
       (sudoku_black x y -> i_pix lines x y = BLACK_PIXEL) /\
       (~ sudoku_black x y -> i_pix lines x y = WHITE_PIXEL)).
Proof. exact PrintProofs.print_sudoku_spec. Qed.
Print Assumptions C43_print_sudoku.

Example C43_example :
  length (replicate 80 0 ++ [7]) = 81%nat /\
  sudoku_texts (replicate 80 0 ++ [7]) = [(825%Z, 805%Z, 100, [55])] /\
  sudoku_black 301 42 /\ ~ sudoku_black 101 42.
Proof.
  split_and!; [done|by vm_compute|left; by right; right; left|].
  unfold sudoku_black, sudoku_line. intros [[H|H]|[H|H]]; try lia; done.
Qed.
