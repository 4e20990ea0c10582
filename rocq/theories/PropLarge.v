(** Property C67. *)
From Verif Require Import Base SpecWord Image Maze MazePrint Nonogram NonogramPrint SpecMazePrint SpecPrint SpecLarge.
From Verif Require LargeProofs.
Local Open Scope N_scope.

(** C67 (refuted): "in every image of printable size each cell is drawn at its
    own place".  Cell numbers are cut to 32 bits, so cell 2^32 is drawn over
    cell 0. *)
Theorem C67_maze_refuted : exists width height grid x y,
  width * height = N.of_nat (length grid) /\ printable W64 width height /\
  x < 10 * width + 1 /\ y < 10 * height + 1 /\ ~ wall_pixel width grid x y /\
  forall m, word_of m = W64 -> exists im, print_maze m width height grid = Ret (Ok im) /\ i_pix im x y = BLACK_PIXEL.
Proof. exact LargeProofs.maze_large. Qed.
Print Assumptions C67_maze_refuted.
Theorem C67_nonogram_refuted : exists width height grid x y,
  N.of_nat (length grid) = width * height /\ side width < 2 ^ 31 /\ side height < 2 ^ 31 /\
  ~ filled_pixel width height grid x y /\
  forall m im, word_of m = W64 -> i_width im = side width -> i_height im = side height ->
    exists im', print_nonogram_solution m width height im grid = Ret (Ok im') /\ i_pix im' x y = BLACK_PIXEL.
Proof. exact LargeProofs.nonogram_large. Qed.
Print Assumptions C67_nonogram_refuted.

(** The images of all printable sizes, exactly.  With at most 2^32 cells they
    are as they should be (C25, C42). *)
Theorem C67_maze_partial : forall (m : mode) width height grid,
  width * height = N.of_nat (length grid) -> printable m width height ->
  exists im, print_maze m width height grid = Ret (Ok im) /\
    i_width im = 10 * width + 1 /\ i_height im = 10 * height + 1 /\
    forall x y, x < i_width im -> y < i_height im ->
      (wall_pixel_wrapped width grid x y -> i_pix im x y = BLACK_PIXEL) /\
      (~ wall_pixel_wrapped width grid x y -> i_pix im x y = WHITE_PIXEL).
Proof. exact LargeProofs.print_maze_any. Qed.
Print Assumptions C67_maze_partial.
Theorem C67_nonogram_partial : forall (m : mode) width height im grid, width * height < limit m ->
  N.of_nat (length grid) = width * height -> i_width im = side width -> i_height im = side height ->
  side width < 2 ^ 31 -> side height < 2 ^ 31 ->
  exists im', print_nonogram_solution m width height im grid = Ret (Ok im') /\
    i_width im' = i_width im /\ i_height im' = i_height im /\
    forall x y, (filled_pixel_wrapped width height grid x y -> i_pix im' x y = BLACK_PIXEL) /\
                (~ filled_pixel_wrapped width height grid x y -> i_pix im' x y = i_pix im x y).
Proof. exact LargeProofs.print_nonogram_any. Qed.
Print Assumptions C67_nonogram_partial.

(** Sizes with more than 2^32 cells, and where cell 2^32 is drawn. *)
Example C67_example : printable W64 65537 65536 /\ side 65537 < 2 ^ 31 /\ 2 ^ 32 < 65537 * 65536 /\
  drawn_at 65537 (N.to_nat (2 ^ 32)) 0 0 /\ drawn_at 65537 (N.to_nat 70000) 4463 1.
Proof. unfold drawn_at. rewrite !N2Nat.id. split_and!; done. Qed.
