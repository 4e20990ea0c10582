(** Properties C25-C27 and C29. *)
From Verif Require Import Base Image Maze MazePrint SpecMazePrint.
From Verif Require MazePrintProofs.
Local Open Scope N_scope.

(** C25: exactly the walls are black. *)
Theorem C25_print_maze_exact : forall (m : mode) width height grid,
  width * height = N.of_nat (length grid) -> printable m width height -> width * height <= 2 ^ 32 ->
  exists im, print_maze m width height grid = Ret (Ok im) /\
    i_width im = 10 * width + 1 /\ i_height im = 10 * height + 1 /\
    forall x y, x < i_width im -> y < i_height im ->
      (wall_pixel width grid x y -> i_pix im x y = BLACK_PIXEL) /\
      (~ wall_pixel width grid x y -> i_pix im x y = WHITE_PIXEL).
Proof. exact MazePrintProofs.print_maze_exact. Qed.
Print Assumptions C25_print_maze_exact.

(** The colours are what their names say. *)
Theorem C25_colours : BLACK_PIXEL = Rgb 0 0 0 /\ WHITE_PIXEL = Rgb 255 255 255.
Proof. exact (conj eq_refl eq_refl). Qed.
Print Assumptions C25_colours.

Example C25_example : let grid := [MazeNode false true; MazeNode true false] in
  2 * 1 = N.of_nat (length grid) /\ printable W64 2 1 /\ 2 * 1 <= 2 ^ 32 /\
  wall_pixel 2 grid 7 10 /\ ~ wall_pixel 2 grid 15 10 /\ ~ wall_pixel 2 grid 10 5.
Proof.
  cbv zeta. split_and!; try (by vm_compute).
  - right. right. exists 0, 0, (MazeNode false true). split_and!; [by vm_compute|done|].
    right. split_and!; by vm_compute.
  - intros [?|[[? ?]|(cx&cy&nd&Hc&Hg&Hw)]]; [lia|lia|].
    assert (cx = 0 /\ cy = 0 \/ cx = 1 /\ cy = 0) as [[-> ->]|[-> ->]].
    { apply lookup_lt_Some in Hg. cbn in Hg. lia. }
    + injection Hg as <-. destruct Hw as [(Hw&_)|(_&_&?)]; [done|lia].
    + injection Hg as <-. destruct Hw as [(_&?&_)|[Hw _]]; [lia|done].
  - intros [?|[[? ?]|(cx&cy&nd&Hc&Hg&Hw)]]; [lia|lia|].
    assert (cx = 0 /\ cy = 0 \/ cx = 1 /\ cy = 0) as [[-> ->]|[-> ->]].
    { apply lookup_lt_Some in Hg. cbn in Hg. lia. }
    + injection Hg as <-. destruct Hw as [[Hw _]|(_&?&_)]; [done|lia].
    + injection Hg as <-. destruct Hw as [(_&?&_)|(Hw&_)]; [lia|done].
Qed.

(** C26: dimension check, and when printing panics. *)
Theorem C26_print_maze_total : forall (m : mode) width height grid,
  (width * height < limit m -> width * height <> N.of_nat (length grid) <->
     print_maze m width height grid = Ret (Err InvalidDimensions)) /\
  (width * height = N.of_nat (length grid) -> printable m width height ->
     exists im, print_maze m width height grid = Ret (Ok im) /\
       i_width im = 10 * width + 1 /\ i_height im = 10 * height + 1) /\
  (width * height = N.of_nat (length grid) -> ~ printable m width height -> profile_of m = Debug ->
     print_maze m width height grid = Fault Panic) /\
  (limit m <= width * height -> profile_of m = Debug -> print_maze m width height grid = Fault Panic).
Proof. exact MazePrintProofs.print_maze_total. Qed.
Print Assumptions C26_print_maze_total.

Example C26_example_mismatch :
  print_maze (Mode Release W64) 2 2 [maze_node_new] = Ret (Err InvalidDimensions).
Proof. reflexivity. Qed.
(** Width 2^30 and height 0: an empty grid of a size that cannot be printed. *)
Example C26_example_overflow :
  2 ^ 30 * 0 = N.of_nat (length (@nil maze_node)) /\ ~ printable W64 (2 ^ 30) 0.
Proof. split; [done|]. intros [H _]. by vm_compute in H. Qed.

(** Both sides fit, but the buffer would need more than 2^63 bytes. *)
Example C26_example_buffer : ~ printable W64 (2 ^ 28) (2 ^ 28) /\ printable W64 (2 ^ 27) (2 ^ 27).
Proof. split; [intros (_&_&H); by vm_compute in H|done]. Qed.

(** Without overflow checks such a size wraps, and an image of the wrong size is
    returned. *)
Theorem C26_wraps : forall ws : word, exists width im, ~ printable ws width 0 /\ width < 2 ^ 32 /\
  print_maze (Mode Release ws) width 0 [] = Ret (Ok im) /\ i_width im = 5 /\ i_height im = 1.
Proof. exact MazePrintProofs.print_maze_wraps. Qed.
Print Assumptions C26_wraps.

(** The limit on the number of cells is needed: with 32 bits the number of cells
    of a 65536 by 65536 maze wraps to 0, which an empty grid has, so that not the
    error is returned. *)
Theorem C26_cells_wrap : forall p, print_maze (Mode p W32) 65536 65536 [] = Fault Panic.
Proof. exact MazePrintProofs.print_maze_cells_wrap. Qed.
Print Assumptions C26_cells_wrap.

Example C26_cells_64 : print_maze (Mode Debug W64) 65536 65536 [] = Ret (Err InvalidDimensions).
Proof. reflexivity. Qed.

(** C27: exact behaviour of [print_maze_solution]. *)
Theorem C27_print_solution : forall m im sol,
  i_width im < 2 ^ 32 - 10 -> i_height im < 2 ^ 32 - 10 ->
  let ok := steps_allowed (i_width im) (i_height im) (rev sol) 0 0 /\
            10 * (destination (rev sol) 0 0).2 + 16 <= i_height im in
  (print_maze_solution m im sol = Ret (Err InvalidDimensions) <-> i_width im < 6 \/ i_height im < 6) /\
  (print_maze_solution m im sol = Ret (Err InvalidSolution) <-> 6 <= i_width im /\ 6 <= i_height im /\ ~ ok) /\
  (6 <= i_width im -> 6 <= i_height im -> ok -> exists im',
     print_maze_solution m im sol = Ret (Ok im') /\ i_width im' = i_width im /\ i_height im' = i_height im /\
     forall a b, (red_pixel (rev sol) a b -> i_pix im' a b = RED_PIXEL) /\
                 (~ red_pixel (rev sol) a b -> i_pix im' a b = i_pix im a b)).
Proof. exact MazePrintProofs.print_solution_spec. Qed.
Print Assumptions C27_print_solution.

(** The bound on the size is sharp: at height 2^32 - 10 a path inside the image
    makes the arithmetic overflow, and both profiles panic. *)
Theorem C27_sharp : exists im sol, i_width im = 6 /\ i_height im = 2 ^ 32 - 10 /\
  stays_inside (i_width im) (i_height im) (rev sol) 0 0 /\
  forall m, print_maze_solution m im sol = Fault Panic.
Proof. exact MazePrintProofs.print_solution_overflow. Qed.
Print Assumptions C27_sharp.

Theorem C27_inside : forall m im sol im',
  i_width im < 2 ^ 32 - 10 -> i_height im < 2 ^ 32 - 10 ->
  print_maze_solution m im sol = Ret (Ok im') ->
  i_width im' = i_width im /\ i_height im' = i_height im /\
  (forall a b, i_pix im' a b = i_pix im a b \/ i_pix im' a b = RED_PIXEL) /\
  stays_inside (i_width im) (i_height im) (rev sol) 0 0.
Proof. exact MazePrintProofs.print_solution_inside. Qed.
Print Assumptions C27_inside.

Theorem C27_red : RED_PIXEL = Rgb 255 0 0.
Proof. exact eq_refl. Qed.
Print Assumptions C27_red.

Example C27_example :
  match print_maze_solution (Mode Debug W64) (Image 40 40 (fun _ _ => WHITE_PIXEL)) [Left; Down; Right; Right] with
  | Ret (Ok im') => i_pix im' 20 5 = RED_PIXEL /\ i_pix im' 15 20 = RED_PIXEL /\ i_pix im' 10 15 = WHITE_PIXEL
  | _ => False
  end.
Proof. vm_compute. done. Qed.

(** C29 is false: a step back into the first column (or row) is refused. *)
Theorem C29_refuted : exists m im sol,
  i_width im < 2 ^ 32 - 10 /\ i_height im < 2 ^ 32 - 10 /\
  centre_inside (i_width im) (i_height im) 0 0 /\
  stays_inside (i_width im) (i_height im) (rev sol) 0 0 /\
  10 * (destination (rev sol) 0 0).2 + 16 <= i_height im /\
  print_maze_solution m im sol = Ret (Err InvalidSolution).
Proof. exact MazePrintProofs.print_solution_rejects_inside. Qed.
Print Assumptions C29_refuted.
