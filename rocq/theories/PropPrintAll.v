(** Property C103. *)
From Verif Require Import Base Image Dlx Sudoku Nonogram NonogramPrint SpecPrint SpecPrintAll.
From Verif Require PrintAllProofs.
Local Open Scope N_scope.

(** The image of every drawable puzzle, exactly.  Clues are drawn at signed
    coordinates. *)
Theorem C103_image : forall (m : mode) text width height col row,
  keeps_size text -> width = N.of_nat (length col) -> height = N.of_nat (length row) ->
  drawable m width height col ->
  exists im, print_nonogram m text width height col row = Ret (Ok im) /\
    i_width im = side width /\ i_height im = side height /\
    forall x y, x < i_width im -> y < i_height im ->
      (nonogram_gray width height x y -> i_pix im x y = GRAY_PIXEL) /\
      (~ nonogram_gray width height x y ->
         i_pix im x y = i_pix (draw_texts text (col_texts32 width col ++ row_texts32 height row)
           (Image (side width) (side height) (fun _ _ => WHITE_PIXEL))) x y).
Proof. exact PrintAllProofs.print_all. Qed.
Print Assumptions C103_image.

(** All other puzzles panic if arithmetic is checked. *)
Theorem C103_panics : forall (ws : word) text width height col row, keeps_size text ->
  print_nonogram (Mode Debug ws) text width height col row = Fault Panic <->
  width = N.of_nat (length col) /\ height = N.of_nat (length row) /\ ~ drawable ws width height col.
Proof. exact PrintAllProofs.print_panics_iff. Qed.
Print Assumptions C103_panics.

(** Clues of columns from pixel 2^31 on are not drawn: two puzzles that differ in
    such clues have the same image. *)
Theorem C103_hidden : forall (m : mode) (text : text_renderer) width height col col' row,
  (forall im x y s t, (x < - 2 ^ 30)%Z -> text im x y s t = im) ->
  side width < 2 ^ 31 + 2 ^ 30 -> length col = length col' ->
  drawable m width height col -> drawable m width height col' ->
  (forall x : nat, 50 * N.of_nat x + margin width + 15 < 2 ^ 31 -> col !! x = col' !! x) ->
  print_nonogram m text width height col row = print_nonogram m text width height col' row.
Proof. exact PrintAllProofs.print_hidden. Qed.
Print Assumptions C103_hidden.

(** C103 (refuted): "the image of every drawable puzzle shows all its clues". *)
Theorem C103_clues_refuted : exists width height col col' row,
  col <> col' /\ width = N.of_nat (length col) /\ height = N.of_nat (length row) /\
  drawable W64 width height col /\ drawable W64 width height col' /\
  forall (m : mode) (text : text_renderer), word_of m = W64 -> (forall im x y s t, (x < - 2 ^ 30)%Z -> text im x y s t = im) ->
  print_nonogram m text width height col row = print_nonogram m text width height col' row.
Proof. exact PrintAllProofs.print_hidden_refuted. Qed.
Print Assumptions C103_clues_refuted.

(** A drawable puzzle; two sizes that are not: a side that is too long, and two
    sides that are not too long, but whose product is. *)
Example C103_example :
  drawable W64 2 1 [[1]; [1]] /\
  (forall height col, ~ drawable W64 71582789 height col) /\
  (side 71582788 < 2 ^ 32 /\ forall col, ~ drawable W64 71582788 71582788 col) /\
  signed32 5 = 5%Z /\ signed32 (2 ^ 31) = (- 2 ^ 31)%Z.
Proof.
  split_and!; [split_and!; [done..|]| | | |done..].
  - intros rule y Hr Hy. apply elem_of_cons in Hr as [-> |Hr]; [|apply elem_of_list_singleton in Hr as ->];
      cbn [length] in Hy; assert (y = 0%nat) as -> by lia; done.
  - intros height col [H _]. by vm_compute in H.
  - done.
  - intros col (_&_&H&_). by vm_compute in H.
Qed.

(** Buffers of at least 2^63 bytes, or 2^31. *)
Example C103_buffer : (exists im, from_pixel W64 (2 ^ 30) (2 ^ 31) WHITE_PIXEL = Ret im) /\
  from_pixel W64 (2 ^ 31) (2 ^ 31) WHITE_PIXEL = Fault Panic /\
  (exists im, from_pixel W32 (2 ^ 14) (2 ^ 15) WHITE_PIXEL = Ret im) /\
  from_pixel W32 (2 ^ 15) (2 ^ 15) WHITE_PIXEL = Fault Panic.
Proof. split_and!; try eexists; reflexivity. Qed.

(** A renderer that draws nothing far to the left. *)
Example C103_renderer : exists text : text_renderer, keeps_size text /\
  (forall im x y s t, (x < - 2 ^ 30)%Z -> text im x y s t = im) /\
  i_pix (text (Image 9 9 (fun _ _ => WHITE_PIXEL)) 3%Z 3%Z 2 [48]) 4 4 = BLACK_PIXEL.
Proof.
  exists (fun im x y s t => if (x <? - 2 ^ 30)%Z then im else draw_filled_rect im x y s s BLACK_PIXEL).
  split_and!; [| |done].
  - intros im x y s t. by destruct (x <? - 2 ^ 30)%Z.
  - intros im x y s t Hx. by destruct (Z.ltb_spec x (- 2 ^ 30)); [|lia].
Qed.
