(** Property C79: the printed puzzle shows every number.  [text] stands for the
    rendering of glyphs. *)
From Verif Require Import Base Image Sudoku Nonogram NonogramPrint SpecPrint.
From Verif Require PrintTexts.
Local Open Scope N_scope.

(** C79: puzzles that look the same with every rendering are equal. *)
Theorem C79_sudoku : forall p p', length p = 81%nat -> length p' = 81%nat ->
  (forall text im im', keeps_size text -> print_sudoku text p = Ret (Ok im) -> print_sudoku text p' = Ret (Ok im') ->
     forall x y, x < 900 -> y < 900 -> i_pix im x y = i_pix im' x y) -> p = p'.
Proof. exact PrintTexts.sudoku_shows. Qed.
Print Assumptions C79_sudoku.

Theorem C79_nonogram : forall (m : mode) w h col row col' row',
  w = N.of_nat (length col) -> h = N.of_nat (length row) -> w = N.of_nat (length col') -> h = N.of_nat (length row') ->
  nonogram_printable m w h col -> nonogram_printable m w h col' ->
  (forall text im im', keeps_size text -> print_nonogram m text w h col row = Ret (Ok im) ->
     print_nonogram m text w h col' row' = Ret (Ok im') ->
     forall x y, x < i_width im -> y < i_height im -> i_pix im x y = i_pix im' x y) -> col = col' /\ row = row'.
Proof. exact PrintTexts.nonogram_shows. Qed.
Print Assumptions C79_nonogram.

(** The rules 1 11 and 11 1 consist of the same digits; a renderer that draws a
    bar as long as the text up to the first space tells them apart. *)
Definition first_word (t : list N) : N := N.of_nat (length (fst (fold_left
  (fun '(w, stop) c => if (stop : bool) || (c =? 32) then (w, true) else (w ++ [c], false)) t ([], false)))).
Definition bars : text_renderer := fun im x y s t => draw_filled_rect im x y (10 * first_word t) s BLACK_PIXEL.
Example C79_example : keeps_size bars /\ nonogram_printable W64 1 1 [[1]] /\
  match print_nonogram (Mode Debug W64) bars 1 1 [[1]] [[1; 11]], print_nonogram (Mode Debug W64) bars 1 1 [[1]] [[11; 1]] with
  | Ret (Ok im), Ret (Ok im') => i_pix im 25 165 = WHITE_PIXEL /\ i_pix im' 25 165 = BLACK_PIXEL
  | _, _ => False
  end.
Proof.
  split; [by intros im x y s t|]. split; [|by vm_compute].
  unfold nonogram_printable. split_and!; [by vm_compute..|]. repeat constructor.
Qed.
