(** Properties C59-C62. *)
From Verif Require Import Base Image Nonogram NonogramPrint SpecPrint SpecNonogram SpecNonogramText.
From Verif Require NonogramImage.
Local Open Scope N_scope.

(** C59 is false: the filled squares paint over the inner pixels of the thick
    lines. *)
Theorem C59_refuted : exists (m : mode) text col row im grid im' x y,
  keeps_size text /\ nonogram_printable m 1 1 col /\
  print_nonogram m text 1 1 col row = Ret (Ok im) /\ print_nonogram_solution m 1 1 im grid = Ret (Ok im') /\
  x < i_width im /\ y < i_height im /\ nonogram_gray 1 1 x y /\ i_pix im' x y <> GRAY_PIXEL.
Proof. exact NonogramImage.lines_covered. Qed.
Print Assumptions C59_refuted.

(** What does hold: the middle of every line stays visible. *)
Theorem C59_middle_partial : forall (m : mode) text w h col row im grid im' x y,
  keeps_size text -> nonogram_printable m w h col -> w * h <= 2 ^ 32 ->
  print_nonogram m text w h col row = Ret (Ok im) -> print_nonogram_solution m w h im grid = Ret (Ok im') ->
  x < i_width im -> y < i_height im ->
  ((exists k, k < w /\ x = margin w + 50 * k) \/ exists k, k < h /\ y = margin h + 50 * k) ->
  i_pix im' x y = GRAY_PIXEL.
Proof. exact NonogramImage.middle_lines. Qed.
Print Assumptions C59_middle_partial.

Example C59_example : nonogram_printable W64 2 1 [[1]; [1]] /\ (exists k, k < 2 /\ 200 = margin 2 + 50 * k) /\ 200 < side 2.
Proof.
  split_and!; [|by exists 1|done]. unfold nonogram_printable. split_and!; [by vm_compute..|]. repeat constructor.
Qed.

(** C60 is false from 11 rows on: a column clue of ones that fits the height
    has a text at or below the top of the grid. *)
Theorem C60_refuted : forall height, 11 <= height -> exists rule,
  min_length rule <= height /\ Forall (fun v => v <> 0) rule /\
  forall width, exists x y s t, (x, y, s, t) ∈ col_texts width [rule] /\ (Z.of_N (margin height) <= y)%Z.
Proof. exact NonogramImage.texts_overlap. Qed.
Print Assumptions C60_refuted.

(** What does hold: up to 10 rows (4, if clues may contain zeros). *)
Theorem C60_small_partial : forall height width col x y s t,
  Forall (fun rule => min_length rule <= height) col ->
  (height <= 10 /\ Forall (Forall (fun v => v <> 0)) col) \/ height <= 4 ->
  (x, y, s, t) ∈ col_texts width col -> (y < Z.of_N (margin height))%Z.
Proof. exact NonogramImage.texts_above. Qed.
Print Assumptions C60_small_partial.

Example C60_example :
  min_length [1; 1; 1; 1; 1] <= 10 /\
  col_texts 2 [[1; 1; 1; 1; 1]] !! 4%nat = Some (165%Z, 130%Z, 30, [49]) /\ margin 10 = 150.
Proof. by vm_compute. Qed.

(** C61: the picture of a solution determines the grid. *)
Theorem C61_injective : forall (m m' : mode) w h im g g' im1 im2, w * h < limit m -> w * h < limit m' ->
  side w < 2 ^ 31 -> side h < 2 ^ 31 -> w * h <= 2 ^ 32 ->
  (forall c r, c < w -> r < h -> exists x y, cell_interior w h c r x y /\ i_pix im x y <> BLACK_PIXEL) ->
  print_nonogram_solution m w h im g = Ret (Ok im1) -> print_nonogram_solution m' w h im g' = Ret (Ok im2) ->
  (forall x y, x < i_width im -> y < i_height im -> i_pix im1 x y = i_pix im2 x y) -> g = g'.
Proof. exact NonogramImage.solution_injective. Qed.
Print Assumptions C61_injective.

Example C61_example : let im := Image 250 200 (fun _ _ => WHITE_PIXEL) in
  cell_interior 2 1 1 0 220 170 /\ i_pix im 220 170 <> BLACK_PIXEL /\
  match print_nonogram_solution (Mode Debug W64) 2 1 im [false; true], print_nonogram_solution (Mode Debug W64) 2 1 im [false; false] with
  | Ret (Ok im1), Ret (Ok im2) => i_pix im1 220 170 <> i_pix im2 220 170
  | _, _ => False
  end.
Proof. cbv zeta. split_and!; by vm_compute. Qed.

(** C62: the solver's answer can be drawn on the printed puzzle, and whatever is
    changed inside a square is black and belongs to every solution. *)
Theorem C62_pipeline : forall (m : mode) text col row im g,
  let ncol := map (map N.to_nat) col in let nrow := map (map N.to_nat) row in
  let w := N.of_nat (length col) in let h := N.of_nat (length row) in
  keeps_size text -> nonogram_printable m w h col -> w * h <= 2 ^ 32 ->
  print_nonogram m text w h col row = Ret (Ok im) -> solve_nonogram m ncol nrow = Ret (Ok g) ->
  exists im', print_nonogram_solution m w h im g = Ret (Ok im') /\
    forall b c r x y, solution ncol nrow b -> cell_interior w h c r x y -> c < w -> r < h ->
      i_pix im' x y <> i_pix im x y -> i_pix im' x y = BLACK_PIXEL /\ b !! N.to_nat (r * w + c) = Some true.
Proof. exact NonogramImage.pipeline. Qed.
Print Assumptions C62_pipeline.

Example C62_example :
  nonogram_printable W64 2 1 [[1]; [1]] /\
  solve_nonogram (Mode Debug W64) (map (map N.to_nat) [[1]; [1]]) (map (map N.to_nat) [[2]]) = Ret (Ok [true; true]) /\
  solution (map (map N.to_nat) [[1]; [1]]) (map (map N.to_nat) [[2]]) [true; true] /\
  cell_interior 2 1 1 0 220 170.
Proof.
  split; [|split; [|split]].
  - unfold nonogram_printable. split_and!; [by vm_compute..|]. repeat constructor.
  - vm_compute. reflexivity.
  - apply NonogramStates.solution_clues; [done|..].
    + intros [|[|x]] rule H; cbn in H; by inversion H.
    + intros [|y] rule H; cbn in H; by inversion H.
  - split; by vm_compute.
Qed.
