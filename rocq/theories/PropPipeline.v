(** Property C106: from texts and sizes to PNG files, all functions of the crate
    one after the other. *)
From Verif Require Import Base SpecWord Image Dlx Sudoku SpecDlx SpecSudoku SpecSudokuText.
From Verif Require Import Nonogram NonogramPrint NonogramRect NonogramCapacity Png.
From Verif Require Import SpecNonogram SpecNonogramText SpecPrint SpecPng.
From Verif Require Import Maze MazePrint MazeCapacity Serde SpecMaze SpecMazePrint.
From Verif Require PipelineProofs PropPng.
Local Open Scope N_scope.

(** Nonograms of up to [largest_side] rows and columns.  The answer is drawn, and shows
    only squares of every solution. *)
Theorem C106_nonogram : forall E (encode : png_encoder E) (m : mode) text grow s t col row,
  let ncol := map (map N.to_nat) col in let nrow := map (map N.to_nat) row in
  let w := N.of_nat (length col) in let h := N.of_nat (length row) in
  encodes encode -> keeps_size text -> grows grow -> w <= largest_side m -> h <= largest_side m ->
  profile_of m = Debug \/ no_overflow m s /\ no_overflow m t ->
  parse_nonogram_rules m s h = Ret (Ok col) -> parse_nonogram_rules m t w = Ret (Ok row) ->
  Forall proper ncol -> Forall proper nrow ->
  exists im, print_nonogram m text w h col row = Ret (Ok im) /\ encoded encode im (image_to_png_bytes encode im) /\
    ((solve_checked grow m ncol nrow = Ret (Err NoSolution) /\ forall b, ~ solution ncol nrow b) \/
     exists g im', solve_checked grow m ncol nrow = Ret (Ok g) /\ print_solution32 m w h im g = Ret (Ok im') /\
       encoded encode im' (image_to_png_bytes encode im') /\
       (forall b i, solution ncol nrow b -> g !! i = Some true -> b !! i = Some true) /\
       forall x y, x < i_width im -> y < i_height im ->
         (filled_pixel w h g x y -> i_pix im' x y = BLACK_PIXEL) /\
         (~ filled_pixel w h g x y -> i_pix im' x y = i_pix im x y)).
Proof. exact @PipelineProofs.whole. Qed.
Print Assumptions C106_nonogram.

(** Mazes of up to [largest_side] rows and columns.  They can be stored, read and drawn;
    their solutions never (C28). *)
Theorem C106_maze : forall E (encode : png_encoder E) (m : mode) rng w h, encodes encode ->
  (1 <= w)%nat -> (1 <= h)%nat -> N.of_nat w <= largest_side m -> N.of_nat h <= largest_side m ->
  exists g sol im, create_checked m rng w h = Ret (g, sol) /\ de_maze (ser_maze (g, sol)) = Ok (g, sol) /\
    print_maze m (N.of_nat w) (N.of_nat h) g = Ret (Ok im) /\ encoded encode im (image_to_png_bytes encode im) /\
    (forall x y, x < i_width im -> y < i_height im ->
       (wall_pixel (N.of_nat w) g x y -> i_pix im x y = BLACK_PIXEL) /\
       (~ wall_pixel (N.of_nat w) g x y -> i_pix im x y = WHITE_PIXEL)) /\
    print_maze_solution m im sol = Ret (Err InvalidSolution).
Proof. exact @PipelineProofs.whole_maze. Qed.
Print Assumptions C106_maze.

(** Sudokus without two equal clues in a row, column or box. *)
Theorem C106_sudoku : forall E (encode : png_encoder E) fuel text s v,
  let p := N.to_nat <$> v in
  encodes encode -> keeps_size text -> (matrix_size SUDOKU_CONSTRAINTS < fuel)%nat ->
  parse_sudoku s = Ok v -> (forall i j, ~ clash p i j) ->
  exists im, print_sudoku text v = Ret (Ok im) /\ encoded encode im (image_to_png_bytes encode im) /\
    ((solve_sudoku fuel p = Ret (Err Sudoku.NoSolution, ∅) /\ forall t, ~ text_completes s t) \/
     exists g im', solve_sudoku fuel p = Ret (Ok g, ∅) /\ text_completes s (grid_text g) /\
       print_sudoku text (N.of_nat <$> g) = Ret (Ok im') /\ encoded encode im' (image_to_png_bytes encode im')).
Proof. exact @PipelineProofs.whole_sudoku. Qed.
Print Assumptions C106_sudoku.

(** Two columns with clue 1 and a row with clue 2, as texts "1;1" and "2". *)
Example C106_example :
  encodes PropPng.sides_encoder /\ keeps_size (fun im _ _ _ _ => im) /\ grows std_grow /\
  parse_nonogram_rules (Mode Debug W64) [49; 59; 49] 1 = Ret (Ok [[1]; [1]]) /\
  parse_nonogram_rules (Mode Debug W64) [50] 2 = Ret (Ok [[2]]) /\
  Forall proper (map (map N.to_nat) [[1]; [1]]) /\ Forall proper (map (map N.to_nat) [[2]]) /\
  solve_checked std_grow (Mode Debug W64) (map (map N.to_nat) [[1]; [1]]) (map (map N.to_nat) [[2]]) = Ret (Ok [true; true]) /\
  filled_pixel 2 1 [true; true] 201 199.
Proof.
  split; [apply PropPng.C90_encoder|]. split; [done|]. split; [intros cap need; unfold std_grow; lia|].
  split; [by vm_compute|]. split; [by vm_compute|]. split; [by repeat constructor|]. split; [by repeat constructor|].
  split; [by vm_compute|]. exists 1, 0. split_and!; by vm_compute.
Qed.
(** A Sudoku without clues, as a text of zeros. *)
Example C106_example_sudoku :
  parse_sudoku (replicate 81 48) = Ok (replicate 81 0) /\ forall i j, ~ clash (N.to_nat <$> replicate 81 0) i j.
Proof.
  split; [by vm_compute|]. intros i j H. rewrite fmap_replicate in H. destruct H as (_&v&Hv&H&_). apply lookup_replicate in H as [-> _]. by apply Hv.
Qed.
