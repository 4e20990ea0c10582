(** C90: every image printed by the maze, nonogram and Sudoku solvers can be
    encoded as PNG. *)
From Verif Require Import Base Image Maze MazePrint Nonogram NonogramPrint Sudoku Png SpecPrint SpecPng PrintProofs PngProofs.
Local Open Scope N_scope.

Theorem C90_maze : forall E (encode : png_encoder E) m width height grid im, encodes encode ->
  print_maze m width height grid = Ret (Ok im) -> encoded encode im (image_to_png_bytes encode im).
Proof. exact (fun E encode m width height grid im => encode_ok encode _ im (maze_sides m width height grid)). Qed.
Print Assumptions C90_maze.

Theorem C90_maze_solution : forall E (encode : png_encoder E) m unsolved solution im, encodes encode ->
  print_maze_solution m unsolved solution = Ret (Ok im) -> encoded encode im (image_to_png_bytes encode im).
Proof. exact (fun E encode m unsolved solution im => encode_ok encode _ im (maze_solution_sides m unsolved solution)). Qed.
Print Assumptions C90_maze_solution.

(** Nonograms without overflow checks have an empty image exactly where a side
    is an odd multiple of 2^30. *)
Theorem C90_nonogram : forall E (encode : png_encoder E) m text width height col row im, encodes encode ->
  keeps_size text -> ~ empty_side m width -> ~ empty_side m height ->
  print_nonogram m text width height col row = Ret (Ok im) -> encoded encode im (image_to_png_bytes encode im).
Proof.
  exact (fun E encode m text width height col row im He Ht Hw Hh =>
    encode_ok encode _ im (sided_not_empty m width height _ Hw Hh (nonogram_sided m text width height col row Ht)) He).
Qed.
Print Assumptions C90_nonogram.

Theorem C90_nonogram_solution : forall E (encode : png_encoder E) m width height unsolved grid im, encodes encode ->
  ~ empty_side m width -> ~ empty_side m height ->
  print_nonogram_solution m width height unsolved grid = Ret (Ok im) -> encoded encode im (image_to_png_bytes encode im).
Proof.
  exact (fun E encode m width height unsolved grid im He Hw Hh =>
    encode_ok encode _ im (sided_not_empty m width height _ Hw Hh (nonogram_solution_sided m width height unsolved grid)) He).
Qed.
Print Assumptions C90_nonogram_solution.

Theorem C90_nonogram_refused : forall E (encode : png_encoder E) m text width height col row im, refuses_empty encode ->
  keeps_size text -> empty_side m width \/ empty_side m height ->
  print_nonogram m text width height col row = Ret (Ok im) -> exists e, image_to_png_bytes encode im = Err e.
Proof.
  exact (fun E encode m text width height col row im He Ht Hs =>
    encode_refused encode m width height _ im (nonogram_sided m text width height col row Ht) He Hs).
Qed.
Print Assumptions C90_nonogram_refused.

Theorem C90_nonogram_solution_refused : forall E (encode : png_encoder E) m width height unsolved grid im, refuses_empty encode ->
  empty_side m width \/ empty_side m height ->
  print_nonogram_solution m width height unsolved grid = Ret (Ok im) -> exists e, image_to_png_bytes encode im = Err e.
Proof.
  exact (fun E encode m width height unsolved grid im He Hs =>
    encode_refused encode m width height _ im (nonogram_solution_sided m width height unsolved grid) He Hs).
Qed.
Print Assumptions C90_nonogram_solution_refused.

Theorem C90_sudoku : forall E (encode : png_encoder E) text puzzle im, encodes encode -> keeps_size text ->
  print_sudoku text puzzle = Ret (Ok im) -> encoded encode im (image_to_png_bytes encode im).
Proof. exact (fun E encode text puzzle im He Ht => encode_ok encode _ im (sudoku_sides text puzzle Ht) He). Qed.
Print Assumptions C90_sudoku.

(** Without overflow checks the sides of a nonogram matter. *)
Theorem C90_release_refuted : forall E (encode : png_encoder E) ws text, keeps_size text -> refuses_empty encode ->
  exists width height col row im e, print_nonogram (Mode Release ws) text width height col row = Ret (Ok im) /\
    image_to_png_bytes encode im = Err e.
Proof. exact @nonogram_refused. Qed.
Print Assumptions C90_release_refuted.

(** An encoder as assumed, and images that are printed and encoded. *)
Definition sides_encoder : png_encoder unit := fun im before =>
  if (i_width im =? 0) || (i_height im =? 0) then Err tt else Ok (before ++ [i_width im; i_height im]).
Example C90_encoder : encodes sides_encoder /\ refuses_empty sides_encoder.
Proof.
  unfold encodes, refuses_empty, sides_encoder. split.
  - intros im Hw Hh. exists [i_width im; i_height im]. intros before.
    destruct (N.eqb_spec (i_width im) 0); [lia|]. destruct (N.eqb_spec (i_height im) 0); [lia|]. done.
  - intros im before [-> | ->]; [|rewrite orb_true_r]; by exists tt.
Qed.
Example C90_maze_example :
  match print_maze (Mode Release W64) 2 1 [MazeNode false true; MazeNode true true] with
  | Ret (Ok im) => image_to_png_bytes sides_encoder im
  | _ => Err tt
  end = Ok [21; 11].
Proof. vm_compute. reflexivity. Qed.
Definition no_text : text_renderer := fun im _ _ _ _ => im.
Example C90_no_text : keeps_size no_text.
Proof. done. Qed.
Example C90_nonogram_example :
  match print_nonogram (Mode Release W64) no_text 0 0 [] [] with
  | Ret (Ok im) =>
      match print_nonogram_solution (Mode Release W64) 0 0 im [] with
      | Ret (Ok im) => image_to_png_bytes sides_encoder im
      | _ => Err tt
      end
  | _ => Err tt
  end = Ok [150; 150].
Proof. vm_compute. reflexivity. Qed.
Example C90_maze_solution_example :
  match print_maze (Mode Debug W64) 2 2 (replicate 4 maze_node_new) with
  | Ret (Ok im) =>
      match print_maze_solution (Mode Debug W64) im [Right] with
      | Ret (Ok im) => image_to_png_bytes sides_encoder im
      | _ => Err tt
      end
  | _ => Err tt
  end = Ok [21; 21].
Proof. vm_compute. reflexivity. Qed.
Example C90_sudoku_example : exists im, print_sudoku no_text (replicate 81 0) = Ret (Ok im).
Proof.
  destruct (PrintProofs.print_sudoku_spec no_text (replicate 81 0)) as [_ H].
  destruct (H eq_refl) as (lines & E & _). by eexists.
Qed.
Example C90_empty_side : empty_side (Mode Release W64) (2 ^ 30) /\ ~ empty_side (Mode Debug W64) (2 ^ 30) /\
  ~ empty_side (Mode Release W64) (2 ^ 30 - 1) /\ ~ empty_side (Mode Release W64) (2 ^ 31) /\ empty_side (Mode Release W64) (3 * 2 ^ 30).
Proof. split_and!; try done; try (by intros [H _]); by intros [_ H]. Qed.
