(** What printed Sudoku and nonogram puzzles should look like. *)
From Verif Require Import Base Image.
From Verif Require Export SpecWord.
Local Open Scope N_scope.

(** A text renderer that keeps the size of the image. *)
Definition keeps_size (text : text_renderer) : Prop :=
  forall im x y s t, i_width (text im x y s t) = i_width im /\ i_height (text im x y s t) = i_height im.

(** A list of texts (position, scale, characters) drawn one after the other. *)
Definition draw_texts (text : text_renderer) (ts : list (Z * Z * N * list N)) (im : image) : image :=
  fold_left (fun im '(x, y, s, t) => text im x y s t) ts im.

(** * Sudoku: 9x9 cells of 100 pixels; thick lines between boxes. *)
Definition sudoku_line (v : N) : Prop :=
  v mod 100 = 0 \/ v = 299 \/ v = 301 \/ v = 599 \/ v = 601.
Definition sudoku_black (x y : N) : Prop := sudoku_line x \/ sudoku_line y.
(** The digit of each non-empty cell, in reading order. *)
Definition sudoku_texts (puzzle : list N) : list (Z * Z * N * list N) :=
  omap (fun '(i, v) => if v =? 0 then None else
    Some ((100 * Z.of_nat (i mod 9) + 25)%Z, (100 * Z.of_nat (i / 9) + 5)%Z, 100, to_decimal v))
    (imap pair puzzle).

(** * Nonograms: margin for the rules, cells of 50 pixels. *)
Definition margin (n : N) : N := N.max 150 (10 * n).
Definition side (n : N) : N := 50 * n + margin n.
(** A line of the grid with [n] cells along this axis, every fifth thick. *)
Definition grid_line (n v : N) : Prop :=
  exists k, k < n /\ (v = margin n + 50 * k \/
    (k mod 5 = 0 /\ (v = margin n + 50 * k + 1 \/ v + 1 = margin n + 50 * k))).
Definition nonogram_gray (width height x y : N) : Prop := grid_line width x \/ grid_line height y.

(** Strictly inside the cell in column [c], row [r]. *)
Definition cell_interior (width height c r x y : N) : Prop :=
  margin width + 50 * c < x < margin width + 50 * (c + 1) /\
  margin height + 50 * r < y < margin height + 50 * (r + 1).
Definition filled_pixel (width height : N) (grid : list bool) (x y : N) : Prop :=
  exists c r, c < width /\ grid !! N.to_nat (r * width + c) = Some true /\
    cell_interior width height c r x y.

(** Texts of the column rules (one number below the other) and row rules (numbers
    joined by two spaces). *)
Definition col_texts (width : N) (col : list (list N)) : list (Z * Z * N * list N) :=
  mjoin (imap (fun x rule => imap (fun y v =>
    ((50 * Z.of_nat x + Z.of_N (margin width) + 15)%Z, (30 * Z.of_nat y + 10)%Z, 30, to_decimal v)) rule) col).
Fixpoint spaced (l : list (list N)) : list N :=
  match l with
  | [] => []
  | [x] => x
  | x :: l => x ++ [32; 32] ++ spaced l
  end.
Definition row_texts (height : N) (row : list (list N)) : list (Z * Z * N * list N) :=
  imap (fun y rule =>
    (10%Z, (50 * Z.of_nat y + Z.of_N (margin height) + 10)%Z, 30, spaced (to_decimal <$> rule))) row.

(** Sizes for which no u32/i32 arithmetic overflows and the image can be
    stored. *)
Definition nonogram_printable (ws : word) (width height : N) (col : list (list N)) : Prop :=
  side width < 2 ^ 31 /\ side height < 2 ^ 31 /\ side width * side height * 3 < memory_limit ws /\
  Forall (fun rule => 30 * N.of_nat (length rule) < 2 ^ 31) col.
