(** Model of /repo/src/puzzles/sudoku/mod.rs. *)
From Verif Require Import Base Image Dlx.
From stdpp Require Import sorting.

(** sudoku/mod.rs:12. *)
Definition GRID_SIZE : nat := 9.

(** sudoku/mod.rs:14-36 [SUDOKU_CONSTRAINTS]: the four families of 81
    constraints, in index order (0-80, 81-161, 162-242, 243-323). *)
Definition family (f : nat -> nat -> nat) : list (list nat) :=
  (fun index => (fun inner => f index inner) <$> seq 0 9) <$> seq 0 81.
Definition SUDOKU_CONSTRAINTS : list (list nat) :=
  family (fun index inner => index * 9 + inner) ++
  family (fun index inner => index `mod` 9 + inner * 9 + (index `div` 9) * 81) ++
  family (fun index inner => index + inner * 81) ++
  family (fun index inner =>
    index `mod` 9 + (inner `mod` 3) * 9 + (inner `div` 3) * 81
    + ((index `mod` 27) `div` 9) * 27 + (index `div` 27) * 243).

(** sudoku/mod.rs:38-46 [SudokuError]. *)
Inductive sudoku_error :=
| InvalidInteger (c : N)
| InvalidSize (n : nat)
| NoSolution.

(** [char::to_digit(10)] on a Unicode scalar value. *)
Definition to_digit (c : N) : option N :=
  if ((48 <=? c) && (c <=? 57))%N then Some (c - 48)%N else None.

(** The [map(...).collect::<Result<..>>()] of sudoku/mod.rs:49-56: stops at the
    first character that is not a digit. *)
Fixpoint parse_digits (s : list N) : result (list N) sudoku_error :=
  match s with
  | [] => Ok []
  | c :: s =>
      match to_digit c with
      | None => Err (InvalidInteger c)
      | Some d =>
          match parse_digits s with
          | Ok ds => Ok (d :: ds)
          | Err e => Err e
          end
      end
  end.

(** sudoku/mod.rs:48-63 [parse_sudoku]; a string is its list of characters. *)
Definition parse_sudoku (puzzle : list N) : result (list N) sudoku_error :=
  match parse_digits puzzle with
  | Err e => Err e
  | Ok ds =>
      if decide (length ds = GRID_SIZE * GRID_SIZE) then Ok ds
      else Err (InvalidSize (length ds))
  end.

(** sudoku/mod.rs:76-86: feed the clues to the matrix.  [Ret (Err ..)] is the
    early return; the matrix is dropped on that path. *)
Fixpoint add_clues (fuel : nat) (clues : list (nat * nat)) (mx : matrix)
    : res (result matrix sudoku_error * matrix) :=
  match clues with
  | [] => Ret (Ok mx, mx)
  | (index, value) :: clues =>
      if decide (value = 0) then add_clues fuel clues mx
      else
        let! (r, mx) := add_solution fuel mx (index * 9 + value - 1) in
        match r with
        | Err InvalidRow => Ret (Err NoSolution, mx)
        | _ => add_clues fuel clues mx
        end
  end.

(** [sort_unstable] on row numbers. *)
Definition sort_rows : list nat -> list nat := merge_sort (fun x y => x <= y).

(** sudoku/mod.rs:65-91 [solve_sudoku].  Entries are u8 values.  Returns the
    answer together with the heap that remains when the function returns. *)
Definition solve_sudoku (fuel : nat) (puzzle : list nat)
    : res (result (list nat) sudoku_error * heap) :=
  if decide (length puzzle <> GRID_SIZE * GRID_SIZE)
  then Ret (Err (InvalidSize (length puzzle)), ∅)
  else
    let! mx := matrix_new SUDOKU_CONSTRAINTS in
    let! (r, mx) := add_clues fuel (enumerate puzzle) mx in
    match r with
    | Err e =>
        let! h := matrix_drop fuel (d_root mx) (d_heap mx) in
        Ret (Err e, h)
    | Ok mx =>
        let! (s, h) := solve fuel mx in
        match s with
        | Err _ => Ret (Err NoSolution, h)
        | Ok sol => Ret (Ok ((fun num => num `mod` 9 + 1) <$> sort_rows sol), h)
        end
    end.

(** sudoku/mod.rs:104-119: the grid lines. *)
Definition IMAGE_SIZE : N := 900.
Definition draw_grid (im : image) : res image :=
  foldM (fun grid_pos im =>
    foldM (fun line_coord im =>
      let! grid_coord := u32_mul (Mode Debug W32) grid_pos 100 in
      let! im :=
        if ((grid_pos mod 3 =? 0) && negb (grid_pos =? 0) && negb (grid_pos =? 8))%N then
          let! g1 := u32_add (Mode Debug W32) grid_coord 1 in
          let! g0 := u32_sub (Mode Debug W32) grid_coord 1 in
          let! im := put_pixel im line_coord g1 BLACK_PIXEL in
          let! im := put_pixel im line_coord g0 BLACK_PIXEL in
          let! im := put_pixel im g1 line_coord BLACK_PIXEL in
          put_pixel im g0 line_coord BLACK_PIXEL
        else Ret im in
      let! im := put_pixel im line_coord grid_coord BLACK_PIXEL in
      put_pixel im grid_coord line_coord BLACK_PIXEL)
      (range 0 IMAGE_SIZE) im)
    (range 0 9) im.

(** sudoku/mod.rs:121-138: the digits. *)
Definition draw_digits (text : text_renderer) (puzzle : list N) (im : image) : image :=
  fold_left (fun im '(i, number) =>
    if (number =? 0)%N then im
    else
      let x := (Z.of_nat (i `mod` 9) * 100 + 25)%Z in
      let y := (Z.of_nat (i `div` 9) * 100 + 5)%Z in
      text im x y 100%N (to_decimal number)) (enumerate puzzle) im.

(** sudoku/mod.rs:93-141 [print_sudoku].  Constant-size arithmetic cannot
    overflow, so only a 32-bit machine with overflow checks is modelled. *)
Definition print_sudoku (text : text_renderer) (puzzle : list N)
    : res (result image sudoku_error) :=
  if decide (length puzzle <> GRID_SIZE * GRID_SIZE)
  then Ret (Err (InvalidSize (length puzzle)))
  else
    let! im := from_pixel W32 IMAGE_SIZE IMAGE_SIZE WHITE_PIXEL in
    let! im := draw_grid im in
    Ret (Ok (draw_digits text puzzle im)).
