(** Model of [print_nonogram] and [print_nonogram_solution] in
    /repo/src/puzzles/nonogram/mod.rs. *)
From Verif Require Import Base Image Nonogram.

(** mod.rs:131-132, 209-210: [max(150, n * 10)]. *)
Definition rule_space (m : mode) (n : N) : res N :=
  let! t := u32_mul m n 10 in Ret (N.max 150 t).

(** [Vec<String>::join("  ")] (mod.rs:170-174). *)
Fixpoint join_text (sep : list N) (l : list (list N)) : list N :=
  match l with
  | [] => []
  | [x] => x
  | x :: l => x ++ sep ++ join_text sep l
  end.

(** mod.rs:142-158: the column rules. *)
Definition draw_col_rules (m : mode) (text : text_renderer) (rule_width : N)
    (col : list (list N)) (im : image) : res image :=
  foldM (fun '(x, rule) im =>
    let! x50 := u32_mul m (as_u32 (N.of_nat x)) 50 in
    let! xr := u32_add m x50 rule_width in
    let! px := u32_add m xr 15 in
    foldM (fun '(y, value) im =>
      let! y30 := u32_mul m (as_u32 (N.of_nat y)) 30 in
      let! py := u32_add m y30 10 in
      Ret (text im (as_i32 px) (as_i32 py) 30%N (to_decimal value))) (enumerate rule) im)
    (enumerate col) im.

(** mod.rs:160-176: the row rules. *)
Definition draw_row_rules (m : mode) (text : text_renderer) (rule_height : N)
    (row : list (list N)) (im : image) : res image :=
  foldM (fun '(y, rule) im =>
    let! y50 := u32_mul m (as_u32 (N.of_nat y)) 50 in
    let! yr := u32_add m y50 rule_height in
    let! py := u32_add m yr 10 in
    Ret (text im 10%Z (as_i32 py) 30%N (join_text [32; 32]%N (to_decimal <$> rule))))
    (enumerate row) im.

(** mod.rs:178-187: vertical lines. *)
Definition draw_vlines (m : mode) (width height rule_width rule_height : N) (im : image)
    : res image :=
  foldM (fun x im =>
    let! h50 := u32_mul m height 50 in
    let! hh := u32_add m h50 rule_height in
    foldM (fun y im =>
      let! x50 := u32_mul m x 50 in
      let! px := u32_add m x50 rule_width in
      let! im := put_pixel im px y GRAY_PIXEL in
      if (x mod 5 =? 0)%N then
        let! p1 := u32_add m px 1 in
        let! im := put_pixel im p1 y GRAY_PIXEL in
        let! p0 := u32_sub m px 1 in
        put_pixel im p0 y GRAY_PIXEL
      else Ret im) (range 0 hh) im) (range 0 width) im.

(** mod.rs:189-198: horizontal lines. *)
Definition draw_hlines (m : mode) (width height rule_width rule_height : N) (im : image)
    : res image :=
  foldM (fun y im =>
    let! w50 := u32_mul m width 50 in
    let! ww := u32_add m w50 rule_width in
    foldM (fun x im =>
      let! y50 := u32_mul m y 50 in
      let! py := u32_add m y50 rule_height in
      let! im := put_pixel im x py GRAY_PIXEL in
      if (y mod 5 =? 0)%N then
        let! p1 := u32_add m py 1 in
        let! im := put_pixel im x p1 GRAY_PIXEL in
        let! p0 := u32_sub m py 1 in
        put_pixel im x p0 GRAY_PIXEL
      else Ret im) (range 0 ww) im) (range 0 height) im.

(** mod.rs:121-201 [print_nonogram]. *)
Definition print_nonogram (m : mode) (text : text_renderer) (width height : N)
    (col row : list (list N)) : res (result image nonogram_error) :=
  if negb (width =? N.of_nat (length col))%N || negb (height =? N.of_nat (length row))%N
  then Ret (Err InvalidDimensions)
  else
    let! rule_width := rule_space m width in
    let! rule_height := rule_space m height in
    let! w50 := u32_mul m width 50 in
    let! iw := u32_add m w50 rule_width in
    let! h50 := u32_mul m height 50 in
    let! ih := u32_add m h50 rule_height in
    let! im := from_pixel m iw ih WHITE_PIXEL in
    let! im := draw_col_rules m text rule_width col im in
    let! im := draw_row_rules m text rule_height row im in
    let! im := draw_vlines m width height rule_width rule_height im in
    let! im := draw_hlines m width height rule_width rule_height im in
    Ret (Ok im).

(** mod.rs:219-232: the filled cells. *)
Definition draw_cells (m : mode) (width height : N) (grid : list bool) (im : image) : res image :=
  foldM (fun '(i, sq) im =>
    if negb sq then Ret im
    else
      let! c := u32_rem (as_u32 (N.of_nat i)) width in
      let! c50 := u32_mul m c 50 in
      let! rw := rule_space m width in
      let! cx := u32_add m c50 rw in
      let! x := u32_add m cx 1 in
      let! r := u32_div (as_u32 (N.of_nat i)) width in
      let! r50 := u32_mul m r 50 in
      let! rh := rule_space m height in
      let! ry := u32_add m r50 rh in
      let! y := u32_add m ry 1 in
      Ret (draw_filled_rect im (as_i32 x) (as_i32 y) 49 49 BLACK_PIXEL)) (enumerate grid) im.

(** mod.rs:203-235 [print_nonogram_solution]. *)
Definition print_nonogram_solution (m : mode) (width height : N) (im : image) (grid : list bool)
    : res (result image nonogram_error) :=
  let! rule_width := rule_space m width in
  let! rule_height := rule_space m height in
  let! n := usize_mul m width height in
  if negb (N.of_nat (length grid) =? n)%N then Ret (Err InvalidDimensions)
  else
    let! w50 := u32_mul m width 50 in
    let! iw := u32_add m w50 rule_width in
    if negb (i_width im =? iw)%N then Ret (Err InvalidDimensions)
    else
      let! h50 := u32_mul m height 50 in
      let! ih := u32_add m h50 rule_height in
      if negb (i_height im =? ih)%N then Ret (Err InvalidDimensions)
      else
        let! im := draw_cells m width height grid im in
        Ret (Ok im).
