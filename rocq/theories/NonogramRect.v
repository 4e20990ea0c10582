(** [print_nonogram_solution] with the rectangles of imageproc 0.25 as that
    library computes them, with signed numbers of 32 bits.  [Image] has a simpler
    [draw_filled_rect], which is right for images with sides below 2^31
    (C104_same). *)
From Verif Require Import Base Image Nonogram NonogramPrint.

(** Arithmetic on i32. *)
Definition i32_arith (m : mode) (z : Z) : res Z :=
  if ((- 2 ^ 31 <=? z) && (z <? 2 ^ 31))%Z then Ret z
  else match profile_of m with
       | Debug => Fault Panic
       | Release => Ret ((z + 2 ^ 31) mod 2 ^ 32 - 2 ^ 31)%Z
       end.

(** [Rect::right] and [Rect::bottom]: [left + (width as i32) - 1]. *)
Definition rect_end (m : mode) (start : Z) (size : N) : res Z :=
  let! e := i32_arith m (start + as_i32 size)%Z in
  i32_arith m (e - 1)%Z.

(** [draw_filled_rect_mut(canvas, Rect::at(x, y).of_size(w, h), c)]: [of_size]
    panics for size 0 (here of the canvas; [w] and [h] are 49 in the code);
    [Rect::intersect] of the canvas and the rectangle, then a loop over its
    pixels. *)
Definition draw_rect32 (m : mode) (im : image) (x y : Z) (w h : N) (c : rgb) : res image :=
  if ((i_width im =? 0) || (i_height im =? 0))%N then Fault Panic
  else
    let! canvas_right := rect_end m 0 (i_width im) in
    let! rect_right := rect_end m x w in
    let! canvas_bottom := rect_end m 0 (i_height im) in
    let! rect_bottom := rect_end m y h in
    let x0 := Z.max 0 x in
    let y0 := Z.max 0 y in
    let x1 := Z.min canvas_right rect_right in
    let y1 := Z.min canvas_bottom rect_bottom in
    if ((x1 <? x0) || (y1 <? y0))%Z then Ret im
    else
      foldM (fun dy im =>
        foldM (fun dx im => put_pixel im (Z.to_N x0 + dx)%N (Z.to_N y0 + dy)%N c)
          (range 0 (Z.to_N (x1 - x0) + 1)%N) im)
        (range 0 (Z.to_N (y1 - y0) + 1)%N) im.

(** [draw_cells]. *)
Definition draw_cells32 (m : mode) (width height : N) (grid : list bool) (im : image) : res image :=
  foldM (fun '(i, sq) im =>
    if negb sq then Ret im
    else
      let! c := u32_rem (as_u32 (N.of_nat i)) width in
      let! c50 := u32_mul m c 50 in
      let! rw := rule_space m width in
      let! cx := u32_add m c50 rw in
      let! x := u32_add m cx 1 in
      let! r := u32_div (as_u32 (N.of_nat i)) width in
      let! r50 := u32_mul m r 50 in
      let! rh := rule_space m height in
      let! ry := u32_add m r50 rh in
      let! y := u32_add m ry 1 in
      draw_rect32 m im (as_i32 x) (as_i32 y) 49 49 BLACK_PIXEL) (enumerate grid) im.

(** [print_nonogram_solution]. *)
Definition print_solution32 (m : mode) (width height : N) (im : image) (grid : list bool)
    : res (result image nonogram_error) :=
  let! rule_width := rule_space m width in
  let! rule_height := rule_space m height in
  let! n := usize_mul m width height in
  if negb (N.of_nat (length grid) =? n)%N then Ret (Err InvalidDimensions)
  else
    let! w50 := u32_mul m width 50 in
    let! iw := u32_add m w50 rule_width in
    if negb (i_width im =? iw)%N then Ret (Err InvalidDimensions)
    else
      let! h50 := u32_mul m height 50 in
      let! ih := u32_add m h50 rule_height in
      if negb (i_height im =? ih)%N then Ret (Err InvalidDimensions)
      else
        let! im := draw_cells32 m width height grid im in
        Ret (Ok im).
