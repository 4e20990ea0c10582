(** Images: the part of the [image] and [imageproc] crates that the printing
    functions rely on.  Not code of /repo; the assumed behaviour is part of the
    trusted base. *)
From Verif Require Import Base.

(** [Rgb<u8>]. *)
Record rgb := Rgb { red : N; green : N; blue : N }.
Global Instance rgb_eq_dec : EqDecision rgb.
Proof. solve_decision. Defined.

(** /repo/src/util.rs:4-7. *)
Definition WHITE_PIXEL : rgb := Rgb 255 255 255.
Definition BLACK_PIXEL : rgb := Rgb 0 0 0.
Definition RED_PIXEL : rgb := Rgb 255 0 0.
Definition GRAY_PIXEL : rgb := Rgb 105 105 105.

(** [RgbBuffer] (/repo/src/lib.rs:17): a size and the pixels.  The value of
    [i_pix] outside the size has no meaning. *)
Record image := Image { i_width : N; i_height : N; i_pix : N -> N -> rgb }.

(** [ImageBuffer::from_pixel]: panics if the buffer size does not fit usize,
    or if it exceeds isize::MAX bytes (capacity check of [vec!]). *)
Definition from_pixel (ws : word) (w h : N) (c : rgb) : res image :=
  if (w * h * 3 <=? isize_max ws)%N then Ret (Image w h (fun _ _ => c))
  else Fault Panic.

(** Pixel update. *)
Definition set_pix (im : image) (x y : N) (c : rgb) : image :=
  Image (i_width im) (i_height im)
    (fun x' y' => if ((x' =? x) && (y' =? y))%N then c else i_pix im x' y').

(** [ImageBuffer::put_pixel]: panics outside the image. *)
Definition put_pixel (im : image) (x y : N) (c : rgb) : res image :=
  if ((x <? i_width im) && (y <? i_height im))%N then Ret (set_pix im x y c)
  else Fault Panic.

(** [x as i32] for a u32 [x]. *)
Definition as_i32 (x : N) : Z :=
  (if (x <? 2 ^ 31)%N then Z.of_N x else Z.of_N x - 2 ^ 32)%Z.

(** [imageproc::drawing::draw_filled_rect_mut] with
    [Rect::at(x, y).of_size(w, h)]: paints the part of the rectangle that lies
    inside the image.  imageproc computes the bounds of the image in i32; this
    is the behaviour for images with sides below 2^31, and the theorems are
    restricted to these. *)
Definition draw_filled_rect (im : image) (x y : Z) (w h : N) (c : rgb) : image :=
  Image (i_width im) (i_height im)
    (fun x' y' =>
       if ((x <=? Z.of_N x') && (Z.of_N x' <? x + Z.of_N w) &&
           (y <=? Z.of_N y') && (Z.of_N y' <? y + Z.of_N h) &&
           (Z.of_N x' <? Z.of_N (i_width im)) && (Z.of_N y' <? Z.of_N (i_height im)))%Z
       then c else i_pix im x' y').

(** [imageproc::drawing::draw_text_mut(image, BLACK, x, y, scale, font, text)]:
    an arbitrary function of its arguments; the theorems assume only that it
    keeps the image size.  Text is a list of characters. *)
Definition text_renderer : Type := image -> Z -> Z -> N -> list N -> image.

(** Decimal digits of a number ([to_string()]). *)
Definition ch_digit (d : N) : N := (48 + d)%N.
Fixpoint dec_digits (fuel : nat) (n : N) (acc : list N) : list N :=
  match fuel with
  | 0 => acc
  | S fuel =>
      let acc := ch_digit (n mod 10) :: acc in
      if (n <? 10)%N then acc else dec_digits fuel (n / 10) acc
  end.
Definition to_decimal (n : N) : list N := dec_digits (S (N.to_nat (N.log2 n))) n [].
