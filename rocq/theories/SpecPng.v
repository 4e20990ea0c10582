(** What is assumed of PNG encoders. *)
From Verif Require Import Base Image Png.

(** Images that are not empty are encoded, after the bytes already there. *)
Definition encodes {E} (encode : png_encoder E) : Prop :=
  forall im, (0 < i_width im)%N -> (0 < i_height im)%N ->
    exists bytes, forall before, encode im before = Ok (before ++ bytes).
(** Empty images are refused (PNG has none). *)
Definition refuses_empty {E} (encode : png_encoder E) : Prop :=
  forall im before, i_width im = 0%N \/ i_height im = 0%N -> exists e, encode im before = Err e.

(** The bytes are what the encoder writes, nothing before or after them. *)
Definition encoded {E} (encode : png_encoder E) (im : image) (r : result (list N) E) : Prop :=
  exists bytes, r = Ok bytes /\ forall before, encode im before = Ok (before ++ bytes).

(** Sides that wrap to an empty image: in a build without overflow checks the
    odd multiples of 2^30. *)
Definition empty_side (m : mode) (n : N) : Prop := profile_of m = Release /\ (n mod 2 ^ 31 = 2 ^ 30)%N.
