(** Model of [image_to_png_bytes] in /repo/src/lib.rs. *)
From Verif Require Import Base Image.

(** [write_to] of the [image] crate for PNG: what is written after the bytes
    already there; an arbitrary function. *)
Definition png_encoder (E : Type) : Type := image -> list N -> result (list N) E.

(** lib.rs:20-25. *)
Definition image_to_png_bytes {E} (encode : png_encoder E) (im : image) : result (list N) E :=
  match encode im [] with
  | Ok bytes => Ok bytes
  | Err e => Err e
  end.
