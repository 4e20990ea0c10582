(** Solutions of nonograms on images of all sizes. *)
From Verif Require Import Base Image Nonogram SpecPrint.
Local Open Scope N_scope.

Definition same_pixels (im im' : image) : Prop :=
  i_width im = i_width im' /\ i_height im = i_height im' /\ forall x y, i_pix im x y = i_pix im' x y.
(** The same answer, or the same fault. *)
Definition same_result (a b : res (result image nonogram_error)) : Prop :=
  match a, b with
  | Ret (Ok im), Ret (Ok im') => same_pixels im im'
  | Ret (Err e), Ret (Err e') => e = e'
  | Fault f, Fault f' => f = f'
  | _, _ => False
  end.

(** A filled square whose left or top edge is at one of the 49 pixels before
    2^31: its other edge is not a signed number of 32 bits.  Squares are numbered
    modulo 2^32. *)
Definition near_limit (width height : N) (i : nat) : Prop :=
  let k := N.of_nat i mod 2 ^ 32 in
  2 ^ 31 - 49 <= margin width + 50 * (k mod width) + 1 < 2 ^ 31 \/
  2 ^ 31 - 49 <= margin height + 50 * (k / width) + 1 < 2 ^ 31.
