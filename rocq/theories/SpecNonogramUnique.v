(** Sizes of grids. *)
From Verif Require Import Base.

(** One square wide or high, or at most 3 x 3. *)
Definition always_found (w h : nat) : Prop := w = 1 \/ h = 1 \/ w <= 3 /\ h <= 3.
