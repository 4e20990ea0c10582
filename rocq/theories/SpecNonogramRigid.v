(** Lines that can be filled in one way only; independent of the solver. *)
From Verif Require Import Base Nonogram SpecNonogram.

(** At most one filling of a line of [n] squares meets the clue. *)
Definition one_way (n : nat) (rule : list nat) : Prop :=
  forall b b', length b = n -> length b' = n -> spells rule b -> spells rule b' -> b = b'.
