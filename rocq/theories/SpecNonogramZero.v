(** Clues in which a zero stands for no block. *)
From Verif Require Import Base.

Definition no_zeros (rule : list nat) : list nat := filter (fun v => v <> 0) rule.
