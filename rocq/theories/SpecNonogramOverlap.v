(** The overlap rule for nonograms, independent of the solver. *)
From Verif Require Import Base.

(** Squares needed by a clue, with one empty square between blocks. *)
Definition room (rule : list nat) : nat := sum_list rule + (length rule - 1).
(** Where block [k] begins when all blocks are pushed to the left. *)
Definition first (rule : list nat) (k : nat) : nat := sum_list (take k rule) + k.
(** Square [i] belongs to block [k] of the clue pushed right by [s]. *)
Definition in_block (rule : list nat) (s k i : nat) : Prop :=
  exists v, rule !! k = Some v /\ first rule k + s <= i < first rule k + s + v.
