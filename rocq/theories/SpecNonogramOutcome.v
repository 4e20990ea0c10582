(** Which lines can be filled, independent of the solver. *)
From Verif Require Import Base SpecNonogram.

(** Some line of [n] squares has the clue. *)
Definition fillable (n : nat) (rule : list nat) : Prop := exists b, length b = n /\ spells rule b.
(** Square [i] has the value [v] in some line of [n] squares with the clue. *)
Definition can_be (rule : list nat) (n i : nat) (v : bool) : Prop :=
  exists b, length b = n /\ spells rule b /\ b !! i = Some v.
(** Row [y] can be filled with values that its squares can have in their
    columns of [h] squares. *)
Definition row_fillable (col : list (list nat)) (h y : nat) (rule : list nat) : Prop :=
  exists b, length b = length col /\ spells rule b /\
    forall x c v, col !! x = Some c -> b !! x = Some v -> can_be c h y v.
