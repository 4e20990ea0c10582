(** How the work of the exact cover search grows. *)
From Verif Require Import Base.

(** [n] pairs of rows of which one has to be taken, and three constraints of two
    rows each that cannot be satisfied together. *)
Definition hard (n : nat) : list (list nat) :=
  ((fun i => [3 + 2 * i; 4 + 2 * i]) <$> seq 0 n) ++ [[0; 1]; [1; 2]; [0; 2]].
(** 1 + m + m^2 + ... + m^n. *)
Fixpoint tree_size (m n : nat) : nat :=
  match n with
  | 0 => 1
  | S n => 1 + m * tree_size m n
  end.
