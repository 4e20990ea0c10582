(** A family of nonograms whose lines have to be settled one after the other. *)
From Verif Require Import Base Nonogram.

(** [n] rows and [n + 2] columns. *)
Definition chain_cols (n : nat) : list (list nat) := [n] :: [1] :: replicate (n - 1) [2] ++ [[1]].
Definition chain_rows (n : nat) : list (list nat) := [3] :: replicate (n - 1) [1; 2].
(** The picture: the first column, and a staircase. *)
Definition stair (i j : nat) : bool := (j =? 0) || (j =? i + 1) || (j =? i + 2).
Definition chain_picture (n : nat) : list bool :=
  (fun p => stair (p `div` (n + 2)) (p mod (n + 2))) <$> seq 0 ((n + 2) * n).
