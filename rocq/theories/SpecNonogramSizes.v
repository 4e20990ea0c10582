(** Counting filled squares; sizes of grids. *)
From Verif Require Import Base.

Definition filled_squares (g : list bool) : nat := length (filter (fun x => x = true) g).
Definition clue_total (rules : list (list nat)) : nat := sum_list (sum_list <$> rules).
