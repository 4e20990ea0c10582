(** Sudoku puzzles and their completions as texts. *)
From Verif Require Import Base SpecSudoku.

Definition grid_text (g : list nat) : list N := (fun v => digit_char (N.of_nat v)) <$> g.
(** [t] is a completed grid agreeing with [s] wherever [s] has no 0. *)
Definition text_completes (s t : list N) : Prop :=
  (exists g, complete_grid g /\ t = grid_text g) /\ Forall2 (fun a b => a = 48%N \/ a = b) s t.
