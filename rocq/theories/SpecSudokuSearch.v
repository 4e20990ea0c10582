(** Solving a Sudoku by trial: which grid is found when there are several. *)
From Verif Require Import Base SpecSudoku SpecDlxSearch.

(** Digit [x.2] may be written into cell [x.1]: the cell is empty and no unit of
    the cell has the digit. *)
Definition legal (p : list nat) (x : nat * nat) : Prop :=
  p !! x.1 = Some 0 /\ Forall (fun u => x.1 ∈ u -> Forall (fun c => p !! c <> Some x.2) u) units.

(** Which digit is in a cell, and which cell of a unit has a digit: every cell,
    then every unit and digit. *)
Definition cell_question (c : nat) : list (nat * nat) := (fun v => (c, v)) <$> seq 1 9.
Definition unit_question (u : list nat) (v : nat) : list (nat * nat) := (fun c => (c, v)) <$> u.
Definition questions : list (list (nat * nat)) :=
  (cell_question <$> seq 0 81) ++ mjoin ((fun u => unit_question u <$> seq 1 9) <$> units).
Definition answered (p : list nat) (q : list (nat * nat)) : Prop := Exists (fun x => p !! x.1 = Some x.2) q.
(** The legal answers of the open questions. *)
Definition open_questions (p : list nat) : list (list (nat * nat)) :=
  filter (legal p) <$> filter (fun q => ~ answered p q) questions.

(** Try the legal answers of the first question with the fewest of them, in
    order.  Every answer fills a cell, so 81 levels are enough. *)
Fixpoint sudoku_search (levels : nat) (p : list nat) : option (list nat) :=
  match open_questions p, levels with
  | [], _ => Some p
  | _ :: _, O => None
  | q :: qs, S levels => first_some (fun x => sudoku_search levels (<[x.1 := x.2]> p)) (shortest q qs)
  end.
