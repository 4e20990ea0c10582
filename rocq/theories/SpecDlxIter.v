(** Constraint iterators that panic, for C114. *)
From Verif Require Import Base Dlx SpecDlx.
From Verif Require DlxIter.

(** Constraints that do not panic: the length each one claims and its rows. *)
Definition calm (lcs : list (N * list nat)) : list (option DlxIter.constraint) :=
  map (fun c => Some (Some c.1, Some <$> c.2)) lcs.

(** The caller's code panics after these constraints, or in [len] of the next
    one, or after some rows of the next one. *)
Inductive panics_after (lcs : list (N * list nat)) : list (list nat) -> list (option DlxIter.constraint) -> Prop :=
| panics_outer rest : panics_after lcs lcs.*2 (calm lcs ++ None :: rest)
| panics_len items rest : panics_after lcs lcs.*2 (calm lcs ++ Some (None, items) :: rest)
| panics_row len rows items rest :
    panics_after lcs (lcs.*2 ++ [rows]) (calm lcs ++ Some (Some len, (Some <$> rows) ++ None :: items) :: rest).
