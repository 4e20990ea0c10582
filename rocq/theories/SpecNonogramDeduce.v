(** What can be concluded from a single line when whole blocks are followed,
    and grids in which nothing more can be concluded; independent of the
    solver. *)
From Verif Require Import Base Nonogram SpecNonogram.

(** Number of blocks of [b] that begin at or before cell [i]. *)
Definition block_no (b : list bool) (i : nat) : nat :=
  length (filter (fun s => s <= i) (starts b)).

(** In every filling of the line cell [i] has the value [v], and it always
    belongs to the same block (or to the gap after the same block). *)
Definition forced (rule : list nat) (line : list square) (i : nat) (v : bool) : Prop :=
  exists k, forall b, fits rule line b -> b !! i = Some v /\ block_no b i = k.

(** The line can be filled and no blank square is forced. *)
Definition closed (rule : list nat) (line : list square) : Prop :=
  (exists b, fits rule line b) /\
  forall i v, line !! i = Some Blank -> ~ forced rule line i v.

Definition closed_grid (col row : list (list nat)) (k : list square) : Prop :=
  length k = length col * length row /\
  (forall x rule, col !! x = Some rule -> closed rule (grid_col (length col) (length row) k x)) /\
  (forall y rule, row !! y = Some rule -> closed rule (grid_row (length col) k y)).

(** [k'] has at least the information of [k]. *)
Definition refines (k k' : list square) : Prop :=
  Forall2 (fun a b => a = Blank \/ a = b) k k'.
