(** Specification of Sudoku, independent of the solver. *)
From Verif Require Import Base.

(** ASCII digits and their values. *)
Definition is_digit (c : N) : Prop := (48 <= c <= 57)%N.
Definition digit_value (c : N) : N := (c - 48)%N.
Definition digit_char (d : N) : N := (d + 48)%N.

(** A puzzle: 81 entries 0-9 in row-major order, 0 meaning empty. *)
Definition puzzle_ok (p : list nat) : Prop :=
  length p = 81 /\ Forall (fun v => v <= 9) p.

(** The cells of unit [u]: the 9 rows, 9 columns and 9 boxes. *)
Definition row_cells (u : nat) : list nat := (fun k => u * 9 + k) <$> seq 0 9.
Definition col_cells (u : nat) : list nat := (fun k => k * 9 + u) <$> seq 0 9.
Definition box_cells (u : nat) : list nat :=
  (fun k => (u `div` 3 * 3 + k `div` 3) * 9 + u `mod` 3 * 3 + k `mod` 3) <$> seq 0 9.
Definition units : list (list nat) :=
  (row_cells <$> seq 0 9) ++ (col_cells <$> seq 0 9) ++ (box_cells <$> seq 0 9).

(** A completed grid: 81 entries 1-9 such that every unit contains every digit
    (hence exactly once, a unit having 9 cells). *)
Definition complete_grid (g : list nat) : Prop :=
  length g = 81 /\ Forall (fun v => 1 <= v <= 9) g /\
  forall u v, u ∈ units -> 1 <= v <= 9 -> exists! c, c ∈ u /\ g !! c = Some v.

(** [g] completes [p]: it is a completed grid keeping every clue. *)
Definition completes (p g : list nat) : Prop :=
  complete_grid g /\ forall i v, p !! i = Some v -> v <> 0 -> g !! i = Some v.

(** Choice number [c * 9 + (v - 1)] stands for digit [v] in cell [c]; the
    choices made by a grid. *)
Definition choices (g : list nat) : list nat := imap (fun c v => c * 9 + (v - 1)) g.

(** Two equal clues in cells [i < j] of a common unit. *)
Definition clash (p : list nat) (i j : nat) : Prop :=
  i < j /\ exists v, v <> 0 /\ p !! i = Some v /\ p !! j = Some v /\
    exists u, u ∈ units /\ i ∈ u /\ j ∈ u.
(** The clash met first when reading the clues in order. *)
Definition first_clash (p : list nat) (i j : nat) : Prop :=
  clash p i j /\ forall i' j', clash p i' j' -> j < j' \/ j = j' /\ i <= i'.
Definition same_box (i j : nat) : Prop := exists u, u < 9 /\ i ∈ box_cells u /\ j ∈ box_cells u.

(** Entries of any size: row number [i * 9 + v - 1] decides which cell and digit
    an entry [v] of cell [i] stands for; numbers from 729 on stand for nothing. *)
Definition reads (p g : list nat) : Prop :=
  forall i v, p !! i = Some v -> v <> 0 -> i * 9 + v - 1 < 729 ->
    g !! (i + (v - 1) `div` 9) = Some ((v - 1) `mod` 9 + 1).
(** Two entries standing for the same cell and digit. *)
Definition repeated (p : list nat) : Prop :=
  exists i j v w, i < j /\ p !! i = Some v /\ p !! j = Some w /\ v <> 0 /\ w <> 0 /\
    i * 9 + v = j * 9 + w /\ i * 9 + v - 1 < 729.
(** Entry [i] stands for digit [v] in cell [c]. *)
Definition stands (p : list nat) (i c v : nat) : Prop :=
  exists x, p !! i = Some x /\ x <> 0 /\ c = i + (x - 1) `div` 9 /\ v = (x - 1) `mod` 9 + 1 /\ c < 81.
(** Entries [i < j] standing for the same cell, or for one digit twice in a unit. *)
Definition collision (p : list nat) (i j : nat) : Prop :=
  i < j /\ exists c v c' v', stands p i c v /\ stands p j c' v' /\
    (c = c' \/ v = v' /\ exists u, u ∈ units /\ c ∈ u /\ c' ∈ u).
Definition first_collision (p : list nat) (i j : nat) : Prop :=
  collision p i j /\ forall i' j', collision p i' j' -> j < j' \/ j = j' /\ i <= i'.
(** They stand for one digit twice in a box. *)
Definition box_collision (p : list nat) (i j : nat) : Prop :=
  exists c c' v, stands p i c v /\ stands p j c' v /\ same_box c c'.
