(** Symmetries of Sudoku. *)
From Verif Require Import Base SpecSudoku.

(** [f] takes every unit to a unit. *)
Definition maps_units (f : nat -> nat) : Prop :=
  forall u, u ∈ units -> exists u', u' ∈ units /\ forall c, c < 81 -> (c ∈ u <-> f c ∈ u').

(** Cell [c] goes to [pi c] and digit [v] becomes [rho v]; [pi'] and [rho'] are
    the way back. *)
Definition symmetry (pi pi' rho rho' : nat -> nat) : Prop :=
  (forall c, c < 81 -> pi c < 81 /\ pi' c < 81 /\ pi' (pi c) = c /\ pi (pi' c) = c) /\
  (forall v, 1 <= v <= 9 -> 1 <= rho v <= 9 /\ 1 <= rho' v <= 9 /\ rho' (rho v) = v /\ rho (rho' v) = v) /\
  rho 0 = 0 /\ rho' 0 = 0 /\ maps_units pi /\ maps_units pi'.

(** The grid after the symmetry. *)
Definition moved (pi' rho : nat -> nat) (p : list nat) : list nat :=
  (fun c => rho (p !!! pi' c)) <$> seq 0 81.

(** Rows and columns exchanged. *)
Definition flip_cell (c : nat) : nat := c `mod` 9 * 9 + c `div` 9.
(** Rows permuted by [r], columns by [s]. *)
Definition permute_cells (r s : nat -> nat) (c : nat) : nat := r (c `div` 9) * 9 + s (c `mod` 9).
(** [r] permutes 0-8, with inverse [r'], taking every block of three (0-2, 3-5,
    6-8) to a block of three. *)
Definition block_permutation (r r' : nat -> nat) : Prop :=
  (forall i, i < 9 -> r i < 9 /\ r' i < 9 /\ r' (r i) = i /\ r (r' i) = i) /\
  (forall i j, i < 9 -> j < 9 -> (i `div` 3 = j `div` 3 <-> r i `div` 3 = r j `div` 3)).
