(** Specification of nonograms, independent of the solver. *)
From Verif Require Import Base Nonogram.

(** Lengths of the maximal blocks of true cells; [cur] counts the cells of the
    block being read. *)
Fixpoint blocks (cur : nat) (b : list bool) : list nat :=
  match b with
  | [] => if decide (cur = 0) then [] else [cur]
  | true :: b => blocks (S cur) b
  | false :: b => if decide (cur = 0) then blocks 0 b else cur :: blocks 0 b
  end.
Definition clue_of (b : list bool) : list nat := blocks 0 b.

(** A known square constrains the cell. *)
Definition agrees (sq : square) (x : bool) : Prop :=
  match sq with Blank => True | Filled => x = true | Blocked => x = false end.

(** A line with a single block of [v] filled squares. *)
Definition one_block (v : nat) (b : list bool) : Prop :=
  exists i j, b = replicate i false ++ replicate v true ++ replicate j false.

(** [b] consists of the blocks of the clue in order, with an empty square
    between any two.  The number zero is read literally: a block without
    squares, so that it only widens a gap.  For clues without zero this is
    [clue_of b = rule], see [C34_reading]. *)
Fixpoint spells (rule : list nat) (b : list bool) : Prop :=
  match rule with
  | [] => one_block 0 b
  | [v] => one_block v b
  | v :: rule => exists b1 b2, b = b1 ++ false :: b2 /\ one_block v b1 /\ spells rule b2
  end.

(** [b] fills a line in accordance with its clue and its known squares. *)
Definition fits (rule : list nat) (squares : list square) (b : list bool) : Prop :=
  spells rule b /\ Forall2 agrees squares b.

(** Positions where blocks begin. *)
Fixpoint starts_from (i : nat) (prev : bool) (b : list bool) : list nat :=
  match b with
  | [] => []
  | x :: b => if x && negb prev then i :: starts_from (S i) x b else starts_from (S i) x b
  end.
Definition starts (b : list bool) : list nat := starts_from 0 false b.

Definition positive (rule : list nat) : Prop := Forall (fun v => 0 < v) rule.
(** No zero at either end. *)
Definition proper (rule : list nat) : Prop := head rule <> Some 0 /\ last rule <> Some 0.

(** Lines of a grid of width [w] and height [h] stored row by row. *)
Definition grid_row {A} (w : nat) (g : list A) (y : nat) : list A := take w (drop (w * y) g).
Definition grid_col {A} (w h : nat) (g : list A) (x : nat) : list A :=
  omap (fun y => g !! (w * y + x)) (seq 0 h).

(** A filling of the grid meeting all clues. *)
Definition solution (col row : list (list nat)) (g : list bool) : Prop :=
  length g = length col * length row /\
  (forall x rule, col !! x = Some rule -> spells rule (grid_col (length col) (length row) g x)) /\
  (forall y rule, row !! y = Some rule -> spells rule (grid_row (length col) g y)).

(** Exchange of rows and columns of a [w] x [h] grid. *)
Definition transpose {A} (w h : nat) (g : list A) : list A := concat (grid_col w h g <$> seq 0 w).
