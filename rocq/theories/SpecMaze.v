(** Specification of mazes, independent of their generation.  Cells of a maze of
    width [w] are numbered row by row: cell [i] is in column [i mod w] and row
    [i / w]. *)
From Verif Require Import Base Maze.

(** [j] is directly right of [i] / directly below [i]. *)
Definition beside (w i j : nat) : Prop := j = i + 1 /\ i / w = j / w.
Definition below (w i j : nat) : Prop := j = i + w.

(** There is no wall between the cells [i] and [j], [j] being right of or below
    [i]. *)
Definition opening (w : nat) (mz : list maze_node) (i j : nat) : Prop :=
  j < length mz /\ exists nd, mz !! i = Some nd /\
    ((m_right nd = false /\ beside w i j) \/ (m_down nd = false /\ below w i j)).
Definition joined (w : nat) (mz : list maze_node) (i j : nat) : Prop :=
  opening w mz i j \/ opening w mz j i.

(** [l] lists the cells of a walk from [i] to [j]. *)
Definition path (R : nat -> nat -> Prop) (i : nat) (l : list nat) (j : nat) : Prop :=
  head l = Some i /\ last l = Some j /\
  forall k a b, l !! k = Some a -> l !! S k = Some b -> R a b.

(** Exactly one walk from [i] to [j] visits no cell twice. *)
Definition unique_simple_path (R : nat -> nat -> Prop) (i j : nat) : Prop :=
  exists l, (path R i l j /\ NoDup l) /\ forall l', path R i l' j /\ NoDup l' -> l' = l.

(** The step in direction [d] leads from cell [i] to cell [j]. *)
Definition leads (w : nat) (d : direction) (i j : nat) : Prop :=
  match d with
  | Right => beside w i j
  | Down => below w i j
  | Left => beside w j i
  | Up => below w j i
  end.
(** Following the directions [ds] from [i] through passages ends in [j]. *)
Fixpoint follows (w : nat) (mz : list maze_node) (ds : list direction) (i j : nat) : Prop :=
  match ds with
  | [] => i = j
  | d :: ds => exists k, leads w d i k /\ joined w mz i k /\ follows w mz ds k j
  end.

(** Cell in the last row / in the last column. *)
Definition in_last_row (w h i : nat) : Prop := i < w * h /\ i / w = h - 1.
Definition in_last_col (w h i : nat) : Prop := i < w * h /\ i mod w = w - 1.

(** The only cell of the last row without a bottom wall. *)
Definition is_exit (w h : nat) (mz : list maze_node) (e : nat) : Prop :=
  in_last_row w h e /\
  forall i nd, in_last_row w h i -> mz !! i = Some nd -> (m_down nd = false <-> i = e).

(** The maze can be stored: two bytes for each cell. *)
Definition storable (ws : word) (w h : nat) : Prop := (2 * N.of_nat (w * h) < usize_size ws)%N.
