(** Depth-first spanning trees of the grid. *)
From Verif Require Import Base Maze SpecMaze.

(** Different cells with a common side. *)
Definition neighbours (w h i j : nat) : Prop :=
  i < w * h /\ j < w * h /\ (beside w i j \/ below w i j).

(** The walk from cell 0 to [b] that visits no cell twice passes through [a]. *)
Definition ancestor (w : nat) (g : list maze_node) (a b : nat) : Prop :=
  exists l, path (joined w g) 0 l b /\ NoDup l /\ a ∈ l.

(** Of two neighbouring cells, one is on the way from cell 0 to the other. *)
Definition depth_first (w h : nat) (g : list maze_node) : Prop :=
  forall i j, neighbours w h i j -> ancestor w g i j \/ ancestor w g j i.

(** A complete wall around the grid. *)
Definition walled (w h : nat) (g : list maze_node) : Prop :=
  (forall i nd, in_last_col w h i -> g !! i = Some nd -> m_right nd = true) /\
  (forall i nd, in_last_row w h i -> g !! i = Some nd -> m_down nd = true).

Definition perfect (w h : nat) (g : list maze_node) : Prop :=
  forall i j, i < w * h -> j < w * h -> unique_simple_path (joined w g) i j.

(** The maze [g] after removing the wall below cell [e]. *)
Definition with_exit (e : nat) (g : list maze_node) : list maze_node :=
  imap (fun i nd => if Nat.eqb i e then MazeNode (m_right nd) false else nd) g.
