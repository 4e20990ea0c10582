(** Random mazes: means over random numbers, and the textbook random walk. *)
From Coq Require Import QArith Qcanon.
From Verif Require Import Base Maze SpecMaze SpecMazeDfs.

Definition total (l : list Qc) : Qc := foldr Qcplus 0%Qc l.
(** The mean of [f] over a list. *)
Definition mean {A} (f : A -> Qc) (l : list A) : Qc := (total (f <$> l) / Q2Qc (inject_Z (Z.of_nat (length l))))%Qc.
(** The mean of [f] over all lists of [n] numbers below [k]. *)
Fixpoint mean_draws (k n : nat) (f : list nat -> Qc) : Qc :=
  match n with
  | O => f []
  | S n => mean (fun d => mean_draws k n (fun ds => f (d :: ds))) (seq 0 k)
  end.
(** The random generator that draws the numbers of a list. *)
Definition rng_of (ds : list nat) (i : nat) : nat := default 0 (ds !! i).

Global Instance beside_dec w i j : Decision (beside w i j).
Proof. unfold beside. apply _. Defined.
Global Instance below_dec w i j : Decision (below w i j).
Proof. unfold below. apply _. Defined.

(** The value of [f] on the generated maze, 0 if there is none. *)
Definition value (f : list maze_node -> Qc) (r : res (list maze_node)) : Qc :=
  match r with Ret g => f g | Fault _ => 0%Qc end.
(** 1 on the maze [g] and 0 on all others: its mean is the probability of [g]. *)
Global Instance maze_node_eq_dec : EqDecision maze_node.
Proof. solve_decision. Defined.
Definition exactly (g g' : list maze_node) : Qc := if decide (g = g') then 1%Qc else 0%Qc.
(** 1 if the wall to the right of the first cell is missing. *)
Definition right_open (g : list maze_node) : Qc :=
  match g !! 0 with Some nd => if m_right nd then 0%Qc else 1%Qc | None => 0%Qc end.

(** The unvisited neighbours of cell [c]. *)
Definition fresh (w h : nat) (visited : list nat) (c : nat) : list nat :=
  filter (fun j => (beside w c j \/ below w c j \/ beside w j c \/ below w j c) /\ j ∉ visited) (seq 0 (w * h)).
(** The maze without the wall between the neighbours [a < b]. *)
Definition remove_wall (w a b : nat) (g : list maze_node) : list maze_node :=
  imap (fun i nd => if decide (i = a)
    then MazeNode (m_right nd && negb (bool_decide (beside w a b))) (m_down nd && negb (bool_decide (below w a b)))
    else nd) g.
(** The walk: from the current cell, the head of [path], go to each unvisited
    neighbour with the same probability, removing the wall; without unvisited
    neighbours go back.  The expected value of [f] on the maze at the end. *)
Fixpoint walk (fuel w h : nat) (f : list maze_node -> Qc) (path visited : list nat) (g : list maze_node) : Qc :=
  match path with
  | [] => f g
  | c :: rest =>
      match fuel with
      | 0 => 0%Qc
      | S fuel =>
          match fresh w h visited c with
          | [] => walk fuel w h f rest visited g
          | l => mean (fun j => walk fuel w h f (j :: path) (j :: visited) (remove_wall w (c `min` j) (c `max` j) g)) l
          end
      end
  end.
(** Each cell is entered once and left once. *)
Definition expected (w h : nat) (f : list maze_node -> Qc) : Qc :=
  walk (2 * (w * h)) w h f [0] [0] (replicate (w * h) (MazeNode true true)).

(** Cell number [i] of a grid of width [w] in the grid with rows and columns
    exchanged, whose width is [h]. *)
Definition swap (w h i : nat) : nat := i mod w * h + i / w.
(** The maze [g] of width [h] with rows and columns exchanged. *)
Definition exchanged (w h : nat) (g : list maze_node) : list maze_node :=
  (fun i => let nd := default (MazeNode true true) (g !! swap w h i) in MazeNode (m_down nd) (m_right nd)) <$> seq 0 (w * h).
