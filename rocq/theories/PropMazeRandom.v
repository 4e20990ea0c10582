(** Properties C73-C76: the distribution of the generated mazes.  The mean is
    taken over all lists of [4 * (w * h)] numbers below a multiple of 12: more
    numbers are not drawn (C66), and choosing one of 1, 2, 3 or 4 directions by
    the remainder is then fair. *)
From Coq Require Import QArith Qcanon.
From Verif Require Import Base Maze SpecMaze SpecMazeDfs SpecMazeRandom.
From Verif Require MazeDfsProofs MazeRandom MazeRandomSym MazeRandomFirst MazeRandomTwo.
Local Open Scope nat_scope.

Notation generated m k w h f := (mean_draws (12 * S k) (4 * (w * h)) (fun ds => value f (recursive_backtrack m (rng_of ds) w h))).

(** C73: the mazes are distributed as by the walk that always goes to each
    unvisited neighbour with the same probability. *)
Theorem C73_distribution : forall (m : mode) w h k f, 1 <= w -> 1 <= h -> storable m w h ->
  generated m k w h f = expected w h f.
Proof. exact (fun m w h k f Hw Hh Hst => MazeRandom.generator_mean m w h Hw Hh Hst (12 * S k) (ex_intro _ k eq_refl) f). Qed.
Print Assumptions C73_distribution.
(** The walk always ends. *)
Theorem C73_total : forall (m : mode) w h, 1 <= w -> 1 <= h -> storable m w h -> expected w h (fun _ => 1%Qc) = 1%Qc.
Proof. exact (fun m w h => MazeRandom.mean_one m w h 0). Qed.
Print Assumptions C73_total.

(** One of the two 2 x 2 mazes. *)
Definition c_maze : list maze_node :=
  [MazeNode false true; MazeNode true false; MazeNode false true; MazeNode true true].
Example C73_example : storable W64 2 2 /\ expected 2 2 (exactly c_maze) = Q2Qc (1 # 2).
Proof. split; [done|]. vm_compute. by apply Qc_is_canon. Qed.

(** C74: exchanging rows and columns does not change the distribution. *)
Theorem C74_exchange : forall (m : mode) w h k f, 1 <= w -> 1 <= h -> storable m w h -> storable m h w ->
  generated m k w h f = generated m k h w (fun g => f (exchanged w h g)).
Proof.
  exact (fun m w h k f Hw Hh Hst Hst' => eq_trans (C73_distribution m w h k f Hw Hh Hst)
    (eq_trans (MazeRandomSym.expected_swap w h Hw Hh f) (eq_sym (C73_distribution m h w k _ Hh Hw Hst')))).
Qed.
Print Assumptions C74_exchange.

Example C74_example : exchanged 2 3 [MazeNode false true; MazeNode true false; MazeNode true false;
    MazeNode true true; MazeNode false true; MazeNode true true] =
  [MazeNode true false; MazeNode true true; MazeNode false true; MazeNode true false; MazeNode false true; MazeNode true true].
Proof. vm_compute. reflexivity. Qed.

(** C75 is false: the mazes that can be generated are not equally likely.  Full
    statement: all mazes of the same size with non-zero probability have the
    same probability. *)
Theorem C75_refuted : exists w h g1 g2, 1 <= w /\ 1 <= h /\ forall (m : mode) k, storable m w h /\
  generated m k w h (exactly g1) = Q2Qc (1 # 16) /\ generated m k w h (exactly g2) = Q2Qc (1 # 12).
Proof. exact MazeRandomFirst.not_uniform. Qed.
Print Assumptions C75_refuted.
(** It holds with at most two rows or at most two columns. *)
Theorem C75_thin_partial : forall (m : mode) w h k g, 1 <= w -> 1 <= h -> storable m w h -> w <= 2 \/ h <= 2 ->
  length g = w * h -> walled w h g -> perfect w h g -> depth_first w h g ->
  generated m k w h (exactly g) = (Q2Qc (1 # 2) ^ ((w - 1) * (h - 1)))%Qc.
Proof. exact MazeRandomTwo.thin. Qed.
Print Assumptions C75_thin_partial.

Example C75_example : storable W64 2 2 /\ length c_maze = 2 * 2 /\ walled 2 2 c_maze /\ perfect 2 2 c_maze /\ depth_first 2 2 c_maze /\
  (Q2Qc (1 # 2) ^ ((2 - 1) * (2 - 1)))%Qc = expected 2 2 (exactly c_maze).
Proof.
  split; [done|]. assert (length c_maze = 2 * 2 /\ walled 2 2 c_maze /\ perfect 2 2 c_maze /\ depth_first 2 2 c_maze) as (H1&H2&H3&H4).
  { apply (MazeDfsProofs.support (Mode Debug W64) 2 2); [lia|lia|done|]. exists (fun _ => 0). vm_compute. reflexivity. }
  split_and!; [exact H1|exact H2|exact H3|exact H4|]. vm_compute. by apply Qc_is_canon.
Qed.

(** C76: the passage leaving the first cell leads to the right with probability
    1/2, whatever the size. *)
Theorem C76_first : forall (m : mode) w h k, 2 <= w -> 2 <= h -> storable m w h ->
  generated m k w h right_open = Q2Qc (1 # 2).
Proof. exact MazeRandomFirst.first_half. Qed.
Print Assumptions C76_first.

Example C76_example : storable W64 3 2 /\ expected 3 2 right_open = Q2Qc (1 # 2).
Proof. split; [done|]. vm_compute. by apply Qc_is_canon. Qed.
