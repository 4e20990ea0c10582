(** Property C81: the probability of a single maze.  As in C73-C76 the mean is
    taken over all lists of [4 * (w * h)] numbers below a multiple of 12. *)
From Coq Require Import QArith Qcanon.
From Verif Require Import Base Maze SpecMaze SpecMazeDfs SpecMazeRandom.
From Verif Require MazeDfsProofs MazeRandomBound.
Local Open Scope nat_scope.

Notation generated m k w h f := (mean_draws (12 * S k) (4 * (w * h)) (fun ds => value f (recursive_backtrack m (rng_of ds) w h))).

(** C81: exactly the depth-first spanning trees appear with a positive
    probability. *)
Theorem C81_positive : forall (m : mode) w h k g, 1 <= w -> 1 <= h -> storable m w h ->
  (0 < generated m k w h (exactly g))%Qc <->
  length g = w * h /\ walled w h g /\ perfect w h g /\ depth_first w h g.
Proof. exact MazeRandomBound.positive_maze. Qed.
Print Assumptions C81_positive.
(** None of them is less likely than if each of the [w * h - 1] passages were
    chosen among three directions. *)
Theorem C81_bound : forall (m : mode) w h k g, 1 <= w -> 1 <= h -> storable m w h ->
  length g = w * h -> walled w h g -> perfect w h g -> depth_first w h g ->
  (Q2Qc (1 # 3) ^ (w * h - 1) <= generated m k w h (exactly g))%Qc.
Proof. exact MazeRandomBound.bound_maze. Qed.
Print Assumptions C81_bound.

(** One of the two 2 x 2 mazes that can be generated. *)
Definition c_maze : list maze_node :=
  [MazeNode false true; MazeNode true false; MazeNode false true; MazeNode true true].
Example C81_example : storable W64 2 2 /\ (0 < generated (Mode Debug W64) 0 2 2 (exactly c_maze))%Qc /\
  expected 2 2 (exactly c_maze) = Q2Qc (1 # 2) /\
  length c_maze = 2 * 2 /\ walled 2 2 c_maze /\ perfect 2 2 c_maze /\ depth_first 2 2 c_maze.
Proof.
  assert (storable W64 2 2) as Hst by done.
  assert (recursive_backtrack (Mode Debug W64) (fun _ => 0) 2 2 = Ret c_maze) as Hr by (vm_compute; reflexivity).
  assert (length c_maze = 2 * 2 /\ walled 2 2 c_maze /\ perfect 2 2 c_maze /\ depth_first 2 2 c_maze) as Hg.
  { apply (MazeDfsProofs.support (Mode Debug W64) 2 2); [lia|lia|done|]. by exists (fun _ => 0). }
  split; [done|]. split; [apply C81_positive; [lia|lia|done|exact Hg]|]. split; [|exact Hg].
  vm_compute. by apply Qc_is_canon.
Qed.
