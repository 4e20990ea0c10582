(** Property C66. *)
From Verif Require Import Base Maze SpecMaze.
From Verif Require MazeDraws.

(** C66: the maze is determined by the first [4 * w * h] random numbers: each
    direction of each cell is drawn at most once. *)
Theorem C66_draws : forall (m : mode) rng rng' w h, storable m w h ->
  (forall k, k < 4 * (w * h) -> rng k = rng' k) -> create_maze m rng w h = create_maze m rng' w h.
Proof. exact MazeDraws.draws_enough. Qed.
Print Assumptions C66_draws.

(** For a 2 x 1 maze the first eight numbers count; two functions that agree on
    them, and for a 2 x 2 maze one changed number that gives another maze. *)
Example C66_example : storable W64 2 1 /\
  (forall k, k < 4 * (2 * 1) -> (fun k => k) k = (fun k => if k <? 8 then k else 0) k) /\
  create_maze (Mode Debug W64) (fun _ => 0) 2 2 <> create_maze (Mode Debug W64) (fun k => if k =? 0 then 1 else 0) 2 2.
Proof.
  split; [done|]. split; [|by vm_compute].
  intros k Hk. destruct (Nat.ltb_spec k 8) as [H|H]; [done|]. exfalso. lia.
Qed.
