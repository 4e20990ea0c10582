(** Property C99: the work of the maze generator in its disjoint set. *)
From Verif Require Import Base DisjointSet Maze MazeFind SpecMaze SpecMazeFind.
From Verif Require MazeFindProofs.

(** The record changes nothing. *)
Theorem C99_same : forall m rng w h,
  match generate_calls m rng w h with
  | Ret (g, _, _) => recursive_backtrack m rng w h = Ret g
  | Fault f => recursive_backtrack m rng w h = Fault f
  end.
Proof. exact MazeFindProofs.generate_erase. Qed.
Print Assumptions C99_same.

(** C99: for every sequence of random numbers, [find] is called twice for every
    cell and each of its neighbours, and twice for every passage; no call needs
    more than one recursive call; all of them together make a number of calls of
    [find_helper] that depends on the size of the maze only; and in the end every
    cell refers directly to cell 0. *)
Theorem C99_calls : forall (m : mode) rng w h, 1 <= w -> 1 <= h -> storable m w h ->
  exists g t, generate_calls m rng w h = Ret (g, star (w * h), t) /\
    length t = 4 * shared_sides w h + 2 * (w * h - 1) /\
    Forall (fun k => 1 <= k <= 2) t /\ sum_list t = helper_calls w h.
Proof. exact MazeFindProofs.generate_calls_count. Qed.
Print Assumptions C99_calls.

Example C99_example :
  (exists g, generate_calls (Mode Debug W64) (fun k => k) 2 2 =
     Ret (g, [Element true 4; Element false 0; Element false 0; Element false 0],
          [2; 1; 1; 2; 2; 2; 2; 2; 1; 2; 1; 2; 1; 2; 1; 2; 1; 2; 1; 1; 1; 1])) /\
  shared_sides 2 2 = 4 /\ helper_calls 2 2 = 33 /\ helper_calls 1 1 = 0 /\ helper_calls 2 1 = 7 /\ storable W64 2 2.
Proof. split; [eexists; vm_compute; reflexivity|]. split; [done|]. split; [done|]. split; [done|]. split; [done|]. unfold storable; vm_compute; reflexivity. Qed.
