(** Property C85: the probability of mazes that are a single walk; and the sizes
    for which C75 holds.  As in C73-C76 the mean is taken over all lists of
    [4 * (w * h)] numbers below a multiple of 12. *)
From Coq Require Import QArith Qcanon.
From Verif Require Import Base Maze SpecMaze SpecMazeDfs SpecMazeRandom SpecMazeTour SpecMazeRandomTour.
From Verif Require MazeRandomTour MazeRandomSizes.
Local Open Scope nat_scope.

Notation generated m k w h f := (mean_draws (12 * S k) (4 * (w * h)) (fun ds => value f (recursive_backtrack m (rng_of ds) w h))).

(** C85: the maze whose passages are the steps of a walk through all cells has
    the probability of making the right choice in each cell of the walk. *)
Theorem C85_tour : forall (m : mode) w h k l g, 1 <= w -> 1 <= h -> storable m w h -> tour w h l ->
  length g = w * h -> walled w h g -> (forall i j, joined w g i j <-> next_in l i j \/ next_in l j i) ->
  generated m k w h (exactly g) = (/ Q2Qc (inject_Z (Z.of_nat (tour_choices w h [] l))))%Qc.
Proof. exact MazeRandomTour.tour_probability. Qed.
Print Assumptions C85_tour.

(** Row by row; and with the middle cell as third. *)
Example C85_example : tour_choices 3 3 [] [0; 1; 2; 5; 4; 3; 6; 7; 8] = 16 /\ tour_choices 3 3 [] [0; 3; 4; 1; 2; 5; 8; 7; 6] = 12 /\
  exists g l, storable W64 2 2 /\ tour 2 2 l /\ length g = 2 * 2 /\ walled 2 2 g /\
    (forall i j, joined 2 g i j <-> next_in l i j \/ next_in l j i) /\ tour_choices 2 2 [] l = 2 /\
    expected 2 2 (exactly g) = Q2Qc (1 # 2).
Proof.
  split; [vm_compute; reflexivity|]. split; [vm_compute; reflexivity|].
  assert (tour 2 2 [0; 1; 3; 2]) as Ht.
  { split_and!; [done|apply (bool_decide_unpack _); vm_compute; exact I|].
    intros i j (k&H1&H2). destruct k as [|[|[|[|k]]]]; [..|done]; try done; injection H1 as <-; injection H2 as <-;
      unfold neighbours, beside, below; cbn; lia. }
  exists (MazeTour.tour_maze 2 2 [0; 1; 3; 2] (le_S 1 1 (le_n 1)) (le_S 1 1 (le_n 1))), [0; 1; 3; 2].
  split; [done|]. split; [exact Ht|]. split; [apply MazeTour.tour_length|]. split; [by apply MazeTour.tour_walled|].
  split; [by apply MazeTour.tour_joined|]. split; [vm_compute; reflexivity|]. vm_compute. by apply Qc_is_canon.
Qed.

(** C75 (false in general): all mazes that can be generated are equally likely
    for these sizes and no others. *)
Theorem C75_sizes_partial : forall (m : mode) w h k, 1 <= w -> 1 <= h -> storable m w h ->
  (forall g1 g2, (0 < generated m k w h (exactly g1))%Qc -> (0 < generated m k w h (exactly g2))%Qc ->
    generated m k w h (exactly g1) = generated m k w h (exactly g2)) <-> w <= 2 \/ h <= 2.
Proof. exact MazeRandomSizes.sizes. Qed.
Print Assumptions C75_sizes_partial.

Example C75_sizes_example : storable W64 3 2 /\ storable W64 3 3 /\ (3 <= 2 \/ 2 <= 2) /\ ~ (3 <= 2 \/ 3 <= 2).
Proof. split_and!; [done|done|lia|lia]. Qed.
