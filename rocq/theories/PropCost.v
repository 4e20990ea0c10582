(** Properties C86 and C87: how much work is done.  The counted functions are
    those of the model with counters. *)
From Verif Require Import Base SpecWord Maze SpecMaze MazeCost Nonogram NonogramCost.
From Verif Require MazeCostProofs NonogramCostProofs.

(** The counters change nothing. *)
Theorem C86_same : forall m rng w h,
  (let! (r, _) := create_cost m rng w h in Ret r) = create_maze m rng w h.
Proof. exact MazeCostProofs.create_same. Qed.
Print Assumptions C86_same.
(** C86: the main loop of the generator runs once for every cell entered and
    once for every cell left, every direction of every cell is drawn, and no cell
    is taken from the queue twice. *)
Theorem C86_cost : forall (m : mode) rng w h g sol c, storable m w h -> create_cost m rng w h = Ret (g, sol, c) ->
  loops c = 2 * (w * h) - 1 /\ draws c = 4 * (w * h) /\ length sol < dequeued c <= w * h.
Proof. exact MazeCostProofs.create_count. Qed.
Print Assumptions C86_cost.
Theorem C86_total : forall (m : mode) rng w h, 1 <= w -> 1 <= h -> storable m w h -> exists r c, create_cost m rng w h = Ret (r, c).
Proof. exact MazeCostProofs.create_counted. Qed.
Print Assumptions C86_total.

Example C86_example : storable W64 3 2 /\ exists g sol, create_cost (Mode Debug W64) (fun _ => 0) 3 2 = Ret (g, sol, MazeCost 11 24 6).
Proof. split; [done|]. eexists _, _. vm_compute. reflexivity. Qed.

(** The counters change nothing. *)
Theorem C87_same : forall m col row,
  (let! (r, _) := solve_cost m col row in
   Ret (match r with Err e => Err e | Ok g => Ok ((fun s => match s with Filled => true | _ => false end) <$> g) end)) =
  solve_nonogram m col row.
Proof. exact NonogramCostProofs.solve_same. Qed.
Print Assumptions C87_same.
(** C87: [k] rounds look at [l] lines.  Every round but the last decides a
    square; all lines are looked at in each round, except when an error ends it;
    then at least one. *)
Theorem C87_cost : forall (m : mode) col row, (N.of_nat (length col * length row) < limit m)%N ->
  1 <= length row \/ length col <= 1 -> forall r k l, solve_cost m col row = Ret (r, (k, l)) ->
  l <= k * (length col + length row) /\ k <= length col * length row + 1 /\
  (forall g, r = Ok g -> l = k * (length col + length row) /\ k <= length (filter (fun s => s <> Blank) g) + 1) /\
  (forall e, r = Err e -> k * (length col + length row) < l + (length col + length row)).
Proof. exact NonogramCostProofs.solve_count. Qed.
Print Assumptions C87_cost.

(** Two rounds; and an error in the first column. *)
Example C87_example : (exists g, solve_cost (Mode Debug W64) [[2]; [1]; [3]] [[1]; [1; 1]; [3]] = Ret (Ok g, (2, 12))) /\
  solve_cost (Mode Debug W64) [[3]; [1]] [[1]; [1]] = Ret (Err NoSolution, (1, 1)).
Proof. split; [eexists|]; vm_compute; reflexivity. Qed.
