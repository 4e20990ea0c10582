(** Properties C44-C46: how much the nonogram solver finds out.  [proper]
    excludes 0 as the first or last number of a clue. *)
From Verif Require Import Base SpecWord Nonogram SpecNonogram SpecNonogramDeduce.
From Verif Require NonogramForced NonogramComplete.

(** C44: one application of the line deduction decides exactly the squares
    that lie in the same block, or the same gap, in every filling. *)
Theorem C44_line_exact : forall rule line, proper rule ->
  exists r, line_right_left (machine_new rule) line = Ret r /\
    (r = Err NoSolution <-> ~ exists b, fits rule line b) /\
    (forall e, r = Err e -> e = NoSolution) /\
    (forall changed line', r = Ok (changed, line') ->
      length line' = length line /\ changed = bool_decide (line' <> line) /\
      (forall i sq, line !! i = Some sq -> sq <> Blank -> line' !! i = Some sq) /\
      (forall i v, line !! i = Some Blank ->
         (line' !! i = Some (if v : bool then Filled else Blocked) <-> forced rule line i v))).
Proof. exact NonogramForced.line_exact. Qed.
Print Assumptions C44_line_exact.

(** A block of length 3 containing the fourth square also contains the third
    and cannot reach the first. *)
Example C44_example :
  line_right_left (machine_new [3]) [Blank; Blank; Blank; Filled; Blank] =
    Ret (Ok (true, [Blocked; Blank; Filled; Filled; Blank])) /\
  line_right_left (machine_new [1; 1]) [Blank; Blank; Blank; Blank] =
    Ret (Ok (false, [Blank; Blank; Blank; Blank])) /\
  line_right_left (machine_new [2]) [Filled; Blank; Filled] = Ret (Err NoSolution).
Proof. split_and!; vm_compute; reflexivity. Qed.

(** C45: the grid deduction adds exactly what is needed to reach the least grid
    in which no line forces another square, whatever grid it starts from. *)
Theorem C45_deduce : forall (m : mode) col row k,
  Forall proper col -> Forall proper row -> (N.of_nat (length col * length row) < limit m)%N ->
  1 <= length row \/ length col <= 1 -> length k = length col * length row ->
  (exists k', grid_right_left m k col row = Ret (Ok k') /\ refines k k' /\ closed_grid col row k' /\
     forall c, closed_grid col row c -> refines k c -> refines k' c) \/
  (grid_right_left m k col row = Ret (Err NoSolution) /\
     forall c, closed_grid col row c -> ~ refines k c).
Proof. exact (fun m col row k Hc Hr Hn Hd => NonogramForced.deduce_least m col row Hc Hr Hn Hd k). Qed.
Print Assumptions C45_deduce.

Theorem C45_solve : forall (m : mode) col row,
  Forall proper col -> Forall proper row -> (N.of_nat (length col * length row) < limit m)%N ->
  1 <= length row \/ length col <= 1 ->
  (exists k, closed_grid col row k /\ (forall c, closed_grid col row c -> refines k c) /\
     solve_nonogram m col row = Ret (Ok (map (fun s => match s with Filled => true | _ => false end) k))) \/
  ((forall c, ~ closed_grid col row c) /\ solve_nonogram m col row = Ret (Err NoSolution)).
Proof. exact NonogramForced.solve_least. Qed.
Print Assumptions C45_solve.

(** Running the deduction on its own result changes nothing. *)
Theorem C45_idempotent : forall (m : mode) col row k,
  Forall proper col -> Forall proper row -> (N.of_nat (length col * length row) < limit m)%N ->
  1 <= length row \/ length col <= 1 ->
  closed_grid col row k -> grid_right_left m k col row = Ret (Ok k).
Proof. exact NonogramForced.deduce_stop. Qed.
Print Assumptions C45_idempotent.

(** Every solution is a closed grid, so closed grids exist for every solvable
    puzzle. *)
Theorem C45_solution_closed : forall col row b, solution col row b ->
  closed_grid col row (map (fun x : bool => if x then Filled else Blocked) b).
Proof. exact NonogramForced.solution_closed. Qed.
Print Assumptions C45_solution_closed.

Example C45_example :
  grid_right_left (Mode Debug W64) (replicate 9 Blank) [[1]; [3]; [1]] [[1]; [3]; [1]] =
    Ret (Ok [Blocked; Filled; Blocked; Filled; Filled; Filled; Blocked; Filled; Blocked]) /\
  grid_right_left (Mode Debug W64) (replicate 4 Blank) [[1]; [1]] [[1]; [1]] = Ret (Ok (replicate 4 Blank)) /\
  grid_right_left (Mode Debug W64) [Blank; Filled; Blank; Blank] [[1]; [1]] [[1]; [1]] =
    Ret (Ok [Blocked; Filled; Filled; Blocked]) /\
  grid_right_left (Mode Debug W64) [Filled; Filled; Blank; Blank] [[1]; [1]] [[1]; [1]] = Ret (Err NoSolution).
Proof. split_and!; vm_compute; reflexivity. Qed.

(** C46 is false: a square can have the same value in every filling and still
    stay undecided, because it belongs to different blocks or gaps. *)
Theorem C46_refuted : forall v : bool, exists (rule : list nat) (line : list square) (i : nat),
  positive rule /\ line !! i = Some Blank /\ (exists b, fits rule line b) /\
  (forall b, fits rule line b -> b !! i = Some v) /\
  line_right_left (machine_new rule) line = Ret (Ok (false, line)).
Proof. exact NonogramForced.constant_refuted. Qed.
Print Assumptions C46_refuted.

(** Missing for C46: lines with decided squares and several blocks.  On a line
    without decided squares every square with a constant value is decided. *)
Theorem C46_blank_partial : forall rule n i (v : bool), positive rule -> i < n ->
  (forall b, fits rule (replicate n Blank) b -> b !! i = Some v) ->
  forall changed line', line_right_left (machine_new rule) (replicate n Blank) = Ret (Ok (changed, line')) ->
  line' !! i = Some (if v then Filled else Blocked).
Proof. exact NonogramComplete.blank_complete. Qed.
Print Assumptions C46_blank_partial.

(** With a single block every square that is filled in all fillings is decided,
    whatever is known of the line. *)
Theorem C46_single_partial : forall k line i changed line', 0 < k -> line !! i = Some Blank ->
  (forall b, fits [k] line b -> b !! i = Some true) ->
  line_right_left (machine_new [k]) line = Ret (Ok (changed, line')) -> line' !! i = Some Filled.
Proof. exact NonogramComplete.single_filled. Qed.
Print Assumptions C46_single_partial.

Example C46_example :
  line_right_left (machine_new [3; 2]) (replicate 7 Blank) =
    Ret (Ok (true, [Blank; Filled; Filled; Blank; Blank; Filled; Blank])) /\
  line_right_left (machine_new [3]) [Blank; Blank; Filled; Blank; Blocked; Blank] =
    Ret (Ok (true, [Blank; Filled; Filled; Blank; Blocked; Blocked])) /\
  line_right_left (machine_new [2]) [Blank; Blank; Blocked; Blank; Blocked; Blank; Blank] =
    Ret (Ok (false, [Blank; Blank; Blocked; Blank; Blocked; Blank; Blank])).
Proof. split_and!; vm_compute; reflexivity. Qed.
