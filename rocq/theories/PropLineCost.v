(** Property C91: how much work is done for a line, and in total. *)
From Verif Require Import Base SpecWord Nonogram NonogramCost NonogramLineCost SpecLineCost.
From Verif Require NonogramLineCostProofs.

(** The counters change nothing. *)
Theorem C91_same : forall m col row,
  (let! (r, _) := solve_steps m col row in
   Ret (match r with Err e => Err e | Ok g => Ok ((fun s => match s with Filled => true | _ => false end) <$> g) end)) =
  solve_nonogram m col row.
Proof. exact NonogramLineCostProofs.solve_steps_same. Qed.
Print Assumptions C91_same.
Theorem C91_same_line : forall states squares c,
  (let! (r, _) := find_left_cost states squares c in Ret r) = find_left states squares.
Proof. exact NonogramLineCostProofs.find_left_same. Qed.
Print Assumptions C91_same_line.

(** C91: the line matcher stops behind the last block of the filling it finds;
    if there is none it goes once over the whole line. *)
Theorem C91_passes : forall rule squares r c, head rule <> Some 0 -> last rule <> Some 0 ->
  find_left_cost (rule_states rule) squares no_cost = Ret (r, c) ->
  match r with
  | None => passes c = length squares + 1
  | Some b => exists k, passes c = k + 1 /\ k <= length b /\
      (forall i, k <= i -> b !! i <> Some true) /\ (k <> 0 -> b !! (k - 1) = Some true)
  end.
Proof. exact NonogramLineCostProofs.find_left_stops. Qed.
Print Assumptions C91_passes.
(** For any list of states: in each pass every state is looked at once, at most
    two more are active than in the pass before, and the rest of the line is
    looked at once. *)
Theorem C91_line : forall states squares r c, find_left_cost states squares no_cost = Ret (r, c) ->
  1 <= passes c <= length squares + 1 /\ entries c <= passes c * (length states + 1) /\
  active c <= passes c * (length states - 1) /\ active c <= passes c * passes c /\
  2 * scanned c <= length squares * (length squares + 1).
Proof. exact NonogramLineCostProofs.find_left_bounds. Qed.
Print Assumptions C91_line.

(** The whole solver: polynomial in the number of rows and columns and the
    clues, and in the rows and columns alone if the clues fit. *)
Theorem C91_total : forall (m : mode) col row r c, (N.of_nat (length col * length row) < limit m)%N ->
  solve_steps m col row = Ret (r, c) ->
  steps c <= (length col * length row + 1) *
    (sum_list (line_bound (length row) <$> col) + sum_list (line_bound (length col) <$> row)).
Proof. exact (fun m col row r c H => NonogramLineCostProofs.solve_steps_count m col row H r c). Qed.
Print Assumptions C91_total.
Theorem C91_fits : forall (m : mode) col row r c, (N.of_nat (length col * length row) < limit m)%N ->
  Forall (fits_line (length row)) col -> Forall (fits_line (length col)) row ->
  solve_steps m col row = Ret (r, c) ->
  let w := length col in let h := length row in
  steps c <= (w * h + 1) * (w * ((h + 1) * (3 * h + 11)) + h * ((w + 1) * (3 * w + 11))).
Proof. exact (fun m col row r c H => NonogramLineCostProofs.solve_steps_fits m col row H r c). Qed.
Print Assumptions C91_fits.
(** And no less: with the rounds [k] and lines [l] of C87, each line is passed
    over at least twice (the last one once if it has no filling), and every round
    that does not fail compares each square twice. *)
Theorem C91_least : forall (m : mode) col row r c r' k l, (N.of_nat (length col * length row) < limit m)%N ->
  solve_steps m col row = Ret (r, c) -> solve_cost m col row = Ret (r', (k, l)) ->
  r' = r /\ 2 * l <= passes c + match r with Err _ => 1 | Ok _ => 0 end /\
  (forall g, r = Ok g -> l = k * (length col + length row) /\ compared c = k * (2 * (length col * length row))).
Proof. exact (fun m col row r c r' k l H => NonogramLineCostProofs.solve_least m col row H r c k l r'). Qed.
Print Assumptions C91_least.

(** The second block ends with the sixth square, which the seventh pass notices. *)
Example C91_example_line :
  find_left_cost (rule_states [1; 2]) [Blank; Blocked; Blank; Blank; Blank; Filled; Blank] no_cost =
  Ret (Some [true; false; false; false; true; true; false], LineCost 7 54 22 4 0).
Proof. vm_compute. reflexivity. Qed.
Example C91_example_none :
  exists c, find_left_cost (rule_states [2; 1]) [Blank; Blocked; Blank; Filled; Blocked] no_cost = Ret (None, c) /\ passes c = 6.
Proof. eexists. split; [vm_compute; reflexivity|reflexivity]. Qed.
Example C91_example_total : exists g, solve_steps (Mode Debug W64) [[2]; [1]; [3]] [[1]; [1; 1]; [3]] = Ret (Ok g, LineCost 83 476 110 16 36) /\
  solve_cost (Mode Debug W64) [[2]; [1]; [3]] [[1]; [1; 1]; [3]] = Ret (Ok g, (2, 12)) /\
  Forall (fits_line 3) [[2]; [1]; [3]] /\ Forall (fits_line 3) [[1]; [1; 1]; [3]].
Proof. eexists. split; [vm_compute; reflexivity|]. split; [vm_compute; reflexivity|]. unfold fits_line. split; repeat constructor; cbn; lia. Qed.
