(** Property C97: the outcome for puzzles with a clue that begins or ends with
    zero. *)
From Verif Require Import Base SpecWord Nonogram SpecNonogram SpecNonogramOutcome.
From Verif Require NonogramOutcome.

(** The first such clue is that of a column: [NoSolution] if a column before it
    cannot be filled, or the clue itself begins with another number and cannot
    be filled; otherwise a panic. *)
Theorem C97_columns : forall (m : mode) col row pre rule post,
  (N.of_nat (length col * length row) < limit m)%N -> 1 <= length row \/ length col <= 1 ->
  col = pre ++ rule :: post -> Forall proper pre -> head rule = Some 0 \/ last rule = Some 0 ->
  let h := length row in
  let before := Forall (fillable h) pre /\ (head rule = Some 0 \/ fillable h rule) in
  (solve_nonogram m col row = Fault Panic <-> before) /\
  (solve_nonogram m col row = Ret (Err NoSolution) <-> ~ before).
Proof. exact NonogramOutcome.solve_columns'. Qed.
Print Assumptions C97_columns.

(** It is that of a row: the columns must be fillable, and the rows before it
    with squares that their columns can have. *)
Theorem C97_rows : forall (m : mode) col row pre rule post,
  (N.of_nat (length col * length row) < limit m)%N ->
  Forall proper col -> row = pre ++ rule :: post -> Forall proper pre -> head rule = Some 0 \/ last rule = Some 0 ->
  let h := length row in
  let before := Forall (fillable h) col /\ (forall y r, pre !! y = Some r -> row_fillable col h y r) /\
    (head rule = Some 0 \/ row_fillable col h (length pre) rule) in
  (solve_nonogram m col row = Fault Panic <-> before) /\
  (solve_nonogram m col row = Ret (Err NoSolution) <-> ~ before).
Proof. exact NonogramOutcome.solve_rows'. Qed.
Print Assumptions C97_rows.

(** No rows and at least two columns: the slice for the second column panics,
    unless the first clue is an error. *)
Theorem C97_no_rows : forall m c0 c1 col,
  let before := head c0 = Some 0 \/ c0 = [] in
  (solve_nonogram m (c0 :: c1 :: col) [] = Fault Panic <-> before) /\
  (solve_nonogram m (c0 :: c1 :: col) [] = Ret (Err NoSolution) <-> ~ before).
Proof. exact NonogramOutcome.solve_no_rows. Qed.
Print Assumptions C97_no_rows.

(** The deduction on a blank line leaves each square exactly the values that it
    can have, whatever zeros are inside the clue. *)
Theorem C97_blank : forall rule n, proper rule ->
  (line_right_left (machine_new rule) (replicate n Blank) = Ret (Err NoSolution) <-> ~ fillable n rule) /\
  forall changed g', line_right_left (machine_new rule) (replicate n Blank) = Ret (Ok (changed, g')) ->
    length g' = n /\ forall i sq v, g' !! i = Some sq -> agrees sq v <-> can_be rule n i v.
Proof. exact NonogramOutcome.blank_line. Qed.
Print Assumptions C97_blank.

(** Two squares per column: "1,0" can be filled and panics; "2,0" cannot. *)
Example C97_example_columns :
  Forall proper [[1]] /\ last [1; 0] = Some 0 /\ Forall (fillable 2) [[1]] /\ fillable 2 [1; 0] /\
  solve_nonogram (Mode Debug W64) [[1]; [1; 0]; [5]] [[2]; []] = Fault Panic /\
  solve_nonogram (Mode Debug W64) [[1]; [2; 0]; [0]] [[2]; []] = Ret (Err NoSolution) /\
  solve_nonogram (Mode Debug W64) [[3]; [0]] [[2]; []] = Ret (Err NoSolution).
Proof.
  split_and!; [repeat constructor; discriminate|done|..|vm_compute; reflexivity|vm_compute; reflexivity|vm_compute; reflexivity].
  - repeat constructor. exists [true; false]. split; [done|]. by exists 0, 1.
  - exists [true; false]. split; [done|]. exists [true], []. split_and!; [done|by exists 0, 0|by exists 0, 0].
Qed.

(** A column of two filled squares: the first row may be "1", but not empty. *)
Example C97_example_rows :
  row_fillable [[2]] 2 0 [1] /\
  solve_nonogram (Mode Debug W64) [[2]] [[1]; [0]] = Fault Panic /\
  solve_nonogram (Mode Debug W64) [[2]] [[]; [0]] = Ret (Err NoSolution) /\
  solve_nonogram (Mode Debug W64) [[2]; []; []] [[1]; [1; 0]] = Fault Panic /\
  solve_nonogram (Mode Debug W64) [[2]; [2]; []] [[2]; [1; 0]] = Ret (Err NoSolution).
Proof.
  split_and!; [|vm_compute; reflexivity..]. exists [true]. split_and!; [done|by exists 0, 0|].
  intros [|[|x]] c v [= <-] [= <-]. exists [true; true]. split_and!; [done|by exists 0, 0|done].
Qed.

Example C97_example_no_rows :
  solve_nonogram (Mode Release W64) [[]; [3]] [] = Fault Panic /\ solve_nonogram (Mode Release W64) [[1]; [3]] [] = Ret (Err NoSolution).
Proof. vm_compute. done. Qed.

(** "1,0,1" fills four squares in one way; in five only the middle is known. *)
Example C97_example_blank :
  proper [1; 0; 1] /\ line_right_left (machine_new [1; 0; 1]) (replicate 4 Blank) =
    Ret (Ok (true, [Filled; Blocked; Blocked; Filled])) /\
  line_right_left (machine_new [1; 0; 1]) (replicate 5 Blank) =
    Ret (Ok (true, [Blank; Blank; Blocked; Blank; Blank])).
Proof. split_and!; [split; discriminate|vm_compute; reflexivity..]. Qed.

(** More squares than usize can count: a panic with overflow checks; without them the
    rows run out of the grid, so there is a panic or the error, never an answer. *)
Theorem C97_overflow : forall (m : mode) col row,
  (N.of_nat (length col) < limit m)%N -> (limit m <= N.of_nat (length col * length row))%N ->
  (profile_of m = Debug -> solve_nonogram m col row = Fault Panic) /\
  (solve_nonogram m col row = Fault Panic \/ solve_nonogram m col row = Ret (Err NoSolution)).
Proof. exact NonogramOutcome.solve_overflow. Qed.
Print Assumptions C97_overflow.

(** 2^63 columns and 3 rows: the second row begins inside the grid and its end
    is computed as 0. *)
Example C97_example_overflow : exists col : list (list nat),
  (N.of_nat (length col) < limit W64)%N /\ (limit W64 <= N.of_nat (length col * length (replicate 3 ([] : list nat))))%N.
Proof.
  exists (replicate (N.to_nat (2 ^ 63)) []). rewrite !replicate_length, Nat2N.inj_mul, N2Nat.id. done.
Qed.
