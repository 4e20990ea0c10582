(** Properties C34-C40, for arbitrary clues, in which the number 0 is read as a
    block without squares.  [proper] excludes 0 as the first or last number of
    a clue; the condition on [limit m] says that the cells of the grid can
    be counted. *)
From Verif Require Import Base SpecWord Nonogram SpecNonogram.
From Verif Require NonogramDeduce NonogramProofs NonogramZero.

(** Without zeros a line has the given clue if the clue lists the lengths of its
    maximal blocks. *)
Theorem C34_reading : forall rule b, positive rule -> spells rule b <-> clue_of b = rule.
Proof. exact NonogramStates.spells_positive. Qed.
Print Assumptions C34_reading.

(** In general the zeros are left out, and every zero between two blocks widens
    the gap between them. *)
Theorem C34_reading_zeros : forall rule b, spells rule b -> clue_of b = filter (fun v => v <> 0) rule.
Proof. exact NonogramStates.spells_clue. Qed.
Print Assumptions C34_reading_zeros.

Example C34_reading_example :
  spells [2; 1] [true; true; false; false; true] /\ spells [1; 0; 1] [true; false; false; true] /\
  ~ spells [1; 0; 1] [true; false; true] /\ clue_of [true; false; true] = [1; 1].
Proof.
  split_and!; [apply (NonogramStates.clue_spells [true; true; false; false; true])| | |reflexivity].
  - exists [true], [false; true]. split_and!; [reflexivity|by exists 0, 0|]. exists [], [true].
    split_and!; [reflexivity|by exists 0, 0|by exists 0, 0].
  - intros H%NonogramStates.reads_spells.
    repeat match goal with H : NonogramStates.reads _ _ (_ :: _) |- _ => inversion H; clear H; subst end; lia.
Qed.

(** Two 3 x 3 puzzles: a plus sign, and a diagonal that is not determined. *)
Definition plus_rules : list (list nat) := [[1]; [3]; [1]].
Definition plus_cells : list bool := [false; true; false; true; true; true; false; true; false].
Definition loose_rules : list (list nat) := [[1]; [1]].

(** C34: a cell returned as true is true in every solution. *)
Theorem C34_sound : forall (m : mode) col row g b i,
  (N.of_nat (length col * length row) < limit m)%N ->
  solve_nonogram m col row = Ret (Ok g) -> solution col row b ->
  g !! i = Some true -> b !! i = Some true.
Proof. exact (fun m col row g b i Hn => NonogramProofs.solve_sound m col row Hn g b i). Qed.
Print Assumptions C34_sound.

Example C34_example : Forall positive plus_rules /\ solution plus_rules plus_rules plus_cells /\
  solve_nonogram (Mode Debug W64) plus_rules plus_rules = Ret (Ok plus_cells).
Proof.
  split_and!; [repeat constructor|apply NonogramStates.solution_clues; [reflexivity|..]|vm_compute; reflexivity];
    intros [|[|[|x]]] rule [= <-]; reflexivity.
Qed.

(** A puzzle with a zero inside a clue: the gap has at least two squares. *)
Example C34_example_zero : solve_nonogram (Mode Debug W64) [[1]; []; []; [1]] [[1; 0; 1]] = Ret (Ok [true; false; false; true]) /\
  solve_nonogram (Mode Debug W64) [[1]; []; [1]] [[1; 0; 1]] = Ret (Err NoSolution).
Proof. split; vm_compute; reflexivity. Qed.

(** C35: NoSolution is answered only when there is none. *)
Theorem C35_no_solution : forall (m : mode) col row,
  (N.of_nat (length col * length row) < limit m)%N ->
  solve_nonogram m col row = Ret (Err NoSolution) -> forall b, ~ solution col row b.
Proof. exact NonogramProofs.solve_no_solution. Qed.
Print Assumptions C35_no_solution.

Theorem C35_only_error : forall (m : mode) col row e,
  (N.of_nat (length col * length row) < limit m)%N ->
  solve_nonogram m col row = Ret (Err e) -> e = NoSolution.
Proof. exact (fun m col row e Hn => NonogramProofs.solve_errors m col row Hn e). Qed.
Print Assumptions C35_only_error.

Example C35_example : solve_nonogram (Mode Debug W64) [[1]; [2]] [[2]; [2]] = Ret (Err NoSolution).
Proof. vm_compute. reflexivity. Qed.

(** C36 is false: the search for undetermined cells is an empty function, so
    undetermined cells are returned as false. *)
Theorem C36_refuted : exists col row g, Forall positive col /\ Forall positive row /\
  (exists b, solution col row b) /\
  (forall m, solve_nonogram m col row = Ret (Ok g)) /\ ~ solution col row g.
Proof. exact NonogramProofs.unsolved_refuted. Qed.
Print Assumptions C36_refuted.

(** What does hold: a grid with no blank square left satisfies the clues, and
    the result always has the right size. *)
Theorem C36_determined_partial : forall (m : mode) col row k,
  (N.of_nat (length col * length row) < limit m)%N ->
  grid_right_left m (replicate (length col * length row) Blank) col row = Ret (Ok k) -> Blank ∉ k ->
  exists g, solve_nonogram m col row = Ret (Ok g) /\ solution col row g.
Proof. exact NonogramProofs.determined_solution. Qed.
Print Assumptions C36_determined_partial.

Theorem C36_size_partial : forall (m : mode) col row g,
  (N.of_nat (length col * length row) < limit m)%N ->
  solve_nonogram m col row = Ret (Ok g) -> length g = length col * length row.
Proof. exact (fun m col row g Hn => NonogramProofs.solve_length m col row Hn g). Qed.
Print Assumptions C36_size_partial.

Example C36_example : exists k,
  grid_right_left (Mode Debug W64) (replicate 9 Blank) plus_rules plus_rules = Ret (Ok k) /\ Blank ∉ k.
Proof.
  exists [Blocked; Filled; Blocked; Filled; Filled; Filled; Blocked; Filled; Blocked].
  split; [vm_compute; reflexivity|]. repeat (apply not_elem_of_cons; split; [discriminate|]). apply not_elem_of_nil.
Qed.

(** C37: a returned grid that satisfies the clues is the only solution, and it
    does satisfy them once every cell is determined. *)
Theorem C37_unique : forall (m : mode) col row g,
  (N.of_nat (length col * length row) < limit m)%N ->
  solve_nonogram m col row = Ret (Ok g) -> solution col row g ->
  forall b, solution col row b -> b = g.
Proof. exact (fun m col row g Hn => NonogramProofs.solve_unique m col row Hn g). Qed.
Print Assumptions C37_unique.

Theorem C37_determined : forall (m : mode) col row k,
  (N.of_nat (length col * length row) < limit m)%N ->
  grid_right_left m (replicate (length col * length row) Blank) col row = Ret (Ok k) -> Blank ∉ k ->
  exists g, solve_nonogram m col row = Ret (Ok g) /\ solution col row g /\
    forall i, g !! i = Some true <-> k !! i = Some Filled.
Proof. exact NonogramProofs.determined_cells. Qed.
Print Assumptions C37_determined.

Example C37_example : solution plus_rules plus_rules plus_cells /\
  solve_nonogram (Mode Release W64) plus_rules plus_rules = Ret (Ok plus_cells).
Proof.
  split; [apply NonogramStates.solution_clues; [reflexivity|..]|vm_compute; reflexivity]; intros [|[|[|x]]] rule [= <-]; reflexivity.
Qed.

(** C38 is false: "0" is accepted by the parser and then the solver panics; it
    also panics for two columns and no row. *)
Theorem C38_refuted :
  (exists text vss, forall m, parse_nonogram_rules m text 1 = Ret (Ok vss) /\
     solve_nonogram m (map (map N.to_nat) vss) (map (map N.to_nat) vss) = Fault Panic) /\
  (forall m, solve_nonogram m [[]; []] [] = Fault Panic).
Proof. exact NonogramProofs.panics_refuted. Qed.
Print Assumptions C38_refuted.

(** What does hold: if no clue begins or ends with zero and there is a row, it
    terminates normally. *)
Theorem C38_total_partial : forall (m : mode) col row,
  (N.of_nat (length col * length row) < limit m)%N -> Forall proper col -> Forall proper row ->
  1 <= length row \/ length col <= 1 -> exists r, solve_nonogram m col row = Ret r.
Proof. exact NonogramProofs.solve_total. Qed.
Print Assumptions C38_total_partial.

(** These are the only cases, and only panics occur. *)
Theorem C38_panic_cases_partial : forall (m : mode) col row f,
  (N.of_nat (length col * length row) < limit m)%N -> solve_nonogram m col row = Fault f ->
  f = Panic /\ (length row = 0 /\ 2 <= length col \/ exists rule, rule ∈ col ++ row /\ ~ proper rule).
Proof. exact (fun m col row f Hn => NonogramProofs.solve_panics m col row Hn f). Qed.
Print Assumptions C38_panic_cases_partial.

(** A puzzle that has a solution panics exactly in these cases. *)
Theorem C38_panic_iff_partial : forall (m : mode) col row b,
  (N.of_nat (length col * length row) < limit m)%N -> solution col row b ->
  solve_nonogram m col row = Fault Panic <->
  (length row = 0 /\ 2 <= length col) \/ exists rule, rule ∈ col ++ row /\ ~ proper rule.
Proof. exact (fun m col row b Hn => NonogramProofs.solve_panics_iff m col row Hn b). Qed.
Print Assumptions C38_panic_iff_partial.

Example C38_example : Forall proper [[2]; [1; 0; 1]; []] /\ 1 <= length [[1]; [2]] /\ ~ proper [1; 0].
Proof. split_and!; [|cbn; lia|by intros [_ H]]. repeat constructor; cbn; lia || discriminate. Qed.

(** Columns 1 and nothing, row 1,0: the clue asks for an empty square after the
    block, there is one, and the solver panics. *)
Example C38_example_panic : solution [[1]; []] [[1; 0]] [true; false] /\
  solve_nonogram (Mode Debug W64) [[1]; []] [[1; 0]] = Fault Panic.
Proof.
  split; [|vm_compute; reflexivity]. split_and!; [reflexivity|..].
  - intros [|[|x]] rule [= <-]; [by exists 0, 0|by exists 1, 0].
  - intros [|y] rule [= <-]. exists [true], []. split_and!; [reflexivity|by exists 0, 0|by exists 0, 0].
Qed.

(** C39: the line matcher finds the leftmost filling. *)
Theorem C39_leftmost : forall rule squares, head rule <> Some 0 ->
  exists r, find_left (rule_states rule) squares = Ret r /\
    (r = None <-> ~ exists b, fits rule squares b) /\
    (forall b, r = Some b -> fits rule squares b /\
       forall b', fits rule squares b' -> Forall2 le (starts b) (starts b')).
Proof. exact NonogramDeduce.find_left_leftmost. Qed.
Print Assumptions C39_leftmost.

(** Otherwise it panics. *)
Theorem C39_zero : forall rule squares, head rule = Some 0 -> find_left (rule_states rule) squares = Fault Panic.
Proof. exact NonogramZero.find_left_zero_head. Qed.
Print Assumptions C39_zero.

Example C39_example :
  find_left (rule_states [1; 2]) [Blank; Blocked; Blank; Blank; Blank; Filled; Blank]
  = Ret (Some [true; false; false; false; true; true; false]) /\
  find_left (rule_states [2; 1]) [Blank; Blocked; Blank; Filled; Blocked] = Ret None /\
  find_left (rule_states [1; 0; 2]) [Blank; Blank; Blank; Blank; Blank; Blank] = Ret (Some [true; false; false; true; true; false]).
Proof. split_and!; vm_compute; reflexivity. Qed.

(** C40: exchanging rows and columns transposes the result. *)
Theorem C40_transpose : forall (m : mode) col row,
  Forall proper col -> Forall proper row -> (N.of_nat (length col * length row) < limit m)%N ->
  col <> [] -> row <> [] ->
  solve_nonogram m row col =
    match solve_nonogram m col row with
    | Ret (Ok g) => Ret (Ok (transpose (length col) (length row) g))
    | r => r
    end.
Proof. exact NonogramProofs.solve_transpose. Qed.
Print Assumptions C40_transpose.

Example C40_example :
  solve_nonogram (Mode Debug W64) [[2]; [1]; []] [[2]; [1]] = Ret (Ok [true; true; false; true; false; false]) /\
  solve_nonogram (Mode Debug W64) [[2]; [1]] [[2]; [1]; []] = Ret (Ok [true; true; true; false; false; false]) /\
  transpose 3 2 [true; true; false; true; false; false] = [true; true; true; false; false; false].
Proof. split_and!; vm_compute; reflexivity. Qed.
