(** Property C55: the clue zero. *)
From Verif Require Import Base SpecWord Nonogram SpecNonogram SpecNonogramZero.
From Verif Require NonogramZero.

(** C55 is false: "0" does not denote an empty line. *)
Theorem C55_refuted : forall ws : word, exists col row b,
  solution (no_zeros <$> col) (no_zeros <$> row) b /\ solve_nonogram (Mode Release ws) col row = Fault Panic.
Proof. exact NonogramZero.zero_refuted. Qed.
Print Assumptions C55_refuted.

(** Zeros inside a clue are not left out either: columns 1, nothing, 1 and row
    1,0,1 give an error. *)
Theorem C55_inner_refuted : forall ws : word, exists col row b, Forall proper col /\ Forall proper row /\
  solution (no_zeros <$> col) (no_zeros <$> row) b /\ solve_nonogram (Mode Release ws) col row = Ret (Err NoSolution).
Proof. exact NonogramZero.inner_refuted. Qed.
Print Assumptions C55_inner_refuted.

(** But what satisfies the clues as the solver reads them satisfies them with
    the zeros left out. *)
Theorem C55_stricter_partial : forall col row b,
  solution col row b -> solution (no_zeros <$> col) (no_zeros <$> row) b.
Proof. exact NonogramZero.solution_no_zeros. Qed.
Print Assumptions C55_stricter_partial.

Example C55_example_stricter : solution [[1]; []; []; [1]] [[1; 0; 1]] [true; false; false; true].
Proof.
  split_and!; [reflexivity|..].
  - intros [|[|[|[|x]]]] rule [= <-]; first [by exists 0, 0|by exists 1, 0].
  - intros [|y] rule [= <-]. exists [true], [false; true]. split_and!; [reflexivity|by exists 0, 0|].
    exists [], [true]. split_and!; [reflexivity|by exists 0, 0|by exists 0, 0].
Qed.

(** A puzzle with a clue that begins or ends with zero is never solved. *)
Theorem C55_zero_partial : forall m col row rule,
  rule ∈ col ++ row -> head rule = Some 0 \/ last rule = Some 0 ->
  solve_nonogram m col row = Fault Panic \/ solve_nonogram m col row = Ret (Err NoSolution).
Proof. exact NonogramZero.solve_zero. Qed.
Print Assumptions C55_zero_partial.

(** If it has a solution when zeros stand for no block, it panics. *)
Theorem C55_panic_partial : forall (m : mode) col row b,
  Forall (fun rule => positive rule \/ head rule = Some 0) (col ++ row) ->
  (exists rule, rule ∈ col ++ row /\ head rule = Some 0) ->
  (N.of_nat (length col * length row) < limit m)%N -> 1 <= length row \/ length col <= 1 ->
  solution (no_zeros <$> col) (no_zeros <$> row) b -> solve_nonogram m col row = Fault Panic.
Proof. exact NonogramZero.solve_empty. Qed.
Print Assumptions C55_panic_partial.

(** So no puzzle with an empty line can be given as text and be solved. *)
Theorem C55_text_partial : forall m m1 m2 tc tr bc br cs rs g,
  parse_nonogram_rules m1 tc bc = Ret (Ok cs) -> parse_nonogram_rules m2 tr br = Ret (Ok rs) ->
  solve_nonogram m (map (map N.to_nat) cs) (map (map N.to_nat) rs) = Ret (Ok g) ->
  forall rule, rule ∈ map (map N.to_nat) cs ++ map (map N.to_nat) rs -> no_zeros rule <> [].
Proof. exact NonogramZero.solved_text. Qed.
Print Assumptions C55_text_partial.

(** Columns "1;0", row "1": accepted, solvable with the second column empty, but
    the solver panics; with the clue left out it finds the solution.  The clue
    "1,0" in an unsolvable puzzle gives the error. *)
Example C55_example :
  parse_nonogram_rules (Mode Debug W64) [49; 59; 48]%N 1 = Ret (Ok [[1]; [0]]%N) /\
  solve_nonogram (Mode Debug W64) [[1]; [0]] [[1]] = Fault Panic /\
  solve_nonogram (Mode Debug W64) [[1]; []] [[1]] = Ret (Ok [true; false]) /\
  solve_nonogram (Mode Debug W64) [[1; 0]] [[1]] = Ret (Err NoSolution).
Proof. vm_compute. done. Qed.

(** Texts meeting the hypotheses of [C55_text_partial]: columns "1;1", row "2". *)
Example C55_example_text :
  parse_nonogram_rules (Mode Debug W64) [49; 59; 49]%N 1 = Ret (Ok [[1]; [1]]%N) /\
  parse_nonogram_rules (Mode Debug W64) [50]%N 2 = Ret (Ok [[2]]%N) /\
  solve_nonogram (Mode Debug W64) (map (map N.to_nat) [[1]; [1]]%N) (map (map N.to_nat) [[2]]%N) = Ret (Ok [true; true]).
Proof. vm_compute. done. Qed.
