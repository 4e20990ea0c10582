(** Property C101: capacity checks of vectors in the nonogram solver. *)
From Verif Require Import Base Nonogram NonogramCapacity SpecNonogramText SpecWord.
From Verif Require NonogramCapacityProofs.

(** C101: a clue whose blocks and gaps need as many squares as
    there are bytes of memory makes
    [solve_nonogram] panic, whatever the other clues are. *)
Theorem C101_long : forall grow (m : mode) col row, grows grow ->
  Exists (fun rule => memory_limit m <= N.of_nat (sum_list rule + length rule + 2))%N (col ++ row) ->
  solve_checked grow m col row = Fault Panic.
Proof. exact NonogramCapacityProofs.solve_long_lt. Qed.
Print Assumptions C101_long.

(** The checks only ever add panics. *)
Theorem C101_only : forall grow (m : mode) col row,
  solve_checked grow m col row = Fault Panic \/ solve_checked grow m col row = solve_nonogram m col row.
Proof. exact NonogramCapacityProofs.solve_any_alt. Qed.
Print Assumptions C101_only.

(** They change nothing if all vectors fit in the memory, and an answer
    is only given then. *)
Theorem C101_same : forall grow (m : mode) col row, grows grow ->
  (N.of_nat (length col * length row) < memory_limit m)%N ->
  (6 * pointer_bytes m * N.of_nat (length col) < memory_limit m)%N -> (6 * pointer_bytes m * N.of_nat (length row) < memory_limit m)%N ->
  Forall (fun rule => 3 * pointer_bytes m * N.of_nat (sum_list rule + length rule + 3) < memory_limit m)%N (col ++ row) ->
  solve_checked grow m col row = solve_nonogram m col row.
Proof. exact NonogramCapacityProofs.solve_small_lt. Qed.
Print Assumptions C101_same.

Theorem C101_answer : forall grow (m : mode) col row g, solve_checked grow m col row = Ret (Ok g) ->
  solve_nonogram m col row = Ret (Ok g) /\
  (6 * pointer_bytes m * N.of_nat (length col) < memory_limit m)%N /\ (6 * pointer_bytes m * N.of_nat (length row) < memory_limit m)%N /\
  Forall (fun rule => 3 * pointer_bytes m * N.of_nat (sum_list rule + length rule + 3) < memory_limit m)%N (col ++ row).
Proof. exact NonogramCapacityProofs.solve_ok_lt. Qed.
Print Assumptions C101_answer.

(** Without overflow checks the parser accepts clues that do not fit (C32), but
    then the solver always panics: it never works on a wrong clue. *)
Theorem C101_text : forall ws grow s t col row, grows grow ->
  (N.of_nat (length col * length row) < memory_limit ws)%N ->
  (6 * pointer_bytes ws * N.of_nat (length col) < memory_limit ws)%N -> (6 * pointer_bytes ws * N.of_nat (length row) < memory_limit ws)%N ->
  parse_nonogram_rules (Mode Release ws) s (N.of_nat (length row)) = Ret (Ok col) ->
  parse_nonogram_rules (Mode Release ws) t (N.of_nat (length col)) = Ret (Ok row) ->
  let col' := (fun vs : list N => N.to_nat <$> vs) <$> col in
  let row' := (fun vs : list N => N.to_nat <$> vs) <$> row in
  (Forall (fun vs => min_length vs <= N.of_nat (length row))%N col /\
   Forall (fun vs => min_length vs <= N.of_nat (length col))%N row /\
   solve_checked grow (Mode Release ws) col' row' = solve_nonogram (Mode Release ws) col' row') \/
  solve_checked grow (Mode Release ws) col' row' = Fault Panic.
Proof. exact NonogramCapacityProofs.text_outcome. Qed.
Print Assumptions C101_text.

(** The growth of [Vec] in std meets the hypothesis; a puzzle with one square. *)
Example C101_small : grows std_grow /\ solve_checked std_grow (Mode Debug W64) [[1]] [[1]] = Ret (Ok [true]).
Proof. split; [exact NonogramCapacityProofs.std_grows|]. vm_compute. reflexivity. Qed.
(** First allocation, doubling, and a length beyond the double. *)
Example C101_growth : std_grow 0 1 = 8%N /\ std_grow 16 17 = 32%N /\ std_grow 8 100 = 100%N.
Proof. done. Qed.
(** One square with the column "18446744073709551615,1". *)
Example C101_wraps :
  parse_nonogram_rules (Mode Release W64) ([49; 56; 52; 52; 54; 55; 52; 52; 48; 55; 51; 55; 48; 57; 53; 53; 49; 54; 49; 53; 44; 49])%N 1
    = Ret (Ok [[2 ^ 64 - 1; 1]])%N /\
  parse_nonogram_rules (Mode Release W64) [49]%N 1 = Ret (Ok [[1]])%N /\
  solve_checked std_grow (Mode Release W64) [[N.to_nat (2 ^ 64 - 1); 1]] [[1]] = Fault Panic.
Proof.
  split; [vm_compute; reflexivity|]. split; [reflexivity|]. apply C101_long; [exact NonogramCapacityProofs.std_grows|].
  constructor 1. cbn [sum_list sum_list_with length]. rewrite !Nat2N.inj_add. change (id ?x) with x. rewrite N2Nat.id. by vm_compute.
Qed.
