(** Property C51: constraint lists that may name a row twice. *)
From Verif Require Import Base Dlx SpecDlx.
From Verif Require DlxProofs DlxEmpty DlxHang.

(** C51: [new] then [solve] is safe and decides exact cover for every list of
    constraints.  False: with a repeated row, [solve] can use a freed node, and
    it can miss the only cover and leak nodes. *)
Theorem C51_refuted :
  (exists cs mx fuel, matrix_size cs < fuel /\ matrix_new cs = Ret mx /\ exact_cover cs [0] /\
     solve fuel mx = Fault UB) /\
  (exists cs mx fuel h, matrix_size cs < fuel /\ matrix_new cs = Ret mx /\ exact_cover cs [0] /\
     solve fuel mx = Ret (Err DlxNoSolution, h) /\ h <> ∅).
Proof. exact DlxProofs.repeated_rows. Qed.
Print Assumptions C51_refuted.

(** One constraint is enough for each of these: using a freed node, panicking
    because the size of a column falls below zero, and finding the cover but
    leaking nodes. *)
Theorem C51_alone_refuted :
  (exists k mx fuel, matrix_size [k] < fuel /\ matrix_new [k] = Ret mx /\ exact_cover [k] [1] /\
     solve fuel mx = Fault UB) /\
  (exists k mx fuel, matrix_size [k] < fuel /\ matrix_new [k] = Ret mx /\ exact_cover [k] [0] /\
     solve fuel mx = Fault Panic) /\
  (exists k mx fuel h, matrix_size [k] < fuel /\ matrix_new [k] = Ret mx /\ exact_cover [k] [1] /\
     solve fuel mx = Ret (Ok [1], h) /\ h <> ∅).
Proof. exact DlxProofs.repeated_alone. Qed.
Print Assumptions C51_alone_refuted.

(** And the search can descend for ever although there is a cover: no number of
    iterations and nested calls is enough. *)
Theorem C51_endless_refuted : exists cs mx sel, matrix_new cs = Ret mx /\ exact_cover cs sel /\
  forall fuel, 30 <= fuel -> solve fuel mx = Fault OutOfFuel.
Proof. exact DlxHang.hang. Qed.
Print Assumptions C51_endless_refuted.

(** What does hold for all constraints: the matrix is built, and dropping it
    unsolved frees every node once. *)
Theorem C51_new_drop : forall cs fuel,
  matrix_size cs < fuel ->
  exists mx, matrix_new cs = Ret mx /\ matrix_drop fuel (d_root mx) (d_heap mx) = Ret ∅.
Proof. exact DlxProofs.new_drop. Qed.
Print Assumptions C51_new_drop.

(** Also for all constraints, repeated rows or not: if one of them is empty, the
    answer that there is no solution is right and nothing is leaked. *)
Theorem C51_empty_partial : forall cs fuel,
  [] ∈ cs -> matrix_size cs < fuel ->
  (forall sel, ~ exact_cover cs sel) /\
  exists mx, matrix_new cs = Ret mx /\ solve fuel mx = Ret (Err DlxNoSolution, ∅).
Proof. exact DlxEmpty.solve_empty. Qed.
Print Assumptions C51_empty_partial.

(** A list with repetitions and an empty constraint. *)
Example C51_example :
  [] ∈ [[0; 0]; [0]; []; [2; 0; 2]] /\
  matrix_size [[0; 0]; [0]; []; [2; 0; 2]] = 10 /\
  (let! mx := matrix_new [[0; 0]; [0]; []; [2; 0; 2]] in
   let! h := matrix_drop 11 (d_root mx) (d_heap mx) in
   Ret (size (d_heap mx), bool_decide (h = ∅))) = Ret (11, true).
Proof. split; [apply elem_of_list_further, elem_of_list_further, elem_of_list_here|split; vm_compute; reflexivity]. Qed.
