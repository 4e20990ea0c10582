(** Property C110: a panic of the solver unwinds without harm. *)
From Verif Require Import Base Dlx SpecDlx SpecDlxRelease SpecDlxLen SpecDlxUnwind.
From Verif Require DlxUnwindProofs.

(** C110: when a build with overflow checks panics because an iterator claimed
    too small a length, the matrix that is dropped on the way is half covered,
    yet nothing is freed twice or used after it was freed: compatible rows end
    in that panic or in the right answer with every node freed. *)
Theorem C110_answer : forall lcs rows fuel,
  Forall NoDup lcs.*2 -> compatible lcs.*2 rows -> matrix_size lcs.*2 < fuel ->
  session_unwind fuel lcs rows = Fault Panic /\ ~ long_enough lcs \/
  exists r, session_unwind fuel lcs rows = Ret (replicate (length rows) (Ok ()), r, 0) /\
    match r with
    | Ok sel => exists sol, sel = rows ++ sol /\ exact_cover lcs.*2 sel
    | Err e => e = DlxNoSolution /\ forall sol, ~ exact_cover lcs.*2 (rows ++ sol)
    end.
Proof. intros lcs rows fuel. exact (DlxUnwindProofs.unwind_answer fuel lcs rows). Qed.
Print Assumptions C110_answer.

(** Any rows, also ones in conflict: the panic, or the outcome of the right
    lengths. *)
Theorem C110_same : forall lcs rows fuel,
  Forall NoDup lcs.*2 -> matrix_size lcs.*2 < fuel ->
  session_unwind fuel lcs rows = Fault Panic /\ ~ long_enough lcs \/
  same_but_answer (session fuel lcs.*2 rows) (session_unwind fuel lcs rows).
Proof. intros lcs rows fuel. exact (DlxUnwindProofs.unwind_same fuel lcs rows). Qed.
Print Assumptions C110_same.
Theorem C110_abandoned : forall lcs rows fuel,
  Forall NoDup lcs.*2 -> matrix_size lcs.*2 < fuel ->
  abandoned_unwind fuel lcs rows = Fault Panic /\ ~ long_enough lcs \/
  abandoned_unwind fuel lcs rows = abandoned fuel lcs.*2 rows.
Proof. intros lcs rows fuel. exact (DlxUnwindProofs.unwind_abandoned fuel lcs rows). Qed.
Print Assumptions C110_abandoned.

(** It panics exactly when the model without unwinding does. *)
Theorem C110_unchanged : forall lcs rows fuel,
  Forall NoDup lcs.*2 -> compatible lcs.*2 rows -> matrix_size lcs.*2 < fuel ->
  session_unwind fuel lcs rows = session_len_checked fuel lcs rows.
Proof. intros lcs rows fuel. exact (DlxUnwindProofs.unwind_unchanged fuel lcs rows). Qed.
Print Assumptions C110_unchanged.

(** Panics in the search, at its root and deeper, and when a row is fixed; no
    panic; a conflict. *)
Example C110_example :
  session_unwind 10 [(0%N, [0; 1]); (0%N, [2; 0])] [] = Fault Panic /\
  session_unwind 30 [(0%N, [0; 1]); (3%N, [0; 2; 3]); (1%N, [1; 2; 4]); (3%N, [3; 4; 1])] [] = Fault Panic /\
  session_unwind 10 [(0%N, [0; 1]); (1%N, [2; 0])] [1] = Ret ([Ok ()], Ok [1; 2], 0) /\
  session_unwind 10 [(0%N, [0; 1]); (0%N, [2; 0])] [0] = Fault Panic /\
  session_unwind 10 [(5%N, [0; 1]); (2%N, [2; 0])] [] = Ret ([], Ok [2; 1], 0) /\
  abandoned_unwind 10 [(0%N, [0; 1]); (0%N, [2; 0])] [0] = Fault Panic /\
  abandoned_unwind 10 [(0%N, [0; 1]); (0%N, [2; 0])] [] = Ret ([], 0) /\
  session_unwind 20 [(9%N, [0; 1]); (9%N, [1; 2]); (9%N, [0; 3]); (9%N, [3; 4])] [3; 0] = Fault UB.
Proof. repeat (split; [vm_compute; reflexivity|]). vm_compute. reflexivity. Qed.
Example C110_hypotheses :
  Forall NoDup [[0; 1]; [2; 0]] /\ compatible [[0; 1]; [2; 0]] [1] /\ (matrix_size [[0; 1]; [2; 0]] < 10).
Proof.
  split; [repeat constructor; rewrite ?elem_of_cons, ?elem_of_nil; lia|]. split; [|vm_compute; lia].
  intros [|a l1] r l2 E; [|injection E; intros E2 _; by destruct l1]. injection E as <- <-. split.
  - exists [0; 1]. rewrite !elem_of_cons. auto.
  - intros (k&a&_&Ha&_). by apply elem_of_nil in Ha.
Qed.
