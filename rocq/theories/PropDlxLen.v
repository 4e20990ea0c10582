(** Property C108: iterators that return wrong lengths. *)
From Verif Require Import Base Dlx SpecDlx SpecDlxRelease SpecDlxLen.
From Verif Require DlxLenProofs DlxLenCheckProofs.

(** C108: whatever lengths the iterators claim, a build without overflow checks
    accepts compatible rows, frees every node, and answers with an exact cover
    that contains the rows if there is one. *)
Theorem C108_answer : forall (ws : word) lcs rows fuel,
  Forall (fun len => len < limit ws)%N lcs.*1 -> Forall NoDup lcs.*2 -> compatible lcs.*2 rows ->
  matrix_size lcs.*2 < fuel ->
  exists r, session_len ws fuel lcs rows = Ret (replicate (length rows) (Ok ()), r, 0) /\
    match r with
    | Ok sel => exists sol, sel = rows ++ sol /\ exact_cover lcs.*2 sel
    | Err e => e = DlxNoSolution /\ forall sol, ~ exact_cover lcs.*2 (rows ++ sol)
    end.
Proof. exact DlxLenProofs.len_answer. Qed.
Print Assumptions C108_answer.

(** Any rows, also ones in conflict, have the same outcome as with the right
    lengths; only which exact cover is found may differ. *)
Theorem C108_same : forall (ws : word) lcs rows fuel,
  Forall (fun len => len < limit ws)%N lcs.*1 -> Forall NoDup lcs.*2 -> matrix_size lcs.*2 < fuel ->
  same_but_answer (session fuel lcs.*2 rows) (session_len ws fuel lcs rows).
Proof. intros ws lcs rows fuel Hl Hnd Hf. exact (DlxLenProofs.session_len_same ws lcs fuel Hl Hnd Hf rows). Qed.
Print Assumptions C108_same.

(** So has a matrix that is dropped unsolved. *)
Theorem C108_abandoned : forall (ws : word) lcs rows fuel,
  Forall (fun len => len < limit ws)%N lcs.*1 -> Forall NoDup lcs.*2 -> matrix_size lcs.*2 < fuel ->
  abandoned_len ws fuel lcs rows = abandoned fuel lcs.*2 rows.
Proof. intros ws lcs rows fuel Hl Hnd Hf. exact (DlxLenProofs.abandoned_len_same ws lcs fuel Hl Hnd Hf rows). Qed.
Print Assumptions C108_abandoned.

(** The right lengths are the ones of the other properties. *)
Theorem C108_right : forall (ws : word) cs rows fuel,
  session_len ws fuel ((fun l => (N.of_nat (length l), l)) <$> cs) rows = session_release ws fuel cs rows.
Proof. intros ws cs rows fuel. exact (DlxLenProofs.session_right ws fuel cs rows). Qed.
Print Assumptions C108_right.

(** With overflow checks a wrong length can end in a panic. *)
Theorem C108_checked_panics : exists lcs fuel,
  Forall NoDup lcs.*2 /\ matrix_size lcs.*2 < fuel /\ session_len_checked fuel lcs [] = Fault Panic.
Proof.
  exists [(0%N, [0; 1]); (0%N, [2; 0])], 10. split; [|split; [by vm_compute; lia|by vm_compute]].
  repeat constructor; rewrite ?elem_of_cons, ?elem_of_nil; lia.
Qed.
Print Assumptions C108_checked_panics.

(** That panic is the only other outcome, and there is none as long as no
    iterator claims less than it yields. *)
Theorem C108_checked_answer : forall lcs rows fuel,
  Forall NoDup lcs.*2 -> compatible lcs.*2 rows -> matrix_size lcs.*2 < fuel ->
  session_len_checked fuel lcs rows = Fault Panic /\ ~ long_enough lcs \/
  exists r, session_len_checked fuel lcs rows = Ret (replicate (length rows) (Ok ()), r, 0) /\
    match r with
    | Ok sel => exists sol, sel = rows ++ sol /\ exact_cover lcs.*2 sel
    | Err e => e = DlxNoSolution /\ forall sol, ~ exact_cover lcs.*2 (rows ++ sol)
    end.
Proof. exact DlxLenCheckProofs.check_answer. Qed.
Print Assumptions C108_checked_answer.
Theorem C108_checked_same : forall lcs rows fuel,
  Forall NoDup lcs.*2 -> matrix_size lcs.*2 < fuel ->
  session_len_checked fuel lcs rows = Fault Panic /\ ~ long_enough lcs \/
  same_but_answer (session fuel lcs.*2 rows) (session_len_checked fuel lcs rows).
Proof. intros lcs rows fuel Hnd Hf. exact (DlxLenCheckProofs.session_check lcs fuel Hnd Hf rows). Qed.
Print Assumptions C108_checked_same.
Theorem C108_checked_abandoned : forall lcs rows fuel,
  Forall NoDup lcs.*2 -> matrix_size lcs.*2 < fuel ->
  abandoned_len_checked fuel lcs rows = Fault Panic /\ ~ long_enough lcs \/
  abandoned_len_checked fuel lcs rows = abandoned fuel lcs.*2 rows.
Proof. intros lcs rows fuel Hnd Hf. exact (DlxLenCheckProofs.abandoned_check lcs fuel Hnd Hf rows). Qed.
Print Assumptions C108_checked_abandoned.

(** Two constraints and three rows: the right lengths, lengths that make the
    solver find the other answer, lengths at the ends of their range, a row
    fixed beforehand; no answer; and a conflict that is undefined behaviour
    whatever the lengths. *)
Example C108_example :
  session_len W32 10 [(2%N, [0; 1]); (2%N, [2; 0])] [] = Ret ([], Ok [0], 0) /\
  session_len W32 10 [(5%N, [0; 1]); (1%N, [2; 0])] [] = Ret ([], Ok [2; 1], 0) /\
  session_len W32 10 [((limit W32 - 1)%N, [0; 1]); (0%N, [2; 0])] [] = Ret ([], Ok [2; 1], 0) /\
  session_len W32 10 [(0%N, [0; 1]); (0%N, [2; 0])] [1] = Ret ([Ok ()], Ok [1; 2], 0) /\
  session_len W32 20 [(9%N, [0]); (1%N, [0; 1]); (0%N, [1])] [] = Ret ([], Err DlxNoSolution, 0) /\
  session_len W32 20 [(9%N, [0; 1]); (1%N, [1; 2]); (0%N, [0; 3]); (3%N, [3; 4])] [3; 0] = Fault UB /\
  abandoned_len W32 10 [(5%N, [0; 1]); (1%N, [2; 0])] [1] = Ret ([Ok ()], 0).
Proof. repeat (split; [vm_compute; reflexivity|]). vm_compute. reflexivity. Qed.
Example C108_hypotheses :
  Forall (fun len => len < limit W32)%N [(limit W32 - 1)%N; 0%N] /\ Forall NoDup [[0; 1]; [2; 0]] /\
  compatible [[0; 1]; [2; 0]] [1] /\ (matrix_size [[0; 1]; [2; 0]] < 10).
Proof.
  split; [repeat constructor|]. split; [repeat constructor; rewrite ?elem_of_cons, ?elem_of_nil; lia|]. split; [|vm_compute; lia].
  intros [|a l1] r l2 E; [|injection E; intros E2 _; by destruct l1]. injection E as <- <-. split.
  - exists [0; 1]. rewrite !elem_of_cons. auto.
  - intros (k&a&_&Ha&_). by apply elem_of_nil in Ha.
Qed.
(** With overflow checks: lengths too large, one too small that does not matter
    and one that does, in the search and when a row is fixed; a conflict. *)
Example C108_checked_example :
  session_len_checked 10 [(5%N, [0; 1]); (2%N, [2; 0])] [] = Ret ([], Ok [2; 1], 0) /\
  session_len_checked 10 [(5%N, [0; 1]); (1%N, [2; 0])] [] = Ret ([], Ok [2; 1], 0) /\
  session_len_checked 10 [(0%N, [0; 1]); (0%N, [2; 0])] [] = Fault Panic /\
  session_len_checked 10 [(0%N, [0; 1]); (0%N, [2; 0])] [1] = Fault Panic /\
  session_len_checked 10 [(0%N, [0; 1]); (1%N, [2; 0])] [1] = Ret ([Ok ()], Ok [1; 2], 0) /\
  abandoned_len_checked 10 [(0%N, [0; 1]); (0%N, [2; 0])] [] = Ret ([], 0) /\
  session_len_checked 20 [(9%N, [0; 1]); (9%N, [1; 2]); (9%N, [0; 3]); (9%N, [3; 4])] [3; 0] = Fault UB /\
  long_enough [(5%N, [0; 1]); (2%N, [2; 0])].
Proof. repeat (split; [vm_compute; reflexivity|]). repeat constructor; cbn; lia. Qed.
