(** Property C98, and what a repeated row does in a build without overflow checks. *)
From Verif Require Import Base Dlx Sudoku SpecDlx SpecDlxSearch SpecDlxRelease.
From Verif Require DlxReleaseProofs.

(** C98: whether subtractions are checked makes no difference to the exact cover
    solver if no constraint names a row twice: not to the outcome of adding any
    rows, not to the answer, not to the nodes left, also not for rows whose
    adding is undefined behaviour. *)
Theorem C98_same : forall (ws : word) cs rows fuel,
  Forall NoDup cs -> matrix_size cs < fuel -> (N.of_nat (matrix_size cs) < limit ws)%N ->
  session_release ws fuel cs rows = session fuel cs rows.
Proof. intros ws cs rows fuel Hnd Hf Hs. exact (DlxReleaseProofs.session_same ws cs fuel Hnd Hf Hs rows). Qed.
Print Assumptions C98_same.

Theorem C98_abandoned : forall (ws : word) cs rows fuel,
  Forall NoDup cs -> matrix_size cs < fuel -> (N.of_nat (matrix_size cs) < limit ws)%N ->
  abandoned_release ws fuel cs rows = abandoned fuel cs rows.
Proof. intros ws cs rows fuel Hnd Hf Hs. exact (DlxReleaseProofs.abandoned_same ws cs fuel Hnd Hf Hs rows). Qed.
Print Assumptions C98_abandoned.

(** In particular the answer is the one of C50. *)
Theorem C98_answer : forall (ws : word) cs rows fuel,
  Forall NoDup cs -> compatible cs rows -> matrix_size cs < fuel -> (N.of_nat (matrix_size cs) < limit ws)%N ->
  session_release ws fuel cs rows =
    Ret (replicate (length rows) (Ok ()),
         match knuth (foldl choose cs rows) with
         | Some sol => Ok (rows ++ sol)
         | None => Err DlxNoSolution
         end, 0).
Proof. exact DlxReleaseProofs.release_answer. Qed.
Print Assumptions C98_answer.

(** Every sudoku, whatever its length and digits, has the same outcome. *)
Theorem C98_sudoku : forall (ws : word) p fuel,
  matrix_size SUDOKU_CONSTRAINTS < fuel -> sudoku_release ws fuel p = sudoku fuel p.
Proof. intros ws p fuel. exact (DlxReleaseProofs.sudoku_same ws fuel p). Qed.
Print Assumptions C98_sudoku.

(** Adding a row out of range, a row, and the same row again; and a row that
    conflicts with it elsewhere than in its last constraint. *)
Example C98_example :
  Forall NoDup [[0; 1]; [1; 2]; [0; 3]; [3; 4]] /\
  matrix_size [[0; 1]; [1; 2]; [0; 3]; [3; 4]] = 12 /\
  session_release W32 20 [[0; 1]; [1; 2]; [0; 3]; [3; 4]] [9; 3; 3] =
    Ret ([Err IndexError; Ok (); Err InvalidRow], Ok [3; 3; 1], 0) /\
  session_release W32 20 [[0; 1]; [1; 2]; [0; 3]; [3; 4]] [3; 0] = Fault UB /\
  abandoned_release W32 20 [[0; 1]; [1; 2]; [0; 3]; [3; 4]] [3] = Ret ([Ok ()], 0).
Proof.
  split; [|split; [reflexivity|split; [|split]; vm_compute; reflexivity]].
  repeat constructor; rewrite ?elem_of_cons, ?elem_of_nil; lia.
Qed.

(** C51 fails further without overflow checks: where the build with checks
    panics, the answer can be rows that are no cover although there is none, or
    that there is no cover although there is one. *)
Theorem C51_release_refuted : forall ws : word,
  (exists cs fuel sel k, matrix_size cs < fuel /\ (forall s, ~ exact_cover cs s) /\
     session_release ws fuel cs [] = Ret ([], Ok sel, k) /\ session fuel cs [] = Fault Panic) /\
  (exists cs fuel sel k, matrix_size cs < fuel /\ exact_cover cs sel /\ 0 < k /\
     session_release ws fuel cs [] = Ret ([], Err DlxNoSolution, k) /\ session fuel cs [] = Fault Panic).
Proof. exact DlxReleaseProofs.release_wrong. Qed.
Print Assumptions C51_release_refuted.
