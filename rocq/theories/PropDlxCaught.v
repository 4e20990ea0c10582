(** Property C112: a matrix whose [add_solution] panicked can be used again. *)
From Verif Require Import Base Dlx SpecDlx SpecDlxRelease SpecDlxLen SpecDlxCaught.
From Verif Require DlxLen DlxUnwind DlxCaught DlxCaughtProofs.

(** C112: catching the panic of [add_solution] and using the half covered matrix
    again is unsound even if all rows go together: adding the next row succeeds,
    and then [solve] uses freed nodes. *)
Theorem C112_reuse_refuted : exists lcs rows fuel,
  Forall NoDup lcs.*2 /\ compatible lcs.*2 rows /\ matrix_size lcs.*2 < fuel /\
  (exists es leaked, abandoned_caught fuel lcs rows = Ret (es, leaked)) /\ session_caught fuel lcs rows = Fault UB.
Proof. exact DlxCaughtProofs.reuse_ub. Qed.
Print Assumptions C112_reuse_refuted.

(** Solving it at once can answer with rows that are no exact cover. *)
Theorem C112_answer_refuted : exists lcs row fuel sel leaked,
  Forall NoDup lcs.*2 /\ compatible lcs.*2 [row] /\ matrix_size lcs.*2 < fuel /\
  session_caught fuel lcs [row] = Ret ([None], Ok sel, leaked) /\ ~ exact_cover lcs.*2 sel.
Proof. exact DlxCaughtProofs.reuse_wrong. Qed.
Print Assumptions C112_answer_refuted.

(** What is true: after the first panic the matrix can be dropped; only nodes
    are left over. *)
Theorem C112_dropped_partial : forall lcs rows fuel,
  Forall NoDup lcs.*2 -> compatible lcs.*2 rows -> matrix_size lcs.*2 < fuel ->
  (exists es leaked, dropped_caught fuel lcs rows = Ret (es, true, leaked) /\ length es < length rows) /\ ~ long_enough lcs \/
  dropped_caught fuel lcs rows = Ret (replicate (length rows) (Ok ()), false, 0).
Proof. intros lcs rows fuel. exact (DlxCaughtProofs.caught_compatible lcs rows fuel). Qed.
Print Assumptions C112_dropped_partial.
(** Any rows, also ones in conflict. *)
Theorem C112_same_partial : forall lcs rows fuel,
  Forall NoDup lcs.*2 -> matrix_size lcs.*2 < fuel ->
  (exists es leaked, dropped_caught fuel lcs rows = Ret (es, true, leaked) /\ length es < length rows) /\ ~ long_enough lcs \/
  match abandoned fuel lcs.*2 rows with
  | Ret (es, leaked) => dropped_caught fuel lcs rows = Ret (es, false, leaked)
  | Fault f => dropped_caught fuel lcs rows = Fault f
  end.
Proof. intros lcs rows fuel Hnd Hf. exact (DlxCaughtProofs.caught_dropped lcs fuel Hnd Hf rows). Qed.
Print Assumptions C112_same_partial.

(** A panic that is not caught is that of C110: what a catcher gets is dropped
    on the way. *)
Theorem C112_unwound_partial :
  (forall fuel root p h, DlxUnwind.cover_column fuel root p h =
     match DlxCaught.cover_column fuel p h with
     | Ret (h', true) => let! _ := matrix_drop fuel root h' in Fault Panic
     | Ret (h', false) => Ret h'
     | Fault f => Fault f
     end) /\
  (forall fuel mx r, DlxUnwind.add_solution fuel mx r =
     match DlxCaught.add_solution fuel mx r with
     | Ret (None, m) => let! _ := matrix_drop fuel (d_root m) (d_heap m) in Fault Panic
     | Ret (Some e, m) => Ret (e, m)
     | Fault f => Fault f
     end).
Proof. exact DlxCaughtProofs.unwound. Qed.
Print Assumptions C112_unwound_partial.

(** What a matrix is left with after the panic of a row: that row counts as
    chosen, and of the rows added afterwards exactly those are turned down that
    would be turned down had there been no panic. *)
Theorem C112_left_partial : forall lcs rows r fuel mx es m,
  Forall NoDup lcs.*2 -> compatible lcs.*2 (rows ++ [r]) -> matrix_size lcs.*2 < fuel ->
  DlxLen.checked_matrix_new lcs = Ret mx -> add_until fuel (rows ++ [r]) mx = Ret (es, true, m) -> length es = length rows ->
  es = replicate (length rows) (Ok ()) /\ d_partial m = rows ++ [r] /\ forall r',
  ((forall k, occurs lcs.*2 k -> k < r') -> DlxCaught.add_solution fuel m r' = Ret (Some (Err IndexError), m)) /\
  ((exists k, r' <= k /\ occurs lcs.*2 k) -> ~ occurs lcs.*2 r' \/ nulled lcs.*2 (rows ++ [r]) r' ->
    DlxCaught.add_solution fuel m r' = Ret (Some (Err InvalidRow), Matrix (d_heap m) (d_next m) (d_root m) (d_rows m) (d_partial m ++ [r']))) /\
  (occurs lcs.*2 r' -> ~ nulled lcs.*2 (rows ++ [r]) r' ->
    forall e m', DlxCaught.add_solution fuel m r' <> Ret (Some (Err e), m')).
Proof. intros lcs rows r fuel mx es m. exact (DlxCaughtProofs.caught_left lcs rows r fuel mx es m). Qed.
Print Assumptions C112_left_partial.
Example C112_left_hypotheses : exists mx m,
  DlxLen.checked_matrix_new [(1%N, [0; 1]); (2%N, [0; 1]); (1%N, [2])] = Ret mx /\
  add_until 20 ([2] ++ [0]) mx = Ret ([Ok ()], true, m) /\
  DlxCaught.add_solution 20 m 1 = Ret (Some (Err InvalidRow), Matrix (d_heap m) (d_next m) (d_root m) (d_rows m) [2; 0; 1]) /\
  DlxCaught.add_solution 20 m 3 = Ret (Some (Err IndexError), m).
Proof. eexists _, _. split; [vm_compute; reflexivity|]. split; [vm_compute; reflexivity|]. split; vm_compute; reflexivity. Qed.

(** A panic at the first and at the second row; no panic; a conflict; further
    uses, of which some go well. *)
Example C112_example :
  dropped_caught 10 [(0%N, [0; 1]); (0%N, [0])] [0] = Ret ([], true, 3) /\
  dropped_caught 20 [(1%N, [0; 1]); (2%N, [0; 1]); (1%N, [2])] [2; 0] = Ret ([Ok ()], true, 5) /\
  dropped_caught 20 [(0%N, [0; 1]); (1%N, [2]); (1%N, [0])] [2; 1] = Ret ([Ok (); Ok ()], false, 0) /\
  dropped_caught 20 [(9%N, [0; 1]); (9%N, [1; 2]); (9%N, [0; 3]); (9%N, [3; 4])] [3; 0] = Fault UB /\
  session_caught 20 [(0%N, [0; 1]); (1%N, [0; 1])] [0] = Fault Panic /\
  session_caught 20 [(0%N, [0; 1]); (0%N, [0])] [0; 1] = Ret ([None; Some (Ok ())], Ok [0; 1], 3) /\
  abandoned_caught 20 [(0%N, [0]); (1%N, [0])] [0; 0; 1] = Ret ([None; Some (Err InvalidRow); Some (Err IndexError)], 3).
Proof. repeat (split; [vm_compute; reflexivity|]). vm_compute. reflexivity. Qed.
Example C112_hypotheses :
  Forall NoDup [[0; 1]; [2; 0]] /\ compatible [[0; 1]; [2; 0]] [1] /\ (matrix_size [[0; 1]; [2; 0]] < 10).
Proof.
  split; [repeat constructor; rewrite ?elem_of_cons, ?elem_of_nil; lia|]. split; [|vm_compute; lia].
  intros [|a l1] r l2 E; [|injection E; intros E2 _; by destruct l1]. injection E as <- <-. split.
  - exists [0; 1]. rewrite !elem_of_cons. auto.
  - intros (k&a&_&Ha&_). by apply elem_of_nil in Ha.
Qed.
