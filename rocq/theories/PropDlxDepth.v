(** Property C56: recursion depth of the exact cover search. *)
From Verif Require Import Base Dlx Sudoku SpecDlx.
From Verif Require DlxDepth.

(** If every row is in at least [w] of the constraints, then [depth] nested
    calls are enough as soon as [w * (fixed rows + depth)] exceeds the number of
    constraints; the answer is that of the unbounded search. *)
Theorem C56_depth : forall cs added fuel w depth,
  Forall NoDup cs -> compatible cs added -> matrix_size cs < fuel ->
  0 < w -> (forall r, occurs cs r -> w <= length (filter (fun k => r ∈ k) cs)) ->
  length cs < w * (length added + depth) ->
  exists mx0 mx, matrix_new cs = Ret mx0 /\ add_all fuel added mx0 = Ret (Ok mx) /\
    exists r, solve_helper fuel depth (d_root mx) (d_heap mx) (d_partial mx) = Ret r /\
      solve_helper fuel fuel (d_root mx) (d_heap mx) (d_partial mx) = Ret r.
Proof. exact DlxDepth.search_depth. Qed.
Print Assumptions C56_depth.

(** For Sudoku: at most 82 calls, one less for every clue. *)
Theorem C56_sudoku : forall added fuel depth,
  compatible SUDOKU_CONSTRAINTS added -> matrix_size SUDOKU_CONSTRAINTS < fuel -> 82 <= length added + depth ->
  exists mx0 mx, matrix_new SUDOKU_CONSTRAINTS = Ret mx0 /\ add_all fuel added mx0 = Ret (Ok mx) /\
    exists r, solve_helper fuel depth (d_root mx) (d_heap mx) (d_partial mx) = Ret r /\
      solve_helper fuel fuel (d_root mx) (d_heap mx) (d_partial mx) = Ret r.
Proof. exact DlxDepth.sudoku_depth. Qed.
Print Assumptions C56_sudoku.

(** The bound is sharp: two constraints with one row each need three calls. *)
Example C56_example :
  length [[0]; [1]] < 1 * (length (@nil nat) + 3) /\ matrix_size [[0]; [1]] < 9 /\
  match matrix_new [[0]; [1]] with
  | Ret mx => (exists h, solve_helper 9 3 (d_root mx) (d_heap mx) [] = Ret (h, [0; 1], true)) /\
      solve_helper 9 2 (d_root mx) (d_heap mx) [] = Fault OutOfFuel
  | _ => False
  end.
Proof.
  split; [cbn; lia|]. split; [cbn; lia|]. 
  split; [eexists; vm_compute; reflexivity|vm_compute; reflexivity].
Qed.
