(** Properties C88 and C89: how much the exact cover search does.  The counted
    functions are those of the model with a counter. *)
From Verif Require Import Base Dlx Sudoku SpecDlx SpecDlxSearch SpecSudoku SpecSudokuSearch DlxCost SpecDlxCost.
From Verif Require DlxCostProofs SudokuCostProofs.

(** The counter changes nothing. *)
Theorem C88_same : forall fuel mx, (let! (r, h, _) := solve_calls fuel mx in Ret (r, h)) = solve fuel mx.
Proof. exact DlxCostProofs.solve_same. Qed.
Print Assumptions C88_same.
(** C88: [solve_helper] is called once for every partial selection Algorithm X
    on plain lists looks at. *)
Theorem C88_calls : forall cs added fuel,
  Forall NoDup cs -> compatible cs added -> matrix_size cs < fuel ->
  exists mx0 mx, matrix_new cs = Ret mx0 /\ add_all fuel added mx0 = Ret (Ok mx) /\
    solve_calls fuel mx = Ret (match knuth (foldl choose cs added) with
                               | Some sol => Ok (added ++ sol)
                               | None => Err DlxNoSolution
                               end, ∅, knuth_branches (foldl choose cs added)).
Proof. exact DlxCostProofs.search_calls. Qed.
Print Assumptions C88_calls.
(** Nothing is tried in vain if every step is forced, in some order: one call
    for every row and one more. *)
Theorem C88_forced : forall cs added fuel rows,
  Forall NoDup cs -> compatible cs added -> matrix_size cs < fuel -> forced (foldl choose cs added) rows ->
  exists mx0 mx sol, matrix_new cs = Ret mx0 /\ add_all fuel added mx0 = Ret (Ok mx) /\
    solve_calls fuel mx = Ret (Ok (added ++ sol), ∅, S (length rows)) /\ sol ≡ₚ rows.
Proof. exact DlxCostProofs.forced_calls. Qed.
Print Assumptions C88_forced.
(** The matrix has a root, a header for every constraint that is left and a node
    for every row that is left in it. *)
Theorem C88_nodes : forall cs added fuel,
  Forall NoDup cs -> compatible cs added -> matrix_size cs < fuel ->
  exists mx0 mx, matrix_new cs = Ret mx0 /\ add_all fuel added mx0 = Ret (Ok mx) /\
    size (d_heap mx) = S (matrix_size (foldl choose cs added)).
Proof. exact DlxCostProofs.matrix_nodes. Qed.
Print Assumptions C88_nodes.

Definition calls_of {A B} (x : res (A * B * nat)) : res nat := let! (_, _, n) := x in Ret n.
(** The first row tried is wrong; a matrix where nothing has to be tried although
    two constraints have several rows; one that needs no call but the first. *)
Definition cs3 : list (list nat) := [[0; 1]; [0; 2]; [1]; [2; 3]].
Example C88_example :
  let cs1 := [[0; 1]; [4; 5]; [3; 4]; [0; 1; 2]; [2; 3]; [3; 4]; [0; 2; 4; 5]] in
  knuth_branches cs1 = 5 /\ calls_of (let! mx := matrix_new cs1 in solve_calls 25 mx) = Ret 5 /\
  Forall NoDup cs3 /\ matrix_size cs3 = 11 /\ knuth_branches cs3 = 3 /\
  calls_of (let! mx := matrix_new cs3 in solve_calls 12 mx) = Ret 3 /\
  calls_of (let! mx := matrix_new [[0; 1]; []] in solve_calls 12 mx) = Ret 1 /\
  (let! mx := matrix_new cs3 in let! r := add_all 12 [1] mx in
   match r with Ok mx' => Ret (size (d_heap mx), size (d_heap mx')) | Err _ => Fault Panic end) = Ret (12, 6).
Proof. intros cs1. split_and!; first [vm_compute; reflexivity|by apply (bool_decide_unpack _)]. Qed.
Example C88_example_forced : compatible cs3 [] /\ exists rows, forced cs3 rows.
Proof.
  split; [intros [|] ? ? [=]|]. exists [1; 2].
  constructor; [by apply (bool_decide_unpack _)|]. constructor; [by apply (bool_decide_unpack _)|]. constructor.
Qed.

Notation enough fuel := (matrix_size SUDOKU_CONSTRAINTS < fuel).

(** The counter changes nothing. *)
Theorem C89_same : forall fuel p, (let! (r, h, _) := sudoku_calls fuel p in Ret (r, h)) = solve_sudoku fuel p.
Proof. exact SudokuCostProofs.sudoku_same. Qed.
Print Assumptions C89_same.
(** C89: one call for every grid the search on plain grids looks at. *)
Theorem C89_grids : forall fuel p, puzzle_ok p -> enough fuel -> (forall i j, ~ clash p i j) ->
  sudoku_calls fuel p = Ret (match sudoku_search 81 p with Some g => Ok g | None => Err NoSolution end, ∅, grids 81 p).
Proof. exact SudokuCostProofs.sudoku_grids. Qed.
Print Assumptions C89_grids.
(** A puzzle that can be solved by singles is solved without trying anything in
    vain: one call for every empty cell and one more.  It has no other solution. *)
Theorem C89_singles : forall fuel p g, puzzle_ok p -> enough fuel -> (forall i j, ~ clash p i j) -> singles p g ->
  sudoku_calls fuel p = Ret (Ok g, ∅, S (length (filter (fun v => v = 0) p))) /\
  completes p g /\ forall g', completes p g' -> g' = g.
Proof. exact SudokuCostProofs.singles_calls. Qed.
Print Assumptions C89_singles.
(** Puzzles of the wrong size, and puzzles whose first clash is in a box, are
    rejected without a call. *)
Theorem C89_rejected : forall fuel p,
  (length p <> 81 -> sudoku_calls fuel p = Ret (Err (InvalidSize (length p)), ∅, 0)) /\
  (forall i j, puzzle_ok p -> enough fuel -> first_clash p i j -> same_box i j ->
   sudoku_calls fuel p = Ret (Err NoSolution, ∅, 0)).
Proof. exact SudokuCostProofs.rejected_calls. Qed.
Print Assumptions C89_rejected.

(** Cell 9 has only one digit left; then digit 5 has one place in the first row. *)
Definition with_gaps : list nat :=
  [0;0;3; 4;0;6; 7;8;9;  0;5;6; 7;8;9; 2;1;3;  7;8;9; 2;1;3; 4;5;6;
   2;1;4; 3;6;5; 8;9;7;  3;6;5; 8;9;7; 1;2;4;  8;9;7; 1;2;4; 3;6;5;
   5;3;1; 6;4;2; 9;7;8;  6;4;2; 9;7;8; 5;3;1;  9;7;8; 5;3;1; 6;4;2].
Example C89_example : puzzle_ok with_gaps /\ (forall i j, ~ clash with_gaps i j) /\ grids 81 with_gaps = 5 /\
  exists g, singles with_gaps g.
Proof.
  split_and!.
  - by apply (bool_decide_unpack _).
  - apply SudokuSearch.no_clash_check. vm_compute. reflexivity.
  - vm_compute. reflexivity.
  - eexists. apply (SudokuCostProofs.singles_checked [(9, 4); (4, 5); (0, 1); (1, 2)]). vm_compute. reflexivity.
Qed.
