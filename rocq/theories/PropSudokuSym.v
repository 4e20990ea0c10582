(** Property C63. *)
From Verif Require Import Base Dlx Sudoku SpecDlx SpecSudoku SpecSudokuSym.
From Verif Require SudokuSym SudokuProofs.

(** C63: a puzzle is solved iff every symmetric one is, and a unique solution
    moves along. *)
Theorem C63_symmetric : forall fuel pi pi' rho rho' p, symmetry pi pi' rho rho' -> puzzle_ok p ->
  matrix_size SUDOKU_CONSTRAINTS < fuel ->
  ((exists g, solve_sudoku fuel p = Ret (Ok g, ∅)) <-> exists g, solve_sudoku fuel (moved pi' rho p) = Ret (Ok g, ∅)) /\
  forall g, completes p g -> (forall g', completes p g' -> g' = g) ->
    solve_sudoku fuel p = Ret (Ok g, ∅) /\ solve_sudoku fuel (moved pi' rho p) = Ret (Ok (moved pi' rho g), ∅).
Proof. exact SudokuSym.solve_symmetric. Qed.
Print Assumptions C63_symmetric.

(** Exchanging rows and columns, permuting rows, columns, bands and stacks, and
    renaming digits are symmetries. *)
Theorem C63_flip : forall rho rho',
  (forall v, 1 <= v <= 9 -> 1 <= rho v <= 9 /\ 1 <= rho' v <= 9 /\ rho' (rho v) = v /\ rho (rho' v) = v) ->
  rho 0 = 0 -> rho' 0 = 0 -> symmetry flip_cell flip_cell rho rho'.
Proof. exact SudokuSym.flip_symmetry. Qed.
Print Assumptions C63_flip.
Theorem C63_permute : forall r r' s s' rho rho', block_permutation r r' -> block_permutation s s' ->
  (forall v, 1 <= v <= 9 -> 1 <= rho v <= 9 /\ 1 <= rho' v <= 9 /\ rho' (rho v) = v /\ rho (rho' v) = v) ->
  rho 0 = 0 -> rho' 0 = 0 -> symmetry (permute_cells r s) (permute_cells r' s') rho rho'.
Proof. exact SudokuSym.permute_symmetry. Qed.
Print Assumptions C63_permute.

(** Reversing the order of the rows, and digit [v] becoming [10 - v]. *)
Example C63_example :
  symmetry (permute_cells (fun i => 8 - i) id) (permute_cells (fun i => 8 - i) id)
    (fun v => if v =? 0 then 0 else 10 - v) (fun v => if v =? 0 then 0 else 10 - v) /\
  moved (permute_cells (fun i => 8 - i) id) (fun v => if v =? 0 then 0 else 10 - v) (0 :: 1 :: replicate 79 0)
    = replicate 73 0 ++ [9] ++ replicate 7 0.
Proof.
  split; [|vm_compute; reflexivity]. apply C63_permute; [..|reflexivity|reflexivity].
  - split; [intros i Hi; lia|]. intros i j Hi Hj.
    do 9 (destruct i as [|i]; [do 9 (destruct j as [|j]; [vm_compute; split; intros E; first [done|lia]|]); lia|]); lia.
  - split; [intros i Hi; unfold id; lia|]. intros i j _ _. done.
  - intros v Hv. do 10 (destruct v as [|v]; [vm_compute; lia|]). lia.
Qed.
