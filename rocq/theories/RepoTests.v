(** The unit tests of /repo, run on the model.  They compare the model with
    results the authors of the code recorded; image tests are left out, and
    so are [miri_solve_medium], [miri_solve_hard1], [miri_solve_hard2] and
    [solve_large], which the model passes as well but coqchk checks slowly. *)
From Verif Require Import Base Util DisjointSet Dlx Sudoku.
From Verif Require Nonogram.
Local Notation mapM := Nonogram.mapM.

(** * util.rs *)
Example removes_element_from_vec : forall draw, match choose_random draw [1; 2; 3; 4; 5] with
  | Some (x, l) => bool_decide (x ∈ l) = false
  | None => False
  end.
Proof.
  intros draw. unfold choose_random. cbn [length]. pose proof (Nat.mod_upper_bound draw 5) as Hb.
  destruct (draw mod 5) as [|[|[|[|[|k]]]]]; [vm_compute; reflexivity..|lia].
Qed.
Example returns_none_if_empty : choose_random 3 ([] : list nat) = None.
Proof. reflexivity. Qed.

(** * disjoint_set.rs *)
Definition unions (l : list (nat * nat)) (d : dset) : res dset :=
  foldM (fun '(i, j) d => let! (_, d) := ds_union d i j in Ret d) l d.
Example test_with_size : length (with_size 10) = 10 /\ Forall (fun e => e = Element true 1) (with_size 10).
Proof. split; [reflexivity|]. repeat constructor. Qed.
Example test_add : ds_add ds_new = [Element true 1].
Proof. reflexivity. Qed.
Example test_union : unions [(0, 1)] (with_size 2) = Ret [Element true 2; Element false 0].
Proof. reflexivity. Qed.
Example test_union_by_size : unions [(0, 1); (2, 1)] (with_size 5) =
  Ret [Element true 3; Element false 0; Element false 0; Element true 1; Element true 1].
Proof. reflexivity. Qed.
Example test_union_by_size_2 : unions [(0, 1); (2, 1); (3, 4); (4, 2)] (with_size 5) =
  Ret [Element true 5; Element false 0; Element false 0; Element false 0; Element false 3].
Proof. reflexivity. Qed.
Definition sample_set := unions [(0, 1); (1, 2); (2, 3); (4, 5); (5, 6)] (with_size 8).
Example test_find : (let! d := sample_set in mapM (fun i => let! (r, _) := ds_find d i in Ret r) (seq 0 9)) =
  Ret [Some 0; Some 0; Some 0; Some 0; Some 4; Some 4; Some 4; Some 7; None].
Proof. reflexivity. Qed.
Example test_find_path_compression :
  (let! d := unions [(0, 1); (2, 1); (3, 4); (4, 2)] (with_size 5) in let! (_, d) := ds_find d 4 in Ret (d !! 4)) =
  Ret (Some (Element false 0)).
Proof. reflexivity. Qed.
Example test_common_set :
  (let! d := sample_set in
   mapM (fun i => mapM (fun j => let! (r, _) := common_set d i j in Ret r) (seq 0 9)) (seq 0 9)) =
  Ret (map (fun i => map (fun j =>
    if decide (i = 8 \/ j = 8) then None
    else Some (bool_decide (i = j \/ i <= 3 /\ j <= 3 \/ 4 <= i <= 6 /\ 4 <= j <= 6))) (seq 0 9)) (seq 0 9)).
Proof. reflexivity. Qed.

(** * dancing_links/mod.rs *)
Definition answer {A E} (r : res (result A E * heap)) : option (result A E * bool) :=
  match r with Ret (x, h) => Some (x, bool_decide (h = ∅)) | Fault _ => None end.
Definition sorted_answer {E} (r : res (result (list nat) E * heap)) :=
  match answer r with Some (Ok l, b) => Some (sort_rows l, b) | _ => None end.
Definition sample_matrix := matrix_new [[0; 1]; [4; 5]; [3; 4]; [0; 1; 2]; [2; 3]; [3; 4]; [0; 2; 4; 5]].
Example miri_empty : answer (let! mx := matrix_new [] in solve 20 mx) = Some (Ok [], true).
Proof. vm_compute. reflexivity. Qed.
Example miri_basic : sorted_answer (let! mx := sample_matrix in solve 20 mx) = Some ([1; 3; 5], true).
Proof. vm_compute. reflexivity. Qed.
Example miri_remove_empty_row :
  (let! mx := sample_matrix in let! (r1, mx) := add_solution 20 mx 1 in let! (r2, _) := add_solution 20 mx 0 in
   Ret (r1, r2)) = Ret (Ok (), Err InvalidRow).
Proof. vm_compute. reflexivity. Qed.
Example miri_add_solution :
  sorted_answer (let! mx := sample_matrix in let! (_, mx) := add_solution 20 mx 3 in solve 20 mx) =
  Some ([1; 3; 5], true).
Proof. vm_compute. reflexivity. Qed.

(** * sudoku/mod.rs *)

Definition easy_unsolved : list nat := [4; 1; 5; 8; 3; 0; 0; 9; 0; 0; 0; 3; 0; 0; 9; 1; 0; 4; 0;
   0; 2; 1; 5; 0; 0; 0; 6; 9; 0; 0; 7; 8; 3; 0; 0; 0; 2; 0; 0; 0; 0; 0; 3; 8; 1; 5; 0; 0; 0; 1; 2;
   4; 0; 0; 0; 0; 4; 9; 0; 0; 0; 6; 3; 3; 8; 0; 5; 0; 0; 0; 4; 0; 0; 0; 9; 3; 0; 7; 5; 0; 0].
Definition easy_string : list N := [52; 49; 53; 56; 51; 48; 48; 57; 48; 48; 48; 51; 48; 48; 57;
   49; 48; 52; 48; 48; 50; 49; 53; 48; 48; 48; 54; 57; 48; 48; 55; 56; 51; 48; 48; 48; 50; 48; 48;
   48; 48; 48; 51; 56; 49; 53; 48; 48; 48; 49; 50; 52; 48; 48; 48; 48; 52; 57; 48; 48; 48; 54; 51;
   51; 56; 48; 53; 48; 48; 48; 52; 48; 48; 48; 57; 51; 48; 55; 53; 48; 48]%N.
Example parse_easy : parse_sudoku easy_string = Ok (N.of_nat <$> easy_unsolved).
Proof. vm_compute. reflexivity. Qed.
Definition easy_solved : list nat := [4; 1; 5; 8; 3; 6; 2; 9; 7; 8; 6; 3; 2; 7; 9; 1; 5; 4; 7; 9;
   2; 1; 5; 4; 8; 3; 6; 9; 4; 1; 7; 8; 3; 6; 2; 5; 2; 7; 6; 4; 9; 5; 3; 8; 1; 5; 3; 8; 6; 1; 2; 4;
   7; 9; 1; 5; 4; 9; 2; 8; 7; 6; 3; 3; 8; 7; 5; 6; 1; 9; 4; 2; 6; 2; 9; 3; 4; 7; 5; 1; 8].
Example miri_solve_easy : answer (solve_sudoku 400 easy_unsolved) = Some (Ok easy_solved, true).
Proof. vm_compute. reflexivity. Qed.
Definition medium_unsolved : list nat := [5; 0; 0; 0; 0; 0; 3; 0; 0; 0; 0; 9; 0; 0; 0; 0; 2; 7; 4;
   0; 0; 1; 0; 5; 0; 0; 9; 2; 0; 0; 0; 0; 0; 0; 7; 0; 0; 0; 0; 0; 0; 6; 0; 0; 0; 0; 0; 6; 0; 4; 9;
   0; 0; 0; 3; 0; 0; 0; 2; 7; 9; 0; 0; 0; 8; 0; 6; 0; 0; 0; 0; 0; 0; 0; 0; 0; 3; 4; 0; 1; 2].
Definition medium_string : list N := [53; 48; 48; 48; 48; 48; 51; 48; 48; 48; 48; 57; 48; 48; 48;
   48; 50; 55; 52; 48; 48; 49; 48; 53; 48; 48; 57; 50; 48; 48; 48; 48; 48; 48; 55; 48; 48; 48; 48;
   48; 48; 54; 48; 48; 48; 48; 48; 54; 48; 52; 57; 48; 48; 48; 51; 48; 48; 48; 50; 55; 57; 48; 48;
   48; 56; 48; 54; 48; 48; 48; 48; 48; 48; 48; 48; 48; 51; 52; 48; 49; 50]%N.
Example parse_medium : parse_sudoku medium_string = Ok (N.of_nat <$> medium_unsolved).
Proof. vm_compute. reflexivity. Qed.
Definition hard1_unsolved : list nat := [0; 0; 0; 0; 3; 0; 4; 0; 0; 9; 0; 0; 4; 0; 0; 3; 0; 0; 3;
   0; 0; 0; 0; 0; 0; 7; 2; 0; 0; 9; 0; 0; 5; 0; 0; 0; 8; 0; 0; 0; 1; 0; 0; 0; 0; 7; 0; 0; 6; 0; 0;
   5; 2; 9; 0; 0; 0; 1; 0; 0; 7; 0; 0; 6; 0; 1; 0; 5; 0; 0; 0; 8; 0; 4; 0; 0; 0; 0; 0; 1; 0].
Definition hard1_string : list N := [48; 48; 48; 48; 51; 48; 52; 48; 48; 57; 48; 48; 52; 48; 48;
   51; 48; 48; 51; 48; 48; 48; 48; 48; 48; 55; 50; 48; 48; 57; 48; 48; 53; 48; 48; 48; 56; 48; 48;
   48; 49; 48; 48; 48; 48; 55; 48; 48; 54; 48; 48; 53; 50; 57; 48; 48; 48; 49; 48; 48; 55; 48; 48;
   54; 48; 49; 48; 53; 48; 48; 48; 56; 48; 52; 48; 48; 48; 48; 48; 49; 48]%N.
Example parse_hard1 : parse_sudoku hard1_string = Ok (N.of_nat <$> hard1_unsolved).
Proof. vm_compute. reflexivity. Qed.
Definition hard2_unsolved : list nat := [8; 0; 0; 0; 0; 0; 0; 0; 0; 0; 0; 3; 6; 0; 0; 0; 0; 0; 0;
   7; 0; 0; 9; 0; 2; 0; 0; 0; 5; 0; 0; 0; 7; 0; 0; 0; 0; 0; 0; 0; 4; 5; 7; 0; 0; 0; 0; 0; 1; 0; 0;
   0; 3; 0; 0; 0; 1; 0; 0; 0; 0; 6; 8; 0; 0; 8; 5; 0; 0; 0; 1; 0; 0; 9; 0; 0; 0; 0; 4; 0; 0].
Definition hard2_string : list N := [56; 48; 48; 48; 48; 48; 48; 48; 48; 48; 48; 51; 54; 48; 48;
   48; 48; 48; 48; 55; 48; 48; 57; 48; 50; 48; 48; 48; 53; 48; 48; 48; 55; 48; 48; 48; 48; 48; 48;
   48; 52; 53; 55; 48; 48; 48; 48; 48; 49; 48; 48; 48; 51; 48; 48; 48; 49; 48; 48; 48; 48; 54; 56;
   48; 48; 56; 53; 48; 48; 48; 49; 48; 48; 57; 48; 48; 48; 48; 52; 48; 48]%N.
Example parse_hard2 : parse_sudoku hard2_string = Ok (N.of_nat <$> hard2_unsolved).
Proof. vm_compute. reflexivity. Qed.
Definition hard3_unsolved : list nat := [1; 2; 0; 3; 0; 0; 0; 0; 0; 4; 0; 0; 0; 0; 0; 3; 0; 0; 0;
   0; 3; 0; 5; 0; 0; 0; 0; 0; 0; 4; 2; 0; 0; 5; 0; 0; 0; 0; 0; 0; 8; 0; 0; 0; 9; 0; 6; 0; 0; 0; 5;
   0; 7; 0; 0; 0; 1; 5; 0; 0; 2; 0; 0; 0; 0; 0; 0; 9; 0; 0; 6; 0; 0; 0; 0; 0; 0; 7; 0; 0; 8].
Definition hard3_string : list N := [49; 50; 48; 51; 48; 48; 48; 48; 48; 52; 48; 48; 48; 48; 48;
   51; 48; 48; 48; 48; 51; 48; 53; 48; 48; 48; 48; 48; 48; 52; 50; 48; 48; 53; 48; 48; 48; 48; 48;
   48; 56; 48; 48; 48; 57; 48; 54; 48; 48; 48; 53; 48; 55; 48; 48; 48; 49; 53; 48; 48; 50; 48; 48;
   48; 48; 48; 48; 57; 48; 48; 54; 48; 48; 48; 48; 48; 48; 55; 48; 48; 56]%N.
Example parse_hard3 : parse_sudoku hard3_string = Ok (N.of_nat <$> hard3_unsolved).
Proof. vm_compute. reflexivity. Qed.
Definition hard3_solved : list nat := [1; 2; 5; 3; 7; 4; 8; 9; 6; 4; 7; 9; 6; 1; 8; 3; 2; 5; 6; 8;
   3; 9; 5; 2; 7; 1; 4; 7; 1; 4; 2; 6; 9; 5; 8; 3; 5; 3; 2; 7; 8; 1; 6; 4; 9; 9; 6; 8; 4; 3; 5; 1;
   7; 2; 8; 9; 1; 5; 4; 6; 2; 3; 7; 2; 5; 7; 8; 9; 3; 4; 6; 1; 3; 4; 6; 1; 2; 7; 9; 5; 8].
Example miri_solve_hard3 : answer (solve_sudoku 400 hard3_unsolved) = Some (Ok hard3_solved, true).
Proof. vm_compute. reflexivity. Qed.
Definition impossible_unsolved : list nat := [7; 3; 1; 0; 0; 0; 0; 0; 8; 0; 0; 0; 5; 0; 0; 0; 4;
   2; 4; 0; 0; 0; 0; 9; 7; 0; 0; 0; 2; 0; 3; 0; 4; 0; 0; 0; 0; 0; 5; 0; 0; 0; 4; 0; 0; 0; 0; 0; 1;
   8; 0; 0; 0; 6; 0; 0; 0; 7; 0; 8; 0; 0; 5; 0; 9; 0; 0; 2; 0; 1; 0; 0; 0; 0; 6; 0; 9; 0; 0; 0;
   0].
Definition impossible_string : list N := [55; 51; 49; 48; 48; 48; 48; 48; 56; 48; 48; 48; 53; 48;
   48; 48; 52; 50; 52; 48; 48; 48; 48; 57; 55; 48; 48; 48; 50; 48; 51; 48; 52; 48; 48; 48; 48; 48;
   53; 48; 48; 48; 52; 48; 48; 48; 48; 48; 49; 56; 48; 48; 48; 54; 48; 48; 48; 55; 48; 56; 48; 48;
   53; 48; 57; 48; 48; 50; 48; 49; 48; 48; 48; 48; 54; 48; 57; 48; 48; 48; 48]%N.
Example parse_impossible : parse_sudoku impossible_string = Ok (N.of_nat <$> impossible_unsolved).
Proof. vm_compute. reflexivity. Qed.
Example miri_solve_impossible : answer (solve_sudoku 400 impossible_unsolved) = Some (Err NoSolution, true).
Proof. vm_compute. reflexivity. Qed.

(** * nonogram/mod.rs *)
Import Nonogram.

Definition two_two_col : list (list nat) := [[2]; [1]].
Definition two_two_row : list (list nat) := [[2]; [1]].
Definition two_two_right_left : list square := map (fun b : bool => if b then Filled else Blocked)
   ([true; true; true; false]).
Definition two_two_col_string : list N := [50; 59; 49]%N.
Definition two_two_row_string : list N := [50; 59; 49]%N.
Example parse_two_two :
  parse_nonogram_rules (Mode Debug W64) two_two_col_string (N.of_nat (length two_two_row)) = Ret (Ok (map (map N.of_nat) two_two_col)) /\
  parse_nonogram_rules (Mode Debug W64) two_two_row_string (N.of_nat (length two_two_col)) = Ret (Ok (map (map N.of_nat) two_two_row)).
Proof. split; vm_compute; reflexivity. Qed.
Example right_left_two_two :
  grid_right_left (Mode Debug W64) (replicate (length two_two_col * length two_two_row) Blank) two_two_col two_two_row = Ret (Ok two_two_right_left).
Proof. vm_compute. reflexivity. Qed.
Example solve_two_two :
  solve_nonogram (Mode Debug W64) two_two_col two_two_row =
    Ret (Ok (map (fun s => match s with Filled => true | _ => false end) two_two_right_left)).
Proof. vm_compute. reflexivity. Qed.
Definition two_three_col : list (list nat) := [[1; 1]; [2]].
Definition two_three_row : list (list nat) := [[1]; [1]; [2]].
Definition two_three_right_left : list square := map (fun b : bool => if b then Filled else
   Blocked) ([true; false; false; true; true; true]).
Definition two_three_col_string : list N := [49; 44; 49; 59; 50]%N.
Definition two_three_row_string : list N := [49; 59; 49; 59; 50]%N.
Example parse_two_three :
  parse_nonogram_rules (Mode Debug W64) two_three_col_string (N.of_nat (length two_three_row)) = Ret (Ok (map (map N.of_nat) two_three_col)) /\
  parse_nonogram_rules (Mode Debug W64) two_three_row_string (N.of_nat (length two_three_col)) = Ret (Ok (map (map N.of_nat) two_three_row)).
Proof. split; vm_compute; reflexivity. Qed.
Example right_left_two_three :
  grid_right_left (Mode Debug W64) (replicate (length two_three_col * length two_three_row) Blank) two_three_col two_three_row = Ret (Ok two_three_right_left).
Proof. vm_compute. reflexivity. Qed.
Example solve_two_three :
  solve_nonogram (Mode Debug W64) two_three_col two_three_row =
    Ret (Ok (map (fun s => match s with Filled => true | _ => false end) two_three_right_left)).
Proof. vm_compute. reflexivity. Qed.
Definition five_five_col : list (list nat) := [[1; 2]; [3]; [4]; [2]; [1]].
Definition five_five_row : list (list nat) := [[1; 1]; [1]; [2]; [4]; [4]].
Definition five_five_right_left : list square := map (fun b : bool => if b then Filled else
   Blocked) ([true; false; false; false; true; false; false; true; false; false; false; true;
   true; false; false; true; true; true; true; false; true; true; true; true; false]).
Definition five_five_col_string : list N := [49; 44; 50; 59; 51; 59; 52; 59; 50; 59; 49]%N.
Definition five_five_row_string : list N := [49; 44; 49; 59; 49; 59; 50; 59; 52; 59; 52]%N.
Example parse_five_five :
  parse_nonogram_rules (Mode Debug W64) five_five_col_string (N.of_nat (length five_five_row)) = Ret (Ok (map (map N.of_nat) five_five_col)) /\
  parse_nonogram_rules (Mode Debug W64) five_five_row_string (N.of_nat (length five_five_col)) = Ret (Ok (map (map N.of_nat) five_five_row)).
Proof. split; vm_compute; reflexivity. Qed.
Example right_left_five_five :
  grid_right_left (Mode Debug W64) (replicate (length five_five_col * length five_five_row) Blank) five_five_col five_five_row = Ret (Ok five_five_right_left).
Proof. vm_compute. reflexivity. Qed.
Example solve_five_five :
  solve_nonogram (Mode Debug W64) five_five_col five_five_row =
    Ret (Ok (map (fun s => match s with Filled => true | _ => false end) five_five_right_left)).
Proof. vm_compute. reflexivity. Qed.
Definition large_col : list (list nat) := [[2; 3; 4; 3]; [1; 3; 2]; [7; 2; 3]; [8; 1; 5]; [4; 6;
   6]; [4; 1; 1; 3; 5]; [4; 1; 3; 1; 3]; [7; 2; 1]; [3; 1; 1; 4; 2]; [1; 1; 3; 3]; [7; 1; 3]; [5;
   3]; [4; 1; 1; 1; 3; 1]; [2; 4; 3; 2]; [3; 5; 3; 3]; [5; 3; 2; 4]; [2; 1; 3; 3; 4]; [2; 6; 4];
   [2; 1; 8; 3]; [2; 1; 11; 3]; [2; 1; 3; 2; 3; 3]; [2; 1; 3; 15]; [1; 1; 1; 15]; [6; 3; 3]; [4;
   3; 1]].
Definition large_row : list (list nat) := [[9; 1; 7]; [1; 7; 3; 7]; [14]; [6; 7; 2; 2]; [4; 5; 2;
   4]; [8; 3; 1; 2]; [5; 4; 2; 6]; [3; 2; 3; 3; 1; 1]; [1; 2; 7; 3]; [1; 3; 1; 1; 8]; [9; 9]; [3;
   4; 6]; [1; 8]; [1; 2; 4]; [4; 1; 7]; [5; 6; 4]; [15; 2]; [5; 3; 2]; [3; 2; 6]; [3; 7]; [1; 1;
   7]; [1; 4; 2]; [1; 4; 3]; [1; 3; 3]; [1; 1; 3; 3]].
Definition large_right_left : list square := map (fun b : bool => if b then Filled else Blocked)
   ([true; true; true; true; true; true; true; true; true; false; false; false; true; false;
   false; true; true; true; true; true; true; true; false; false; false; true; false; true; true;
   true; true; true; true; true; false; true; true; true; false; false; true; true; true; true;
   true; true; true; false; false; false; false; false; true; true; true; true; true; true; true;
   true; true; true; true; true; true; true; false; false; false; false; false; false; false;
   false; false; false; false; true; true; true; true; true; true; false; false; true; true; true;
   true; true; true; true; false; true; true; false; false; false; true; true; true; true; true;
   true; false; false; false; true; true; true; true; true; false; false; true; true; false;
   false; false; false; false; true; true; true; true; true; true; true; true; true; true; true;
   true; false; false; true; true; true; false; false; false; false; false; false; true; false;
   false; false; true; true; true; true; true; true; true; false; false; true; true; true; true;
   false; false; true; true; false; false; false; false; true; true; true; true; true; true;
   false; false; false; true; true; true; false; false; false; true; true; false; true; true;
   true; false; false; true; true; true; false; true; false; true; false; false; false; false;
   false; true; false; false; false; true; true; false; false; false; true; true; true; true;
   true; true; true; false; true; true; true; false; true; false; false; false; true; true; true;
   false; true; false; true; false; true; true; true; true; true; true; true; true; false; false;
   false; false; false; true; true; true; true; true; true; true; true; true; false; false; false;
   false; false; true; true; true; true; true; true; true; true; true; false; false; true; true;
   true; false; false; true; true; true; true; false; false; false; false; false; false; false;
   false; true; true; true; true; true; true; false; false; true; false; false; false; false;
   false; false; false; false; false; false; false; false; false; false; false; false; true; true;
   true; true; true; true; true; true; false; false; false; false; false; false; true; false;
   false; false; false; false; false; false; false; false; false; false; true; true; false; true;
   true; true; true; false; false; false; false; false; false; false; false; false; false; false;
   true; true; true; true; false; true; false; true; true; true; true; true; true; true; false;
   false; true; true; true; true; true; false; false; false; false; true; true; true; true; true;
   true; false; false; true; true; true; true; false; false; false; false; true; true; true; true;
   true; true; true; true; true; true; true; true; true; true; true; false; false; false; false;
   true; true; false; false; false; false; true; true; true; true; true; false; true; true; true;
   false; false; false; false; false; false; false; false; false; false; true; true; false; false;
   false; false; false; true; true; true; false; false; false; true; true; false; false; false;
   false; false; false; false; false; true; true; true; true; true; true; false; false; false;
   true; true; true; false; false; false; false; false; false; false; false; false; false; false;
   true; true; true; true; true; true; true; false; false; false; false; false; true; false;
   false; false; false; false; false; false; false; true; false; false; false; true; true; true;
   true; true; true; true; false; false; false; false; false; false; false; false; false; false;
   false; false; false; false; true; false; true; true; true; true; false; false; true; true;
   false; false; true; false; false; false; false; false; false; false; false; false; false;
   false; false; false; true; true; true; true; false; false; true; true; true; false; false;
   true; false; false; false; false; false; false; false; false; false; false; false; false;
   false; true; true; true; false; false; false; true; true; true; false; false; true; false;
   false; false; false; false; false; false; false; false; false; false; true; false; true; true;
   true; false; false; false; true; true; true; false; false]).
Definition large_col_string : list N := [50; 44; 51; 44; 52; 44; 51; 59; 49; 44; 51; 44; 50; 59;
   55; 44; 50; 44; 51; 59; 56; 44; 49; 44; 53; 59; 52; 44; 54; 44; 54; 59; 52; 44; 49; 44; 49; 44;
   51; 44; 53; 59; 52; 44; 49; 44; 51; 44; 49; 44; 51; 59; 55; 44; 50; 44; 49; 59; 51; 44; 49; 44;
   49; 44; 52; 44; 50; 59; 49; 44; 49; 44; 51; 44; 51; 59; 55; 44; 49; 44; 51; 59; 53; 44; 51; 59;
   52; 44; 49; 44; 49; 44; 49; 44; 51; 44; 49; 59; 50; 44; 52; 44; 51; 44; 50; 59; 51; 44; 53; 44;
   51; 44; 51; 59; 53; 44; 51; 44; 50; 44; 52; 59; 50; 44; 49; 44; 51; 44; 51; 44; 52; 59; 50; 44;
   54; 44; 52; 59; 50; 44; 49; 44; 56; 44; 51; 59; 50; 44; 49; 44; 49; 49; 44; 51; 59; 50; 44; 49;
   44; 51; 44; 50; 44; 51; 44; 51; 59; 50; 44; 49; 44; 51; 44; 49; 53; 59; 49; 44; 49; 44; 49; 44;
   49; 53; 59; 54; 44; 51; 44; 51; 59; 52; 44; 51; 44; 49]%N.
Definition large_row_string : list N := [57; 44; 49; 44; 55; 59; 49; 44; 55; 44; 51; 44; 55; 59;
   49; 52; 59; 54; 44; 55; 44; 50; 44; 50; 59; 52; 44; 53; 44; 50; 44; 52; 59; 56; 44; 51; 44; 49;
   44; 50; 59; 53; 44; 52; 44; 50; 44; 54; 59; 51; 44; 50; 44; 51; 44; 51; 44; 49; 44; 49; 59; 49;
   44; 50; 44; 55; 44; 51; 59; 49; 44; 51; 44; 49; 44; 49; 44; 56; 59; 57; 44; 57; 59; 51; 44; 52;
   44; 54; 59; 49; 44; 56; 59; 49; 44; 50; 44; 52; 59; 52; 44; 49; 44; 55; 59; 53; 44; 54; 44; 52;
   59; 49; 53; 44; 50; 59; 53; 44; 51; 44; 50; 59; 51; 44; 50; 44; 54; 59; 51; 44; 55; 59; 49; 44;
   49; 44; 55; 59; 49; 44; 52; 44; 50; 59; 49; 44; 52; 44; 51; 59; 49; 44; 51; 44; 51; 59; 49; 44;
   49; 44; 51; 44; 51]%N.
Example parse_large :
  parse_nonogram_rules (Mode Debug W64) large_col_string (N.of_nat (length large_row)) = Ret (Ok (map (map N.of_nat) large_col)) /\
  parse_nonogram_rules (Mode Debug W64) large_row_string (N.of_nat (length large_col)) = Ret (Ok (map (map N.of_nat) large_row)).
Proof. split; vm_compute; reflexivity. Qed.
Example right_left_large :
  grid_right_left (Mode Debug W64) (replicate (length large_col * length large_row) Blank) large_col large_row = Ret (Ok large_right_left).
Proof. vm_compute. reflexivity. Qed.
