(** Property C82. *)
From Verif Require Import Base SpecWord Nonogram SpecNonogram SpecNonogramRigid.
From Verif Require NonogramRigid.

(** C82: a puzzle whose rows, or whose columns, can each be filled in at most one
    way is decided: the answer is its only solution, or that there is none. *)
Theorem C82_decided : forall (m : mode) col row,
  Forall proper col -> Forall proper row -> (N.of_nat (length col * length row) < limit m)%N ->
  1 <= length row \/ length col <= 1 ->
  Forall (one_way (length col)) row \/ Forall (one_way (length row)) col ->
  (exists g, solve_nonogram m col row = Ret (Ok g) /\ forall b, solution col row b <-> b = g) \/
  (solve_nonogram m col row = Ret (Err NoSolution) /\ forall b, ~ solution col row b).
Proof. exact NonogramRigid.rigid_solved. Qed.
Print Assumptions C82_decided.

(** These lines are the empty ones and those without a square to spare. *)
Theorem C82_one_way : forall n rule, positive rule ->
  one_way n rule <-> rule = [] \/ n <= sum_list rule + (length rule - 1).
Proof. exact NonogramRigid.one_way_iff. Qed.
Print Assumptions C82_one_way.

(** The same rows, with columns that match and with columns that do not. *)
Example C82_example :
  Forall (one_way 4) [[2; 1]; []; [4]; [1; 2]] /\ ~ one_way 4 [2] /\
  solve_nonogram (Mode Debug W64) [[1; 2]; [1; 1]; [2]; [1; 2]] [[2; 1]; []; [4]; [1; 2]] =
    Ret (Ok [true; true; false; true; false; false; false; false; true; true; true; true; true; false; true; true]) /\
  solve_nonogram (Mode Debug W64) [[1; 2]; [2]; [2]; [1; 2]] [[2; 1]; []; [4]; [1; 2]] = Ret (Err NoSolution).
Proof.
  split_and!; [|intros H%NonogramRigid.one_way_iff|vm_compute; reflexivity..].
  - repeat (constructor; [apply NonogramRigid.one_way_iff; [repeat constructor|cbn; auto with lia]|]). constructor.
  - destruct H as [H|H]; [done|cbn in H; lia].
  - repeat constructor.
Qed.
