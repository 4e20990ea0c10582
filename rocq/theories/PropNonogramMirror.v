(** Property C54: mirrored puzzles. *)
From Verif Require Import Base SpecWord Nonogram SpecNonogram SpecNonogramMirror.
From Verif Require NonogramMirror.

(** Exchanging left and right in the clues exchanges left and right in the
    answer; errors stay the same. *)
Theorem C54_mirror : forall (m : mode) col row, Forall proper col -> Forall proper row ->
  (N.of_nat (length col * length row) < limit m)%N -> 1 <= length row \/ length col <= 1 ->
  solve_nonogram m (rev col) (map (@rev nat) row) =
    match solve_nonogram m col row with
    | Ret (Ok g) => Ret (Ok (mirror (length col) (length row) g))
    | r => r
    end.
Proof. exact NonogramMirror.solve_mirror. Qed.
Print Assumptions C54_mirror.

(** Likewise for top and bottom. *)
Theorem C54_flip : forall (m : mode) col row, Forall proper col -> Forall proper row ->
  (N.of_nat (length col * length row) < limit m)%N -> 1 <= length row \/ length col <= 1 ->
  solve_nonogram m (map (@rev nat) col) (rev row) =
    match solve_nonogram m col row with
    | Ret (Ok g) => Ret (Ok (flip (length col) (length row) g))
    | r => r
    end.
Proof. exact NonogramMirror.solve_flip. Qed.
Print Assumptions C54_flip.

(** Three columns and two rows, all different from their mirror images. *)
Example C54_example :
  let col := [[2]; [1]; [1]] in let row := [[2]; [1; 1]] in
  let g := [true; true; false; true; false; true] in
  Forall proper col /\ Forall proper row /\ 1 <= length row /\
  solve_nonogram (Mode Debug W64) col row = Ret (Ok g) /\
  mirror 3 2 g = [false; true; true; true; false; true] /\ flip 3 2 g = [true; false; true; true; true; false] /\
  solve_nonogram (Mode Debug W64) (rev col) (map (@rev nat) row) = Ret (Ok (mirror 3 2 g)) /\
  solve_nonogram (Mode Debug W64) (map (@rev nat) col) (rev row) = Ret (Ok (flip 3 2 g)).
Proof. cbv zeta. split_and!; try (repeat constructor; discriminate); vm_compute; reflexivity. Qed.
