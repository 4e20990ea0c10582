(** Property C83. *)
From Verif Require Import Base SpecWord Nonogram SpecNonogram SpecNonogramUnique.
From Verif Require NonogramUnique.

(** C83: every puzzle with exactly one solution is solved, for precisely these sizes. *)
Theorem C83_sizes : forall (m : mode) w h, 1 <= w -> 1 <= h -> (N.of_nat (w * h) < limit m)%N ->
  always_found w h <->
  forall col row b, length col = w -> length row = h -> Forall positive col -> Forall positive row ->
    (forall b', solution col row b' <-> b' = b) -> solve_nonogram m col row = Ret (Ok b).
Proof. exact NonogramUnique.sizes. Qed.
Print Assumptions C83_sizes.

(** For every other size there is one whose solution is missed altogether: the
    answer is an empty picture, without an error. *)
Theorem C83_missed : forall (m : mode) w h, 1 <= w -> 1 <= h -> (N.of_nat (w * h) < limit m)%N -> ~ always_found w h ->
  exists col row b, length col = w /\ length row = h /\ Forall positive col /\ Forall positive row /\
    (forall b', solution col row b' <-> b' = b) /\
    solve_nonogram m col row = Ret (Ok (replicate (w * h) false)) /\ b <> replicate (w * h) false.
Proof. exact NonogramUnique.missed. Qed.
Print Assumptions C83_missed.

(** The smallest of these, and a puzzle of size 3 x 3. *)
Example C83_example :
  (forall b', solution [[2]; [1; 1]] [[1]; [1]; [1]; [1]] b' <-> b' = [false; true; true; false; true; false; false; true]) /\
  solve_nonogram (Mode Debug W64) [[2]; [1; 1]] [[1]; [1]; [1]; [1]] = Ret (Ok (replicate 8 false)) /\
  ~ always_found 2 4 /\ always_found 3 3 /\ always_found 1 7 /\
  solve_nonogram (Mode Debug W64) [[2]; [1; 1]; [1]] [[1]; [3]; [1]] =
    Ret (Err NoSolution) /\
  solve_nonogram (Mode Debug W64) [[1; 1]; [2]; [1]] [[1; 1]; [1]; [2]] =
    Ret (Ok [true; false; true; false; true; false; true; true; false]).
Proof.
  split_and!; [exact (NonogramUnique.tall_solution 2 4 ltac:(lia) ltac:(lia))|vm_compute; reflexivity| | | |vm_compute; reflexivity..];
  unfold always_found; lia.
Qed.
