(** Property C100: the sizes for which a maze is created. *)
From Verif Require Import Base Maze MazeCapacity SpecMaze SpecWord.
From Verif Require MazeCapacityProofs.

(** C100: with the capacity checks of [Vec], [create_maze] panics if there is no
    cell or a vector with 3 words per cell would need as many bytes as the
    memory or more, with
    or without overflow checks, also when the number of cells does not fit
    usize; for all other sizes the capacity checks change nothing. *)
Theorem C100_sizes : forall (m : mode) rng w h, (N.of_nat w < limit m)%N ->
  (1 <= w -> 1 <= h -> (3 * pointer_bytes m * N.of_nat (w * h) < memory_limit m)%N ->
     create_checked m rng w h = create_maze m rng w h /\ storable m w h) /\
  (w = 0 \/ h = 0 \/ (memory_limit m <= 3 * pointer_bytes m * N.of_nat (w * h))%N -> create_checked m rng w h = Fault Panic).
Proof. exact MazeCapacityProofs.create_capacity. Qed.
Print Assumptions C100_sizes.

(** So the hypothesis [storable] of the other theorems holds whenever a maze is
    returned. *)
Theorem C100_returned : forall (m : mode) rng w h g sol, (N.of_nat w < limit m)%N ->
  create_checked m rng w h = Ret (g, sol) -> storable m w h /\ create_maze m rng w h = Ret (g, sol).
Proof. exact MazeCapacityProofs.create_checked_ret. Qed.
Print Assumptions C100_returned.

(** 2^40 columns and 2^24 + 1 rows: without overflow checks the product is
    reduced to 2^40, which passes the capacity checks. *)
Example C100_wraps :
  n_mul (Mode Release W64) (N.to_nat (2 ^ 40)) (N.to_nat (2 ^ 24 + 1)) = Ret (N.to_nat (2 ^ 40)) /\
  reserve W64 24 (N.to_nat (2 ^ 40)) = Ret tt /\
  create_checked (Mode Release W64) (fun _ => 0) (N.to_nat (2 ^ 40)) (N.to_nat (2 ^ 24 + 1)) = Fault Panic.
Proof.
  split; [|split].
  - unfold n_mul. rewrite !N2Nat.id. reflexivity.
  - unfold reserve. rewrite N2Nat.id. reflexivity.
  - apply (MazeCapacityProofs.create_capacity (Mode Release W64)); [by rewrite N2Nat.id|].
    right. right. rewrite Nat2N.inj_mul, !N2Nat.id. by vm_compute.
Qed.
Example C100_small : exists r, create_checked (Mode Debug W64) (fun k => k) 2 2 = Ret r /\ (24 * N.of_nat (2 * 2) < 2 ^ 63)%N.
Proof. eexists. split; vm_compute; reflexivity. Qed.
