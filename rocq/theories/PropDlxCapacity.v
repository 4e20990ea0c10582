(** Property C102: row numbers of one word in [DancingMatrix::new]. *)
From Verif Require Import Base Dlx DlxCapacity SpecDlx SpecWord.
From Verif Require DlxCapacityProofs.

(** C102: row numbers below 2^59 - 1 (with 32 bits 2^28 - 1) are no problem ... *)
Theorem C102_same : forall (m : mode) growth cs, grows_rows growth ->
  Forall (Forall (fun i => 2 * pointer_bytes m * (N.of_nat i + 1) < memory_limit m)%N) cs ->
  exists mx, matrix_new cs = Ret mx /\ new_checked m growth cs = Ret (Ok mx).
Proof. exact DlxCapacityProofs.new_same. Qed.
Print Assumptions C102_same.

(** ... a row number from 2^60 - 1 (with 32 bits 2^29 - 1) on makes [new] panic,
    with and without overflow checks (there the largest number shortens the
    vector of rows instead), and leaks the root and the headers and nodes made
    so far. *)
Theorem C102_panics : forall (m : mode) growth pre a i b post, grows_rows growth ->
  Forall (Forall (fun i => 2 * pointer_bytes m * (N.of_nat i + 1) < memory_limit m)%N) pre -> Forall (fun i => 2 * pointer_bytes m * (N.of_nat i + 1) < memory_limit m)%N a ->
  (memory_limit m <= pointer_bytes m * (N.of_nat i + 1))%N ->
  exists h, new_checked m growth (pre ++ (a ++ i :: b) :: post) = Ret (Err h) /\ size h = 1 + matrix_size (pre ++ [a]).
Proof. exact DlxCapacityProofs.new_panics. Qed.
Print Assumptions C102_panics.

(** For all row numbers [new] returns the matrix of the other theorems or
    panics; it never misbehaves. *)
Theorem C102_only : forall (m : mode) growth cs, grows_rows growth -> exists mx, matrix_new cs = Ret mx /\
  (new_checked m growth cs = Ret (Ok mx) \/
   exists h, new_checked m growth cs = Ret (Err h) /\ 0 < size h <= matrix_size cs).
Proof. exact DlxCapacityProofs.new_only. Qed.
Print Assumptions C102_only.

(** The growth of [Vec] in std meets the hypothesis; rows 0, 2 and then 2^64 - 1
    leave the root, two headers and two nodes. *)
Example C102_example : grows_rows std_growth /\
  exists h, new_checked (Mode Release W64) std_growth ([[0]] ++ ([2] ++ N.to_nat (2 ^ 64 - 1) :: [1]) :: []) = Ret (Err h) /\ size h = 5.
Proof.
  split; [exact DlxCapacityProofs.std_grows_rows|].
  apply C102_panics; [exact DlxCapacityProofs.std_grows_rows|repeat constructor|repeat constructor|].
  rewrite N2Nat.id. by vm_compute.
Qed.
(** The same rows with 32 bits, the last one 2^29 - 1. *)
Example C102_example_32 :
  exists h, new_checked (Mode Debug W32) std_growth ([[0]] ++ ([2] ++ N.to_nat (2 ^ 29 - 1) :: [1]) :: []) = Ret (Err h) /\ size h = 5.
Proof.
  apply C102_panics; [exact DlxCapacityProofs.std_grows_rows|repeat constructor|repeat constructor|].
  rewrite N2Nat.id. by vm_compute.
Qed.
(** First allocation, doubling, and a length beyond the double. *)
Example C102_growth : std_growth 0 1 = 4%N /\ std_growth 8 9 = 16%N /\ std_growth 8 100 = 100%N.
Proof. done. Qed.
Example C102_example_same : Forall (Forall (fun i => 2 * pointer_bytes W32 * (N.of_nat i + 1) < memory_limit W32)%N) [[0; 1]; [1; 728]].
Proof. repeat constructor. Qed.
