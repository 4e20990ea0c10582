(** C94, C95: addresses of nodes and failing allocations. *)
From Verif Require Import Base Dlx Sudoku DlxAlloc SpecDlxAlloc DlxAllocProofs.

(** C94: with every allocator that yields different non-null addresses, a
    matrix gives the same answers, fails alike and leaves equally many nodes
    allocated as with the addresses 1, 2, 3, ... *)
Theorem C94_matrix : forall fuel constraints rows alloc, allocates alloc (nodes_of constraints) ->
  alike (use_matrix fuel (matrix_new constraints) rows) (use_matrix fuel (matrix_new_at alloc constraints) rows).
Proof. exact use_alike. Qed.
Print Assumptions C94_matrix.

Theorem C94_sudoku : forall fuel puzzle alloc, allocates alloc (nodes_of SUDOKU_CONSTRAINTS) ->
  alike (solve_sudoku fuel puzzle) (solve_sudoku_at alloc fuel puzzle).
Proof. exact sudoku_alike. Qed.
Print Assumptions C94_sudoku.

(** Addresses that go down, with gaps: four rows over three columns. *)
Definition downward (k : nat) : N := (100000 - 48 * N.of_nat k)%N.
Example C94_downward : allocates downward 1000.
Proof.
  assert (1000 = N.to_nat 1000) as -> by reflexivity.
  unfold allocates, downward, null. split; [intros k Hk|intros j k Hj Hk]; lia.
Qed.
Example C94_example :
  match use_matrix 100 (matrix_new_at downward [[0; 1]; [1; 2]; [0; 3]]) [2] with
  | Ret (l, s, h) => (l, s, size h) = ([Ok tt], Ok [2; 0], 0)
  | Fault _ => False
  end.
Proof. vm_compute. reflexivity. Qed.
Example C94_nodes : N.of_nat (nodes_of SUDOKU_CONSTRAINTS) = 3241%N.
Proof. vm_compute. reflexivity. Qed.
(** An address that is given out twice changes the outcome: the hypothesis is
    needed. *)
Example C94_same_address :
  match use_matrix 100 (matrix_new_at (fun k => if decide (k = 4) then 3%N else N.of_nat (S k)) [[0; 1]; [1; 2]; [0; 3]]) [2] with
  | Ret (l, s, h) => (l, s, size h) <> ([Ok tt], Ok [2; 0], 0)
  | Fault _ => True
  end.
Proof. vm_compute. first [exact I | discriminate]. Qed.

(** C95: failing allocations are handled without undefined behaviour.  False:
    [Node::new] and [Node::new_header] use the pointer returned by [alloc]
    without comparing it with null. *)
Theorem C95_alloc_refuted : exists alloc constraints k,
  k < nodes_of constraints /\ allocates alloc k /\ alloc k = null /\
  matrix_new_at alloc constraints = Fault UB.
Proof.
  exists (fun k => if decide (k = 1) then null else N.of_nat (S k)), [[0]], 1.
  split; [vm_compute; lia|]. split; [split|].
  - intros [|k] Hk; [done|lia].
  - intros j k Hj Hk _. lia.
  - split; [done|]. vm_compute. reflexivity.
Qed.
Print Assumptions C95_alloc_refuted.

(** It is so for every allocation that fails, also in [solve_sudoku]. *)
Theorem C95_new_partial : forall alloc constraints k, k < nodes_of constraints -> alloc k = null ->
  matrix_new_at alloc constraints = Fault UB.
Proof. exact new_ub. Qed.
Print Assumptions C95_new_partial.

Theorem C95_sudoku_partial : forall alloc fuel puzzle k, length puzzle = 81 ->
  k < nodes_of SUDOKU_CONSTRAINTS -> alloc k = null -> solve_sudoku_at alloc fuel puzzle = Fault UB.
Proof. exact sudoku_ub. Qed.
Print Assumptions C95_sudoku_partial.

Example C95_example : 100 < nodes_of SUDOKU_CONSTRAINTS /\ length (replicate 81 0) = 81.
Proof. split; [vm_compute; lia|done]. Qed.
