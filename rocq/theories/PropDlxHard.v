(** Property C109: how the work of the exact cover search grows. *)
From Verif Require Import Base Dlx DlxCost SpecDlx SpecDlxSearch SpecDlxHard.
From Verif Require DlxHardProofs.

(** C109: with at most [m] rows in a constraint, [solve_helper] is called at most
    1 + m + m^2 + ... times, up to the power of the number of constraints left. *)
Theorem C109_bound : forall cs added fuel m,
  Forall NoDup cs -> compatible cs added -> matrix_size cs < fuel -> Forall (fun k => length k <= m) cs ->
  exists mx0 mx r calls, matrix_new cs = Ret mx0 /\ add_all fuel added mx0 = Ret (Ok mx) /\
    solve_calls fuel mx = Ret (r, ∅, calls) /\ calls <= tree_size m (length (foldl choose cs added)).
Proof. exact DlxHardProofs.calls_bound. Qed.
Print Assumptions C109_bound.
(** With two rows in a constraint that is less than four times too much: [hard n]
    has n + 3 constraints of two rows, 3n + 10 nodes, and needs 2^(n+2) - 1
    calls to find that there is no answer. *)
Theorem C109_hard : forall n fuel, 3 * n + 9 < fuel ->
  exists mx, matrix_new (hard n) = Ret mx /\ size (d_heap mx) = 3 * n + 10 /\
    solve_calls fuel mx = Ret (Err DlxNoSolution, ∅, 2 ^ (n + 2) - 1).
Proof. exact DlxHardProofs.hard_calls. Qed.
Print Assumptions C109_hard.
(** What the bound says for it. *)
Theorem C109_sharp : forall n, Forall (fun k => length k = 2) (hard n) /\ tree_size 2 (length (hard n)) = 2 ^ (n + 4) - 1.
Proof. exact DlxHardProofs.hard_bound. Qed.
Print Assumptions C109_sharp.

Example C109_example : hard 2 = [[3; 4]; [5; 6]; [0; 1]; [1; 2]; [0; 2]] /\ tree_size 3 2 = 13 /\
  (let! mx := matrix_new (hard 2) in let! (_, _, calls) := solve_calls 20 mx in Ret calls) = Ret 15 /\
  compatible (hard 2) [] /\ matrix_size (hard 2) < 20.
Proof.
  split; [done|]. split; [done|]. split; [vm_compute; reflexivity|]. split; [intros [|] ? ? [=]|]. vm_compute. lia.
Qed.
