(** Property C114: constraint iterators that panic in [DancingMatrix::new]. *)
From Verif Require Import Base Dlx SpecDlx SpecDlxIter.
From Verif Require DlxLen DlxIter DlxIterProofs.

(** C114: if the caller's iterators do not panic, [new] returns the matrix of
    the other theorems ... *)
Theorem C114_calm : forall lcs, exists mx,
  DlxLen.checked_matrix_new lcs = Ret mx /\ DlxIter.matrix_new (calm lcs) = Ret (Ok mx).
Proof. exact DlxIterProofs.iter_calm. Qed.
Print Assumptions C114_calm.

(** ... if they panic, [new] does nothing undefined, and leaks the root and the
    headers and nodes of the constraints read so far. *)
Theorem C114_leaks : forall lcs made it, panics_after lcs made it ->
  exists h, DlxIter.matrix_new it = Ret (Err h) /\ size h = 1 + matrix_size made.
Proof. exact DlxIterProofs.iter_panics. Qed.
Print Assumptions C114_leaks.

(** There are no other iterators. *)
Theorem C114_all : forall it, (exists lcs, it = calm lcs) \/ exists lcs made, panics_after lcs made it.
Proof. exact DlxIterProofs.iter_cases. Qed.
Print Assumptions C114_all.

(** A panic at once, in [len] of the second constraint, and at the second row of
    the second constraint. *)
Example C114_example :
  panics_after [] [] [None] /\
  panics_after [(2%N, [0; 1])] [[0; 1]] [Some (Some 2%N, [Some 0; Some 1]); Some (None, [Some 7])] /\
  panics_after [(2%N, [0; 1])] [[0; 1]; [3]] [Some (Some 2%N, [Some 0; Some 1]); Some (Some 2%N, [Some 3; None])] /\
  matrix_size [] = 0 /\ matrix_size [[0; 1]] = 3 /\ matrix_size [[0; 1]; [3]] = 5 /\
  (exists h, DlxIter.matrix_new [Some (Some 2%N, [Some 0; Some 1]); Some (Some 2%N, [Some 3; None])] = Ret (Err h) /\ size h = 6).
Proof.
  split; [apply (panics_outer [] [])|]. split; [apply (panics_len [(2%N, [0; 1])])|].
  split; [apply (panics_row [(2%N, [0; 1])] 2%N [3] [] [])|]. do 3 (split; [done|]). eexists. split; vm_compute; reflexivity.
Qed.
