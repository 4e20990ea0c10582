(** Property C116: nothing goes wrong with the nodes before some are freed. *)
From Verif Require Import Base Dlx SpecDlx SpecDlxCaught SpecDlxTame.
From Verif Require DlxLen DlxUnwind DlxRelease DlxTameProofs DlxTameRelease.

(** C116: whatever the constraints, also with rows named repeatedly and with
    wrong lengths: covering and uncovering columns of a new matrix in any order
    ends, and uses no node that is not there.  At worst it panics for a size
    below zero, having dropped the matrix safely; else the same nodes are live as
    before, and the matrix can be dropped. *)
Theorem C116_walk : forall lcs steps fuel mx,
  matrix_size lcs.*2 <= fuel -> DlxLen.checked_matrix_new lcs = Ret mx ->
  Forall (fun s => is_Some (d_heap mx !! walk_target s) /\ walk_target s <> d_root mx) steps ->
  walk fuel (d_root mx) steps (d_heap mx) = Fault Panic \/
  exists h', walk fuel (d_root mx) steps (d_heap mx) = Ret h' /\ (forall x, is_Some (h' !! x) <-> is_Some (d_heap mx !! x)) /\
    exists h'', matrix_drop fuel (d_root mx) h' = Ret h''.
Proof. exact DlxTameProofs.new_walk. Qed.
Print Assumptions C116_walk.

(** So [solve] misuses a node only after the search has found an answer; else it
    reports that there is none, panics or does not end (C51). *)
Theorem C116_search : forall lcs fuel mx,
  matrix_size lcs.*2 <= fuel -> DlxLen.checked_matrix_new lcs = Ret mx ->
  (exists h partial, look_for fuel fuel (d_root mx) (d_heap mx) (d_partial mx) = Ret (h, partial, true)) \/
  (exists h, DlxUnwind.solve fuel mx = Ret (Err DlxNoSolution, h)) \/ DlxUnwind.solve fuel mx = Fault Panic \/ DlxUnwind.solve fuel mx = Fault OutOfFuel.
Proof. exact DlxTameProofs.new_search. Qed.
Print Assumptions C116_search.

(** The same for a matrix left by the first panic of a session (C112). *)
Theorem C116_caught : forall lcs rows fuel mx es m,
  Forall NoDup lcs.*2 -> matrix_size lcs.*2 < fuel ->
  DlxLen.checked_matrix_new lcs = Ret mx -> add_until fuel rows mx = Ret (es, true, m) ->
  (exists h partial, look_for fuel fuel (d_root m) (d_heap m) (d_partial m) = Ret (h, partial, true)) \/
  (exists h, DlxUnwind.solve fuel m = Ret (Err DlxNoSolution, h)) \/ DlxUnwind.solve fuel m = Fault Panic \/ DlxUnwind.solve fuel m = Fault OutOfFuel.
Proof. exact DlxTameProofs.caught_search. Qed.
Print Assumptions C116_caught.

(** Without overflow checks the walk never fails, whatever the constraints. *)
Theorem C116_release_walk : forall ws lcs steps fuel mx,
  matrix_size lcs.*2 <= fuel -> Forall (fun k => k < usize_size ws)%N lcs.*1 ->
  DlxLen.matrix_new lcs = Ret mx ->
  Forall (fun s => is_Some (DlxRelease.d_heap mx !! walk_target s) /\ walk_target s <> DlxRelease.d_root mx) steps ->
  exists h', walk_release ws fuel steps (DlxRelease.d_heap mx) = Ret h' /\
    (forall x, is_Some (h' !! x) <-> is_Some (DlxRelease.d_heap mx !! x)) /\
    exists h'', DlxRelease.matrix_drop fuel (DlxRelease.d_root mx) h' = Ret h''.
Proof. exact DlxTameRelease.release_walk. Qed.
Print Assumptions C116_release_walk.

(** So until an answer is found [solve] neither misuses a node nor panics. *)
Theorem C116_release_search : forall ws lcs fuel mx,
  matrix_size lcs.*2 <= fuel -> Forall (fun k => k < usize_size ws)%N lcs.*1 ->
  DlxLen.matrix_new lcs = Ret mx ->
  (exists h partial, look_for_release ws fuel fuel (DlxRelease.d_root mx) (DlxRelease.d_heap mx) (DlxRelease.d_partial mx) = Ret (h, partial, true)) \/
  (exists h, DlxRelease.solve ws fuel mx = Ret (Err DlxNoSolution, h)) \/ DlxRelease.solve ws fuel mx = Fault OutOfFuel.
Proof. exact DlxTameRelease.release_search. Qed.
Print Assumptions C116_release_search.

(** Covering a row twice, uncovering what is not covered, and covering too often;
    the numbers are the nodes left when the matrix is dropped. *)
Definition walked (lcs : list (N * list nat)) (steps : list walk_step) : res nat :=
  let! mx := DlxLen.checked_matrix_new lcs in
  let! h := walk 20 (d_root mx) steps (d_heap mx) in
  let! h := matrix_drop 20 (d_root mx) h in
  Ret (size h).
Definition searched (lcs : list (N * list nat)) : res (list nat * bool) * res (result (list nat) dlx_error) :=
  (let! mx := DlxLen.checked_matrix_new lcs in
   let! (h, partial, ok) := look_for 20 20 (d_root mx) (d_heap mx) (d_partial mx) in Ret (partial, ok),
   let! mx := DlxLen.checked_matrix_new lcs in
   let! (r, h) := DlxUnwind.solve 20 mx in Ret r).
Example C116_example :
  walked [(9%N, [0; 1; 0]); (9%N, [0; 1])] [Cover 4%N; Cover 2%N; Cover 3%N; Uncover 7%N] = Ret 6 /\
  walked [(9%N, [0; 1]); (9%N, [0; 1])] [Uncover 4%N; Uncover 2%N; Uncover 5%N] = Ret 0 /\
  walked [(2%N, [0; 1]); (0%N, [0; 1])] [Uncover 2%N; Cover 3%N; Cover 2%N; Cover 3%N] = Fault Panic /\
  searched [(3%N, [0; 1; 0])] = (Ret ([0], true), Fault UB) /\
  searched [(3%N, [0; 0; 0])] = (Fault Panic, Fault Panic) /\
  searched [(2%N, [0; 0])] = (Ret ([], false), Ret (Err DlxNoSolution)) /\
  searched [(9%N, [0; 0; 1]); (9%N, [0; 1])] = (Ret ([1], true), Ret (Ok [1])).
Proof. repeat (split; [vm_compute; reflexivity|]). vm_compute. reflexivity. Qed.
Example C116_hypotheses : exists mx, DlxLen.checked_matrix_new [(9%N, [0; 1; 0]); (9%N, [0; 1])] = Ret mx /\
  matrix_size [(9%N, [0; 1; 0]); (9%N, [0; 1])].*2 <= 20 /\
  Forall (fun s => is_Some (d_heap mx !! walk_target s) /\ walk_target s <> d_root mx) [Cover 4%N; Cover 2%N; Cover 3%N; Uncover 7%N].
Proof. eexists. split; [vm_compute; reflexivity|]. split; [cbn; lia|]. repeat constructor; try (vm_compute; by eexists); done. Qed.
Example C116_caught_hypotheses : exists mx es m,
  DlxLen.checked_matrix_new [(1%N, [0; 1]); (2%N, [0; 1]); (1%N, [2])] = Ret mx /\ add_until 20 [2; 0] mx = Ret (es, true, m) /\
  (let! (r, _) := DlxUnwind.solve 20 m in Ret r) = Ret (Err DlxNoSolution).
Proof. eexists _, _, _. split; [vm_compute; reflexivity|]. split; [vm_compute; reflexivity|]. vm_compute. reflexivity. Qed.
Definition walked_release (lcs : list (N * list nat)) (steps : list walk_step) : res nat :=
  let! mx := DlxLen.matrix_new lcs in
  let! h := walk_release W64 20 steps (DlxRelease.d_heap mx) in
  let! h := DlxRelease.matrix_drop 20 (DlxRelease.d_root mx) h in
  Ret (size h).
Definition searched_release (lcs : list (N * list nat)) : res (list nat * bool) * res (result (list nat) dlx_error) :=
  (let! mx := DlxLen.matrix_new lcs in
   let! (h, partial, ok) := look_for_release W64 20 20 (DlxRelease.d_root mx) (DlxRelease.d_heap mx) (DlxRelease.d_partial mx) in Ret (partial, ok),
   let! mx := DlxLen.matrix_new lcs in
   let! (r, h) := DlxRelease.solve W64 20 mx in Ret r).
Example C116_release_example :
  walked_release [(2%N, [0; 1]); (0%N, [0; 1])] [Uncover 2%N; Cover 3%N; Cover 2%N; Cover 3%N] = Ret 5 /\
  searched_release [(3%N, [0; 1; 0])] = (Ret ([0], true), Fault UB) /\
  searched_release [(3%N, [0; 0; 0])] = (Ret ([], false), Ret (Err DlxNoSolution)) /\
  searched_release [(0%N, [0; 1]); (0%N, [0; 1])] = (Ret ([0], true), Ret (Ok [0])).
Proof. repeat (split; [vm_compute; reflexivity|]). vm_compute. reflexivity. Qed.
Example C116_release_hypotheses : exists mx, DlxLen.matrix_new [(2%N, [0; 1]); (0%N, [0; 1])] = Ret mx /\
  matrix_size [(2%N, [0; 1]); (0%N, [0; 1])].*2 <= 20 /\ Forall (fun k => k < usize_size W64)%N [(2%N, [0; 1]); (0%N, [0; 1])].*1 /\
  Forall (fun s => is_Some (DlxRelease.d_heap mx !! walk_target s) /\ walk_target s <> DlxRelease.d_root mx) [Uncover 2%N; Cover 3%N; Cover 2%N; Cover 3%N].
Proof.
  eexists. split; [vm_compute; reflexivity|]. split; [cbn; lia|]. split; [by repeat constructor|].
  repeat constructor; try (vm_compute; by eexists); done.
Qed.
