(** Properties C11-C15.  [fuel] bounds ring traversals and recursion; every
    statement holds for all sufficiently large values, so [OutOfFuel] is
    excluded and the results do not depend on it. *)
From Verif Require Import Base Dlx SpecDlx.
From Verif Require DlxProofs.

(** C11: [solve] terminates and decides exact cover. *)
Theorem C11_solve : forall cs fuel,
  Forall NoDup cs -> matrix_size cs < fuel ->
  exists mx, matrix_new cs = Ret mx /\
    ((exists rows h, solve fuel mx = Ret (Ok rows, h) /\ exact_cover cs rows) \/
     (exists h, solve fuel mx = Ret (Err DlxNoSolution, h)) /\ ~ exists rows, exact_cover cs rows).
Proof. exact DlxProofs.solve_decides. Qed.
Print Assumptions C11_solve.

(** The matrix of the test-suite, where the search has to backtrack, and an
    unsolvable one. *)
(** Result and whether the final heap is empty. *)
Definition show {A} (x : res (A * heap)) : res (A * bool) := let! (r, h) := x in Ret (r, bool_decide (h = ∅)).
Definition cs1 : list (list nat) := [[0; 1]; [4; 5]; [3; 4]; [0; 1; 2]; [2; 3]; [3; 4]; [0; 2; 4; 5]].
Example C11_example :
  Forall NoDup cs1 /\ matrix_size cs1 = 24 /\
  show (let! mx := matrix_new cs1 in solve 25 mx) = Ret (Ok [1; 3; 5], true) /\
  show (let! mx := matrix_new [[0; 1]; [1; 2]; [0; 2]] in solve 25 mx) = Ret (Err DlxNoSolution, true).
Proof. split; [by apply (bool_decide_unpack _)|]. split_and!; vm_compute; reflexivity. Qed.

(** C12: no invalid access, no double free and nothing left allocated, whether
    the matrix is solved (then dropped) or only dropped. *)
Theorem C12_memory : forall cs fuel,
  Forall NoDup cs -> matrix_size cs < fuel ->
  exists mx, matrix_new cs = Ret mx /\
    (exists r, solve fuel mx = Ret (r, ∅)) /\
    matrix_drop fuel (d_root mx) (d_heap mx) = Ret ∅.
Proof. exact DlxProofs.memory. Qed.
Print Assumptions C12_memory.

(** 25 nodes are allocated for the test matrix. *)
Example C12_example :
  Forall NoDup cs1 /\ (let! mx := matrix_new cs1 in Ret (size (d_heap mx))) = Ret 25.
Proof. split; [by apply (bool_decide_unpack _)|vm_compute; reflexivity]. Qed.

(** C13: covering then uncovering a column restores the whole heap ... *)
Theorem C13_cover_uncover : forall cs added fuel mx0 mx h p c,
  Forall NoDup cs -> compatible cs added -> matrix_size cs < fuel ->
  matrix_new cs = Ret mx0 -> add_all fuel added mx0 = Ret (Ok mx) ->
  search_state fuel (d_root mx) (d_heap mx) h -> in_ring h (d_root mx) c -> in_column h p c ->
  exists h', cover_column fuel p h = Ret h' /\ uncover_column fuel p h' = Ret h.
Proof. exact DlxProofs.cover_uncover. Qed.
Print Assumptions C13_cover_uncover.

(** ... and a search that finds nothing leaves heap and partial solution as
    they were. *)
Theorem C13_failed_search : forall cs added fuel mx0 mx h partial,
  Forall NoDup cs -> compatible cs added -> matrix_size cs < fuel ->
  matrix_new cs = Ret mx0 -> add_all fuel added mx0 = Ret (Ok mx) ->
  search_state fuel (d_root mx) (d_heap mx) h ->
  exists h' partial' found, solve_helper fuel fuel (d_root mx) h partial = Ret (h', partial', found) /\
    (found = false -> h' = h /\ partial' = partial).
Proof. exact DlxProofs.search_restores. Qed.
Print Assumptions C13_failed_search.

(** Covering the first column (address 2, through its node at address 3) of
    the test matrix unlinks it; the search on the result fails. *)
Example C13_example :
  (let! mx := matrix_new cs1 in
   let h := d_heap mx in
   let! h1 := cover_column 25 3%N h in
   let! (h2, p2, found) := solve_helper 25 25 1%N h1 [7] in
   let! h3 := uncover_column 25 3%N h1 in
   Ret (n_right <$> h !! 1%N, n_header <$> h !! 3%N, n_right <$> h1 !! 1%N,
        found, p2, bool_decide (h2 = h1), bool_decide (h3 = h)))
  = Ret (Some 2%N, Some 2%N, Some 5%N, false, [7], true, true).
Proof. vm_compute. reflexivity. Qed.

(** C14: compatible rows are accepted, and [solve] then decides whether an
    exact cover contains them all. *)
Theorem C14_add_solution : forall cs added fuel,
  Forall NoDup cs -> compatible cs added -> matrix_size cs < fuel ->
  exists mx0 mx, matrix_new cs = Ret mx0 /\ add_all fuel added mx0 = Ret (Ok mx) /\
    matrix_drop fuel (d_root mx) (d_heap mx) = Ret ∅ /\
    ((exists sol, solve fuel mx = Ret (Ok (added ++ sol), ∅) /\ exact_cover cs (added ++ sol)) \/
     (solve fuel mx = Ret (Err DlxNoSolution, ∅) /\ forall s, exact_cover cs s -> ~ added ⊆ s)).
Proof. exact DlxProofs.add_fixes. Qed.
Print Assumptions C14_add_solution.

(** Rows 5 and 1 can be fixed and completed by 3; row 0 can be fixed, but then
    nothing is left to cover all constraints although the matrix is solvable. *)
Example C14_example :
  show (let! mx := matrix_new cs1 in let! r := add_all 25 [5; 1] mx in
   match r with Ok mx => solve 25 mx | Err _ => Fault Panic end) = Ret (Ok [5; 1; 3], true) /\
  show (let! mx := matrix_new cs1 in let! r := add_all 25 [0] mx in
   match r with Ok mx => solve 25 mx | Err _ => Fault Panic end) = Ret (Err DlxNoSolution, true).
Proof. split; vm_compute; reflexivity. Qed.
Example C14_compatible : compatible cs1 [5; 1].
Proof.
  intros l1 r l2 Hl. destruct l1 as [|a [|b [|]]]; cbn in Hl; simplify_eq.
  - split; [exists [4; 5]; by split; apply (bool_decide_unpack _)|]. intros (k&a&_&?%elem_of_nil&_). done.
  - split; [exists [0; 1]; by split; apply (bool_decide_unpack _)|].
    intros (k&a&Hk&->%elem_of_list_singleton&H1&H2). revert k Hk H1 H2.
    apply (proj1 (Forall_forall (fun k => 5 ∈ k -> 1 ∈ k -> False) cs1)). by apply (bool_decide_unpack _).
Qed.

(** C15 is false: a rejected row is nevertheless recorded in the partial
    solution (so a later [solve] reports it), and a conflicting row may be
    looked up through a dangling pointer instead of being rejected. *)
Theorem C15_refuted :
  (exists cs added r mx0 mx mx', Forall NoDup cs /\ compatible cs added /\ conflict cs added r /\
     matrix_new cs = Ret mx0 /\ add_all 9 added mx0 = Ret (Ok mx) /\
     add_solution 9 mx r = Ret (Err InvalidRow, mx') /\ d_partial mx' <> d_partial mx /\
     solve 9 mx' = Ret (Ok (added ++ [r]), ∅) /\ ~ exact_cover cs (added ++ [r])) /\
  (exists cs added r mx0 mx, Forall NoDup cs /\ compatible cs added /\ conflict cs added r /\
     matrix_new cs = Ret mx0 /\ add_all 9 added mx0 = Ret (Ok mx) /\
     add_solution 9 mx r = Fault UB).
Proof. exact DlxProofs.rejected_refuted. Qed.
Print Assumptions C15_refuted.

(** What holds of C15 and what happens otherwise.  Full statement: every error
    leaves the matrix unchanged and every conflicting row gives [InvalidRow].
    Index errors: exactly that. *)
Theorem C15_index_error_partial : forall cs added fuel mx0 mx r,
  Forall NoDup cs -> compatible cs added -> matrix_size cs < fuel ->
  matrix_new cs = Ret mx0 -> add_all fuel added mx0 = Ret (Ok mx) ->
  (forall r', occurs cs r' -> r' < r) ->
  add_solution fuel mx r = Ret (Err IndexError, mx).
Proof. exact DlxProofs.outcome_index. Qed.
Print Assumptions C15_index_error_partial.

(** A row in no constraint, or meeting the first added row it conflicts with in
    the last constraint of that row, is rejected, but recorded. *)
Theorem C15_invalid_row_partial : forall cs added fuel mx0 mx r,
  Forall NoDup cs -> compatible cs added -> matrix_size cs < fuel ->
  matrix_new cs = Ret mx0 -> add_all fuel added mx0 = Ret (Ok mx) ->
  (exists r', r <= r' /\ occurs cs r') -> ~ occurs cs r \/ nulled cs added r ->
  exists mx', add_solution fuel mx r = Ret (Err InvalidRow, mx') /\
    d_heap mx' = d_heap mx /\ d_rows mx' = d_rows mx /\ d_root mx' = d_root mx /\
    d_partial mx' = added ++ [r].
Proof. exact DlxProofs.outcome_invalid. Qed.
Print Assumptions C15_invalid_row_partial.

(** Every other conflicting row is a use after free. *)
Theorem C15_use_after_free_partial : forall cs added fuel mx0 mx r,
  Forall NoDup cs -> compatible cs added -> matrix_size cs < fuel ->
  matrix_new cs = Ret mx0 -> add_all fuel added mx0 = Ret (Ok mx) ->
  occurs cs r -> conflict cs added r -> ~ nulled cs added r ->
  add_solution fuel mx r = Fault UB.
Proof. exact DlxProofs.outcome_ub. Qed.
Print Assumptions C15_use_after_free_partial.

(** Each of the three cases after row 1 was added to the test matrix. *)
Example C15_example :
  (let! mx := matrix_new cs1 in let! r := add_all 25 [1] mx in
   match r with
   | Ok mx => let! (e, mx') := add_solution 25 mx 6 in
              Ret (e, bool_decide (d_partial mx' = [1]), bool_decide (d_heap mx' = d_heap mx))
   | Err _ => Fault Panic end) = Ret (Err IndexError, true, true) /\
  (let! mx := matrix_new cs1 in let! r := add_all 25 [1] mx in
   match r with
   | Ok mx => let! (e, mx') := add_solution 25 mx 2 in
              Ret (e, d_partial mx', bool_decide (d_heap mx' = d_heap mx))
   | Err _ => Fault Panic end) = Ret (Err InvalidRow, [1; 2], true) /\
  (let! mx := matrix_new cs1 in let! r := add_all 25 [4] mx in
   match r with
   | Ok mx => let! (e, mx') := add_solution 25 mx 3 in Ret e
   | Err _ => Fault Panic end) = Fault UB.
Proof. split_and!; vm_compute; reflexivity. Qed.
Example C15_hypotheses :
  compatible cs1 [1] /\ nulled cs1 [1] 2 /\ compatible cs1 [4] /\ occurs cs1 3 /\ conflict cs1 [4] 3 /\ ~ nulled cs1 [4] 3.
Proof.
  assert (forall a, occurs cs1 a -> compatible cs1 [a]) as Hone.
  { intros a Ha l1 r l2 Hl. destruct l1 as [|b [|]]; cbn in Hl; simplify_eq. split; [done|].
    intros (k&b&_&?%elem_of_nil&_). done. }
  split_and!.
  - apply Hone. exists [0; 1]. by split; apply (bool_decide_unpack _).
  - exists [], 1, []. split_and!; [done| |].
    + intros (k&b&_&?%elem_of_nil&_). done.
    + exists [0; 1; 2]. split; [by vm_compute|by apply (bool_decide_unpack _)].
  - apply Hone. exists [3; 4]. by split; apply (bool_decide_unpack _).
  - exists [3; 4]. by split; apply (bool_decide_unpack _).
  - exists [3; 4], 4. split_and!; by apply (bool_decide_unpack _).
  - intros (l1&a&l2&Hl&_&k&Hk&H3). destruct l1 as [|? [|]]; cbn in Hl; simplify_eq. vm_compute in Hk. simplify_eq.
    revert H3. by apply (bool_decide_unpack _).
Qed.
