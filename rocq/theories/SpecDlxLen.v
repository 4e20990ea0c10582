(** What a caller of the exact cover solver sees whose iterators return wrong
    lengths. *)
From Verif Require Import Base Dlx SpecDlxRelease.
From Verif Require DlxRelease DlxLen.

(** Without overflow checks. *)
Definition session_len (ws : word) (fuel : nat) (constraints : list (N * list nat)) (rows : list nat)
    : res (list (result unit dlx_error) * result (list nat) dlx_error * nat) :=
  let! mx := DlxLen.matrix_new constraints in
  let! (es, mx) := add_each_release ws fuel rows mx in
  let! (s, h) := DlxRelease.solve ws fuel mx in
  Ret (es, s, size h).
Definition abandoned_len (ws : word) (fuel : nat) (constraints : list (N * list nat)) (rows : list nat)
    : res (list (result unit dlx_error) * nat) :=
  let! mx := DlxLen.matrix_new constraints in
  let! (es, mx) := add_each_release ws fuel rows mx in
  let! h := DlxRelease.matrix_drop fuel (DlxRelease.d_root mx) (DlxRelease.d_heap mx) in
  Ret (es, size h).
(** With overflow checks. *)
Definition session_len_checked (fuel : nat) (constraints : list (N * list nat)) (rows : list nat)
    : res (list (result unit dlx_error) * result (list nat) dlx_error * nat) :=
  let! mx := DlxLen.checked_matrix_new constraints in
  let! (es, mx) := add_each fuel rows mx in
  let! (s, h) := solve fuel mx in
  Ret (es, s, size h).
Definition abandoned_len_checked (fuel : nat) (constraints : list (N * list nat)) (rows : list nat)
    : res (list (result unit dlx_error) * nat) :=
  let! mx := DlxLen.checked_matrix_new constraints in
  let! (es, mx) := add_each fuel rows mx in
  let! h := matrix_drop fuel (d_root mx) (d_heap mx) in
  Ret (es, size h).
(** No iterator claims less than it yields. *)
Definition long_enough (constraints : list (N * list nat)) : Prop :=
  Forall (fun c => N.of_nat (length c.2) <= c.1)%N constraints.

(** Two sessions that differ at most in which answer is found: the same rows
    are accepted, both or none find an answer, nothing is left; or both go wrong
    in the same way. *)
Definition same_but_answer (x y : res (list (result unit dlx_error) * result (list nat) dlx_error * nat)) : Prop :=
  match x, y with
  | Ret (es, r, k), Ret (es', r', k') =>
      es' = es /\ k = 0 /\ k' = 0 /\
      match r, r' with Ok _, Ok _ => True | Err e, Err e' => e' = e | _, _ => False end
  | Fault e, Fault e' => e' = e
  | _, _ => False
  end.
