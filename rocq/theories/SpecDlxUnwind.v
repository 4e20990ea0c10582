(** What a caller of the exact cover solver sees whose iterators return wrong
    lengths, in a build with overflow checks whose panics unwind. *)
From Verif Require Import Base Dlx.
From Verif Require DlxLen DlxUnwind.

Fixpoint add_each_unwind (fuel : nat) (rows : list nat) (mx : matrix) : res (list (result unit dlx_error) * matrix) :=
  match rows with
  | [] => Ret ([], mx)
  | r :: rows =>
      let! (e, mx) := DlxUnwind.add_solution fuel mx r in
      let! (es, mx) := add_each_unwind fuel rows mx in
      Ret (e :: es, mx)
  end.
Definition session_unwind (fuel : nat) (constraints : list (N * list nat)) (rows : list nat)
    : res (list (result unit dlx_error) * result (list nat) dlx_error * nat) :=
  let! mx := DlxLen.checked_matrix_new constraints in
  let! (es, mx) := add_each_unwind fuel rows mx in
  let! (s, h) := DlxUnwind.solve fuel mx in
  Ret (es, s, size h).
(** The matrix is dropped unsolved. *)
Definition abandoned_unwind (fuel : nat) (constraints : list (N * list nat)) (rows : list nat)
    : res (list (result unit dlx_error) * nat) :=
  let! mx := DlxLen.checked_matrix_new constraints in
  let! (es, mx) := add_each_unwind fuel rows mx in
  let! h := matrix_drop fuel (d_root mx) (d_heap mx) in
  Ret (es, size h).
