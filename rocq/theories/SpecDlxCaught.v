(** What a caller of the exact cover solver sees who catches the panics of
    [add_solution], in a build with overflow checks. *)
From Verif Require Import Base Dlx.
From Verif Require DlxLen DlxUnwind DlxCaught.

(** Rows are added up to the first panic; the flag tells whether there was one. *)
Fixpoint add_until (fuel : nat) (rows : list nat) (mx : matrix) : res (list (result unit dlx_error) * bool * matrix) :=
  match rows with
  | [] => Ret ([], false, mx)
  | r :: rows =>
      let! (e, mx) := DlxCaught.add_solution fuel mx r in
      match e with
      | None => Ret ([], true, mx)
      | Some e =>
          let! (es, panicked, mx) := add_until fuel rows mx in
          Ret (e :: es, panicked, mx)
      end
  end.
(** Then the matrix is dropped; the last number counts the nodes not freed. *)
Definition dropped_caught (fuel : nat) (constraints : list (N * list nat)) (rows : list nat)
    : res (list (result unit dlx_error) * bool * nat) :=
  let! mx := DlxLen.checked_matrix_new constraints in
  let! (es, panicked, mx) := add_until fuel rows mx in
  let! h := matrix_drop fuel (d_root mx) (d_heap mx) in
  Ret (es, panicked, size h).

(** All rows are added, whether or not there are panics ([None]), and then the
    matrix is dropped or solved. *)
Fixpoint add_each_caught (fuel : nat) (rows : list nat) (mx : matrix) : res (list (option (result unit dlx_error)) * matrix) :=
  match rows with
  | [] => Ret ([], mx)
  | r :: rows =>
      let! (e, mx) := DlxCaught.add_solution fuel mx r in
      let! (es, mx) := add_each_caught fuel rows mx in
      Ret (e :: es, mx)
  end.
Definition abandoned_caught (fuel : nat) (constraints : list (N * list nat)) (rows : list nat)
    : res (list (option (result unit dlx_error)) * nat) :=
  let! mx := DlxLen.checked_matrix_new constraints in
  let! (es, mx) := add_each_caught fuel rows mx in
  let! h := matrix_drop fuel (d_root mx) (d_heap mx) in
  Ret (es, size h).
Definition session_caught (fuel : nat) (constraints : list (N * list nat)) (rows : list nat)
    : res (list (option (result unit dlx_error)) * result (list nat) dlx_error * nat) :=
  let! mx := DlxLen.checked_matrix_new constraints in
  let! (es, mx) := add_each_caught fuel rows mx in
  let! (s, h) := DlxUnwind.solve fuel mx in
  Ret (es, s, size h).
