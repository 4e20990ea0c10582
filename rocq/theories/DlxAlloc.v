(** [DancingMatrix::new] of /repo/src/structures/dancing_links/mod.rs and
    [solve_sudoku] with an arbitrary allocator.  In [Dlx] the allocator returns
    the addresses 1, 2, 3, ...; here the [k]-th call of [alloc] (counted from 0)
    returns the address [alloc k], which is null if the allocation fails.
    Nothing is freed before all nodes are allocated. *)
From Verif Require Import Base Dlx Sudoku.

Section alloc.
  Context (alloc : nat -> N).

  (** node.rs:23-62 and 67-91: [alloc], the links, then [*ptr = node], which
      writes through a null pointer if the allocation failed. *)
  Definition store_check (p : N) (h : heap) : res heap :=
    if decide (p = null) then Fault UB else Ret h.
  Definition node_new_at (k : nat) (header row_previous col_previous : N) (row : nat) (h : heap) : res heap :=
    let! h := node_new (alloc k) header row_previous col_previous row h in store_check (alloc k) h.
  Definition node_new_header_at (k : nat) (previous : N) (num_rows : nat) (h : heap) : res heap :=
    let! h := node_new_header (alloc k) previous num_rows h in store_check (alloc k) h.

  (** mod.rs:36-45; [k] counts the allocations. *)
  Fixpoint add_nodes_at (header col_curr : N) (constraint : list nat)
      (h : heap) (k : nat) (rows : list N) : res (heap * nat * list N) :=
    match constraint with
    | [] => Ret (h, k, rows)
    | index :: rest =>
        let rows := grow rows index in
        let! rp := vec_get rows index in
        let! h := node_new_at k header rp col_curr index h in
        let! rows := vec_set rows index (alloc k) in
        add_nodes_at header (alloc k) rest h (S k) rows
    end.

  (** mod.rs:32-48. *)
  Fixpoint add_columns_at (curr : N) (constraints : list (list nat))
      (h : heap) (k : nat) (rows : list N) : res (heap * nat * list N) :=
    match constraints with
    | [] => Ret (h, k, rows)
    | constraint :: rest =>
        let! h := node_new_header_at k curr (length constraint) h in
        let! (h, k', rows) := add_nodes_at (alloc k) (alloc k) constraint h (S k) rows in
        add_columns_at (alloc k) rest h k' rows
    end.

  (** mod.rs:25-55 [DancingMatrix::new].  ([d_next] is not used afterwards.) *)
  Definition matrix_new_at (constraints : list (list nat)) : res matrix :=
    let! h := node_new_header_at 0 null 0 ∅ in
    let! (h, _, rows) := add_columns_at (alloc 0) constraints h 1 [] in
    Ret (Matrix h 0 (alloc 0) rows []).

  (** sudoku/mod.rs:65-91 [solve_sudoku], as in [Sudoku]. *)
  Definition solve_sudoku_at (fuel : nat) (puzzle : list nat)
      : res (result (list nat) sudoku_error * heap) :=
    if decide (length puzzle <> GRID_SIZE * GRID_SIZE)
    then Ret (Err (InvalidSize (length puzzle)), ∅)
    else
      let! mx := matrix_new_at SUDOKU_CONSTRAINTS in
      let! (r, mx) := add_clues fuel (enumerate puzzle) mx in
      match r with
      | Err e =>
          let! h := matrix_drop fuel (d_root mx) (d_heap mx) in
          Ret (Err e, h)
      | Ok mx =>
          let! (s, h) := solve fuel mx in
          match s with
          | Err _ => Ret (Err NoSolution, h)
          | Ok sol => Ret (Ok ((fun num => num `mod` 9 + 1) <$> sort_rows sol), h)
          end
      end.
End alloc.

(** A use of a matrix: [add_solution] for some rows, with the answers, then
    [solve]. *)
Fixpoint add_rows (fuel : nat) (rows : list nat) (mx : matrix) : res (list (result unit dlx_error) * matrix) :=
  match rows with
  | [] => Ret ([], mx)
  | row :: rows =>
      let! (a, mx) := add_solution fuel mx row in
      let! (l, mx) := add_rows fuel rows mx in
      Ret (a :: l, mx)
  end.
Definition use_matrix (fuel : nat) (new : res matrix) (rows : list nat)
    : res (list (result unit dlx_error) * result (list nat) dlx_error * heap) :=
  let! mx := new in
  let! (l, mx) := add_rows fuel rows mx in
  let! (s, h) := solve fuel mx in
  Ret (l, s, h).
