(** Model of /repo/src/structures/dancing_links with overflow checks in which a
    panic unwinds.  The only arithmetic of the search that can overflow is
    [row -= 1] (node.rs:127).  When it panics, unwinding drops the
    [DancingMatrix] (mod.rs:135-145) in the half covered state it is in: [solve]
    owns the matrix, and a caller of [add_solution] that does not catch the panic
    drops the one it has.  Only then the panic is the outcome; whatever else goes
    wrong in [drop] is an outcome of its own.  The rest is as in [Dlx].  (To be
    used with qualified names.) *)
From Verif Require Import Base Dlx.

(** node.rs:126-127, the body of the inner loop of [cover_column]. *)
Definition hide (fuel : nat) (root col : ptr) (h : heap) : res heap :=
  let! h := cover_vertical col h in
  let! n := load h col in
  let! hd := load h (n_header n) in
  match n_row hd with
  | 0 => let! _ := matrix_drop fuel root h in Fault Panic
  | S k => modify (set_row k) (n_header n) h
  end.
(** node.rs:117-130 [cover_column]. *)
Definition cover_column (fuel : nat) (root p : ptr) (h : heap) : res heap :=
  let! c := to_header h p in
  let! h := cover_horizontal c h in
  heap_loop fuel n_down c (fun row h => heap_loop fuel n_right row (hide fuel root) h) h.

(** mod.rs:57-83 [add_solution]. *)
Definition add_solution (fuel : nat) (mx : matrix) (row : nat) : res (result unit dlx_error * matrix) :=
  if decide (length (d_rows mx) <= row) then Ret (Err IndexError, mx)
  else
    let partial := d_partial mx ++ [row] in
    let! p := vec_get (d_rows mx) row in
    if decide (p = null)
    then Ret (Err InvalidRow, Matrix (d_heap mx) (d_next mx) (d_root mx) (d_rows mx) partial)
    else
      let! rows := clear_rows fuel p (d_heap mx) (d_rows mx) in
      let h := d_heap mx in
      let! n := load h p in
      let first_next := if decide (n_right n = p) then null else n_right n in
      let! h := cover_column fuel (d_root mx) p h in
      let! (h, _) := for_from fuel id n_right p first_next
                       (fun x h => let! h := cover_column fuel (d_root mx) x h in Ret (h, false)) h in
      let! h := heap_loop fuel n_right p (free_chain fuel) h in
      let! h := free_chain fuel p h in
      Ret (Ok (), Matrix h (d_next mx) (d_root mx) rows partial).

(** mod.rs:93-129 [solve_helper]. *)
Fixpoint solve_helper (fuel depth : nat) (root : ptr) (h : heap) (partial : list nat)
    : res (heap * list nat * bool) :=
  match depth with
  | 0 => Fault OutOfFuel
  | S depth =>
      let! e := is_empty root h in
      if e : bool then Ret (h, partial, true)
      else
        let! constraint := choose_column fuel root h in
        let! h := cover_column fuel root constraint h in
        let! (s, found) := for_skip1 fuel fst n_down constraint
          (fun row '(h, partial) =>
             let! n := load h row in
             let partial := partial ++ [n_row n] in
             let! h := heap_loop fuel n_right row (cover_column fuel root) h in
             let! (h, partial, ok) := solve_helper fuel depth root h partial in
             if ok : bool then
               let! h := heap_loop fuel n_right row (free_chain fuel) h in
               let! h := free_chain fuel constraint h in
               Ret ((h, partial), true)
             else
               let! h := heap_loop fuel n_left row (uncover_column fuel) h in
               Ret ((h, take (length partial - 1) partial), false)) (h, partial) in
        if found : bool then Ret (s.1, s.2, true)
        else
          let! h := uncover_column fuel constraint s.1 in
          Ret (h, s.2, false)
  end.
(** mod.rs:85-91 [solve]; the matrix is dropped in the end. *)
Definition solve (fuel : nat) (mx : matrix) : res (result (list nat) dlx_error * heap) :=
  let! (h, partial, ok) := solve_helper fuel fuel (d_root mx) (d_heap mx) (d_partial mx) in
  let! h := matrix_drop fuel (d_root mx) h in
  Ret (if ok : bool then Ok partial else Err DlxNoSolution, h).
