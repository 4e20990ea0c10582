(** Model of /repo/src/structures/dancing_links with overflow checks in which the
    caller of [add_solution] catches its panic ([std::panic::catch_unwind]) and
    keeps the matrix in the half covered state it is left in.  The panic of
    [row -= 1] (node.rs:127) is the only one that unwinds here; the flag of the
    loops of [Dlx] ends them early.  (To be used with qualified names.) *)
From Verif Require Import Base Dlx.

(** node.rs:126-127, the body of the inner loop of [cover_column]; [true] for a
    panic, with the heap at that moment. *)
Definition hide (col : ptr) (h : heap) : res (heap * bool) :=
  let! h := cover_vertical col h in
  let! n := load h col in
  let! hd := load h (n_header n) in
  match n_row hd with
  | 0 => Ret (h, true)
  | S k => let! h := modify (set_row k) (n_header n) h in Ret (h, false)
  end.
(** node.rs:117-130 [cover_column]. *)
Definition cover_column (fuel : nat) (p : ptr) (h : heap) : res (heap * bool) :=
  let! c := to_header h p in
  let! h := cover_horizontal c h in
  for_skip1 fuel id n_down c (fun row h => for_skip1 fuel id n_right row hide h) h.

(** mod.rs:57-83 [add_solution]; [None] for a panic, with the matrix as it is
    left: the row has been pushed and the rows of one column forgotten. *)
Definition add_solution (fuel : nat) (mx : matrix) (row : nat) : res (option (result unit dlx_error) * matrix) :=
  if decide (length (d_rows mx) <= row) then Ret (Some (Err IndexError), mx)
  else
    let partial := d_partial mx ++ [row] in
    let! p := vec_get (d_rows mx) row in
    if decide (p = null)
    then Ret (Some (Err InvalidRow), Matrix (d_heap mx) (d_next mx) (d_root mx) (d_rows mx) partial)
    else
      let! rows := clear_rows fuel p (d_heap mx) (d_rows mx) in
      let h := d_heap mx in
      let! n := load h p in
      let first_next := if decide (n_right n = p) then null else n_right n in
      let! (h, panicked) := cover_column fuel p h in
      if panicked : bool then Ret (None, Matrix h (d_next mx) (d_root mx) rows partial)
      else
        let! (h, panicked) := for_from fuel id n_right p first_next (cover_column fuel) h in
        if panicked : bool then Ret (None, Matrix h (d_next mx) (d_root mx) rows partial)
        else
          let! h := heap_loop fuel n_right p (free_chain fuel) h in
          let! h := free_chain fuel p h in
          Ret (Some (Ok ()), Matrix h (d_next mx) (d_root mx) rows partial).
