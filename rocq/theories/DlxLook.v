(** The exact cover solver when what it reads as the size of a column is some
    function of the header, and columns are covered by some function. *)
From Verif Require Import Base Dlx.

Section look.
Context (look : N -> node -> nat) (cover : ptr -> heap -> res heap) (fuel : nat).

(** [choose_column] comparing what is read, and the search with it. *)
Definition choose_look (root : ptr) (h : heap) : res ptr :=
  let! (s, _) := for_skip1 fuel fst n_right root
    (fun x '(h, best) =>
       let! nx := load h x in
       match best with
       | None => Ret ((h, Some (x, look x nx)), false)
       | Some (_, k) =>
           if decide (look x nx < k) then Ret ((h, Some (x, look x nx)), false)
           else Ret ((h, best), false)
       end) (h, None) in
  let! best := expect (snd s) in
  Ret (fst best).
Fixpoint solve_look (depth : nat) (root : ptr) (h : heap) (partial : list nat)
    : res (heap * list nat * bool) :=
  match depth with
  | 0 => Fault OutOfFuel
  | S depth =>
      let! e := is_empty root h in
      if e : bool then Ret (h, partial, true)
      else
        let! constraint := choose_look root h in
        let! h := cover constraint h in
        let! (s, found) := for_skip1 fuel fst n_down constraint
          (fun row '(h, partial) =>
             let! n := load h row in
             let partial := partial ++ [look row n] in
             let! h := heap_loop fuel n_right row cover h in
             let! (h, partial, ok) := solve_look depth root h partial in
             if ok : bool then
               let! h := heap_loop fuel n_right row (free_chain fuel) h in
               let! h := free_chain fuel constraint h in
               Ret ((h, partial), true)
             else
               let! h := heap_loop fuel n_left row (uncover_column fuel) h in
               Ret ((h, take (length partial - 1) partial), false)) (h, partial) in
        if found : bool then Ret (s.1, s.2, true)
        else
          let! h := uncover_column fuel constraint s.1 in
          Ret (h, s.2, false)
  end.

(** [add_solution] forgetting the rows by their numbers read. *)
Definition clear_look (row : ptr) (h : heap) (rows : list ptr) : res (list ptr) :=
  let! n := load h row in
  let! (s, _) := for_skip1 fuel fst n_down (n_header n)
    (fun x '(h, rows) =>
       let! nx := load h x in
       let! rows := vec_set rows (look x nx) null in
       Ret ((h, rows), false)) (h, rows) in
  Ret (snd s).
Definition add_look (mx : matrix) (row : nat) : res (result unit dlx_error * matrix) :=
  if decide (length (d_rows mx) <= row) then Ret (Err IndexError, mx)
  else
    let partial := d_partial mx ++ [row] in
    let! p := vec_get (d_rows mx) row in
    if decide (p = null)
    then Ret (Err InvalidRow, Matrix (d_heap mx) (d_next mx) (d_root mx) (d_rows mx) partial)
    else
      let! rows := clear_look p (d_heap mx) (d_rows mx) in
      let h := d_heap mx in
      let! n := load h p in
      let first_next := if decide (n_right n = p) then null else n_right n in
      let! h := cover p h in
      let! (h, _) := for_from fuel id n_right p first_next
                       (fun x h => let! h := cover x h in Ret (h, false)) h in
      let! h := heap_loop fuel n_right p (free_chain fuel) h in
      let! h := free_chain fuel p h in
      Ret (Ok (), Matrix h (d_next mx) (d_root mx) rows partial).

End look.
