(** Model of /repo/src/structures/dancing_links/ (node.rs and mod.rs) in a build
    without overflow checks: the number of rows in a header is a machine integer
    that wraps around.  Apart from that the definitions are those of [Dlx], which
    counts without bound and reports a count below zero as a panic.  (To be used
    with qualified names.) *)
From stdpp Require Import gmap.
From Verif Require Import Base.
From Verif Require Dlx Sudoku.

(** A raw pointer [*mut Node]; 0 is null. *)
Notation ptr := N (only parsing).
Notation null := Dlx.null (only parsing).

(** node.rs:6-13 [Node]. *)
Record node := Node {
  n_header : ptr; n_left : ptr; n_right : ptr; n_up : ptr; n_down : ptr; n_row : N
}.

(** The live nodes.  An address without entry is null, not yet allocated or
    already freed. *)
Notation heap := (gmap ptr node).

(** [*p]: undefined behaviour unless [p] is live. *)
Definition load (h : heap) (p : ptr) : res node :=
  match h !! p with Some n => Ret n | None => Fault UB end.

(** [*p = f( *p )]: a store to some fields of a live node. *)
Definition modify (f : node -> node) (p : ptr) (h : heap) : res heap :=
  match h !! p with Some n => Ret (<[p := f n]> h) | None => Fault UB end.

(** [dealloc(p)]: undefined behaviour unless [p] is live. *)
Definition dealloc (p : ptr) (h : heap) : res heap :=
  match h !! p with Some _ => Ret (delete p h) | None => Fault UB end.

Definition set_left (v : ptr) (n : node) : node :=
  Node (n_header n) v (n_right n) (n_up n) (n_down n) (n_row n).
Definition set_right (v : ptr) (n : node) : node :=
  Node (n_header n) (n_left n) v (n_up n) (n_down n) (n_row n).
Definition set_up (v : ptr) (n : node) : node :=
  Node (n_header n) (n_left n) (n_right n) v (n_down n) (n_row n).
Definition set_down (v : ptr) (n : node) : node :=
  Node (n_header n) (n_left n) (n_right n) (n_up n) v (n_row n).
Definition set_row (v : N) (n : node) : node :=
  Node (n_header n) (n_left n) (n_right n) (n_up n) (n_down n) v.

(** node.rs:23-62 [Node::new] with [ptr] the address returned by the allocator
    (allocation never fails in the model). *)
Definition node_new (p : ptr) (header row_previous col_previous : ptr) (row : N) (h : heap)
    : res heap :=
  let nd := Node header p p p p row in
  let! (nd, h) :=
    if decide (row_previous = null) then Ret (nd, h)
    else
      let! rp := load h row_previous in
      let nd := set_right (n_right rp) (set_left row_previous nd) in
      let! h := modify (set_left p) (n_right rp) h in
      let! h := modify (set_right p) row_previous h in
      Ret (nd, h) in
  let! (nd, h) :=
    if decide (col_previous = null) then Ret (nd, h)
    else
      let! cp := load h col_previous in
      let nd := set_down (n_down cp) (set_up col_previous nd) in
      let! h := modify (set_up p) (n_down cp) h in
      let! h := modify (set_down p) col_previous h in
      Ret (nd, h) in
  Ret (<[p := nd]> h).

(** node.rs:67-91 [Node::new_header]. *)
Definition node_new_header (p : ptr) (previous : ptr) (num_rows : N) (h : heap) : res heap :=
  let nd := Node null p p p p num_rows in
  let! (nd, h) :=
    if decide (previous = null) then Ret (nd, h)
    else
      let! pv := load h previous in
      let nd := set_right (n_right pv) (set_left previous nd) in
      let! h := modify (set_left p) (n_right pv) h in
      let! h := modify (set_right p) previous h in
      Ret (nd, h) in
  Ret (<[p := nd]> h).

(** node.rs:218-263: [for x in iter_dir(node).skip(1) { body }].
    [dir] is the link followed.  The iterator reads the successor of the node
    it is about to yield before the body runs, and stops when that successor is
    the original node.  [for_from] is the state "next() will yield [cur]";
    [S] is any mutable state containing the heap.  A body may end the loop by
    returning [true] (only used for the early [return true] of [solve_helper]).
    [fuel] bounds the number of iterations. *)
Fixpoint for_from {S} (fuel : nat) (heap_of : S -> heap) (dir : node -> ptr) (original cur : ptr)
    (body : ptr -> S -> res (S * bool)) (s : S) : res (S * bool) :=
  if decide (cur = null) then Ret (s, false)
  else
    match fuel with
    | 0 => Fault OutOfFuel
    | Datatypes.S fuel =>
        let! n := load (heap_of s) cur in
        let cur' := if decide (dir n = original) then null else dir n in
        let! (s, stop) := body cur s in
        if stop : bool then Ret (s, true)
        else for_from fuel heap_of dir original cur' body s
    end.

(** [skip(1)]: the first element is consumed without running the body. *)
Definition for_skip1 {S} (fuel : nat) (heap_of : S -> heap) (dir : node -> ptr) (original : ptr)
    (body : ptr -> S -> res (S * bool)) (s : S) : res (S * bool) :=
  let! n := load (heap_of s) original in
  let cur := if decide (dir n = original) then null else dir n in
  for_from fuel heap_of dir original cur body s.

(** A loop whose body never breaks, over the heap alone. *)
Definition heap_loop (fuel : nat) (dir : node -> ptr) (original : ptr)
    (body : ptr -> heap -> res heap) (h : heap) : res heap :=
  let! (h, _) := for_skip1 fuel id dir original
                   (fun x h => let! h := body x h in Ret (h, false)) h in
  Ret h.

(** node.rs:118-120, 136-138, 154-156: from any node to its column header. *)
Definition to_header (h : heap) (p : ptr) : res ptr :=
  let! n := load h p in
  if decide (n_header n = null) then Ret p else Ret (n_header n).

(** node.rs:172-179 [cover_horizontal]. *)
Definition cover_horizontal (p : ptr) (h : heap) : res heap :=
  let! n := load h p in
  let! h := modify (set_right (n_right n)) (n_left n) h in
  modify (set_left (n_left n)) (n_right n) h.
(** node.rs:184-191 [cover_vertical]. *)
Definition cover_vertical (p : ptr) (h : heap) : res heap :=
  let! n := load h p in
  let! h := modify (set_down (n_down n)) (n_up n) h in
  modify (set_up (n_up n)) (n_down n) h.
(** node.rs:196-203 [uncover_horizontal]. *)
Definition uncover_horizontal (p : ptr) (h : heap) : res heap :=
  let! n := load h p in
  let! h := modify (set_right p) (n_left n) h in
  modify (set_left p) (n_right n) h.
(** node.rs:208-215 [uncover_vertical]. *)
Definition uncover_vertical (p : ptr) (h : heap) : res heap :=
  let! n := load h p in
  let! h := modify (set_down p) (n_up n) h in
  modify (set_up p) (n_down n) h.

(** [( *( *col ).header ).row -= 1] and [+= 1], wrapping around. *)
Definition dec_size (ws : word) (col : ptr) (h : heap) : res heap :=
  let! n := load h col in
  let! hd := load h (n_header n) in
  modify (set_row ((n_row hd + usize_size ws - 1) mod usize_size ws)%N) (n_header n) h.
Definition inc_size (ws : word) (col : ptr) (h : heap) : res heap :=
  let! n := load h col in
  let! hd := load h (n_header n) in
  modify (set_row ((n_row hd + 1) mod usize_size ws)%N) (n_header n) h.

(** node.rs:126-127 and 142-143: the body of the inner loops. *)
Definition hide (ws : word) (col : ptr) (h : heap) : res heap :=
  let! h := cover_vertical col h in dec_size ws col h.
Definition unhide (ws : word) (col : ptr) (h : heap) : res heap :=
  let! h := inc_size ws col h in uncover_vertical col h.

Section fuelled.
  (** The width of the counters, and a bound for every ring traversal. *)
  Context (ws : word) (fuel : nat).

  (** node.rs:117-130 [cover_column]. *)
  Definition cover_column (p : ptr) (h : heap) : res heap :=
    let! c := to_header h p in
    let! h := cover_horizontal c h in
    heap_loop fuel n_down c (fun row h => heap_loop fuel n_right row (hide ws) h) h.

  (** node.rs:135-148 [uncover_column]. *)
  Definition uncover_column (p : ptr) (h : heap) : res heap :=
    let! c := to_header h p in
    let! h := heap_loop fuel n_up c (fun row h => heap_loop fuel n_left row (unhide ws) h) h in
    uncover_horizontal c h.

  (** node.rs:153-167 [free_chain]. *)
  Definition free_chain (p : ptr) (h : heap) : res heap :=
    let! c := to_header h p in
    let! h := heap_loop fuel n_down c (fun row h =>
                let! h := heap_loop fuel n_right row dealloc h in
                dealloc row h) h in
    dealloc c h.

  (** mod.rs:18-22 [DancingMatrix] together with the heap.  [d_next] is the
      next address the allocator returns. *)
  Record matrix := Matrix {
    d_heap : heap;
    d_next : ptr;
    d_root : ptr;
    d_rows : list ptr;
    d_partial : list nat
  }.

  (** mod.rs:36-45: the nodes of one column, [col_curr] being the last one. *)
  Fixpoint add_nodes (header col_curr : ptr) (constraint : list nat)
      (h : heap) (next : ptr) (rows : list ptr) : res (heap * ptr * list ptr) :=
    match constraint with
    | [] => Ret (h, next, rows)
    | index :: rest =>
        let rows := Dlx.grow rows index in
        let! rp := vec_get rows index in
        let! h := node_new next header rp col_curr (N.of_nat index) h in
        let! rows := vec_set rows index next in
        add_nodes header next rest h (next + 1)%N rows
    end.

  (** mod.rs:32-48: one column per constraint, [curr] being the last header. *)
  Fixpoint add_columns (curr : ptr) (constraints : list (list nat))
      (h : heap) (next : ptr) (rows : list ptr) : res (heap * ptr * list ptr) :=
    match constraints with
    | [] => Ret (h, next, rows)
    | constraint :: rest =>
        let new := next in
        let! h := node_new_header new curr (N.of_nat (length constraint)) h in
        let! (h, next, rows) := add_nodes new new constraint h (next + 1)%N rows in
        add_columns new rest h next rows
    end.

  (** mod.rs:25-55 [DancingMatrix::new]. *)
  Definition matrix_new (constraints : list (list nat)) : res matrix :=
    let root := 1%N in
    let! h := node_new_header root null 0%N ∅ in
    let! (h, next, rows) := add_columns root constraints h 2%N [] in
    Ret (Matrix h next root rows []).

  (** mod.rs:69-71: forget every row that has a node in the column of [row]. *)
  Definition clear_rows (row : ptr) (h : heap) (rows : list ptr) : res (list ptr) :=
    let! n := load h row in
    let! (s, _) := for_skip1 fuel fst n_down (n_header n)
      (fun x '(h, rows) =>
         let! nx := load h x in
         let! rows := vec_set rows (N.to_nat (n_row nx)) null in
         Ret ((h, rows), false)) (h, rows) in
    Ret (snd s).

  (** mod.rs:57-83 [add_solution]. *)
  Definition add_solution (mx : matrix) (row : nat) : res (result unit Dlx.dlx_error * matrix) :=
    if decide (length (d_rows mx) <= row) then Ret (Err Dlx.IndexError, mx)
    else
      let partial := d_partial mx ++ [row] in
      let! p := vec_get (d_rows mx) row in
      if decide (p = null)
      then Ret (Err Dlx.InvalidRow, Matrix (d_heap mx) (d_next mx) (d_root mx) (d_rows mx) partial)
      else
        let! rows := clear_rows p (d_heap mx) (d_rows mx) in
        (* iter_right(row) without skip: [row] itself first *)
        let h := d_heap mx in
        let! n := load h p in
        let first_next := if decide (n_right n = p) then null else n_right n in
        let! h := cover_column p h in
        let! (h, _) := for_from fuel id n_right p first_next
                         (fun x h => let! h := cover_column x h in Ret (h, false)) h in
        let! h := heap_loop fuel n_right p free_chain h in
        let! h := free_chain p h in
        Ret (Ok (), Matrix h (d_next mx) (d_root mx) rows partial).

  (** mod.rs:131-133 [is_empty]. *)
  Definition is_empty (root : ptr) (h : heap) : res bool :=
    let! n := load h root in
    Ret (bool_decide (n_right n = root)).

  (** mod.rs:98-101: the first column with the fewest rows ([min_by] returns
      the first of several minimal elements). *)
  Definition choose_column (root : ptr) (h : heap) : res ptr :=
    let! (s, _) := for_skip1 fuel fst n_right root
      (fun x '(h, best) =>
         let! nx := load h x in
         match best with
         | None => Ret ((h, Some (x, n_row nx)), false)
         | Some (_, k) =>
             if decide (n_row nx < k)%N then Ret ((h, Some (x, n_row nx)), false)
             else Ret ((h, best), false)
         end) (h, None) in
    let! best := expect (snd s) in
    Ret (fst best).

  (** mod.rs:93-129 [solve_helper]; state: heap and [partial_solution].
      [depth] bounds the recursion. *)
  Fixpoint solve_helper (depth : nat) (root : ptr) (h : heap) (partial : list nat)
      : res (heap * list nat * bool) :=
    match depth with
    | 0 => Fault OutOfFuel
    | S depth =>
        let! e := is_empty root h in
        if e : bool then Ret (h, partial, true)
        else
          let! constraint := choose_column root h in
          let! h := cover_column constraint h in
          let! (s, found) := for_skip1 fuel fst n_down constraint
            (fun row '(h, partial) =>
               let! n := load h row in
               let partial := partial ++ [N.to_nat (n_row n)] in
               let! h := heap_loop fuel n_right row cover_column h in
               let! (h, partial, ok) := solve_helper depth root h partial in
               if ok : bool then
                 let! h := heap_loop fuel n_right row free_chain h in
                 let! h := free_chain constraint h in
                 Ret ((h, partial), true)
               else
                 let! h := heap_loop fuel n_left row uncover_column h in
                 (* pop() *)
                 Ret ((h, take (length partial - 1) partial), false)) (h, partial) in
          if found : bool then Ret (s.1, s.2, true)
          else
            let! h := uncover_column constraint s.1 in
            Ret (h, s.2, false)
    end.

  (** mod.rs:136-144 [drop]: frees every column reachable from the root. *)
  Definition drop_column (header : ptr) (h : heap) : res heap :=
    (* iter_down(header) without skip: the successor of [header] is read, then
       [header] is freed *)
    let! n := load h header in
    let cur := if decide (n_down n = header) then null else n_down n in
    let! h := dealloc header h in
    let! (h, _) := for_from fuel id n_down header cur
                     (fun x h => let! h := dealloc x h in Ret (h, false)) h in
    Ret h.
  Definition matrix_drop (root : ptr) (h : heap) : res heap :=
    let! n := load h root in
    let cur := if decide (n_right n = root) then null else n_right n in
    let! h := drop_column root h in
    let! (h, _) := for_from fuel id n_right root cur
                     (fun x h => let! h := drop_column x h in Ret (h, false)) h in
    Ret h.

  (** mod.rs:85-91 [solve]; [self] is dropped at the end.  Returns the final
      heap as well. *)
  Definition solve (mx : matrix) : res (result (list nat) Dlx.dlx_error * heap) :=
    let! (h, partial, ok) := solve_helper fuel (d_root mx) (d_heap mx) (d_partial mx) in
    let! h := matrix_drop (d_root mx) h in
    Ret (if ok : bool then Ok partial else Err Dlx.DlxNoSolution, h).
End fuelled.

(** sudoku/mod.rs:76-86, as [Sudoku.add_clues]. *)
Fixpoint add_clues (ws : word) (fuel : nat) (clues : list (nat * nat)) (mx : matrix)
    : res (result matrix Sudoku.sudoku_error * matrix) :=
  match clues with
  | [] => Ret (Ok mx, mx)
  | (index, value) :: clues =>
      if decide (value = 0) then add_clues ws fuel clues mx
      else
        let! (r, mx) := add_solution ws fuel mx (index * 9 + value - 1) in
        match r with
        | Err Dlx.InvalidRow => Ret (Err Sudoku.NoSolution, mx)
        | _ => add_clues ws fuel clues mx
        end
  end.

(** sudoku/mod.rs:65-91, as [Sudoku.solve_sudoku]. *)
Definition solve_sudoku (ws : word) (fuel : nat) (puzzle : list nat)
    : res (result (list nat) Sudoku.sudoku_error * heap) :=
  if decide (length puzzle <> Sudoku.GRID_SIZE * Sudoku.GRID_SIZE)
  then Ret (Err (Sudoku.InvalidSize (length puzzle)), ∅)
  else
    let! mx := matrix_new Sudoku.SUDOKU_CONSTRAINTS in
    let! (r, mx) := add_clues ws fuel (enumerate puzzle) mx in
    match r with
    | Err e =>
        let! h := matrix_drop fuel (d_root mx) (d_heap mx) in
        Ret (Err e, h)
    | Ok mx =>
        let! (s, h) := solve ws fuel mx in
        match s with
        | Err _ => Ret (Err Sudoku.NoSolution, h)
        | Ok sol => Ret (Ok ((fun num => num `mod` 9 + 1) <$> Sudoku.sort_rows sol), h)
        end
    end.
