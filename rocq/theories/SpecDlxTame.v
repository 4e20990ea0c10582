(** Covering and uncovering columns in any order, and the search up to the moment
    an answer is found, for C116. *)
From Verif Require Import Base Dlx.
From Verif Require DlxLen DlxUnwind DlxCaught DlxRelease.

(** Any calls of [cover_column] and [uncover_column]; a panic unwinds. *)
Inductive walk_step := Cover (p : ptr) | Uncover (p : ptr).
Fixpoint walk (fuel : nat) (root : ptr) (steps : list walk_step) (h : heap) : res heap :=
  match steps with
  | [] => Ret h
  | Cover p :: steps => let! h := DlxUnwind.cover_column fuel root p h in walk fuel root steps h
  | Uncover p :: steps => let! h := uncover_column fuel p h in walk fuel root steps h
  end.
Definition walk_target (s : walk_step) : ptr := match s with Cover p | Uncover p => p end.

(** [solve_helper] of [DlxUnwind] without the freeing of an answer (mod.rs:112-117):
    [true] as soon as the root has no column left. *)
Fixpoint look_for (fuel depth : nat) (root : ptr) (h : heap) (partial : list nat)
    : res (heap * list nat * bool) :=
  match depth with
  | 0 => Fault OutOfFuel
  | S depth =>
      let! e := is_empty root h in
      if e : bool then Ret (h, partial, true)
      else
        let! constraint := choose_column fuel root h in
        let! h := DlxUnwind.cover_column fuel root constraint h in
        let! (s, found) := for_skip1 fuel fst n_down constraint
          (fun row '(h, partial) =>
             let! n := load h row in
             let partial := partial ++ [n_row n] in
             let! h := heap_loop fuel n_right row (DlxUnwind.cover_column fuel root) h in
             let! (h, partial, ok) := look_for fuel depth root h partial in
             if ok : bool then Ret ((h, partial), true)
             else
               let! h := heap_loop fuel n_left row (uncover_column fuel) h in
               Ret ((h, take (length partial - 1) partial), false)) (h, partial) in
        if found : bool then Ret (s.1, s.2, true)
        else
          let! h := uncover_column fuel constraint s.1 in
          Ret (h, s.2, false)
  end.

(** The same without overflow checks: sizes wrap around. *)
Fixpoint walk_release (ws : word) (fuel : nat) (steps : list walk_step) (h : gmap ptr DlxRelease.node) : res (gmap ptr DlxRelease.node) :=
  match steps with
  | [] => Ret h
  | Cover p :: steps => let! h := DlxRelease.cover_column ws fuel p h in walk_release ws fuel steps h
  | Uncover p :: steps => let! h := DlxRelease.uncover_column ws fuel p h in walk_release ws fuel steps h
  end.
Fixpoint look_for_release (ws : word) (fuel depth : nat) (root : ptr) (h : gmap ptr DlxRelease.node) (partial : list nat)
    : res (gmap ptr DlxRelease.node * list nat * bool) :=
  match depth with
  | 0 => Fault OutOfFuel
  | S depth =>
      let! e := DlxRelease.is_empty root h in
      if e : bool then Ret (h, partial, true)
      else
        let! constraint := DlxRelease.choose_column fuel root h in
        let! h := DlxRelease.cover_column ws fuel constraint h in
        let! (s, found) := DlxRelease.for_skip1 fuel fst DlxRelease.n_down constraint
          (fun row '(h, partial) =>
             let! n := DlxRelease.load h row in
             let partial := partial ++ [N.to_nat (DlxRelease.n_row n)] in
             let! h := DlxRelease.heap_loop fuel DlxRelease.n_right row (DlxRelease.cover_column ws fuel) h in
             let! (h, partial, ok) := look_for_release ws fuel depth root h partial in
             if ok : bool then Ret ((h, partial), true)
             else
               let! h := DlxRelease.heap_loop fuel DlxRelease.n_left row (DlxRelease.uncover_column ws fuel) h in
               Ret ((h, take (length partial - 1) partial), false)) (h, partial) in
        if found : bool then Ret (s.1, s.2, true)
        else
          let! h := DlxRelease.uncover_column ws fuel constraint s.1 in
          Ret (h, s.2, false)
  end.
