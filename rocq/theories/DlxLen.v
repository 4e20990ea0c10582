(** Model of /repo/src/structures/dancing_links/mod.rs:25-55 for constraints whose
    iterators do not tell the truth.  [DancingMatrix::new] takes any
    [ExactSizeIterator]; that is a safe trait, so [len] may return any number
    whatever the iterator goes on to yield.  A constraint is here the pair of
    the number [len] returns and the rows the iterator yields.  Everything after
    [new] is as in [DlxRelease] (no overflow checks) or [Dlx] (overflow checks).
    (To be used with qualified names.) *)
From stdpp Require Import gmap.
From Verif Require Import Base.
From Verif Require Dlx DlxRelease.

(** mod.rs:32-48: one column per constraint, [curr] being the last header. *)
Fixpoint add_columns (curr : N) (constraints : list (N * list nat))
    (h : gmap N DlxRelease.node) (next : N) (rows : list N) : res (gmap N DlxRelease.node * N * list N) :=
  match constraints with
  | [] => Ret (h, next, rows)
  | (len, constraint) :: rest =>
      let new := next in
      let! h := DlxRelease.node_new_header new curr len h in
      let! (h, next, rows) := DlxRelease.add_nodes new new constraint h (next + 1)%N rows in
      add_columns new rest h next rows
  end.
(** mod.rs:25-55 [DancingMatrix::new]. *)
Definition matrix_new (constraints : list (N * list nat)) : res DlxRelease.matrix :=
  let root := 1%N in
  let! h := DlxRelease.node_new_header root Dlx.null 0%N ∅ in
  let! (h, next, rows) := add_columns root constraints h 2%N [] in
  Ret (DlxRelease.Matrix h next root rows []).

(** The same with overflow checks. *)
Fixpoint checked_add_columns (curr : N) (constraints : list (N * list nat))
    (h : gmap N Dlx.node) (next : N) (rows : list N) : res (gmap N Dlx.node * N * list N) :=
  match constraints with
  | [] => Ret (h, next, rows)
  | (len, constraint) :: rest =>
      let new := next in
      let! h := Dlx.node_new_header new curr (N.to_nat len) h in
      let! (h, next, rows) := Dlx.add_nodes new new constraint h (next + 1)%N rows in
      checked_add_columns new rest h next rows
  end.
Definition checked_matrix_new (constraints : list (N * list nat)) : res Dlx.matrix :=
  let root := 1%N in
  let! h := Dlx.node_new_header root Dlx.null 0 ∅ in
  let! (h, next, rows) := checked_add_columns root constraints h 2%N [] in
  Ret (Dlx.Matrix h next root rows []).
