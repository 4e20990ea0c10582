(** Model of /repo/src/structures/dancing_links/mod.rs:25-55 for constraint
    iterators that panic.  The caller's code runs at three places: [next] of the
    outer iterator (mod.rs:32), [len] (mod.rs:33) and [next] of a constraint
    (mod.rs:36); [None] is a panic of theirs.  As in [DlxLen] the number that
    [len] returns may be wrong.  A panic is [Err] with the heap at that moment:
    the matrix does not exist yet, so no destructor frees the nodes.  (To be
    used with qualified names.) *)
From Verif Require Import Base Dlx.

(** What [len] and the calls of [next] give. *)
Definition constraint : Type := option N * list (option nat).

(** mod.rs:36-45. *)
Fixpoint add_nodes (header col_curr : ptr) (items : list (option nat))
    (h : heap) (next : ptr) (rows : list ptr) : res (result (heap * ptr * list ptr) heap) :=
  match items with
  | [] => Ret (Ok (h, next, rows))
  | None :: _ => Ret (Err h)
  | Some index :: rest =>
      let rows := grow rows index in
      let! rp := vec_get rows index in
      let! h := node_new next header rp col_curr index h in
      let! rows := vec_set rows index next in
      add_nodes header next rest h (next + 1)%N rows
  end.
(** mod.rs:32-48; [len] is called before the header is allocated. *)
Fixpoint add_columns (curr : ptr) (constraints : list (option constraint))
    (h : heap) (next : ptr) (rows : list ptr) : res (result (heap * ptr * list ptr) heap) :=
  match constraints with
  | [] => Ret (Ok (h, next, rows))
  | None :: _ | Some (None, _) :: _ => Ret (Err h)
  | Some (Some len, items) :: rest =>
      let new := next in
      let! h := node_new_header new curr (N.to_nat len) h in
      let! r := add_nodes new new items h (next + 1)%N rows in
      match r with
      | Ok (h, next, rows) => add_columns new rest h next rows
      | Err h => Ret (Err h)
      end
  end.
(** mod.rs:25-55 [DancingMatrix::new]. *)
Definition matrix_new (constraints : list (option constraint)) : res (result matrix heap) :=
  let root := 1%N in
  let! h := node_new_header root null 0 ∅ in
  let! r := add_columns root constraints h 2%N [] in
  match r with
  | Ok (h, next, rows) => Ret (Ok (Matrix h next root rows []))
  | Err h => Ret (Err h)
  end.
