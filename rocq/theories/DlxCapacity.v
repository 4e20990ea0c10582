(** [DancingMatrix::new] with row numbers of one word: [index + 1] may overflow
    and the vector of rows may need more than isize::MAX bytes (one word for each row).
    A panic is [Err] with the heap at that moment: the matrix does not exist
    yet, so no destructor frees the nodes. *)
From Verif Require Import Base Dlx MazeCapacity.

(** The rule by which a vector grows (in std: the larger of twice the old
    capacity and the length, at least 4 for elements of four or eight bytes). *)
Definition grows_rows (growth : N -> N -> N) : Prop := forall cap need,
  (need <= growth cap need /\ growth cap need <= N.max (2 * cap) (N.max need 4))%N.
Definition std_growth (cap need : N) : N := N.max (2 * cap) (N.max need 4).

Section growth.
  Context (m : mode) (growth : N -> N -> N).

  (** mod.rs:37-39; [resize] also shortens. *)
  Definition resize_checked (rows : list ptr) (cap : N) (index : nat) : res (list ptr * N) :=
    if decide (length rows <= index) then
      let! n := n_add m index 1 in
      if decide (N.of_nat n <= cap)%N then Ret (take n rows ++ replicate (n - length rows) null, cap)
      else
        let cap := growth cap (N.of_nat n) in
        if decide (word_bytes m * cap <= isize_max m)%N
        then Ret (take n rows ++ replicate (n - length rows) null, cap) else Fault Panic
    else Ret (rows, cap).

  (** mod.rs:36-45. *)
  Fixpoint add_nodes_checked (header col_curr : ptr) (constraint : list nat)
      (h : heap) (next : ptr) (rows : list ptr) (cap : N) : res (result (heap * ptr * list ptr * N) heap) :=
    match constraint with
    | [] => Ret (Ok (h, next, rows, cap))
    | index :: rest =>
        match (let! (rows, cap) := resize_checked rows cap index in
               let! rp := vec_get rows index in
               Ret (rows, cap, rp)) with
        | Fault Panic => Ret (Err h)
        | Fault f => Fault f
        | Ret (rows, cap, rp) =>
            let! h := node_new next header rp col_curr index h in
            let! rows := vec_set rows index next in
            add_nodes_checked header next rest h (next + 1)%N rows cap
        end
    end.

  (** mod.rs:32-48. *)
  Fixpoint add_columns_checked (curr : ptr) (constraints : list (list nat))
      (h : heap) (next : ptr) (rows : list ptr) (cap : N) : res (result (heap * ptr * list ptr) heap) :=
    match constraints with
    | [] => Ret (Ok (h, next, rows))
    | constraint :: rest =>
        let new := next in
        let! h := node_new_header new curr (length constraint) h in
        let! r := add_nodes_checked new new constraint h (next + 1)%N rows cap in
        match r with
        | Ok (h, next, rows, cap) => add_columns_checked new rest h next rows cap
        | Err h => Ret (Err h)
        end
    end.

  (** mod.rs:25-55 [DancingMatrix::new]. *)
  Definition new_checked (constraints : list (list nat)) : res (result matrix heap) :=
    let root := 1%N in
    let! h := node_new_header root null 0 ∅ in
    let! r := add_columns_checked root constraints h 2%N [] 0 in
    match r with
    | Ok (h, next, rows) => Ret (Ok (Matrix h next root rows []))
    | Err h => Ret (Err h)
    end.
End growth.
