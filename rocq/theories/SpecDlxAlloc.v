(** What is known about allocators. *)
From Verif Require Import Base Dlx.

(** The first [n] allocations succeed and yield different addresses. *)
Definition allocates (alloc : nat -> N) (n : nat) : Prop :=
  (forall k, k < n -> alloc k <> null) /\
  (forall j k, j < n -> k < n -> alloc j = alloc k -> j = k).

(** Allocations made for a list of constraints: the root, the headers and one
    node per entry. *)
Definition nodes_of (constraints : list (list nat)) : nat :=
  1 + length constraints + length (concat constraints).

(** Two runs end alike: with the same fault, or with the same answer and equally
    many nodes that are not freed. *)
Definition alike {A} (x y : res (A * heap)) : Prop :=
  match x, y with
  | Ret (a, h), Ret (b, h') => a = b /\ size h = size h'
  | Fault e, Fault f => e = f
  | _, _ => False
  end.
