(** The work of any sequence of calls of the disjoint set, for C115. *)
From Verif Require Import Base DisjointSet MazeFind.

(** The public functions that change an existing set. *)
Inductive op := Add | Find (i : nat) | Common (i j : nat) | Union (i j : nat).

(** The calls one after the other; for every call of [find] the number of calls
    of [find_helper] is recorded. *)
Fixpoint perform (ops : list op) (d : dset) (t : list nat) : res (dset * list nat) :=
  match ops with
  | [] => Ret (d, t)
  | Add :: ops => perform ops (ds_add d) t
  | Find i :: ops => let! (_, d, t) := find_calls d i t in perform ops d t
  | Common i j :: ops => let! (_, d, t) := common_calls d i j t in perform ops d t
  | Union i j :: ops => let! (_, d, t) := union_calls d i j t in perform ops d t
  end.
(** The same without record. *)
Fixpoint perform_plain (ops : list op) (d : dset) : res dset :=
  match ops with
  | [] => Ret d
  | Add :: ops => perform_plain ops (ds_add d)
  | Find i :: ops => let! (_, d) := ds_find d i in perform_plain ops d
  | Common i j :: ops => let! (_, d) := common_set d i j in perform_plain ops d
  | Union i j :: ops => let! (_, d) := ds_union d i j in perform_plain ops d
  end.

(** How many elements are added. *)
Fixpoint added (ops : list op) : nat :=
  match ops with
  | [] => 0
  | Add :: ops => S (added ops)
  | _ :: ops => added ops
  end.

(** 1, 2, 4, 16, 65536, 2^65536, ... *)
Fixpoint tower (g : nat) : nat :=
  match g with
  | 0 => 1
  | S g => 2 ^ tower g
  end.
