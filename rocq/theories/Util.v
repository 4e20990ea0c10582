(** Model of /repo/src/util.rs. *)
From Verif Require Import Base.

(** [Vec::swap_remove(idx)] as used in src/util.rs:13: returns the element at
    [idx] and replaces it by the last element of the vector.  [None] models the
    panic on an out-of-range index. *)
Definition swap_remove {A} (l : list A) (idx : nat) : option (A * list A) :=
  match l !! idx, last l with
  | Some x, Some y => Some (x, take (length l - 1) (<[idx := y]> l))
  | _, _ => None
  end.

(** src/util.rs:11-14 [choose_random].  [draw] is the raw random number
    obtained from [thread_rng()]; [(0..len).choose] turns it into an index
    below [len] (modelled as the remainder, so every index is reachable), or
    [None] if the range is empty. *)
Definition choose_random {A} (draw : nat) (l : list A) : option (A * list A) :=
  match l with
  | [] => None
  | _ => swap_remove l (draw mod length l)
  end.
