(** Machine words: the numbers of type usize, the bytes of a pointer and the
    bytes a vector or an image may have. *)
From Verif Require Import Base.

Definition limit (ws : word) : N := match ws with W32 => 2 ^ 32 | W64 => 2 ^ 64 end.
Definition pointer_bytes (ws : word) : N := match ws with W32 => 4 | W64 => 8 end.
Definition memory_limit (ws : word) : N := match ws with W32 => 2 ^ 31 | W64 => 2 ^ 63 end.
(** A number of rows or columns for which everything fits. *)
Definition largest_side (ws : word) : N := match ws with W32 => 400 | W64 => 10000 end.
