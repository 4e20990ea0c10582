(** Fixed-size integers, independent of the model. *)
From Verif Require Import Base.
Local Open Scope Z_scope.

(** The outcome [r] of an operation on unsigned integers of [bits] bits whose
    exact result is [z]. *)
Definition machine (m : mode) (bits : Z) (z : Z) (r : res N) : Prop :=
  (0 <= z < 2 ^ bits /\ r = Ret (Z.to_N z)) \/
  (~ 0 <= z < 2 ^ bits /\ profile_of m = Debug /\ r = Fault Panic) \/
  (~ 0 <= z < 2 ^ bits /\ profile_of m = Release /\ r = Ret (Z.to_N (z mod 2 ^ bits))).

(** Bits of usize. *)
Definition usize_bits (m : mode) : Z := match word_of m with W32 => 32 | W64 => 64 end.

(** The same for the [nat]s that stand for indices. *)
Definition to_index (r : res N) : res nat := let! x := r in Ret (N.to_nat x).
