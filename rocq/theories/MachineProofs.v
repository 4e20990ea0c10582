(** Proofs for C64: the arithmetic of the model is that of the machine. *)
From Verif Require Import Base Image SpecMachine.
Local Open Scope Z_scope.

Lemma arith_machine m size x bits : 0 <= bits -> Z.of_N size = 2 ^ bits -> machine m bits (Z.of_N x) (arith m size x).
Proof.
  intros Hb Hs. unfold machine, arith. rewrite <-Hs. destruct (N.ltb_spec x size) as [H|H].
  - left. split; [lia|]. by rewrite N2Z.id.
  - right. destruct (profile_of m) eqn:Hm; [left|right]; (split; [lia|]); (split; [done|]); [done|].
    by rewrite <-N2Z.inj_mod, N2Z.id.
Qed.
Lemma sub_wrap x y size : (x < y)%N -> (y < size)%N -> 
  Z.to_N ((Z.of_N x - Z.of_N y) mod Z.of_N size) = (x + size - y)%N.
Proof.
  intros Hxy Hy. replace (Z.of_N x - Z.of_N y) with (Z.of_N (x + size - y) + (-1) * Z.of_N size) by lia.
  rewrite Z_mod_plus_full, Z.mod_small by lia. by rewrite N2Z.id.
Qed.

Lemma machine_arithmetic m x y : (x < 2 ^ 32)%N -> (y < 2 ^ 32)%N ->
  machine m 32 (Z.of_N x + Z.of_N y) (u32_add m x y) /\
  machine m 32 (Z.of_N x * Z.of_N y) (u32_mul m x y) /\
  machine m 32 (Z.of_N x - Z.of_N y) (u32_sub m x y) /\
  (y <> 0%N -> u32_div x y = Ret (Z.to_N (Z.of_N x / Z.of_N y)) /\
               u32_rem x y = Ret (Z.to_N (Z.of_N x mod Z.of_N y))) /\
  u32_div x 0 = Fault Panic /\ u32_rem x 0 = Fault Panic.
Proof.
  intros Hx Hy. assert (Z.of_N u32_size = 2 ^ 32) as HU by done. split_and!.
  - rewrite <-N2Z.inj_add. by apply arith_machine.
  - rewrite <-N2Z.inj_mul. by apply arith_machine.
  - unfold machine, u32_sub. rewrite <-HU. change (2 ^ 32)%N with u32_size in *.
    destruct (N.leb_spec y x) as [H|H].
    + left. split; [lia|]. f_equal. lia.
    + right. destruct (profile_of m) eqn:Hm; [left|right]; (split; [lia|]); (split; [done|]); [done|]. by rewrite sub_wrap.
  - intros H. unfold u32_div, u32_rem. destruct (N.eqb_spec y 0); [done|].
    rewrite <-N2Z.inj_div, <-N2Z.inj_mod, !N2Z.id. done.
  - done.
  - done.
Qed.

Lemma machine_index m x y : (Z.of_nat x < 2 ^ usize_bits m)%Z -> (Z.of_nat y < 2 ^ usize_bits m)%Z ->
  (exists r, n_add m x y = to_index r /\ machine m (usize_bits m) (Z.of_nat x + Z.of_nat y) r) /\
  (exists r, n_mul m x y = to_index r /\ machine m (usize_bits m) (Z.of_nat x * Z.of_nat y) r) /\
  (exists r, n_sub m x y = to_index r /\ machine m (usize_bits m) (Z.of_nat x - Z.of_nat y) r) /\
  (y <> 0%nat -> n_div x y = Ret (Z.to_nat (Z.of_nat x / Z.of_nat y)) /\
                 n_rem x y = Ret (Z.to_nat (Z.of_nat x mod Z.of_nat y))) /\
  n_div x 0 = Fault Panic /\ n_rem x 0 = Fault Panic.
Proof.
  intros Hx Hy. assert (Z.of_N (usize_size m) = 2 ^ usize_bits m) as HU by (by destruct m as [p []]).
  assert (0 <= usize_bits m) as Hb by (by destruct m as [p []]). rewrite <-HU in Hx, Hy. rewrite <-!nat_N_Z in *. split_and!.
  - exists (usize_add m (N.of_nat x) (N.of_nat y)). split; [done|]. rewrite <-N2Z.inj_add. by apply arith_machine.
  - exists (usize_mul m (N.of_nat x) (N.of_nat y)). split; [done|]. rewrite <-N2Z.inj_mul. by apply arith_machine.
  - unfold n_sub, machine. rewrite <-HU. 
    destruct (decide (y <= x)%nat) as [H|H].
    + exists (Ret (N.of_nat (x - y))). split; [cbn; by rewrite Nat2N.id|]. left. split; [lia|]. f_equal. lia.
    + destruct (profile_of m) eqn:Hm.
      * exists (Fault Panic). split; [done|]. right. left. split; [lia|done].
      * exists (Ret (N.of_nat x + usize_size m - N.of_nat y)%N). split; [done|]. right. right. split; [lia|]. split; [done|].
        by rewrite sub_wrap by lia.
  - intros H. unfold n_div, n_rem. rewrite !decide_False by done.
    rewrite !nat_N_Z, <-Nat2Z.inj_div, <-Nat2Z.inj_mod, !Nat2Z.id by done. done.
  - done.
  - done.
Qed.

Lemma machine_casts x : as_u32 x = Z.to_N (Z.of_N x mod 2 ^ 32) /\
  ((x < 2 ^ 32)%N -> - 2 ^ 31 <= as_i32 x < 2 ^ 31 /\ as_i32 x mod 2 ^ 32 = Z.of_N x).
Proof.
  split.
  - unfold as_u32. change (2 ^ 32) with (Z.of_N u32_size). by rewrite <-N2Z.inj_mod, N2Z.id.
  - intros Hx. unfold as_i32. change (2 ^ 32)%N with 4294967296%N in *. change (2 ^ 31)%N with 2147483648%N.
    change (2 ^ 31) with 2147483648. change (2 ^ 32) with 4294967296.
    destruct (N.ltb_spec x 2147483648) as [H|H]; (split; [lia|]).
    + apply Z.mod_small. lia.
    + replace (Z.of_N x - 4294967296) with (Z.of_N x + (-1) * 4294967296) by lia.
      rewrite Z_mod_plus_full. apply Z.mod_small. lia.
Qed.
