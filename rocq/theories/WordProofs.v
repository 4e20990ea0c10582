(** Facts about machine words. *)
From Verif Require Import Base SpecWord.

Lemma bytes_max ws x : (x < memory_limit ws)%N <-> (x <= isize_max ws)%N.
Proof. destruct ws; unfold isize_max, memory_limit; lia. Qed.
Lemma word_bytes_pointer ws : word_bytes ws = pointer_bytes ws.
Proof. by destruct ws. Qed.
Lemma usize_limit ws : usize_size ws = limit ws.
Proof. by destruct ws. Qed.
Lemma isize_usize ws : (2 * isize_max ws + 2 = usize_size ws)%N.
Proof. by destruct ws. Qed.
Lemma isize_least ws : (2147483647 <= isize_max ws)%N.
Proof. by destruct ws. Qed.
Lemma usize_least ws : (4294967296 <= usize_size ws)%N.
Proof. by destruct ws. Qed.
Lemma usize_pos ws : (0 < usize_size ws)%N.
Proof. by destruct ws. Qed.
Lemma usize_mul_ok (m : mode) x y : (x * y < usize_size m)%N -> usize_mul m x y = Ret (x * y)%N.
Proof. intros H. unfold usize_mul, arith. by destruct (N.ltb_spec (x * y) (usize_size m)); [|lia]. Qed.
Lemma usize_mul_panic ws x y : (usize_size ws <= x * y)%N -> usize_mul (Mode Debug ws) x y = Fault Panic.
Proof. intros H. unfold usize_mul, arith. cbn [word_of]. by destruct (N.ltb_spec (x * y) (usize_size ws)); [lia|]. Qed.

Lemma largest_fits ws :
  (largest_side ws <= 10000 /\ 60 * largest_side ws * (60 * largest_side ws) * 3 < memory_limit ws /\ 1000000000 < memory_limit ws /\
   3 * pointer_bytes ws * (largest_side ws * largest_side ws) < memory_limit ws /\ limit ws = 2 * memory_limit ws /\ usize_size ws = 2 * memory_limit ws)%N.
Proof. by destruct ws. Qed.

(** Both word sizes, everywhere. *)
Ltac words ws :=
  repeat match goal with
  | H : context [isize_max ws] |- _ => revert H
  | H : context [usize_size ws] |- _ => revert H
  | H : context [word_bytes ws] |- _ => revert H
  | H : context [limit ws] |- _ => revert H
  | H : context [memory_limit ws] |- _ => revert H
  | H : context [pointer_bytes ws] |- _ => revert H
  end;
  destruct ws; unfold isize_max, usize_size, word_bytes, limit, memory_limit, pointer_bytes; intros.
