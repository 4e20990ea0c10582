(** Common vocabulary of the model: run-time faults, Rust's [Result], vectors
    and machine integers.  No code of /repo is modelled in this file. *)
From Coq Require Export NArith ZArith Lia.
From stdpp Require Export prelude.

(** Ways in which a Rust execution can end abnormally.
    [Panic]: out-of-range index, failed [expect], [unreachable!], arithmetic
    overflow with overflow checks enabled, division by zero.
    [UB]: undefined behaviour, i.e. reading, writing or freeing through a null
    or dangling raw pointer.
    [OutOfFuel]: artefact of the model, a loop was cut off. *)
Inductive fault := Panic | UB | OutOfFuel.

Inductive res (A : Type) : Type :=
| Ret (a : A)
| Fault (f : fault).
Arguments Ret {A} a.
Arguments Fault {A} f.

Definition bind {A B} (x : res A) (k : A -> res B) : res B :=
  match x with Ret a => k a | Fault f => Fault f end.

Notation "'let!' x ':=' e 'in' k" := (bind e (fun x => k))
  (at level 200, x pattern, e at level 100, k at level 200, right associativity).
Notation "'do!' e 'in' k" := (bind e (fun _ => k))
  (at level 200, e at level 100, k at level 200, right associativity).

(** Rust's [Result<A, E>]. *)
Inductive result (A E : Type) : Type :=
| Ok (a : A)
| Err (e : E).
Arguments Ok {A E} a.
Arguments Err {A E} e.

(** [Option::expect]. *)
Definition expect {A} (o : option A) : res A :=
  match o with Some a => Ret a | None => Fault Panic end.

(** [v[i]] and [v[i] = x] on a [Vec] or slice. *)
Definition vec_get {A} (l : list A) (i : nat) : res A := expect (l !! i).
Definition vec_set {A} (l : list A) (i : nat) (x : A) : res (list A) :=
  if decide (i < length l) then Ret (<[i := x]> l) else Fault Panic.

(** Build profile: with overflow checks ([Debug]) an overflowing operation
    panics, without ([Release]) it wraps. *)
Inductive profile := Debug | Release.
(** Size of [usize] on the machine. *)
Inductive word := W32 | W64.
(** How the program was built. *)
Record mode := Mode { profile_of : profile; word_of : word }.
Coercion word_of : mode >-> word.

Definition u32_size : N := (2 ^ 32)%N.
Definition usize_size (ws : word) : N :=
  match ws with W32 => (2 ^ 32)%N | W64 => (2 ^ 64)%N end.
Definition word_bytes (ws : word) : N :=
  match ws with W32 => 4%N | W64 => 8%N end.
(** isize::MAX. *)
Definition isize_max (ws : word) : N :=
  match ws with W32 => (2 ^ 31 - 1)%N | W64 => (2 ^ 63 - 1)%N end.

(** Result [x] of an exact computation, reduced to an unsigned integer type
    with [size] values. *)
Definition arith (m : mode) (size x : N) : res N :=
  if (x <? size)%N then Ret x
  else match profile_of m with Debug => Fault Panic | Release => Ret (x mod size)%N end.

Definition u32_add (m : mode) (x y : N) : res N := arith m u32_size (x + y).
Definition u32_mul (m : mode) (x y : N) : res N := arith m u32_size (x * y).
Definition u32_sub (m : mode) (x y : N) : res N :=
  if (y <=? x)%N then Ret (x - y)%N
  else match profile_of m with Debug => Fault Panic | Release => Ret (x + u32_size - y)%N end.
Definition usize_add (m : mode) (x y : N) : res N := arith m (usize_size m) (x + y).
Definition usize_mul (m : mode) (x y : N) : res N := arith m (usize_size m) (x * y).

(** usize arithmetic on the [nat]s used for lengths and indices. *)
Definition n_add (m : mode) (x y : nat) : res nat :=
  let! z := usize_add m (N.of_nat x) (N.of_nat y) in Ret (N.to_nat z).
Definition n_mul (m : mode) (x y : nat) : res nat :=
  let! z := usize_mul m (N.of_nat x) (N.of_nat y) in Ret (N.to_nat z).
Definition n_sub (m : mode) (x y : nat) : res nat :=
  if decide (y <= x) then Ret (x - y)
  else match profile_of m with
       | Debug => Fault Panic
       | Release => Ret (N.to_nat (N.of_nat x + usize_size m - N.of_nat y))
       end.
Definition n_div (x y : nat) : res nat :=
  if decide (y = 0) then Fault Panic else Ret (x `div` y).
Definition n_rem (x y : nat) : res nat :=
  if decide (y = 0) then Fault Panic else Ret (x `mod` y).

(** [x as u32]. *)
Definition as_u32 (x : N) : N := (x mod u32_size)%N.

(** u32 division and remainder. *)
Definition u32_div (x y : N) : res N :=
  if (y =? 0)%N then Fault Panic else Ret (x / y)%N.
Definition u32_rem (x y : N) : res N :=
  if (y =? 0)%N then Fault Panic else Ret (x mod y)%N.

(** The range [a..b]. *)
Definition range (a b : N) : list N :=
  (fun k => (a + N.of_nat k)%N) <$> seq 0 (N.to_nat (b - a)).

(** [iter().enumerate()]. *)
Definition enumerate {A} (l : list A) : list (nat * A) := imap pair l.

(** [for x in l { s = body(x, s)? }] with faults. *)
Fixpoint foldM {A S} (f : A -> S -> res S) (l : list A) (s : S) : res S :=
  match l with
  | [] => Ret s
  | x :: l' => let! s' := f x s in foldM f l' s'
  end.
