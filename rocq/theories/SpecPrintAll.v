(** Nonogram images of all sizes. *)
From Verif Require Import Base Image SpecPrint.
Local Open Scope N_scope.

(** The sizes for which an image exists: all coordinates are below 2^32, and the
    bytes of the image fit in a vector. *)
Definition drawable (ws : word) (width height : N) (col : list (list N)) : Prop :=
  side width < 2 ^ 32 /\ side height < 2 ^ 32 /\ side width * side height * 3 < memory_limit ws /\
  forall rule y, rule ∈ col -> (y < length rule)%nat -> 30 * N.of_nat y + 10 < 2 ^ 32.

(** The number with 32 bits in two's complement that is equal to [n] modulo
    2^32. *)
Definition signed32 (n : N) : Z := ((Z.of_N n + 2 ^ 31) mod 2 ^ 32 - 2 ^ 31)%Z.

(** The texts of the clues: coordinates are signed numbers. *)
Definition col_texts32 (width : N) (col : list (list N)) : list (Z * Z * N * list N) :=
  mjoin (imap (fun x rule => imap (fun y v =>
    (signed32 (50 * N.of_nat x + margin width + 15), signed32 (30 * N.of_nat y + 10), 30, to_decimal v)) rule) col).
Definition row_texts32 (height : N) (row : list (list N)) : list (Z * Z * N * list N) :=
  imap (fun y rule =>
    (10%Z, signed32 (50 * N.of_nat y + margin height + 10), 30, spaced (to_decimal <$> rule))) row.
