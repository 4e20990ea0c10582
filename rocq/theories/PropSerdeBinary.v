(** Property C113. *)
From Verif Require Import Base Maze SerdeBinary SpecSerdeBinary.
From Verif Require SerdeBinaryProofs.

(** In every format that reads back its numbers a maze is read back unchanged,
    whatever follows it. *)
Theorem C113_round : forall (F : format) (g : list maze_node) (s : list direction) (rest : list N), faithful F ->
  (N.of_nat (length g) < 2 ^ 64)%N -> (N.of_nat (length s) < 2 ^ 64)%N ->
  get_maze F (put_maze F (g, s) ++ rest) = Ok ((g, s), rest).
Proof. intros F g s rest HF. exact (SerdeBinaryProofs.maze_round F HF g s rest). Qed.
Print Assumptions C113_round.

(** So different mazes are written differently, and none is the beginning of
    another. *)
Theorem C113_prefix : forall (F : format) g s rest g' s' rest', faithful F ->
  (N.of_nat (length g) < 2 ^ 64)%N -> (N.of_nat (length s) < 2 ^ 64)%N ->
  (N.of_nat (length g') < 2 ^ 64)%N -> (N.of_nat (length s') < 2 ^ 64)%N ->
  put_maze F (g, s) ++ rest = put_maze F (g', s') ++ rest' -> g = g' /\ s = s' /\ rest = rest'.
Proof. intros F g s rest g' s' rest' HF. exact (SerdeBinaryProofs.maze_prefix F HF g s rest g' s' rest'). Qed.
Print Assumptions C113_prefix.

(** If the format has one way to write a number, nothing but what is written for
    a maze is accepted. *)
Theorem C113_only : forall (F : format) bs (g : list maze_node) (s : list direction) rest, canonical F ->
  get_maze F bs = Ok ((g, s), rest) -> bs = put_maze F (g, s) ++ rest.
Proof. intros F bs g s rest HF. exact (SerdeBinaryProofs.maze_only F HF bs g s rest). Qed.
Print Assumptions C113_only.

(** There are four directions. *)
Theorem C113_variants : forall (F : format) bs n, get_direction F bs = Err (InvalidVariant n) <->
  (4 <= n)%N /\ exists rest, get_variant F bs = Some (n, rest).
Proof. exact SerdeBinaryProofs.variant_error. Qed.
Print Assumptions C113_variants.

(** The bytes of bincode 1, which is such a format. *)
Theorem C113_bytes : forall g s, put_maze little_endian (g, s) = maze_bytes g s /\
  length (put_maze little_endian (g, s)) = 16 + 2 * length g + 4 * length s.
Proof. intros g s. exact (conj (SerdeBinaryProofs.maze_written g s) (SerdeBinaryProofs.maze_size g s)). Qed.
Print Assumptions C113_bytes.
Theorem C113_format : faithful little_endian /\ canonical little_endian.
Proof. exact (conj SerdeBinaryProofs.little_endian_faithful SerdeBinaryProofs.little_endian_canonical). Qed.
Print Assumptions C113_format.

Example C113_example :
  put_maze little_endian ([MazeNode false true; MazeNode true true], [Up; Right]) =
    [2; 0; 0; 0; 0; 0; 0; 0; 0; 1; 1; 1; 2; 0; 0; 0; 0; 0; 0; 0; 3; 0; 0; 0; 0; 0; 0; 0]%N /\
  get_maze little_endian [1; 0; 0; 0; 0; 0; 0; 0; 1; 0; 1; 0; 0; 0; 0; 0; 0; 0; 2; 0; 0; 0; 7]%N =
    Ok (([MazeNode true false], [Left]), [7%N]) /\
  get_maze little_endian [1; 0; 0; 0; 0; 0; 0; 0; 1; 0; 1; 0; 0; 0; 0; 0; 0; 0; 4; 0; 0; 0]%N = Err (InvalidVariant 4) /\
  get_maze little_endian [1; 0; 0; 0; 0; 0; 0; 0; 1; 2; 0; 0; 0; 0; 0; 0; 0; 0]%N = Err Unreadable /\
  get_maze little_endian [2; 0; 0; 0; 0; 0; 0; 0; 1; 0]%N = Err Unreadable.
Proof. repeat (split; [vm_compute; reflexivity|]). vm_compute. reflexivity. Qed.
