(** Property C117: the texts of derived [Debug]. *)
From Verif Require Import Base Maze MazePrint Dlx Sudoku Nonogram ErrorText SpecDebugText DebugText.
From Verif Require DebugTextProofs.
From Coq Require Import String.

(** C117: whatever [Debug] takes for printable, two errors have the same debug text
    iff they are the same, or variants of the same name without fields. *)
Theorem C117_errors : forall plain e e', error_debug plain e = error_debug plain e' <-> same_variant e e'.
Proof. exact DebugTextProofs.error_debug_inj. Qed.
Print Assumptions C117_errors.

(** So within each type the text determines the value. *)
Theorem C117_types : forall plain,
  (forall e e', maze_error_debug e = maze_error_debug e' -> e = e') /\
  (forall e e', sudoku_error_debug plain e = sudoku_error_debug plain e' -> e = e') /\
  (forall e e', nonogram_error_debug plain e = nonogram_error_debug plain e' -> e = e') /\
  (forall e e', dlx_error_debug e = dlx_error_debug e' -> e = e') /\
  (forall s s', square_debug s = square_debug s' -> s = s').
Proof. exact DebugTextProofs.types_inj. Qed.
Print Assumptions C117_types.

(** Every character of it is printable, whatever text was parsed. *)
Theorem C117_printable : forall plain e, Forall (fun c => printable_ascii c \/ plain c = true) (error_debug plain e).
Proof. exact DebugTextProofs.error_debug_ok. Qed.
Print Assumptions C117_printable.

(** The text of a maze and its solution determines both. *)
Theorem C117_maze : forall m m', maze_debug m = maze_debug m' -> m = m'.
Proof. exact DebugTextProofs.maze_debug_inj. Qed.
Print Assumptions C117_maze.

(** With letters and digits taken for printable, line breaks are escaped; the
    texts of C68 contain them as they are. *)
Definition ascii_plain (c : N) : bool := ((32 <=? c) && (c <=? 126))%N.
Example C117_example :
  error_debug ascii_plain (inl (inl (inl MazePrint.InvalidDimensions))) = chars "InvalidDimensions" /\
  error_debug ascii_plain (inl (inl (inr (InvalidInteger 120%N)))) = chars "InvalidInteger('x')" /\
  error_debug ascii_plain (inl (inl (inr (InvalidInteger 39%N)))) = chars "InvalidInteger('\'')" /\
  error_debug ascii_plain (inl (inl (inr (InvalidInteger 0%N)))) = chars "InvalidInteger('\0')" /\
  error_debug ascii_plain (inl (inl (inr (InvalidInteger 173%N)))) = chars "InvalidInteger('\u{ad}')" /\
  error_debug ascii_plain (inl (inl (inr (InvalidSize 80)))) = chars "InvalidSize(80)" /\
  error_debug ascii_plain (inl (inr (InvalidRule [49; 10; 92; 39]%N))) = chars "InvalidRule(""1\n\\'"")" /\
  error_text (inl (inr (InvalidRule [49; 10]%N))) = chars "invalid rule `1" ++ [10%N] ++ chars "`" /\
  error_debug ascii_plain (inr InvalidRow) = chars "InvalidRow" /\
  maze_debug ([MazeNode true false; MazeNode false true], [Down; Right]) =
    chars "([MazeNode { right: true, down: false }, MazeNode { right: false, down: true }], [Down, Right])" /\
  maze_debug ([], []) = chars "([], [])".
Proof. repeat (split; [vm_compute; reflexivity|]). vm_compute. reflexivity. Qed.
(** Neither side of C117_errors is always the same. *)
Example C117_same : same_variant (inl (inl (inr Sudoku.NoSolution))) (inr DlxNoSolution) /\
  ~ same_variant (inl (inl (inr Sudoku.NoSolution))) (inr InvalidRow) /\
  ~ same_variant (inl (inr (InvalidRule []))) (inl (inr (InvalidRule [34%N]))).
Proof.
  split; [right; left; split; unfold no_solution; tauto|]. split; intros [E|[[_ [E|[E|E]]]|[[E|E] _]]]; done.
Qed.
