(** Properties C01-C03. *)
From Verif Require Import Base Dlx Sudoku SpecSudoku.
From Verif Require SudokuParseProofs.

(** C01: accepted are exactly the strings of 81 ASCII digits. *)
Theorem C01_parse_accepts : forall s v,
  parse_sudoku s = Ok v <-> length s = 81 /\ Forall is_digit s /\ v = digit_value <$> s.
Proof. exact SudokuParseProofs.parse_accepts. Qed.
Print Assumptions C01_parse_accepts.

Example C01_example :
  parse_sudoku (replicate 80 48 ++ [57])%N = Ok (replicate 80 0 ++ [9])%N.
Proof. reflexivity. Qed.

(** C02: which error is reported. *)
Theorem C02_parse_errors : forall s e, parse_sudoku s = Err e <->
  (exists pre c post, s = pre ++ c :: post /\ Forall is_digit pre /\ ~ is_digit c /\ e = InvalidInteger c) \/
  (Forall is_digit s /\ length s <> 81 /\ e = InvalidSize (length s)).
Proof. exact SudokuParseProofs.parse_errors. Qed.
Print Assumptions C02_parse_errors.

Example C02_example_char : parse_sudoku [49; 120; 121]%N = Err (InvalidInteger 120).
Proof. reflexivity. Qed.
Example C02_example_size : parse_sudoku [49; 50; 51]%N = Err (InvalidSize 3).
Proof. reflexivity. Qed.

(** C03: round trips in both directions. *)
Theorem C03_roundtrip_grid : forall g, length g = 81 -> Forall (fun v => v <= 9)%N g ->
  parse_sudoku (digit_char <$> g) = Ok g.
Proof. exact SudokuParseProofs.roundtrip_print. Qed.
Print Assumptions C03_roundtrip_grid.

Theorem C03_roundtrip_text : forall s v, parse_sudoku s = Ok v -> digit_char <$> v = s.
Proof. exact SudokuParseProofs.roundtrip_parse. Qed.
Print Assumptions C03_roundtrip_text.

Example C03_example :
  length (replicate 78 5 ++ [0; 1; 9])%N = 81 /\ Forall (fun v => v <= 9)%N (replicate 78 5 ++ [0; 1; 9])%N.
Proof. split; [reflexivity|]. apply (bool_decide_unpack _). reflexivity. Qed.
