(** Model of the derived [Debug] of the error types and of [MazeNode],
    [MazeDirection] and [Square], as written by [{:?}]: the name of a variant, its
    field in parentheses, fields of a struct in braces.  [char] and [str] are
    written between quotes with [char::escape_debug]; which characters that
    leaves as they are depends on tables of Unicode and is an argument here,
    [plain].  ([{:#?}], with line breaks, is not modelled; neither is the text of
    [MazeAlgorithm], which has one variant.) *)
From Verif Require Import Base Image Maze MazePrint Dlx Sudoku Nonogram.
From Verif Require Import ErrorText.
From Coq Require Import Ascii String.

(** [{:x}]. *)
Definition hex_digit (d : N) : N := (if d <? 10 then 48 + d else 87 + d)%N.
Fixpoint hex_digits (fuel : nat) (n : N) (acc : list N) : list N :=
  match fuel with
  | 0 => acc
  | S fuel =>
      let acc := hex_digit (n mod 16) :: acc in
      if (n <? 16)%N then acc else hex_digits fuel (n / 16) acc
  end.
Definition to_hex (n : N) : list N := hex_digits (S (N.to_nat (N.log2 n))) n [].

(** [char::escape_debug_ext]; [q] is the quote that is escaped. *)
Definition escape (plain : N -> bool) (q c : N) : list N :=
  if (c =? 0)%N then chars "\0"
  else if (c =? 9)%N then chars "\t"
  else if (c =? 13)%N then chars "\r"
  else if (c =? 10)%N then chars "\n"
  else if (c =? 92)%N then chars "\\"
  else if (c =? q)%N then chars "\" ++ [q]
  else if plain c then [c]
  else chars "\u{" ++ to_hex c ++ chars "}".
Definition quoted (plain : N -> bool) (q : N) (s : list N) : list N :=
  [q] ++ List.concat (escape plain q <$> s) ++ [q].
(** [<char as Debug>], [<str as Debug>] *)
Definition char_debug (plain : N -> bool) (c : N) : list N := quoted plain 39 [c].
Definition str_debug (plain : N -> bool) (s : list N) : list N := quoted plain 34 s.

(** maze/mod.rs:15-21. *)
Definition maze_error_debug (e : maze_error) : list N :=
  match e with
  | MazePrint.InvalidDimensions => chars "InvalidDimensions"
  | InvalidSolution => chars "InvalidSolution"
  end.
(** sudoku/mod.rs:38-46. *)
Definition sudoku_error_debug (plain : N -> bool) (e : sudoku_error) : list N :=
  match e with
  | InvalidInteger c => chars "InvalidInteger(" ++ char_debug plain c ++ chars ")"
  | InvalidSize n => chars "InvalidSize(" ++ to_decimal (N.of_nat n) ++ chars ")"
  | Sudoku.NoSolution => chars "NoSolution"
  end.
(** nonogram/mod.rs:20-32. *)
Definition nonogram_error_debug (plain : N -> bool) (e : nonogram_error) : list N :=
  match e with
  | EmptyPuzzle => chars "EmptyPuzzle"
  | InvalidRule s => chars "InvalidRule(" ++ str_debug plain s ++ chars ")"
  | InvalidRuleDimension => chars "InvalidRuleDimension"
  | Nonogram.NoSolution => chars "NoSolution"
  | Nonogram.InvalidDimensions => chars "InvalidDimensions"
  end.
(** dancing_links/mod.rs:8-16. *)
Definition dlx_error_debug (e : dlx_error) : list N :=
  match e with
  | IndexError => chars "IndexError"
  | InvalidRow => chars "InvalidRow"
  | DlxNoSolution => chars "NoSolution"
  end.
(** Any error of the crate. *)
Definition error_debug (plain : N -> bool) (e : maze_error + sudoku_error + nonogram_error + dlx_error) : list N :=
  match e with
  | inl (inl (inl e)) => maze_error_debug e
  | inl (inl (inr e)) => sudoku_error_debug plain e
  | inl (inr e) => nonogram_error_debug plain e
  | inr e => dlx_error_debug e
  end.

(** [<[T] as Debug>] *)
Fixpoint more_debug {A} (f : A -> list N) (l : list A) : list N :=
  match l with
  | [] => chars "]"
  | x :: l => chars ", " ++ f x ++ more_debug f l
  end.
Definition list_debug {A} (f : A -> list N) (l : list A) : list N :=
  match l with
  | [] => chars "[]"
  | x :: l => chars "[" ++ f x ++ more_debug f l
  end.
Definition bool_debug (b : bool) : list N := if b then chars "true" else chars "false".
(** maze/mod.rs:28-32. *)
Definition node_debug (n : maze_node) : list N :=
  chars "MazeNode { right: " ++ bool_debug (m_right n) ++ chars ", down: " ++ bool_debug (m_down n) ++ chars " }".
(** maze/mod.rs:43-49. *)
Definition direction_debug (d : direction) : list N :=
  match d with
  | Right => chars "Right" | Down => chars "Down" | Left => chars "Left" | Up => chars "Up"
  end.
(** nonogram/mod.rs:64-69. *)
Definition square_debug (s : square) : list N :=
  match s with
  | Blank => chars "Blank" | Filled => chars "Filled" | Blocked => chars "Blocked"
  end.
(** What [create_maze] returns (maze/mod.rs:58-62). *)
Definition maze_debug (m : list maze_node * list direction) : list N :=
  chars "(" ++ list_debug node_debug m.1 ++ chars ", " ++ list_debug direction_debug m.2 ++ chars ")".
