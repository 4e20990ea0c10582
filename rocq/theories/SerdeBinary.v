(** Model of the derived [Serialize] and [Deserialize] of [MazeNode] and
    [MazeDirection] (/repo/src/puzzles/maze/mod.rs:28-49), for binary formats
    that do not describe themselves: a struct is the sequence of its fields, a
    variant is its number, a [Vec] is its length and its elements.  How the format
    writes a bool, a number of a variant and a length is left open.  As [Serde],
    written from knowledge of serde. *)
From Verif Require Import Base Maze.

(** The parts of a format, over bytes; [None] if the bytes cannot be read. *)
Record format := Format {
  put_bool : bool -> list N;
  get_bool : list N -> option (bool * list N);
  put_variant : N -> list N;
  get_variant : list N -> option (N * list N);
  put_len : N -> list N;
  get_len : list N -> option (N * list N)
}.

Inductive read_error := Unreadable | InvalidVariant (n : N).
Definition reader (A : Type) := list N -> result (A * list N) read_error.
Definition read {A} (get : list N -> option (A * list N)) : reader A :=
  fun bs => match get bs with None => Err Unreadable | Some x => Ok x end.
Definition and_then {A B} (f : reader A) (g : A -> reader B) : reader B :=
  fun bs => match f bs with Err e => Err e | Ok (x, bs) => g x bs end.

Section format.
Context (F : format).

(** [struct MazeNode { right, down }]: [serialize_field] in this order, and
    [visit_seq]. *)
Definition put_node (n : maze_node) : list N := put_bool F (m_right n) ++ put_bool F (m_down n).
Definition get_node : reader maze_node :=
  and_then (read (get_bool F)) (fun rt => and_then (read (get_bool F)) (fun dn => fun bs => Ok (MazeNode rt dn, bs))).

(** [enum MazeDirection { Right, Down, Left, Up }]: [serialize_unit_variant]
    with the position in the declaration, and [visit_u64] of the identifier. *)
Definition put_direction (d : direction) : list N :=
  put_variant F match d with Right => 0 | Down => 1 | Left => 2 | Up => 3 end%N.
Definition get_direction : reader direction :=
  and_then (read (get_variant F)) (fun n bs =>
    match n with
    | 0 => Ok (Right, bs) | 1 => Ok (Down, bs) | 2 => Ok (Left, bs) | 3 => Ok (Up, bs)
    | _ => Err (InvalidVariant n)
    end%N).

(** [Vec<T>] and the pair returned by [create_maze]. *)
Definition put_vec {A} (put : A -> list N) (l : list A) : list N := put_len F (N.of_nat (length l)) ++ concat (put <$> l).
Fixpoint get_elements {A} (get : reader A) (n : nat) : reader (list A) :=
  fun bs =>
    match n with
    | 0 => Ok ([], bs)
    | S n => and_then get (fun x => and_then (get_elements get n) (fun l => fun bs => Ok (x :: l, bs))) bs
    end.
Definition get_vec {A} (get : reader A) : reader (list A) :=
  and_then (read (get_len F)) (fun n => get_elements get (N.to_nat n)).
Definition put_maze (g : list maze_node * list direction) : list N :=
  put_vec put_node g.1 ++ put_vec put_direction g.2.
Definition get_maze : reader (list maze_node * list direction) :=
  and_then (get_vec get_node) (fun g => and_then (get_vec get_direction) (fun s => fun bs => Ok ((g, s), bs))).
End format.
