(** When a binary format can be relied on, and one that is used in practice. *)
From Verif Require Import Base Maze SerdeBinary.

(** What is written can be read, whatever follows; lengths have 64 bits and
    numbers of variants 32 bits. *)
Definition faithful (F : format) : Prop :=
  (forall b rest, get_bool F (put_bool F b ++ rest) = Some (b, rest)) /\
  (forall n rest, (n < 2 ^ 32)%N -> get_variant F (put_variant F n ++ rest) = Some (n, rest)) /\
  (forall n rest, (n < 2 ^ 64)%N -> get_len F (put_len F n ++ rest) = Some (n, rest)).
(** Nothing else is read. *)
Definition canonical (F : format) : Prop :=
  (forall bs b rest, get_bool F bs = Some (b, rest) -> bs = put_bool F b ++ rest) /\
  (forall bs n rest, get_variant F bs = Some (n, rest) -> bs = put_variant F n ++ rest) /\
  (forall bs n rest, get_len F bs = Some (n, rest) -> bs = put_len F n ++ rest).

(** Numbers of [k] bytes, the lowest one first, as in bincode 1: a bool is one
    byte, the number of a variant four, a length eight. *)
Fixpoint put_bytes (k : nat) (n : N) : list N :=
  match k with 0 => [] | S k => (n mod 256)%N :: put_bytes k (n / 256)%N end.
Fixpoint get_bytes (k : nat) (bs : list N) : option (N * list N) :=
  match k with
  | 0 => Some (0%N, bs)
  | S k =>
      match bs with
      | [] => None
      | b :: bs =>
          if (b <? 256)%N then
            match get_bytes k bs with None => None | Some (n, bs) => Some ((b + 256 * n)%N, bs) end
          else None
      end
  end.
Definition little_endian : format :=
  Format (fun b => [if b : bool then 1%N else 0%N])
    (fun bs => match bs with 0%N :: bs => Some (false, bs) | 1%N :: bs => Some (true, bs) | _ => None end)
    (put_bytes 4) (get_bytes 4) (put_bytes 8) (get_bytes 8).

(** The bytes of a maze in this format. *)
Definition wall_byte (b : bool) : N := if b then 1%N else 0%N.
Definition direction_number (d : direction) : N := match d with Right => 0 | Down => 1 | Left => 2 | Up => 3 end%N.
Definition maze_bytes (g : list maze_node) (s : list direction) : list N :=
  put_bytes 8 (N.of_nat (length g)) ++ flat_map (fun n => [wall_byte (m_right n); wall_byte (m_down n)]) g ++
  put_bytes 8 (N.of_nat (length s)) ++ flat_map (fun d => [direction_number d; 0%N; 0%N; 0%N]) s.
