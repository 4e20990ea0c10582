(** Model of the derived [Serialize] and [Deserialize] of [MazeNode] and
    [MazeDirection] (/repo/src/puzzles/maze/mod.rs:28-49), for formats that
    describe themselves and have text keys, such as JSON.  The code is generated
    by serde_derive 1.0; this is what it does with the values that such a format
    hands over, written from knowledge of serde since its source was not at hand.
    The text of error messages is left out. *)
From Coq Require Import String.
From Verif Require Import Base Maze.
Local Open Scope string_scope.

Inductive value :=
  | VNull | VBool (b : bool) | VNumber (z : Z) | VText (s : string)
  | VList (l : list value) | VMap (l : list (string * value)).

Inductive serde_error :=
  | InvalidType | InvalidLength | MissingField (s : string) | DuplicateField (s : string) | UnknownVariant.

(** [bool]. *)
Definition de_bool (v : value) : result bool serde_error :=
  match v with VBool b => Ok b | _ => Err InvalidType end.

(** [struct MazeNode]: serialised as a map. *)
Definition ser_node (n : maze_node) : value :=
  VMap [("right", VBool (m_right n)); ("down", VBool (m_down n))].
(** [visit_map]: unknown keys are skipped, a key may not be repeated. *)
Fixpoint de_fields (l : list (string * value)) (rt dn : option bool)
    : result (option bool * option bool) serde_error :=
  match l with
  | [] => Ok (rt, dn)
  | (k, v) :: l =>
      if String.eqb k "right" then
        match rt with
        | Some _ => Err (DuplicateField "right")
        | None => match de_bool v with Ok b => de_fields l (Some b) dn | Err e => Err e end
        end
      else if String.eqb k "down" then
        match dn with
        | Some _ => Err (DuplicateField "down")
        | None => match de_bool v with Ok b => de_fields l rt (Some b) | Err e => Err e end
        end
      else de_fields l rt dn
  end.
(** [visit_map] and [visit_seq]. *)
Definition de_node (v : value) : result maze_node serde_error :=
  match v with
  | VMap l =>
      match de_fields l None None with
      | Err e => Err e
      | Ok (None, _) => Err (MissingField "right")
      | Ok (_, None) => Err (MissingField "down")
      | Ok (Some rt, Some dn) => Ok (MazeNode rt dn)
      end
  | VList [] => Err InvalidLength
  | VList (a :: l) =>
      match de_bool a with
      | Err e => Err e
      | Ok rt =>
          match l with
          | [] => Err InvalidLength
          | b :: l =>
              match de_bool b with
              | Err e => Err e
              | Ok dn => match l with [] => Ok (MazeNode rt dn) | _ => Err InvalidLength end
              end
          end
      end
  | _ => Err InvalidType
  end.

(** [enum MazeDirection]: the name of the variant. *)
Definition ser_direction (d : direction) : value :=
  VText match d with Right => "Right" | Down => "Down" | Left => "Left" | Up => "Up" end.
Definition de_variant (s : string) : result direction serde_error :=
  if String.eqb s "Right" then Ok Right
  else if String.eqb s "Down" then Ok Down
  else if String.eqb s "Left" then Ok Left
  else if String.eqb s "Up" then Ok Up
  else Err UnknownVariant.
(** A map with the variant as its only key is accepted too; a variant without
    fields has the content null. *)
Definition de_direction (v : value) : result direction serde_error :=
  match v with
  | VText s => de_variant s
  | VMap [(k, c)] =>
      match de_variant k with
      | Err e => Err e
      | Ok d => match c with VNull => Ok d | _ => Err InvalidType end
      end
  | VMap _ => Err InvalidLength
  | _ => Err InvalidType
  end.

(** [Vec<T>] and pairs, as returned by [create_maze]. *)
Definition ser_list {A} (f : A -> value) (l : list A) : value := VList (f <$> l).
Fixpoint de_elements {A} (f : value -> result A serde_error) (l : list value) : result (list A) serde_error :=
  match l with
  | [] => Ok []
  | v :: l =>
      match f v with
      | Err e => Err e
      | Ok x => match de_elements f l with Err e => Err e | Ok xs => Ok (x :: xs) end
      end
  end.
Definition de_list {A} (f : value -> result A serde_error) (v : value) : result (list A) serde_error :=
  match v with VList l => de_elements f l | _ => Err InvalidType end.
Definition ser_maze (g : list maze_node * list direction) : value :=
  VList [ser_list ser_node g.1; ser_list ser_direction g.2].
Definition de_maze (v : value) : result (list maze_node * list direction) serde_error :=
  match v with
  | VList (a :: l) =>
      match de_list de_node a with
      | Err e => Err e
      | Ok g =>
          match l with
          | [] => Err InvalidLength
          | b :: l =>
              match de_list de_direction b with
              | Err e => Err e
              | Ok s => match l with [] => Ok (g, s) | _ => Err InvalidLength end
              end
          end
      end
  | VList [] => Err InvalidLength
  | _ => Err InvalidType
  end.
