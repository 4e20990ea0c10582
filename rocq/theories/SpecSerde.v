(** Serialised forms of maze cells and directions. *)
From Coq Require Import String.
From stdpp Require Import strings.
From Verif Require Import Base Maze Serde.
Local Open Scope string_scope.

(** The values with a key. *)
Definition entries_of (k : string) (l : list (string * value)) : list value := (filter (fun p => p.1 = k) l).*2.
(** The values that stand for a cell: a map with one boolean for each wall, other
    keys and the order do not matter; or a list of the two. *)
Definition stands_for (v : value) (n : maze_node) : Prop :=
  v = VList [VBool (m_right n); VBool (m_down n)] \/
  exists l, v = VMap l /\ entries_of "right" l = [VBool (m_right n)] /\ entries_of "down" l = [VBool (m_down n)].

Definition direction_name (d : direction) : string :=
  match d with Up => "Up" | Left => "Left" | Down => "Down" | Right => "Right" end.

(** Maps that are read up to their end: no wall is repeated or is no boolean. *)
Definition readable (l : list (string * value)) : Prop :=
  forall k, k = "right" \/ k = "down" -> entries_of k l = [] \/ exists b, entries_of k l = [VBool b].
(** Why a map is no cell: the first entry that cannot be read, or a missing wall. *)
Inductive map_error : list (string * value) -> serde_error -> Prop :=
  | repeated pre k v post : readable pre -> k = "right" \/ k = "down" -> entries_of k pre <> [] ->
      map_error (pre ++ (k, v) :: post)%list (DuplicateField k)
  | no_boolean pre k v post : readable pre -> k = "right" \/ k = "down" -> entries_of k pre = [] ->
      (forall b, v <> VBool b) -> map_error (pre ++ (k, v) :: post)%list InvalidType
  | no_right l : readable l -> entries_of "right" l = [] -> map_error l (MissingField "right")
  | no_down l : readable l -> entries_of "right" l <> [] -> entries_of "down" l = [] -> map_error l (MissingField "down").
