(** Property C105. *)
From Coq Require Import String.
From stdpp Require Import strings.
From Verif Require Import Base Maze Serde SpecSerde.
From Verif Require SerdeProofs.
Local Open Scope string_scope.
Local Open Scope list_scope.

(** What a client has written is read back unchanged. *)
Theorem C105_round : forall (g : list maze_node) (s : list direction),
  de_maze (ser_maze (g, s)) = Ok (g, s).
Proof. exact SerdeProofs.maze_round. Qed.
Print Assumptions C105_round.

(** The values accepted as a cell. *)
Theorem C105_node : forall (v : value) (n : maze_node), de_node v = Ok n <-> stands_for v n.
Proof. exact SerdeProofs.node_iff. Qed.
Print Assumptions C105_node.

(** The errors for maps: the first entry that cannot be read, or a missing wall. *)
Theorem C105_errors : forall (l : list (string * value)) (e : serde_error), de_node (VMap l) = Err e <-> map_error l e.
Proof. exact SerdeProofs.error_iff. Qed.
Print Assumptions C105_errors.

(** The values accepted as a direction. *)
Theorem C105_direction : forall (v : value) (d : direction),
  de_direction v = Ok d <-> v = VText (direction_name d) \/ v = VMap [(direction_name d, VNull)].
Proof. exact SerdeProofs.direction_iff. Qed.
Print Assumptions C105_direction.

(** The values accepted as a maze with its solution. *)
Theorem C105_maze : forall (v : value) (g : list maze_node) (s : list direction),
  de_maze v = Ok (g, s) <-> exists cells steps, v = VList [VList cells; VList steps] /\
    Forall2 stands_for cells g /\
    Forall2 (fun v d => v = VText (direction_name d) \/ v = VMap [(direction_name d, VNull)]) steps s.
Proof. exact SerdeProofs.maze_iff. Qed.
Print Assumptions C105_maze.

(** What is written: the names of the fields and of the variants. *)
Theorem C105_written : forall (n : maze_node) (d : direction),
  ser_node n = VMap [("right", VBool (m_right n)); ("down", VBool (m_down n))] /\
  ser_direction d = VText (direction_name d).
Proof. exact SerdeProofs.written. Qed.
Print Assumptions C105_written.

(** The walls in the other order, with an unknown key in between. *)
Example C105_example_order :
  de_node (VMap [("down", VBool false); ("left", VNumber 3); ("right", VBool true)]) = Ok (MazeNode true false).
Proof. done. Qed.
(** A repeated wall, a missing wall, a third element. *)
Example C105_example_rejected :
  de_node (VMap [("right", VBool true); ("down", VBool true); ("right", VBool true)]) = Err (DuplicateField "right") /\
  de_node (VMap [("right", VBool true)]) = Err (MissingField "down") /\
  de_node (VList [VBool true; VBool true; VBool true]) = Err InvalidLength /\
  de_direction (VText "up") = Err UnknownVariant.
Proof. done. Qed.
(** A maze of two cells with its solution. *)
Example C105_example_maze :
  de_maze (VList [VList [VList [VBool false; VBool true]; ser_node (MazeNode true true)];
    VList [VText "Right"; VMap [("Down", VNull)]]]) =
  Ok ([MazeNode false true; MazeNode true true], [Right; Down]).
Proof. done. Qed.
(** The first of two mistakes is reported. *)
Example C105_example_first :
  de_node (VMap [("down", VBool true); ("down", VNull); ("right", VNull)]) = Err (DuplicateField "down") /\
  map_error [("down", VBool true); ("down", VNull); ("right", VNull)] (DuplicateField "down").
Proof.
  split; [done|]. apply (repeated [("down", VBool true)]); [|by right|done].
  intros k [-> | ->]; [by left|right; by exists true].
Qed.
