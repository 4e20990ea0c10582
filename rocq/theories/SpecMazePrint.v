(** What a printed maze should look like. *)
From Verif Require Import Base Image Maze.
From Verif Require Export SpecWord.

(** The pixel ([x], [y]) is black: left border, top border except the entrance
    (columns 1 to 9), or a present wall of the cell in column [cx], row [cy]. *)
Definition wall_pixel (width : N) (grid : list maze_node) (x y : N) : Prop :=
  x = 0%N \/ (y = 0 /\ 10 <= x)%N \/
  exists cx cy nd, (cx < width)%N /\ grid !! N.to_nat (cy * width + cx) = Some nd /\
    ((m_right nd = true /\ x = 10 * (cx + 1) /\ 10 * cy <= y <= 10 * cy + 10)%N \/
     (m_down nd = true /\ y = 10 * (cy + 1) /\ 10 * cx <= x <= 10 * cx + 10)%N).

(** The image of a maze of this size can be addressed by u32 and stored. *)
Definition printable (ws : word) (width height : N) : Prop :=
  (10 * width + 1 < 2 ^ 32 /\ 10 * height + 1 < 2 ^ 32 /\
   (10 * width + 1) * (10 * height + 1) * 3 < memory_limit ws)%N.

(** * Drawing a solution *)

(** Moving from the cell in column [x], row [y]. *)
Definition move (d : direction) (x y : N) : N * N :=
  match d with
  | Right => (x + 1, y)%N
  | Down => (x, y + 1)%N
  | Left => (x - 1, y)%N
  | Up => (x, y - 1)%N
  end.
Fixpoint destination (ds : list direction) (x y : N) : N * N :=
  match ds with
  | [] => (x, y)
  | d :: ds => let '(x, y) := move d x y in destination ds x y
  end.

(** The pixels of the line from the centre of a cell to that of the next. *)
Definition segment (d : direction) (x y a b : N) : Prop :=
  match d with
  | Right => (b = 10 * y + 5 /\ 10 * x + 5 <= a <= 10 * x + 15)%N
  | Down => (a = 10 * x + 5 /\ 10 * y + 5 <= b <= 10 * y + 15)%N
  | Left => (b = 10 * y + 5 /\ 10 * x <= a + 5 /\ a <= 10 * x + 5)%N
  | Up => (a = 10 * x + 5 /\ 10 * y <= b + 5 /\ b <= 10 * y + 5)%N
  end.
Fixpoint on_path (ds : list direction) (x y a b : N) : Prop :=
  match ds with
  | [] => False
  | d :: ds => segment d x y a b \/ let '(x', y') := move d x y in on_path ds x' y' a b
  end.
(** The entrance line, the path, and the exit line below the last cell. *)
Definition red_pixel (ds : list direction) (a b : N) : Prop :=
  (a = 5 /\ b <= 5)%N \/ on_path ds 0 0 a b \/
  (a = 10 * (destination ds 0 0).1 + 5 /\
   10 * (destination ds 0 0).2 + 6 <= b <= 10 * (destination ds 0 0).2 + 10)%N.

(** The centre of the cell lies in an image of size [w] x [h]. *)
Definition centre_inside (w h x y : N) : Prop := (10 * x + 6 <= w /\ 10 * y + 6 <= h)%N.

(** The path never leaves the image. *)
Fixpoint stays_inside (w h : N) (ds : list direction) (x y : N) : Prop :=
  match ds with
  | [] => True
  | d :: ds =>
      match d with Left => (1 <= x)%N | Up => (1 <= y)%N | _ => True end /\
      let '(x, y) := move d x y in centre_inside w h x y /\ stays_inside w h ds x y
  end.

(** What the code checks instead: a step left or up must not enter the first
    column or row. *)
Fixpoint steps_allowed (w h : N) (ds : list direction) (x y : N) : Prop :=
  match ds with
  | [] => True
  | d :: ds =>
      match d with Left => (2 <= x)%N | Up => (2 <= y)%N | _ => True end /\
      let '(x, y) := move d x y in centre_inside w h x y /\ steps_allowed w h ds x y
  end.
