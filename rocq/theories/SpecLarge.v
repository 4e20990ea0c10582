(** Images of grids with more than 2^32 cells, whose cells are numbered modulo
    2^32. *)
From Verif Require Import Base Image Maze SpecPrint.
Local Open Scope N_scope.

(** Cell number [i] is drawn in column [cx], row [cy]. *)
Definition drawn_at (width : N) (i : nat) (cx cy : N) : Prop :=
  cx < width /\ N.of_nat i mod 2 ^ 32 = cy * width + cx.

Definition wall_pixel_wrapped (width : N) (grid : list maze_node) (x y : N) : Prop :=
  x = 0 \/ (y = 0 /\ 10 <= x) \/
  exists i cx cy nd, grid !! i = Some nd /\ drawn_at width i cx cy /\
    ((m_right nd = true /\ x = 10 * (cx + 1) /\ 10 * cy <= y <= 10 * cy + 10) \/
     (m_down nd = true /\ y = 10 * (cy + 1) /\ 10 * cx <= x <= 10 * cx + 10)).

Definition filled_pixel_wrapped (width height : N) (grid : list bool) (x y : N) : Prop :=
  exists i c r, grid !! i = Some true /\ drawn_at width i c r /\ cell_interior width height c r x y.
