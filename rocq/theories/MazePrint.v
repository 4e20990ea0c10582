(** Model of [print_maze] and [print_maze_solution] in
    /repo/src/puzzles/maze/mod.rs. *)
From Verif Require Import Base Image Maze.

(** maze/mod.rs:15-21. *)
Inductive maze_error := InvalidDimensions | InvalidSolution.

(** maze/mod.rs:154-158: the right wall of the cell in column [x], row [y]. *)
Definition draw_right (m : mode) (x y : N) (im : image) : res image :=
  foldM (fun k im =>
    let! x1 := u32_add m x 1 in
    let! px := u32_mul m x1 10 in
    let! y10 := u32_mul m y 10 in
    let! py := u32_add m y10 k in
    put_pixel im px py BLACK_PIXEL) (range 0 11) im.

(** maze/mod.rs:160-164: the bottom wall. *)
Definition draw_down (m : mode) (x y : N) (im : image) : res image :=
  foldM (fun k im =>
    let! x10 := u32_mul m x 10 in
    let! px := u32_add m x10 k in
    let! y1 := u32_add m y 1 in
    let! py := u32_mul m y1 10 in
    put_pixel im px py BLACK_PIXEL) (range 0 11) im.

(** maze/mod.rs:134-168 [print_maze]. *)
Definition print_maze (m : mode) (width height : N) (grid : list maze_node)
    : res (result image maze_error) :=
  let! n := usize_mul m width height in
  if negb (n =? N.of_nat (length grid))%N then Ret (Err InvalidDimensions)
  else
    let! w10 := u32_mul m width 10 in
    let! iw := u32_add m w10 1 in
    let! h10 := u32_mul m height 10 in
    let! ih := u32_add m h10 1 in
    let! im := from_pixel m iw ih WHITE_PIXEL in
    let! im := foldM (fun row im => put_pixel im 0 row BLACK_PIXEL) (range 0 (i_height im)) im in
    let! im := foldM (fun col im => put_pixel im col 0 BLACK_PIXEL) (range 10 (i_width im)) im in
    let! im := foldM (fun '(i, node) im =>
        let idx := as_u32 (N.of_nat i) in
        let! x := u32_rem idx width in
        let! y := u32_div idx width in
        let! im := if m_right node then draw_right m x y im else Ret im in
        if m_down node then draw_down m x y im else Ret im) (enumerate grid) im in
    Ret (Ok im).

(** maze/mod.rs:185-232, one direction: [None] is [return Err(InvalidSolution)]. *)
Definition draw_step (m : mode) (step : direction) (x y : N) (im : image)
    : res (option (N * N * image)) :=
  let! x10 := u32_mul m x 10 in
  match step with
  | Right =>
      let! bx := u32_add m x10 16 in
      if (i_width im <? bx)%N then Ret None else
      let! y10 := u32_mul m y 10 in
      let! b_y := u32_add m y10 6 in
      if (i_height im <? b_y)%N then Ret None else
      let! im := foldM (fun k im =>
        let! p := u32_add m x10 k in
        let! px := u32_add m p 5 in
        let! py := u32_add m y10 5 in
        put_pixel im px py RED_PIXEL) (range 0 11) im in
      let! x := u32_add m x 1 in
      Ret (Some (x, y, im))
  | Down =>
      let! bx := u32_add m x10 6 in
      if (i_width im <? bx)%N then Ret None else
      let! y10 := u32_mul m y 10 in
      let! b_y := u32_add m y10 16 in
      if (i_height im <? b_y)%N then Ret None else
      let! im := foldM (fun k im =>
        let! px := u32_add m x10 5 in
        let! p := u32_add m y10 k in
        let! py := u32_add m p 5 in
        put_pixel im px py RED_PIXEL) (range 0 11) im in
      let! y := u32_add m y 1 in
      Ret (Some (x, y, im))
  | Left =>
      if (x10 <? 15)%N then Ret None else
      let! y10 := u32_mul m y 10 in
      let! b_y := u32_add m y10 6 in
      if (i_height im <? b_y)%N then Ret None else
      let! im := foldM (fun k im =>
        let! p := u32_sub m x10 k in
        let! px := u32_add m p 5 in
        let! py := u32_add m y10 5 in
        put_pixel im px py RED_PIXEL) (range 0 11) im in
      let! x := u32_sub m x 1 in
      Ret (Some (x, y, im))
  | Up =>
      let! bx := u32_add m x10 6 in
      if (i_width im <? bx)%N then Ret None else
      let! y10 := u32_mul m y 10 in
      if (y10 <? 15)%N then Ret None else
      let! im := foldM (fun k im =>
        let! px := u32_add m x10 5 in
        let! p := u32_sub m y10 k in
        let! py := u32_add m p 5 in
        put_pixel im px py RED_PIXEL) (range 0 11) im in
      let! y := u32_sub m y 1 in
      Ret (Some (x, y, im))
  end.

(** The [for] loop of maze/mod.rs:185-232 over the given steps. *)
Fixpoint draw_steps (m : mode) (steps : list direction) (x y : N) (im : image)
    : res (option (N * N * image)) :=
  match steps with
  | [] => Ret (Some (x, y, im))
  | s :: steps =>
      let! r := draw_step m s x y im in
      match r with
      | None => Ret None
      | Some (x, y, im) => draw_steps m steps x y im
      end
  end.

(** maze/mod.rs:170-243 [print_maze_solution]. *)
Definition print_maze_solution (m : mode) (unsolved : image) (solution : list direction)
    : res (result image maze_error) :=
  if ((i_width unsolved <? 6) || (i_height unsolved <? 6))%N then Ret (Err InvalidDimensions)
  else
    let! im := foldM (fun k im =>
        let! px := u32_add m 0 5 in
        let! py := u32_add m 0 k in
        put_pixel im px py RED_PIXEL) (range 0 6) unsolved in
    let! r := draw_steps m (rev solution) 0 0 im in
    match r with
    | None => Ret (Err InvalidSolution)
    | Some (x, y, im) =>
        let! x10 := u32_mul m x 10 in
        let! bx := u32_add m x10 6 in
        if (i_width im <? bx)%N then Ret (Err InvalidSolution) else
        let! y10 := u32_mul m y 10 in
        let! b_y := u32_add m y10 16 in
        if (i_height im <? b_y)%N then Ret (Err InvalidSolution) else
        let! im := foldM (fun k im =>
            let! px := u32_add m x10 5 in
            let! p := u32_add m y10 k in
            let! py := u32_add m p 5 in
            put_pixel im px py RED_PIXEL) (range 1 6) im in
        Ret (Ok im)
    end.
