(** Proofs about [print_maze] and [print_maze_solution]. *)
From Coq Require Import ZifyBool ZifyNat ZifyN.
From Verif Require Import Base Image ImageProofs Maze MazePrint SpecMazePrint.
Local Open Scope N_scope.

Lemma u32_size_eq : u32_size = 4294967296. Proof. done. Qed.

Lemma draw_right_painted m x y im :
  10 * (x + 1) < i_width im -> 10 * y + 10 < i_height im ->
  i_width im <= u32_size -> i_height im <= u32_size ->
  exists im', draw_right m x y im = Ret im' /\
    painted BLACK_PIXEL (fun a b => existsb (fun k => (a =? (x + 1) * 10) && (b =? y * 10 + k)) (range 0 11)) im im'.
Proof.
  intros Hx Hy HW HH. unfold draw_right. apply foldM_painted.
  intros k im1 Hk W1 H1. apply elem_of_range in Hk.
  rewrite u32_add_ok by lia. cbn [bind]. rewrite u32_mul_ok by lia. cbn [bind].
  rewrite u32_mul_ok by lia. cbn [bind]. rewrite u32_add_ok by lia. cbn [bind].
  apply put_pixel_painted; lia.
Qed.
Lemma draw_down_painted m x y im :
  10 * x + 10 < i_width im -> 10 * (y + 1) < i_height im ->
  i_width im <= u32_size -> i_height im <= u32_size ->
  exists im', draw_down m x y im = Ret im' /\
    painted BLACK_PIXEL (fun a b => existsb (fun k => (a =? x * 10 + k) && (b =? (y + 1) * 10)) (range 0 11)) im im'.
Proof.
  intros Hx Hy HW HH. unfold draw_down. apply foldM_painted.
  intros k im1 Hk W1 H1. apply elem_of_range in Hk.
  rewrite u32_mul_ok by lia. cbn [bind]. rewrite u32_add_ok by lia. cbn [bind].
  rewrite u32_add_ok by lia. cbn [bind]. rewrite u32_mul_ok by lia. cbn [bind].
  apply put_pixel_painted; lia.
Qed.

Definition cell_black (width : N) (c : nat * maze_node) (a b : N) : bool :=
  let x := as_u32 (N.of_nat c.1) mod width in
  let y := as_u32 (N.of_nat c.1) / width in
  (m_right c.2 && existsb (fun k => (a =? (x + 1) * 10) && (b =? y * 10 + k)) (range 0 11)) ||
  (m_down c.2 && existsb (fun k => (a =? x * 10 + k) && (b =? (y + 1) * 10)) (range 0 11)).
Definition maze_black (width height : N) (grid : list maze_node) (a b : N) : bool :=
  (existsb (fun r => (a =? 0) && (b =? r)) (range 0 (10 * height + 1)) ||
   existsb (fun r => (a =? r) && (b =? 0)) (range 10 (10 * width + 1))) ||
  existsb (fun c => cell_black width c a b) (enumerate grid).

Lemma cell_coords width height i : width <> 0 -> N.of_nat i < width * height ->
  as_u32 (N.of_nat i) mod width < width /\ as_u32 (N.of_nat i) / width < height.
Proof.
  intros Hw Hi. split; [by apply N.mod_lt|].
  apply N.div_lt_upper_bound; [done|]. unfold as_u32.
  pose proof (N.mod_le (N.of_nat i) u32_size). unfold u32_size in *. lia.
Qed.

Lemma printable_cells (m : mode) width height : printable m width height -> width * height < usize_size m.
Proof. intros (_&_&Hs). rewrite bytes_max in Hs. pose proof (isize_usize m). nia. Qed.

Lemma print_maze_painted (m : mode) width height grid :
  width * height = N.of_nat (length grid) -> printable m width height ->
  exists im, print_maze m width height grid = Ret (Ok im) /\
    painted BLACK_PIXEL (maze_black width height grid)
      (Image (10 * width + 1) (10 * height + 1) (fun _ _ => WHITE_PIXEL)) im.
Proof.
  intros Hlen Hp. pose proof (printable_cells m width height Hp) as Hn. destruct Hp as (Hw&Hh&Hs).
  rewrite bytes_max in Hs. change (2 ^ 32) with u32_size in *.
  unfold print_maze. rewrite usize_mul_ok by done. cbn [bind]. rewrite (proj2 (N.eqb_eq _ _) Hlen). cbn [negb].
  rewrite u32_mul_ok by lia. cbn [bind]. rewrite u32_add_ok by lia. cbn [bind].
  rewrite u32_mul_ok by lia. cbn [bind]. rewrite u32_add_ok by lia. cbn [bind].
  rewrite !(N.mul_comm _ 10).
  rewrite from_pixel_ok by lia. cbn [bind].
  set (im0 := Image (10 * width + 1) (10 * height + 1) (fun _ _ => WHITE_PIXEL)).
  assert (W0 : i_width im0 = 10 * width + 1) by done.
  assert (H0 : i_height im0 = 10 * height + 1) by done.
  clearbody im0.
  destruct (foldM_painted BLACK_PIXEL (fun row im => put_pixel im 0 row BLACK_PIXEL)
              (fun r a b => (a =? 0) && (b =? r)) (range 0 (i_height im0)) im0) as (im1&E1&P1).
  { intros r im Hr W H. apply elem_of_range in Hr. apply put_pixel_painted; lia. }
  rewrite E1. cbn [bind].
  destruct (foldM_painted BLACK_PIXEL (fun col im => put_pixel im col 0 BLACK_PIXEL)
              (fun r a b => (a =? r) && (b =? 0)) (range 10 (i_width im1)) im1) as (im2&E2&P2).
  { intros r im Hr W H. apply elem_of_range in Hr.
    pose proof (pt_width _ _ _ _ P1). pose proof (pt_height _ _ _ _ P1). apply put_pixel_painted; lia. }
  rewrite E2. cbn [bind].
  match goal with |- context [foldM ?f (enumerate grid) im2] =>
    destruct (foldM_painted BLACK_PIXEL f (cell_black width) (enumerate grid) im2) as (im3&E3&P3) end.
  { intros [i nd] im Hi W H. apply elem_of_enumerate in Hi.
    pose proof (pt_width _ _ _ _ P1). pose proof (pt_height _ _ _ _ P1).
    pose proof (pt_width _ _ _ _ P2). pose proof (pt_height _ _ _ _ P2).
    assert (N.of_nat i < width * height) as Hlt.
    { apply lookup_lt_Some in Hi. lia. }
    assert (width <> 0) as Hw0 by (intros ->; lia).
    destruct (cell_coords width height i Hw0 Hlt) as [Hx Hy].
    unfold u32_rem, u32_div. destruct (N.eqb_spec width 0); [done|]. cbn [bind].
    unfold cell_black; cbn [fst snd].
    generalize dependent (as_u32 (N.of_nat i) mod width).
    generalize dependent (as_u32 (N.of_nat i) / width). intros y Hy x Hx.
    destruct (m_right nd); cbn [andb].
    - destruct (draw_right_painted m x y im) as (im4&E4&P4); [lia..|]. rewrite E4. cbn [bind].
      destruct (m_down nd); cbn [andb].
      + pose proof (pt_width _ _ _ _ P4). pose proof (pt_height _ _ _ _ P4).
        destruct (draw_down_painted m x y im4) as (im5&E5&P5); [lia..|]. rewrite E5.
        eexists. split; [done|]. by eapply painted_trans.
      + eexists. split; [done|]. eapply painted_ext; [exact P4|]. intros a b. by rewrite orb_false_r.
    - cbn [bind]. destruct (m_down nd); cbn [andb orb].
      + destruct (draw_down_painted m x y im) as (im5&E5&P5); [lia..|]. rewrite E5. eauto.
      + eexists. split; [done|]. apply painted_none. }
  rewrite E3. cbn [bind]. eexists. split; [done|].
  rewrite H0 in P1. rewrite (pt_width _ _ _ _ P1), W0 in P2.
  eapply painted_trans; [eapply painted_trans|]; eassumption.
Qed.

Lemma maze_black_spec width height grid x y :
  width * height = N.of_nat (length grid) -> width * height <= 2 ^ 32 ->
  x < 10 * width + 1 -> y < 10 * height + 1 ->
  maze_black width height grid x y = true <-> wall_pixel width grid x y.
Proof.
  intros Hlen Hsmall Hx Hy. unfold maze_black, wall_pixel.
  rewrite !orb_true_iff, !range_exists, existsb_elem.
  assert (Hcell : (exists a, a ∈ enumerate grid /\ cell_black width a x y = true) <->
    exists cx cy nd, cx < width /\ grid !! N.to_nat (cy * width + cx) = Some nd /\
      (m_right nd = true /\ x = 10 * (cx + 1) /\ 10 * cy <= y <= 10 * cy + 10 \/
       m_down nd = true /\ y = 10 * (cy + 1) /\ 10 * cx <= x <= 10 * cx + 10)).
  { split.
    - intros ([i nd]&Hi&Hb). apply elem_of_enumerate in Hi.
      assert (N.of_nat i < width * height) as Hlt by (apply lookup_lt_Some in Hi; lia).
      assert (width <> 0) as Hw0 by (intros ->; lia).
      unfold cell_black in Hb; cbn [fst snd] in Hb.
      unfold as_u32 in Hb. rewrite (N.mod_small (N.of_nat i)) in Hb by (change u32_size with (2^32); lia).
      exists (N.of_nat i mod width), (N.of_nat i / width), nd.
      pose proof (N.div_mod (N.of_nat i) width Hw0) as Hdm.
      split_and!; [by apply N.mod_lt| |].
      + replace (N.to_nat _) with i; [done|]. rewrite (N.mul_comm _ width), <-Hdm. lia.
      + revert Hb. generalize (N.of_nat i mod width) (N.of_nat i / width). intros cx cy Hb.
        rewrite orb_true_iff, !andb_true_iff, !range_exists in Hb.
        destruct Hb as [[-> (k&Hk&Hb)]|[-> (k&Hk&Hb)]]; [left|right]; split_and!; try done; lia.
    - intros (cx&cy&nd&Hcx&Hg&Hb). exists (N.to_nat (cy * width + cx), nd).
      split; [by apply elem_of_enumerate|].
      unfold cell_black; cbn [fst snd]. rewrite N2Nat.id.
      assert (cy * width + cx < width * height) by (apply lookup_lt_Some in Hg; lia).
      unfold as_u32. rewrite (N.mod_small (cy * width + cx)) by (change u32_size with (2^32); lia).
      assert ((cy * width + cx) mod width = cx) as ->.
      { rewrite N.add_comm, N.mod_add by lia. by apply N.mod_small. }
      assert ((cy * width + cx) / width = cy) as ->.
      { rewrite N.add_comm, N.div_add by lia. rewrite N.div_small by done. lia. }
      rewrite orb_true_iff, !andb_true_iff, !range_exists.
      destruct Hb as [(->&->&?)|(->&->&?)]; [left|right]; (split; [done|]).
      + exists (y - 10 * cy). lia.
      + exists (x - 10 * cx). lia. }
  rewrite Hcell. split.
  - intros [[(k&?&?)|(k&?&?)]|?]; [left; lia|right; left; lia|by right; right].
  - intros [?|[?|?]]; [left; left; exists y; lia|left; right; exists x; lia|by right].
Qed.

Lemma print_maze_exact (m : mode) width height grid :
  width * height = N.of_nat (length grid) -> printable m width height -> width * height <= 2 ^ 32 ->
  exists im, print_maze m width height grid = Ret (Ok im) /\
    i_width im = 10 * width + 1 /\ i_height im = 10 * height + 1 /\
    forall x y, x < i_width im -> y < i_height im ->
      (wall_pixel width grid x y -> i_pix im x y = BLACK_PIXEL) /\
      (~ wall_pixel width grid x y -> i_pix im x y = WHITE_PIXEL).
Proof.
  intros Hlen Hp Hs. destruct (print_maze_painted m width height grid Hlen Hp) as (im&E&[W H P]).
  cbn in W, H. exists im. split_and!; [done|done|done|]. rewrite W, H. intros x y Hx Hy.
  rewrite P. rewrite <-(maze_black_spec width height grid x y) by done.
  destruct (maze_black width height grid x y); naive_solver.
Qed.

Lemma print_maze_total (m : mode) width height grid :
  (width * height < usize_size m -> width * height <> N.of_nat (length grid) <->
     print_maze m width height grid = Ret (Err InvalidDimensions)) /\
  (width * height = N.of_nat (length grid) -> printable m width height ->
     exists im, print_maze m width height grid = Ret (Ok im) /\
       i_width im = 10 * width + 1 /\ i_height im = 10 * height + 1) /\
  (width * height = N.of_nat (length grid) -> ~ printable m width height -> profile_of m = Debug ->
     print_maze m width height grid = Fault Panic) /\
  (usize_size m <= width * height -> profile_of m = Debug -> print_maze m width height grid = Fault Panic).
Proof.
  split_and!.
  - intros Hn. unfold print_maze. rewrite usize_mul_ok by done. cbn [bind]. destruct (N.eqb_spec (width * height) (N.of_nat (length grid))); cbn [negb];
      [|done]. split; [done|].
    repeat match goal with |- (let! _ := ?e in _) = _ -> _ => destruct e; cbn [bind] end; done.
  - intros Hlen Hp. destruct (print_maze_painted m width height grid Hlen Hp) as (im&E&[W H P]). eauto.
  - intros Hlen Hp Hm. destruct m as [p ws]. cbn in Hm. subst p. cbn [word_of] in *. unfold printable in Hp.
    rewrite bytes_max in Hp. change (2 ^ 32) with u32_size in *.
    unfold print_maze. destruct (decide (width * height < usize_size ws)) as [Hn|Hn]; [|by rewrite usize_mul_panic by lia].
    rewrite usize_mul_ok by done. cbn [bind word_of]. rewrite (proj2 (N.eqb_eq _ _) Hlen). cbn [negb].
    destruct (decide (width * 10 < u32_size)); [rewrite u32_mul_ok by done|by rewrite u32_mul_panic by lia].
    cbn [bind].
    destruct (decide (width * 10 + 1 < u32_size)); [rewrite u32_add_ok by done|by rewrite u32_add_panic by lia].
    cbn [bind].
    destruct (decide (height * 10 < u32_size)); [rewrite u32_mul_ok by done|by rewrite u32_mul_panic by lia].
    cbn [bind].
    destruct (decide (height * 10 + 1 < u32_size)); [rewrite u32_add_ok by done|by rewrite u32_add_panic by lia].
    cbn [bind]. by rewrite from_pixel_panic by lia.
  - intros Hn Hm. destruct m as [p ws]. cbn in Hm. subst p. unfold print_maze. by rewrite usize_mul_panic.
Qed.

(** * print_maze_solution *)
Definition seg_bool (d : direction) (x y a b : N) : bool :=
  existsb (fun k => match d with
    | Right => (a =? x * 10 + k + 5) && (b =? y * 10 + 5)
    | Down => (a =? x * 10 + 5) && (b =? y * 10 + k + 5)
    | Left => (a =? x * 10 - k + 5) && (b =? y * 10 + 5)
    | Up => (a =? x * 10 + 5) && (b =? y * 10 - k + 5)
    end) (range 0 11).
Lemma seg_bool_spec d x y a b :
  match d with Left => 2 <= x | Up => 2 <= y | _ => True end ->
  seg_bool d x y a b = true <-> segment d x y a b.
Proof.
  intros Hd. unfold seg_bool. rewrite range_exists. destruct d; cbn [segment].
  - split; [intros (k&?&?); lia|]. intros ?. exists (a - (10 * x + 5)). lia.
  - split; [intros (k&?&?); lia|]. intros ?. exists (b - (10 * y + 5)). lia.
  - split; [intros (k&?&?); lia|]. intros ?. exists (10 * x + 5 - a). lia.
  - split; [intros (k&?&?); lia|]. intros ?. exists (10 * y + 5 - b). lia.
Qed.

Ltac ok_step := first [rewrite u32_add_ok by lia | rewrite u32_mul_ok by lia | rewrite u32_sub_ok by lia]; cbn [bind].

Lemma draw_step_spec m d x y im :
  i_width im < 2 ^ 32 - 10 -> i_height im < 2 ^ 32 - 10 ->
  centre_inside (i_width im) (i_height im) x y ->
  let '(x', y') := move d x y in
  let ok := match d with Left => 2 <= x | Up => 2 <= y | _ => True end /\
            centre_inside (i_width im) (i_height im) x' y' in
  (ok -> exists im', draw_step m d x y im = Ret (Some (x', y', im')) /\
     painted RED_PIXEL (seg_bool d x y) im im') /\
  (~ ok -> draw_step m d x y im = Ret None).
Proof.
  intros HW HH [Hx Hy]. unfold centre_inside.
  assert (HU : u32_size = 4294967296) by done. change (2 ^ 32) with 4294967296 in *.
  assert (E10 : u32_mul m x 10 = Ret (x * 10)) by (apply u32_mul_ok; lia).
  destruct d; cbn [move]; unfold draw_step; rewrite E10; cbn [bind].
  - repeat ok_step. destruct (N.ltb_spec (i_width im) (x * 10 + 16)).
    { split; [lia|done]. }
    repeat ok_step. destruct (N.ltb_spec (i_height im) (y * 10 + 6)); [lia|].
    split; [intros _|lia].
    match goal with |- context [foldM ?f (range 0 11) im] =>
      destruct (foldM_painted RED_PIXEL f (fun k a b => (a =? x * 10 + k + 5) && (b =? y * 10 + 5)) (range 0 11) im) as (im'&E&P) end.
    { intros k im1 Hk W1 H1. apply elem_of_range in Hk. repeat ok_step. apply put_pixel_painted; lia. }
    rewrite E. cbn [bind]. repeat ok_step. eexists. split; [done|exact P].
  - repeat ok_step. destruct (N.ltb_spec (i_width im) (x * 10 + 6)); [lia|].
    repeat ok_step. destruct (N.ltb_spec (i_height im) (y * 10 + 16)).
    { split; [lia|done]. }
    split; [intros _|lia].
    match goal with |- context [foldM ?f (range 0 11) im] =>
      destruct (foldM_painted RED_PIXEL f (fun k a b => (a =? x * 10 + 5) && (b =? y * 10 + k + 5)) (range 0 11) im) as (im'&E&P) end.
    { intros k im1 Hk W1 H1. apply elem_of_range in Hk. repeat ok_step. apply put_pixel_painted; lia. }
    rewrite E. cbn [bind]. repeat ok_step. eexists. split; [done|exact P].
  - destruct (N.ltb_spec (x * 10) 15).
    { split; [lia|done]. }
    repeat ok_step. destruct (N.ltb_spec (i_height im) (y * 10 + 6)); [lia|].
    split; [intros _|lia].
    match goal with |- context [foldM ?f (range 0 11) im] =>
      destruct (foldM_painted RED_PIXEL f (fun k a b => (a =? x * 10 - k + 5) && (b =? y * 10 + 5)) (range 0 11) im) as (im'&E&P) end.
    { intros k im1 Hk W1 H1. apply elem_of_range in Hk. repeat ok_step. apply put_pixel_painted; lia. }
    rewrite E. cbn [bind]. repeat ok_step. eexists. split; [done|exact P].
  - repeat ok_step. destruct (N.ltb_spec (i_width im) (x * 10 + 6)); [lia|].
    repeat ok_step. destruct (N.ltb_spec (y * 10) 15).
    { split; [lia|done]. }
    split; [intros _|lia].
    match goal with |- context [foldM ?f (range 0 11) im] =>
      destruct (foldM_painted RED_PIXEL f (fun k a b => (a =? x * 10 + 5) && (b =? y * 10 - k + 5)) (range 0 11) im) as (im'&E&P) end.
    { intros k im1 Hk W1 H1. apply elem_of_range in Hk. repeat ok_step. apply put_pixel_painted; lia. }
    rewrite E. cbn [bind]. repeat ok_step. eexists. split; [done|exact P].
Qed.

Fixpoint path_bool (ds : list direction) (x y a b : N) : bool :=
  match ds with
  | [] => false
  | d :: ds => seg_bool d x y a b || let '(x', y') := move d x y in path_bool ds x' y' a b
  end.

Lemma centre_inside_dec w h x y : {centre_inside w h x y} + {~ centre_inside w h x y}.
Proof. unfold centre_inside. apply and_dec; apply N_le_dec. Qed.

Lemma draw_steps_spec m ds x y im :
  i_width im < 2 ^ 32 - 10 -> i_height im < 2 ^ 32 - 10 ->
  centre_inside (i_width im) (i_height im) x y ->
  (steps_allowed (i_width im) (i_height im) ds x y ->
     exists im', draw_steps m ds x y im = Ret (Some (destination ds x y, im')) /\
       painted RED_PIXEL (path_bool ds x y) im im' /\
       centre_inside (i_width im) (i_height im) (destination ds x y).1 (destination ds x y).2 /\
       (forall a b, path_bool ds x y a b = true <-> on_path ds x y a b)) /\
  (~ steps_allowed (i_width im) (i_height im) ds x y -> draw_steps m ds x y im = Ret None).
Proof.
  revert x y im. induction ds as [|d ds IH]; intros x y im HW HH Hc; cbn [draw_steps].
  - split; [|by intros []]. intros _. exists im. split_and!; [done|apply painted_none|apply Hc..|].
    intros a b. cbn. split; [done|done].
  - pose proof (draw_step_spec m d x y im HW HH Hc) as Hs. cbn [steps_allowed destination path_bool on_path].
    destruct (move d x y) as [x' y'] eqn:Hm. destruct Hs as [Hok Hno].
    set (side := match d with Left => 2 <= x | Up => 2 <= y | _ => True end) in *.
    assert (Hdec : {side /\ centre_inside (i_width im) (i_height im) x' y'} +
                   {~ (side /\ centre_inside (i_width im) (i_height im) x' y')}).
    { apply and_dec; [|apply centre_inside_dec]. destruct d; unfold side; apply _. }
    destruct Hdec as [Hy|Hn].
    + destruct (Hok Hy) as (im1&E1&P1). rewrite E1. cbn [bind].
      pose proof (pt_width _ _ _ _ P1) as W1. pose proof (pt_height _ _ _ _ P1) as H1.
      destruct (IH x' y' im1) as [IH1 IH2]; [by rewrite W1|by rewrite H1|rewrite W1, H1; apply Hy|].
      rewrite W1, H1 in IH1, IH2. split.
      * intros (_&_&Ha). destruct (IH1 Ha) as (im2&E2&P2&C2&B2). exists im2.
        split_and!; [done|by eapply painted_trans|apply C2..|].
        intros a b. rewrite orb_true_iff, B2, seg_bool_spec by (apply Hy). done.
      * intros Hna. apply IH2. intros Ha. apply Hna. destruct Hy. done.
    + rewrite Hno by done. cbn [bind]. split; [|done]. intros (?&?&?). exfalso. by apply Hn.
Qed.

Lemma print_solution_spec m im sol :
  i_width im < 2 ^ 32 - 10 -> i_height im < 2 ^ 32 - 10 ->
  let ok := steps_allowed (i_width im) (i_height im) (rev sol) 0 0 /\
            10 * (destination (rev sol) 0 0).2 + 16 <= i_height im in
  (print_maze_solution m im sol = Ret (Err InvalidDimensions) <-> i_width im < 6 \/ i_height im < 6) /\
  (print_maze_solution m im sol = Ret (Err InvalidSolution) <-> 6 <= i_width im /\ 6 <= i_height im /\ ~ ok) /\
  (6 <= i_width im -> 6 <= i_height im -> ok -> exists im',
     print_maze_solution m im sol = Ret (Ok im') /\ i_width im' = i_width im /\ i_height im' = i_height im /\
     forall a b, (red_pixel (rev sol) a b -> i_pix im' a b = RED_PIXEL) /\
                 (~ red_pixel (rev sol) a b -> i_pix im' a b = i_pix im a b)).
Proof.
  intros HW HH. cbv zeta. unfold print_maze_solution.
  assert (HU : u32_size = 4294967296) by done.
  destruct (N.ltb_spec (i_width im) 6) as [Hw|Hw]; cbn [orb].
  { split_and!; [split; [lia|done]|split; [done|lia]|lia]. }
  destruct (N.ltb_spec (i_height im) 6) as [Hh|Hh]; cbn [orb].
  { split_and!; [split; [lia|done]|split; [done|lia]|lia]. }
  match goal with |- context [foldM ?f (range 0 6) im] =>
    destruct (foldM_painted RED_PIXEL f (fun k a b => (a =? 5) && (b =? k)) (range 0 6) im) as (im1&E1&P1) end.
  { intros k im1 Hk W1 H1. apply elem_of_range in Hk. repeat ok_step. apply put_pixel_painted; lia. }
  rewrite E1. cbn [bind].
  pose proof (pt_width _ _ _ _ P1) as W1. pose proof (pt_height _ _ _ _ P1) as H1.
  destruct (draw_steps_spec m (rev sol) 0 0 im1) as [Hok Hno];
    [by rewrite W1|by rewrite H1|unfold centre_inside; rewrite W1, H1; lia|].
  rewrite W1, H1 in Hok, Hno.
  assert (Hdec : forall ds x y, Decision (steps_allowed (i_width im) (i_height im) ds x y)).
  { intros ds. induction ds as [|d ds IH]; intros x y; cbn; [by left|].
    destruct (move d x y) as [x' y']. apply and_dec; [destruct d; apply _|].
    apply and_dec; [apply centre_inside_dec|apply IH]. }
  destruct (Hdec (rev sol) 0 0) as [Ha|Hna].
  - destruct (Hok Ha) as (im2&E2&P2&[C2x C2y]&B2). rewrite E2. cbn [bind].
    destruct (destination (rev sol) 0 0) as [x y] eqn:Hd. cbn [fst snd] in C2x, C2y |- *.
    pose proof (pt_width _ _ _ _ P2) as W2. pose proof (pt_height _ _ _ _ P2) as H2.
    change (2 ^ 32) with 4294967296 in *.
    repeat ok_step.
    destruct (N.ltb_spec (i_width im2) (x * 10 + 6)); [lia|].
    repeat ok_step.
    destruct (N.ltb_spec (i_height im2) (y * 10 + 16)).
    { split_and!; [split; [done|lia]| |lia]. split; [|done]. intros _. split_and!; [lia|lia|]. lia. }
    match goal with |- context [foldM ?f (range 1 6) im2] =>
      destruct (foldM_painted RED_PIXEL f (fun k a b => (a =? x * 10 + 5) && (b =? y * 10 + k + 5)) (range 1 6) im2) as (im3&E3&P3) end.
    { intros k im4 Hk W4 H4. apply elem_of_range in Hk. repeat ok_step. apply put_pixel_painted; lia. }
    rewrite E3. cbn [bind]. split_and!; [split; [done|lia]| |].
    { split; [done|]. intros (_&_&Hn). exfalso. apply Hn. split; [done|lia]. }
    intros _ _ _. exists im3. split_and!; [done| | |].
    { rewrite (pt_width _ _ _ _ P3). congruence. }
    { rewrite (pt_height _ _ _ _ P3). congruence. }
    intros a b. pose proof (painted_trans _ _ _ _ _ _ (painted_trans _ _ _ _ _ _ P1 P2) P3) as P.
    rewrite (pt_pix _ _ _ _ P).
    assert (Hiff : existsb (fun k => (a =? 5) && (b =? k)) (range 0 6) || path_bool (rev sol) 0 0 a b
      || existsb (fun k => (a =? x * 10 + 5) && (b =? y * 10 + k + 5)) (range 1 6) = true
      <-> red_pixel (rev sol) a b).
    { unfold red_pixel. rewrite Hd. cbn [fst snd]. rewrite !orb_true_iff, B2, !range_exists.
      assert ((exists k, (0 <= k < 6) /\ (a =? 5) && (b =? k) = true) <-> a = 5 /\ b <= 5) as ->.
      { split; [intros (k&?&?); lia|]. intros ?. exists b. lia. }
      assert ((exists k, (1 <= k < 6) /\ (a =? x * 10 + 5) && (b =? y * 10 + k + 5) = true) <->
        a = 10 * x + 5 /\ 10 * y + 6 <= b <= 10 * y + 10) as ->.
      { split; [intros (k&?&?); lia|]. intros ?. exists (b - (10 * y + 5)). lia. }
      tauto. }
    destruct (_ || _); naive_solver.
  - rewrite Hno by done. cbn [bind]. split_and!; [split; [done|lia]| |].
    + split; [|done]. intros _. split_and!; [done|done|]. by intros [? _].
    + intros _ _ [? _]. done.
Qed.

Lemma steps_allowed_inside w h ds x y : steps_allowed w h ds x y -> stays_inside w h ds x y.
Proof.
  revert x y. induction ds as [|d ds IH]; intros x y; cbn; [done|].
  destruct (move d x y). intros (Hd&Hc&H). split_and!; [destruct d; lia|done|auto].
Qed.

(** Only red pixels differ, and only pixels inside the image are painted. *)
Lemma print_solution_inside m im sol im' :
  i_width im < 2 ^ 32 - 10 -> i_height im < 2 ^ 32 - 10 ->
  print_maze_solution m im sol = Ret (Ok im') ->
  i_width im' = i_width im /\ i_height im' = i_height im /\
  (forall a b, i_pix im' a b = i_pix im a b \/ i_pix im' a b = RED_PIXEL) /\
  stays_inside (i_width im) (i_height im) (rev sol) 0 0.
Proof.
  intros HW HH E. destruct (print_solution_spec m im sol HW HH) as (S1&S2&S3).
  destruct (decide (i_width im < 6)); [destruct S1 as [_ S1]; rewrite S1 in E by lia; done|].
  destruct (decide (i_height im < 6)); [destruct S1 as [_ S1]; rewrite S1 in E by lia; done|].
  assert (Hdec : forall ds x y, Decision (steps_allowed (i_width im) (i_height im) ds x y)).
  { intros ds. induction ds as [|d ds IH]; intros x y; cbn; [by left|].
    destruct (move d x y) as [x' y']. apply and_dec; [destruct d; apply _|].
    apply and_dec; [apply centre_inside_dec|apply IH]. }
  destruct (and_dec (Hdec (rev sol) 0 0) (N_le_dec (10 * (destination (rev sol) 0 0).2 + 16) (i_height im)))
    as [Hok|Hno].
  - destruct S3 as (im2&E2&W2&H2&Hp); [lia|lia|done|]. assert (im2 = im') as -> by congruence.
    split_and!; [done|done| |by apply steps_allowed_inside; apply Hok].
    intros a b.
    destruct (decide (i_pix im' a b = RED_PIXEL)) as [?|Hne]; [by right|left].
    apply Hp. intros Hr. apply Hne. by apply Hp.
  - destruct S2 as [_ S2]. rewrite S2 in E; [done|]. split_and!; [lia|lia|done].
Qed.

(** A path that stays inside but is rejected: one step right and back. *)
Lemma print_solution_rejects_inside :
  exists m im sol, i_width im < 2 ^ 32 - 10 /\ i_height im < 2 ^ 32 - 10 /\
    centre_inside (i_width im) (i_height im) 0 0 /\
    stays_inside (i_width im) (i_height im) (rev sol) 0 0 /\
    10 * (destination (rev sol) 0 0).2 + 16 <= i_height im /\
    print_maze_solution m im sol = Ret (Err InvalidSolution).
Proof.
  exists (Mode Debug W64), (Image 30 30 (fun _ _ => WHITE_PIXEL)), [Left; Right].
  split_and!; try (by vm_compute); cbn [rev app stays_inside move]; unfold centre_inside;
    split_and!; by vm_compute.
Qed.

(** The bound on the size is sharp: a straight path down an image of height
    2^32 - 10. *)
Lemma draw_down_far m n y im : 6 <= i_width im < 2 ^ 32 -> 10 * (y + N.of_nat n) + 6 <= i_height im < 2 ^ 32 ->
  exists im', draw_steps m (replicate n Down) 0 y im = Ret (Some (0, y + N.of_nat n, im')) /\
    i_width im' = i_width im /\ i_height im' = i_height im.
Proof.
  assert (HU : u32_size = 4294967296) by done. change (2 ^ 32) with 4294967296.
  revert y im. induction n as [|n IH]; intros y im HW HH; cbn [replicate draw_steps].
  - exists im. rewrite N.add_0_r. done.
  - unfold draw_step. repeat ok_step. destruct (N.ltb_spec (i_width im) (0 * 10 + 6)); [lia|].
    repeat ok_step. destruct (N.ltb_spec (i_height im) (y * 10 + 16)); [lia|].
    match goal with |- context [foldM ?f (range 0 11) im] =>
      destruct (foldM_painted RED_PIXEL f (fun k a b => (a =? 0 * 10 + 5) && (b =? y * 10 + k + 5)) (range 0 11) im) as (im1&E&P) end.
    { intros k im1 Hk W1 H1. apply elem_of_range in Hk. repeat ok_step. apply put_pixel_painted; lia. }
    rewrite E. cbn [bind]. repeat ok_step. pose proof (pt_width _ _ _ _ P) as W1. pose proof (pt_height _ _ _ _ P) as H1.
    destruct (IH (y + 1) im1) as (im2&E2&W2&H2); [lia|lia|]. exists im2. rewrite E2.
    split_and!; [|congruence..]. do 4 f_equal. lia.
Qed.
Lemma downs_inside w h n y : 6 <= w -> 10 * (y + N.of_nat n) + 6 <= h -> stays_inside w h (replicate n Down) 0 y.
Proof.
  intros Hw. revert y. induction n as [|n IH]; intros y Hh; cbn [replicate stays_inside move]; [done|].
  unfold centre_inside. split_and!; [done|lia|lia|]. apply IH. lia.
Qed.
Lemma print_solution_overflow : exists im sol, i_width im = 6 /\ i_height im = 2 ^ 32 - 10 /\
  stays_inside (i_width im) (i_height im) (rev sol) 0 0 /\
  forall m, print_maze_solution m im sol = Fault Panic.
Proof.
  assert (HU : u32_size = 4294967296) by done.
  set (n := N.to_nat 429496728). exists (Image 6 (2 ^ 32 - 10) (fun _ _ => WHITE_PIXEL)), (replicate n Down).
  assert (Hrev : rev (replicate n Down) = replicate n Down).
  { clearbody n. clear. induction n as [|n IH]; [done|]. cbn [replicate rev]. rewrite IH.
    change [Down] with (replicate 1 Down). rewrite <-replicate_add, Nat.add_comm. done. }
  assert (Hn : N.of_nat n = 429496728) by (unfold n; apply N2Nat.id).
  clearbody n. split_and!; [done|done|rewrite Hrev; cbn [i_width i_height]; apply downs_inside; [lia|]; rewrite Hn; by vm_compute|].
  intros m. unfold print_maze_solution. rewrite Hrev. cbn [i_width i_height].
  destruct (N.ltb_spec 6 6); [lia|]. cbn [orb]. destruct (N.ltb_spec (2 ^ 32 - 10) 6); [lia|].
  match goal with |- context [foldM ?f (range 0 6) ?im] =>
    destruct (foldM_painted RED_PIXEL f (fun k a b => (a =? 5) && (b =? k)) (range 0 6) im) as (im1&E1&P1) end.
  { intros k im1 Hk W1 H1. apply elem_of_range in Hk. cbn [i_width i_height] in W1, H1. repeat ok_step. apply put_pixel_painted; lia. }
  rewrite E1. cbn [bind].
  pose proof (pt_width _ _ _ _ P1) as W1. pose proof (pt_height _ _ _ _ P1) as H1. cbn [i_width i_height] in W1, H1.
  destruct (draw_down_far m n 0 im1) as (im2&->&W2&H2); [rewrite W1; lia|rewrite H1, Hn; by vm_compute|]. cbn [bind].
  rewrite Hn. repeat ok_step. destruct (N.ltb_spec (i_width im2) (0 * 10 + 6)); [lia|].
  repeat ok_step. change (u32_add m ((0 + 429496728) * 10) 16) with
    match profile_of m with Debug => Fault Panic | Release => Ret 0 end. destruct (profile_of m); [done|]. cbn [bind].
  destruct (N.ltb_spec (i_height im2) 0); [lia|]. change (range 1 6) with (1 :: range 2 6). cbn [foldM]. repeat ok_step.
  unfold put_pixel. rewrite H2, H1. by destruct (_ <? i_width im2).
Qed.

(** A width whose tenfold wraps. *)
Lemma print_maze_wraps ws : exists width im, ~ printable ws width 0 /\ width < 2 ^ 32 /\
  print_maze (Mode Release ws) width 0 [] = Ret (Ok im) /\ i_width im = 5 /\ i_height im = 1.
Proof.
  eexists 429496730, _. split_and!; [|done|by destruct ws|done..]. intros [H _]. by vm_compute in H.
Qed.

(** With 32 bits the number of cells wraps to 0 before the length is compared,
    and the image does not fit in memory. *)
Lemma print_maze_cells_wrap p : print_maze (Mode p W32) 65536 65536 [] = Fault Panic.
Proof. by destruct p. Qed.
