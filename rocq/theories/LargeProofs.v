(** Images of grids with more than 2^32 cells. *)
From Coq Require Import ZifyBool ZifyNat ZifyN.
From Verif Require Import Base Image ImageProofs Maze MazePrint SpecMazePrint MazePrintProofs.
From Verif Require Import Nonogram NonogramPrint SpecPrint PrintProofs SpecLarge.
Local Open Scope N_scope.

Lemma drawn_at_iff width i cx cy : width <> 0 ->
  drawn_at width i cx cy <-> cx = as_u32 (N.of_nat i) mod width /\ cy = as_u32 (N.of_nat i) / width.
Proof.
  intros Hw. unfold drawn_at, as_u32. change u32_size with (2 ^ 32). generalize (N.of_nat i mod 2 ^ 32). intros n. split.
  - intros [Hc ->]. rewrite N.add_comm, N.mod_add, N.div_add by done. rewrite N.mod_small, N.div_small by done. lia.
  - intros [-> ->]. split; [by apply N.mod_lt|]. rewrite (N.mul_comm _ width). by apply N.div_mod.
Qed.

Lemma maze_black_wrapped width height grid x y :
  width * height = N.of_nat (length grid) -> x < 10 * width + 1 -> y < 10 * height + 1 ->
  maze_black width height grid x y = true <-> wall_pixel_wrapped width grid x y.
Proof.
  intros Hlen Hx Hy. unfold maze_black, wall_pixel_wrapped.
  rewrite !orb_true_iff, !range_exists, existsb_elem.
  assert (Hcell : (exists a, a ∈ enumerate grid /\ cell_black width a x y = true) <->
    exists i cx cy nd, grid !! i = Some nd /\ drawn_at width i cx cy /\
      (m_right nd = true /\ x = 10 * (cx + 1) /\ 10 * cy <= y <= 10 * cy + 10 \/
       m_down nd = true /\ y = 10 * (cy + 1) /\ 10 * cx <= x <= 10 * cx + 10)).
  { split.
    - intros ([i nd]&Hi&Hb). apply elem_of_enumerate in Hi.
      assert (width <> 0) as Hw0 by (intros ->; apply lookup_lt_Some in Hi; lia).
      unfold cell_black in Hb; cbn [fst snd] in Hb.
      eexists i, _, _, nd. split; [done|]. split; [by apply drawn_at_iff|].
      revert Hb. generalize (as_u32 (N.of_nat i) mod width) (as_u32 (N.of_nat i) / width). intros cx cy Hb.
      rewrite orb_true_iff, !andb_true_iff, !range_exists in Hb.
      destruct Hb as [[-> (k&Hk&Hb)]|[-> (k&Hk&Hb)]]; [left|right]; split_and!; try done; lia.
    - intros (i&cx&cy&nd&Hg&Hd&Hb). exists (i, nd). split; [by apply elem_of_enumerate|].
      assert (width <> 0) as Hw0 by (intros ->; apply lookup_lt_Some in Hg; lia).
      apply drawn_at_iff in Hd as [-> ->]; [|done]. unfold cell_black; cbn [fst snd]. revert Hb.
      generalize (as_u32 (N.of_nat i) mod width) (as_u32 (N.of_nat i) / width). intros cx cy Hb.
      rewrite orb_true_iff, !andb_true_iff, !range_exists.
      destruct Hb as [(->&->&?)|(->&->&?)]; [left|right]; (split; [done|]).
      + exists (y - 10 * cy). lia.
      + exists (x - 10 * cx). lia. }
  rewrite Hcell. split.
  - intros [[(k&?&?)|(k&?&?)]|?]; [left; lia|right; left; lia|by right; right].
  - intros [?|[?|?]]; [left; left; exists y; lia|left; right; exists x; lia|by right].
Qed.

Lemma print_maze_any (m : mode) width height grid :
  width * height = N.of_nat (length grid) -> printable m width height ->
  exists im, print_maze m width height grid = Ret (Ok im) /\
    i_width im = 10 * width + 1 /\ i_height im = 10 * height + 1 /\
    forall x y, x < i_width im -> y < i_height im ->
      (wall_pixel_wrapped width grid x y -> i_pix im x y = BLACK_PIXEL) /\
      (~ wall_pixel_wrapped width grid x y -> i_pix im x y = WHITE_PIXEL).
Proof.
  intros Hlen Hp. destruct (print_maze_painted m width height grid Hlen Hp) as (im&E&[W H P]).
  cbn in W, H. exists im. split_and!; [done|done|done|]. rewrite W, H. intros x y Hx Hy.
  rewrite P. rewrite <-(maze_black_wrapped width height grid x y) by done.
  destruct (maze_black width height grid x y); naive_solver.
Qed.

(** One wall, of cell 2^32, is drawn at cell 0. *)
Definition far_grid {A} (a b : A) : list A :=
  replicate (N.to_nat (2 ^ 32)) a ++ b :: replicate (N.to_nat 65535) a.
Lemma far_length {A} (a b : A) : N.of_nat (length (far_grid a b)) = 65537 * 65536.
Proof.
  unfold far_grid. rewrite app_length. cbn [length]. rewrite !replicate_length.
  rewrite Nat2N.inj_add, Nat2N.inj_succ, !N2Nat.id. done.
Qed.
Lemma far_here {A} (a b : A) : far_grid a b !! N.to_nat (2 ^ 32) = Some b.
Proof. unfold far_grid. apply list_lookup_middle. by rewrite replicate_length. Qed.
Lemma far_other {A} (a b : A) i x : far_grid a b !! i = Some x -> i <> N.to_nat (2 ^ 32) -> x = a.
Proof.
  unfold far_grid. intros [[-> _]%lookup_replicate|[Hi Hx]]%lookup_app_Some Hn; [done|].
  rewrite replicate_length in *. destruct (i - N.to_nat (2 ^ 32))%nat as [|k] eqn:E; [lia|].
  by apply lookup_replicate in Hx as [-> _].
Qed.
Lemma far_zero : N.to_nat (0 * 65537 + 0) <> N.to_nat (2 ^ 32).
Proof. intros H%N2Nat.inj. done. Qed.
Lemma far_drawn : drawn_at 65537 (N.to_nat (2 ^ 32)) 0 0.
Proof. unfold drawn_at. by rewrite N2Nat.id. Qed.
Lemma maze_large : exists width height grid x y,
  width * height = N.of_nat (length grid) /\ printable W64 width height /\
  x < 10 * width + 1 /\ y < 10 * height + 1 /\ ~ wall_pixel width grid x y /\
  forall m, word_of m = W64 -> exists im, print_maze m width height grid = Ret (Ok im) /\ i_pix im x y = BLACK_PIXEL.
Proof.
  assert (printable W64 65537 65536) as Hp by (split_and!; done).
  exists 65537, 65536, (far_grid (MazeNode false false) (MazeNode true false)), 10, 5.
  pose proof (far_length (MazeNode false false) (MazeNode true false)) as Hl.
  pose proof (far_here (MazeNode false false) (MazeNode true false)) as Hh.
  pose proof (far_other (MazeNode false false) (MazeNode true false)) as Ho.
  revert Hl Hh Ho. generalize (far_grid (MazeNode false false) (MazeNode true false)). intros grid Hl Hh Ho.
  split_and!; [done|done|done|done| |].
  - intros [Hb|[[Hb _]|(cx&cy&nd&Hc&Hg&[(Hr&Hx&Hy)|(Hd&Hy&_)])]]; [done|done| |lia].
    assert (cx = 0) as -> by lia. assert (cy = 0) as -> by lia.
    apply Ho in Hg; [|apply far_zero]. by subst nd.
  - intros m Hm. rewrite <-Hm in Hp. destruct (print_maze_any m 65537 65536 grid) as (im&E&W&H&P); [done..|]. exists im. split; [done|].
    apply P; [rewrite W; done|rewrite H; done|]. right. right. eexists _, 0, 0, _. split; [exact Hh|].
    split; [apply far_drawn|]. left. by split_and!.
Qed.

(** Nonograms. *)
Lemma draw_cells_any m width height grid im :
  i_width im = side width -> i_height im = side height -> side width < 2 ^ 31 -> side height < 2 ^ 31 ->
  N.of_nat (length grid) = width * height ->
  exists im', draw_cells m width height grid im = Ret im' /\
    painted BLACK_PIXEL (fun x y => existsb (fun p => (p.2 : bool) &&
      interior_bool width height (as_u32 (N.of_nat p.1) mod width) (as_u32 (N.of_nat p.1) / width) x y) (enumerate grid)) im im'.
Proof.
  intros W H Hsw Hsh Hlen. assert (HU : u32_size = 4294967296) by done.
  change (2 ^ 31) with 2147483648 in *.
  unfold draw_cells. apply foldM_painted. intros [i sq] im1 Hi W1 H1. cbn [fst snd].
  apply elem_of_enumerate in Hi. destruct sq; cbn [negb andb]; [|eexists; split; [done|apply painted_none]].
  assert (N.of_nat i < width * height) as Hlt by (apply lookup_lt_Some in Hi; lia).
  assert (width <> 0) as Hw0 by (intros ->; lia).
  destruct (cell_coords width height i Hw0 Hlt) as [Hc Hr].
  unfold u32_rem, u32_div. destruct (N.eqb_spec width 0); [done|]. cbn [bind].
  revert Hc Hr. generalize (as_u32 (N.of_nat i) mod width) (as_u32 (N.of_nat i) / width). intros c r Hc Hr.
  rewrite u32_mul_ok by (unfold side in *; lia). cbn [bind].
  rewrite !rule_space_ok by lia. cbn [bind].
  rewrite u32_add_ok by (unfold side in *; lia). cbn [bind].
  rewrite u32_add_ok by (unfold side in *; lia). cbn [bind].
  rewrite u32_mul_ok by (unfold side in *; lia). cbn [bind].
  rewrite u32_add_ok by (unfold side in *; lia). cbn [bind].
  rewrite u32_add_ok by (unfold side in *; lia). cbn [bind].
  rewrite !as_i32_small by (change (2 ^ 31) with 2147483648; unfold side in *; lia).
  eexists. split; [done|]. eapply painted_ext; [apply rect_painted|].
  intros a b. unfold interior_bool. rewrite W1, H1, W, H. unfold side in *.
  generalize dependent (margin width). generalize dependent (margin height). intros mh ? mw. intros.
  apply eq_true_iff_eq. lia.
Qed.
Lemma print_nonogram_any (m : mode) width height im grid : width * height < usize_size m ->
  N.of_nat (length grid) = width * height -> i_width im = side width -> i_height im = side height ->
  side width < 2 ^ 31 -> side height < 2 ^ 31 ->
  exists im', print_nonogram_solution m width height im grid = Ret (Ok im') /\
    i_width im' = i_width im /\ i_height im' = i_height im /\
    forall x y, (filled_pixel_wrapped width height grid x y -> i_pix im' x y = BLACK_PIXEL) /\
                (~ filled_pixel_wrapped width height grid x y -> i_pix im' x y = i_pix im x y).
Proof.
  intros Hn Hlen W H Hsw Hsh. assert (HU : u32_size = 4294967296) by done.
  destruct (draw_cells_any m width height grid im W H Hsw Hsh Hlen) as (im'&E&P).
  change (2 ^ 31) with 2147483648 in *.
  unfold print_nonogram_solution. rewrite !rule_space_ok by lia. cbn [bind].
  rewrite usize_mul_ok by done. cbn [bind]. rewrite (proj2 (N.eqb_eq _ _) Hlen). cbn [negb].
  rewrite u32_mul_ok by (unfold side in *; lia). cbn [bind].
  rewrite u32_add_ok by (unfold side in *; lia). cbn [bind]. rewrite !(N.mul_comm _ 50).
  change (50 * width + margin width) with (side width).
  rewrite (proj2 (N.eqb_eq _ _) W). cbn [negb].
  rewrite (u32_mul_ok m height 50) by (unfold side in *; lia). cbn [bind].
  rewrite u32_add_ok by (unfold side in *; lia). cbn [bind]. rewrite (N.mul_comm height).
  change (50 * height + margin height) with (side height).
  rewrite (proj2 (N.eqb_eq _ _) H). cbn [negb]. rewrite E. cbn [bind].
  exists im'. split_and!; [done|apply (pt_width _ _ _ _ P)|apply (pt_height _ _ _ _ P)|].
  intros x y. rewrite (pt_pix _ _ _ _ P).
  match goal with |- context [if ?b then _ else _] =>
    assert (Hb : b = true <-> filled_pixel_wrapped width height grid x y) end.
  { rewrite existsb_elem. unfold filled_pixel_wrapped, cell_interior, interior_bool. split.
    - intros ([i sq]&Hi&Hb). apply elem_of_enumerate in Hi. cbn [fst snd] in Hb.
      apply andb_true_iff in Hb as [-> Hb].
      assert (width <> 0) as Hw0 by (intros ->; apply lookup_lt_Some in Hi; lia).
      eexists i, _, _. split; [done|]. split; [by apply drawn_at_iff|].
      revert Hb; generalize (as_u32 (N.of_nat i) mod width) (as_u32 (N.of_nat i) / width); intros; lia.
    - intros (i&c&r&Hg&Hd&Hin). exists (i, true). split; [by apply elem_of_enumerate|]. cbn [fst snd andb].
      assert (width <> 0) as Hw0 by (intros ->; apply lookup_lt_Some in Hg; lia).
      apply drawn_at_iff in Hd as [-> ->]; [|done]. lia. }
  match goal with |- context [if ?b then _ else _] => revert Hb; generalize b end.
  clear. intros []; naive_solver.
Qed.
Lemma nonogram_large : exists width height grid x y,
  N.of_nat (length grid) = width * height /\ side width < 2 ^ 31 /\ side height < 2 ^ 31 /\
  ~ filled_pixel width height grid x y /\
  forall m im, word_of m = W64 -> i_width im = side width -> i_height im = side height ->
    exists im', print_nonogram_solution m width height im grid = Ret (Ok im') /\ i_pix im' x y = BLACK_PIXEL.
Proof.
  exists 65537, 65536, (far_grid false true), (margin 65537 + 1), (margin 65536 + 1).
  pose proof (far_length false true) as Hl. pose proof (far_here false true) as Hh. pose proof (far_other false true) as Ho.
  revert Hl Hh Ho. generalize (far_grid false true). intros grid Hl Hh Ho.
  split_and!; [done|done|done| |].
  - intros (c&r&Hc&Hg&Hin). unfold cell_interior in Hin. assert (c = 0) as -> by lia. assert (r = 0) as -> by lia.
    apply Ho in Hg; [done|apply far_zero].
  - intros m im Hm W H. destruct (print_nonogram_any m 65537 65536 im grid) as (im'&E&_&_&P); [by rewrite Hm|done..|]. exists im'. split; [done|].
    apply P. eexists _, 0, 0. split; [exact Hh|]. split; [apply far_drawn|]. unfold cell_interior. lia.
Qed.
