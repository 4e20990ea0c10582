(** Reading a maze and a walk off their image. *)
From Verif Require Import Base Image Maze MazePrint SpecMaze SpecMazePrint MazePrintProofs.
From Coq Require Import ZifyNat ZifyN.
Local Open Scope N_scope.

Section image.
Context (w h : N) (grid : list maze_node) (Hlen : N.of_nat (length grid) = w * h).

Definition cell (x y : N) : nat := N.to_nat (y * w + x).
Lemma cell_lookup x y : x < w -> y < h -> exists nd, grid !! cell x y = Some nd.
Proof.
  intros Hx Hy. apply lookup_lt_is_Some_2. unfold cell.
  assert (y * w + w <= h * w) by (replace (y * w + w) with ((y + 1) * w) by lia; apply N.mul_le_mono_r; lia). lia.
Qed.
Lemma cell_bound x y nd : x < w -> grid !! cell x y = Some nd -> y < h.
Proof.
  intros Hx H. apply lookup_lt_Some in H. unfold cell in H.
  destruct (N.lt_ge_cases y h) as [|Hy]; [done|]. exfalso.
  assert (h * w <= y * w) by (by apply N.mul_le_mono_r). lia.
Qed.

(** Walls met on the way between two columns, at mid-height. *)
Lemma wall_mid_row x y : wall_pixel w grid x (10 * y + 5) <->
  x = 0 \/ exists cx nd, cx < w /\ x = 10 * (cx + 1) /\ grid !! cell cx y = Some nd /\ m_right nd = true.
Proof.
  split.
  - intros [->|[[? _]|(cx&cy&nd&Hcx&Hg&[(Hr&Hx&Hy)|(_&Hy&_)])]]; [by left|lia| |lia].
    assert (cy = y) as -> by lia. right. exists cx, nd. done.
  - intros [->|(cx&nd&Hcx&->&Hg&Hr)]; [by left|]. right; right. exists cx, y, nd. split_and!; [done|done|].
    left. split_and!; [done|done|lia|lia].
Qed.
Lemma wall_mid_col x y : wall_pixel w grid (10 * x + 5) y <->
  (y = 0 /\ 1 <= x) \/
  (x < w /\ exists cy nd, y = 10 * (cy + 1) /\ grid !! cell x cy = Some nd /\ m_down nd = true).
Proof.
  split.
  - intros [?|[[? ?]|(cx&cy&nd&Hcx&Hg&[(_&Hx&_)|(Hd&Hy&Hx)])]]; [lia|left; lia|lia|].
    assert (cx = x) as -> by lia. right. split; [done|]. exists cy, nd. done.
  - intros [[-> ?]|(Hx&cy&nd&->&Hg&Hd)]; [right; left; lia|]. right; right. exists x, cy, nd. split_and!; [done|done|].
    right. split_and!; [done|done|lia|lia].
Qed.

Lemma right_wall x y nd : x < w -> grid !! cell x y = Some nd ->
  wall_pixel w grid (10 * (x + 1)) (10 * y + 5) <-> m_right nd = true.
Proof.
  intros Hx Hg. rewrite wall_mid_row. split.
  - intros [?|(cx&nd'&Hcx&E&Hg'&Hr)]; [lia|]. assert (cx = x) as -> by lia. congruence.
  - intros Hr. right. exists x, nd. done.
Qed.
Lemma down_wall x y nd : x < w -> grid !! cell x y = Some nd ->
  wall_pixel w grid (10 * x + 5) (10 * (y + 1)) <-> m_down nd = true.
Proof.
  intros Hx Hg. rewrite wall_mid_col. split.
  - intros [?|(_&cy&nd'&E&Hg'&Hd)]; [lia|]. assert (cy = y) as -> by lia. congruence.
  - intros Hd. right. split; [done|]. exists y, nd. done.
Qed.

(** * Walks *)

Local Notation W := (N.to_nat w).
Definition clear (P : N -> N -> Prop) : Prop := forall a b, P a b -> ~ wall_pixel w grid a b.

Lemma cell_nat x y : cell x y = (N.to_nat y * W + N.to_nat x)%nat.
Proof. unfold cell. lia. Qed.
Lemma beside_cell x y : x + 1 < w -> beside W (cell x y) (cell (x + 1) y).
Proof.
  intros Hx. rewrite !cell_nat. split; [lia|].
  rewrite !Nat.div_add_l by lia. rewrite !Nat.div_small by lia. done.
Qed.
Lemma not_beside x y k : x + 1 = w -> ~ beside W (cell x y) k.
Proof.
  intros Hx [-> E]. rewrite cell_nat in E. rewrite Nat.div_add_l in E by lia.
  replace (N.to_nat y * W + N.to_nat x + 1)%nat with ((N.to_nat y + 1) * W + 0)%nat in E by lia.
  rewrite Nat.div_add_l in E by lia. rewrite !Nat.div_small in E by lia. lia.
Qed.

Lemma open_right x y nd : x + 1 < w -> y < h -> grid !! cell x y = Some nd ->
  joined W grid (cell x y) (cell (x + 1) y) <-> m_right nd = false.
Proof.
  intros Hx Hy Hg. destruct (cell_lookup (x + 1) y Hx Hy) as [nd' Hg']. split.
  - intros [(_&nd1&H1&[[Hr _]|[_ Hb]])|(_&nd1&H1&[[_ [Hb _]]|[_ Hb]])].
    + congruence.
    + unfold below in Hb. rewrite !cell_nat in Hb. lia.
    + rewrite !cell_nat in Hb. lia.
    + unfold below in Hb. rewrite !cell_nat in Hb. lia.
  - intros Hr. left. split; [by apply lookup_lt_Some in Hg'|]. exists nd. split; [done|]. left. split; [done|].
    by apply beside_cell.
Qed.
Lemma open_down x y nd : x < w -> y + 1 < h -> grid !! cell x y = Some nd ->
  joined W grid (cell x y) (cell x (y + 1)) <-> m_down nd = false.
Proof.
  intros Hx Hy Hg. destruct (cell_lookup x (y + 1) Hx Hy) as [nd' Hg'].
  assert (cell x (y + 1) = (cell x y + W)%nat) as Hc by (rewrite !cell_nat; lia). split.
  - intros [(_&nd1&H1&[[_ [Hb Hb']]|[Hd _]])|(_&nd1&H1&[[_ [Hb _]]|[_ Hb]])].
    + assert (W = 1)%nat as HW by lia. rewrite HW, !Nat.div_1_r in Hb'. lia.
    + congruence.
    + lia.
    + unfold below in Hb. lia.
  - intros Hd. left. split; [by apply lookup_lt_Some in Hg'|]. exists nd. split; [done|]. right. split; [done|].
    done.
Qed.
Lemma joined_sym i j : joined W grid i j <-> joined W grid j i.
Proof. unfold joined. tauto. Qed.

Definition fine_step (d : direction) (x y : N) : Prop :=
  match d with Left => 1 <= x | Up => 1 <= y | _ => True end.
(** The line to the next cell crosses no wall iff the cells are joined. *)
Lemma segment_clear d x y : x < w -> y < h -> fine_step d x y -> (move d x y).1 < w -> (move d x y).2 < h ->
  clear (segment d x y) <-> joined W grid (cell x y) (cell (move d x y).1 (move d x y).2).
Proof.
  intros Hx Hy Hd Hx' Hy'. destruct d; cbn [move fst snd fine_step] in *.
  - destruct (cell_lookup x y Hx Hy) as [nd Hg]. rewrite (open_right x y nd) by done.
    assert (clear (segment Right x y) <-> m_right nd <> true) as ->; [|by destruct (m_right nd)].
    rewrite <-(right_wall x y nd Hx Hg). split.
    + intros Hc. apply Hc. unfold segment. lia.
    + intros Hn a b [-> Ha] Hw. apply wall_mid_row in Hw as [?|(cx&nd'&Hcx&E&Hg'&Hr)]; [lia|].
      assert (cx = x) as -> by lia. apply Hn. rewrite <-E. apply wall_mid_row. right. exists x, nd'. done.
  - destruct (cell_lookup x y Hx Hy) as [nd Hg]. rewrite (open_down x y nd) by done.
    assert (clear (segment Down x y) <-> m_down nd <> true) as ->; [|by destruct (m_down nd)].
    rewrite <-(down_wall x y nd Hx Hg). split.
    + intros Hc. apply Hc. unfold segment. lia.
    + intros Hn a b [-> Ha] Hw. apply wall_mid_col in Hw as [?|(_&cy&nd'&E&Hg'&Hr)]; [lia|].
      assert (cy = y) as -> by lia. apply Hn. rewrite <-E. apply wall_mid_col. right. split; [done|]. exists y, nd'. done.
  - destruct (cell_lookup (x - 1) y Hx' Hy) as [nd Hg]. rewrite joined_sym.
    replace (cell x y) with (cell (x - 1 + 1) y) by (f_equal; lia). rewrite (open_right (x - 1) y nd) by (done || lia).
    assert (clear (segment Left x y) <-> m_right nd <> true) as ->; [|by destruct (m_right nd)].
    rewrite <-(right_wall (x - 1) y nd Hx' Hg). split.
    + intros Hc. apply Hc. unfold segment. lia.
    + intros Hn a b [-> Ha] Hw. apply wall_mid_row in Hw as [?|(cx&nd'&Hcx&E&Hg'&Hr)]; [lia|].
      assert (cx = x - 1) as -> by lia. apply Hn. rewrite <-E. apply wall_mid_row. right. exists (x - 1), nd'. done.
  - destruct (cell_lookup x (y - 1) Hx Hy') as [nd Hg]. rewrite joined_sym.
    replace (cell x y) with (cell x (y - 1 + 1)) by (f_equal; lia). rewrite (open_down x (y - 1) nd) by (done || lia).
    assert (clear (segment Up x y) <-> m_down nd <> true) as ->; [|by destruct (m_down nd)].
    rewrite <-(down_wall x (y - 1) nd Hx Hg). split.
    + intros Hc. apply Hc. unfold segment. lia.
    + intros Hn a b [-> Ha] Hw. apply wall_mid_col in Hw as [?|(_&cy&nd'&E&Hg'&Hr)]; [lia|].
      assert (cy = y - 1) as -> by lia. apply Hn. rewrite <-E. apply wall_mid_col. right. split; [done|]. exists (y - 1), nd'. done.
Qed.

Lemma leads_move d x y : x < w -> y < h -> fine_step d x y -> (move d x y).1 < w -> (move d x y).2 < h ->
  forall k, leads W d (cell x y) k <-> k = cell (move d x y).1 (move d x y).2.
Proof.
  intros Hx Hy Hd Hx' Hy' k. destruct d; cbn [move fst snd fine_step leads] in *.
  - split; [intros [-> _]; rewrite !cell_nat; lia|intros ->; by apply beside_cell].
  - unfold below. rewrite !cell_nat. split; lia.
  - split.
    + intros [E _]. rewrite !cell_nat in *. lia.
    + intros ->. replace (cell x y) with (cell (x - 1 + 1) y) by (f_equal; lia). apply beside_cell. lia.
  - unfold below. replace y with (y - 1 + 1) at 1 by lia. rewrite !cell_nat. split; lia.
Qed.

Lemma path_clear ds : forall x y, x < w -> y < h -> stays_inside (10 * w + 1) (10 * h + 1) ds x y ->
  let '(x', y') := destination ds x y in
  x' < w /\ y' < h /\ forall j, follows W grid ds (cell x y) j <-> clear (on_path ds x y) /\ j = cell x' y'.
Proof.
  induction ds as [|d ds IH]; intros x y Hx Hy Hs; cbn [destination].
  - split_and!; [done|done|]. intros j. cbn [follows on_path]. split; [intros <-; split; [intros a b []|done]|by intros [_ ->]].
  - cbn [stays_inside] in Hs. destruct Hs as [Hf Hs]. change (fine_step d x y) in Hf.
    destruct (move d x y) as [x1 y1] eqn:Em. destruct Hs as [[Hx1 Hy1] Hs].
    assert (x1 < w) as Hx1' by lia. assert (y1 < h) as Hy1' by lia.
    specialize (IH x1 y1 Hx1' Hy1' Hs). destruct (destination ds x1 y1) as [x' y'].
    destruct IH as (Hx2&Hy2&IH). split_and!; [done|done|]. intros j.
    pose proof (segment_clear d x y Hx Hy Hf) as Hsc. pose proof (leads_move d x y Hx Hy Hf) as Hlm.
    rewrite Em in Hsc, Hlm. cbn [fst snd] in Hsc, Hlm. specialize (Hsc Hx1' Hy1'). specialize (Hlm Hx1' Hy1').
    cbn [follows]. transitivity (joined W grid (cell x y) (cell x1 y1) /\ follows W grid ds (cell x1 y1) j).
    { split; [intros (k&Hl&Hj&Hfo); apply Hlm in Hl as ->; done|]. intros [Hj Hfo]. exists (cell x1 y1). split; [by apply Hlm|done]. }
    rewrite <-Hsc, IH. unfold clear. cbn [on_path]. rewrite Em. split.
    + intros (H1&H2&->). split; [|done]. intros a b [H|H]; [by apply H1|by apply H2].
    + intros (H1&->). split_and!; [intros a b H; apply H1; by left|intros a b H; apply H1; by right|done].
Qed.

Lemma red_clear ds : 0 < w -> 0 < h -> stays_inside (10 * w + 1) (10 * h + 1) ds 0 0 ->
  clear (red_pixel ds) <-> exists j nd, follows W grid ds 0 j /\ grid !! j = Some nd /\ m_down nd = false.
Proof.
  intros Hw Hh Hs. pose proof (path_clear ds 0 0 Hw Hh Hs) as Hp. unfold red_pixel.
  destruct (destination ds 0 0) as [x y]. cbn [fst snd]. destruct Hp as (Hx&Hy&Hp).
  destruct (cell_lookup x y Hx Hy) as [nd Hg]. change (cell 0 0) with (N.to_nat (0 * w + 0)) in Hp.
  replace (N.to_nat (0 * w + 0)) with 0%nat in Hp by lia. split.
  - intros Hc. exists (cell x y), nd. split_and!; [|done|].
    + apply Hp. split; [|done]. intros a b Hab. apply Hc. by right; left.
    + assert (~ m_down nd = true) as Hn; [|by destruct (m_down nd)].
      rewrite <-(down_wall x y nd Hx Hg). apply Hc. right; right. lia.
  - intros (j&nd'&Hfo&Hg'&Hd) a b Hr. apply Hp in Hfo as [Hc ->]. assert (nd' = nd) as -> by congruence.
    destruct Hr as [[-> Hb]|[Hr|[-> Hb]]].
    + change 5 with (10 * 0 + 5) at 1. rewrite wall_mid_col. intros [?|(_&cy&?&?&_)]; lia.
    + by apply Hc.
    + rewrite wall_mid_col. intros [?|(_&cy&nd'&E&Hg2&Hd2)]; [lia|]. assert (cy = y) as -> by lia. congruence.
Qed.
End image.

Lemma print_ok_size (m : mode) w h g im : printable m w h -> print_maze m w h g = Ret (Ok im) ->
  w * h = N.of_nat (length g) /\ i_width im = 10 * w + 1 /\ i_height im = 10 * h + 1.
Proof.
  intros Hp E. destruct (print_maze_total m w h g) as (H1&H2&_).
  destruct (N.eq_dec (w * h) (N.of_nat (length g))) as [He|Hn].
  - destruct (H2 He Hp) as (im'&E'&?&?). assert (im' = im) as -> by congruence. done.
  - apply H1 in Hn; [|by apply printable_cells]. congruence.
Qed.

Lemma black_white : BLACK_PIXEL <> WHITE_PIXEL /\ BLACK_PIXEL <> RED_PIXEL.
Proof. by vm_compute. Qed.

(** Equal images come from equal mazes. *)
Lemma print_injective (m m' : mode) w h w' h' g g' im im' :
  printable m w h -> printable m' w' h' -> w * h <= 2 ^ 32 -> w' * h' <= 2 ^ 32 -> 0 < w * h ->
  print_maze m w h g = Ret (Ok im) -> print_maze m' w' h' g' = Ret (Ok im') ->
  i_width im = i_width im' -> i_height im = i_height im' ->
  (forall x y, x < i_width im -> y < i_height im -> i_pix im x y = i_pix im' x y) ->
  w = w' /\ h = h' /\ g = g'.
Proof.
  intros Hp Hp' Hs Hs' H0 E E' Hw Hh Hpix.
  destruct (print_ok_size m w h g im Hp E) as (Hl&Hw1&Hh1). destruct (print_ok_size m' w' h' g' im' Hp' E') as (Hl'&Hw2&Hh2).
  assert (w' = w) as -> by lia. assert (h' = h) as -> by lia. split_and!; [done|done|].
  destruct (print_maze_exact m w h g Hl Hp Hs) as (i1&F1&_&_&P1). assert (i1 = im) as -> by congruence.
  destruct (print_maze_exact m' w h g' Hl' Hp' Hs) as (i2&F2&_&_&P2). assert (i2 = im') as -> by congruence.
  assert (forall x y, x < i_width im -> y < i_height im -> wall_pixel w g x y -> ~ ~ wall_pixel w g' x y) as H12.
  { intros x y Hx Hy H Hn. destruct (P1 x y Hx Hy) as [A _]. destruct (P2 x y) as [_ B]; [congruence..|].
    specialize (A H). specialize (B Hn). rewrite Hpix in A by done. destruct black_white as [Hbw _]. congruence. }
  assert (forall x y, x < i_width im -> y < i_height im -> wall_pixel w g' x y -> ~ ~ wall_pixel w g x y) as H21.
  { intros x y Hx Hy H Hn. destruct (P1 x y Hx Hy) as [_ A]. destruct (P2 x y) as [B _]; [congruence..|].
    specialize (A Hn). specialize (B H). rewrite Hpix in A by done. destruct black_white as [Hbw _]. congruence. }
  apply list_eq_same_length with (length g); [lia|done|]. intros i nd nd' Hi Hg Hg'.
  set (x := N.of_nat i mod w). set (y := N.of_nat i / w). assert (w <> 0) as Hw0 by lia.
  assert (x < w) as Hx by (by apply N.mod_lt).
  assert (i = cell w x y) as Hc. { unfold cell, x, y. pose proof (N.div_mod (N.of_nat i) w Hw0). lia. }
  rewrite Hc in Hg, Hg'. pose proof (cell_bound w h g ltac:(lia) x y nd Hx Hg) as Hy.
  pose proof (right_wall w h g ltac:(lia) x y nd Hx Hg) as R1. pose proof (right_wall w h g' ltac:(lia) x y nd' Hx Hg') as R2.
  pose proof (down_wall w h g ltac:(lia) x y nd Hx Hg) as D1. pose proof (down_wall w h g' ltac:(lia) x y nd' Hx Hg') as D2.
  pose proof (H12 (10 * (x + 1)) (10 * y + 5) ltac:(lia) ltac:(lia)) as A1.
  pose proof (H21 (10 * (x + 1)) (10 * y + 5) ltac:(lia) ltac:(lia)) as A2.
  pose proof (H12 (10 * x + 5) (10 * (y + 1)) ltac:(lia) ltac:(lia)) as A3.
  pose proof (H21 (10 * x + 5) (10 * (y + 1)) ltac:(lia) ltac:(lia)) as A4.
  rewrite R1, R2 in A1, A2. rewrite D1, D2 in A3, A4.
  destruct nd as [r d], nd' as [r' d']. cbn in *. f_equal.
  - destruct r, r'; try done; [destruct (A1 eq_refl)|destruct (A2 eq_refl)]; done.
  - destruct d, d'; try done; [destruct (A3 eq_refl)|destruct (A4 eq_refl)]; done.
Qed.

(** What an accepted solution changes lies in the image. *)
Lemma on_path_inside W H ds : forall x y, centre_inside W H x y -> stays_inside W H ds x y ->
  centre_inside W H (destination ds x y).1 (destination ds x y).2 /\
  forall a b, on_path ds x y a b -> a < W /\ b < H.
Proof.
  unfold centre_inside.
  induction ds as [|d ds IH]; intros x y Hc Hs; cbn [stays_inside destination on_path] in *; [done|].
  destruct Hs as [Hf Hs]. destruct (move d x y) as [x1 y1] eqn:Em. destruct Hs as [Hc1 Hs].
  destruct (IH x1 y1 Hc1 Hs) as [Hd Hp]. split; [done|]. intros a b [Hg|Hg]; [|by apply Hp].
  unfold centre_inside in Hc1. destruct d; cbn [move] in Em; injection Em as <- <-; unfold segment in Hg; lia.
Qed.
Lemma print_solution_drawn m im sol im' :
  i_width im < 2 ^ 32 - 10 -> i_height im < 2 ^ 32 - 10 ->
  print_maze_solution m im sol = Ret (Ok im') ->
  (forall a b, (red_pixel (rev sol) a b -> i_pix im' a b = RED_PIXEL) /\
               (~ red_pixel (rev sol) a b -> i_pix im' a b = i_pix im a b)) /\
  forall a b, red_pixel (rev sol) a b -> a < i_width im /\ b < i_height im.
Proof.
  intros Hw Hh E. destruct (print_solution_spec m im sol Hw Hh) as (S1&S2&S3).
  destruct (print_solution_inside m im sol im' Hw Hh E) as (_&_&_&Hin).
  destruct (decide (i_width im < 6)) as [H|H6w]; [rewrite (proj2 S1 (or_introl H)) in E; done|].
  destruct (decide (i_height im < 6)) as [H|H6h]; [rewrite (proj2 S1 (or_intror H)) in E; done|].
  assert (~ ~ (steps_allowed (i_width im) (i_height im) (rev sol) 0 0 /\
               10 * (destination (rev sol) 0 0).2 + 16 <= i_height im)) as Hok.
  { intros Hn. rewrite (proj2 S2) in E; [done|]. split_and!; [lia|lia|done]. }
  assert (forall ds x y, Decision (steps_allowed (i_width im) (i_height im) ds x y)) as Hdec.
  { intros ds. induction ds as [|d ds IH]; intros x y; cbn; [by left|].
    destruct (move d x y) as [x' y']. apply and_dec; [destruct d; apply _|].
    apply and_dec; [apply and_dec; apply _|apply IH]. }
  assert (steps_allowed (i_width im) (i_height im) (rev sol) 0 0 /\
               10 * (destination (rev sol) 0 0).2 + 16 <= i_height im) as Hok'.
  { destruct (decide (steps_allowed (i_width im) (i_height im) (rev sol) 0 0)) as [Hs|Hs]; [|destruct Hok; tauto].
    split; [done|]. destruct (decide (10 * (destination (rev sol) 0 0).2 + 16 <= i_height im)); [done|]. destruct Hok; tauto. }
  destruct (S3 ltac:(lia) ltac:(lia) Hok') as (im2&E2&_&_&Hred). assert (im2 = im') as -> by congruence.
  split; [done|]. destruct (on_path_inside (i_width im) (i_height im) (rev sol) 0 0) as [[Hdx Hdy] Hp]; [split; lia|done|].
  intros a b [?|[Hr|?]]; [lia|by apply Hp|lia].
Qed.

(** The red line hides no wall iff it walks through openings. *)
Lemma drawing_valid (m : mode) m' w h g im sol im' :
  printable m w h -> w * h <= 2 ^ 32 -> i_width im < 2 ^ 32 - 10 -> i_height im < 2 ^ 32 - 10 ->
  print_maze m w h g = Ret (Ok im) -> print_maze_solution m' im sol = Ret (Ok im') ->
  (forall x y, x < i_width im -> y < i_height im -> i_pix im x y = BLACK_PIXEL -> i_pix im' x y = BLACK_PIXEL) <->
  exists j nd, follows (N.to_nat w) g (rev sol) 0 j /\ g !! j = Some nd /\ m_down nd = false.
Proof.
  intros Hp Hs Hw Hh E E'. destruct (print_ok_size m w h g im Hp E) as (Hl&Hw1&Hh1).
  destruct (print_maze_exact m w h g Hl Hp Hs) as (i1&F1&_&_&P1). assert (i1 = im) as -> by congruence.
  destruct (print_solution_spec m' im sol Hw Hh) as (S1&S2&S3).
  destruct (print_solution_inside m' im sol im' Hw Hh E') as (_&_&_&Hin).
  rewrite Hw1, Hh1 in Hin.
  assert (0 < w /\ 0 < h) as [Hw0 Hh0].
  { destruct (decide (i_width im < 6)) as [H|H]; [rewrite (proj2 S1 (or_introl H)) in E'; done|].
    destruct (decide (i_height im < 6)) as [H'|H']; [rewrite (proj2 S1 (or_intror H')) in E'; done|]. lia. }
  rewrite <-(red_clear w h g ltac:(lia) (rev sol) Hw0 Hh0 Hin).
  destruct (print_solution_drawn m' im sol im' Hw Hh E') as [Hred Hi6]. split.
  - intros Hb a b Hr Hwl. destruct (Hi6 a b Hr) as [Ha Hb'].
    pose proof (Hb a b Ha Hb' (proj1 (P1 a b Ha Hb') Hwl)) as Hk. rewrite (proj1 (Hred a b) Hr) in Hk.
    by destruct black_white as [_ []].
  - intros Hc a b Ha Hb Hk. assert (~ red_pixel (rev sol) a b) as Hn.
    { intros Hr. rewrite (proj2 (P1 a b Ha Hb) (Hc a b Hr)) in Hk. by destruct black_white as [[] _]. }
    by rewrite (proj2 (Hred a b) Hn).
Qed.
