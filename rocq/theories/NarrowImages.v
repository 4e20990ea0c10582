(** Texts and images with 32-bit words. *)
From Verif Require Import Base SpecWord Image Maze MazePrint Nonogram NonogramPrint NonogramRect.
From Verif Require Import SpecNonogramText SpecMazePrint SpecPrint SpecPrintAll SpecNonogramRect.
From Verif Require Import NonogramParseProofs MazePrintProofs PrintProofs NonogramRectProofs.
Local Open Scope N_scope.

Lemma good_rule_words bound t vs : bound < 2 ^ 32 -> good_rule W32 bound t vs <-> good_rule W64 bound t vs.
Proof.
  intros Hb. unfold good_rule, rule_text. split; intros [(items&Hs&Hi) Hm]; (split; [|done]); exists items; (split; [done|]).
  - eapply Forall2_impl; [exact Hi|]. intros x v (ds&H1&H2&H3&H4&H5). exists ds. split_and!; try done. cbn [limit] in *. lia.
  - assert (Forall (fun v => v < 2 ^ 32) vs) as Hv.
    { apply Forall_forall. intros v Hv. assert (v <= rule_sum vs); [|unfold min_length in Hm; lia].
      clear -Hv. induction vs as [|u vs IH]; [by apply elem_of_nil in Hv|]. unfold rule_sum. cbn [foldr]. fold (rule_sum vs).
      apply elem_of_cons in Hv as [->|Hv]; [lia|]. specialize (IH Hv). lia. }
    clear -Hi Hv. induction Hi as [|x v items vs (ds&H1&H2&H3&H4&H5) _ IH]; [constructor|]. apply Forall_cons in Hv as [Hv Hvs].
    constructor; [|by apply IH]. by exists ds.
Qed.
Lemma parse_words p p' s bound vss : bound < 2 ^ 32 ->
  p = Debug \/ no_overflow W32 s -> p' = Debug \/ no_overflow W64 s ->
  parse_nonogram_rules (Mode p W32) s bound = Ret (Ok vss) <-> parse_nonogram_rules (Mode p' W64) s bound = Ret (Ok vss).
Proof.
  intros Hb Hp Hp'. rewrite !parse_ok by (done || (cbn [limit word_of]; lia)). cbn [word_of].
  split; intros (rules&Hs&Hf); exists rules; (split; [done|]); (eapply Forall2_impl; [exact Hf|]); intros t vs; by apply good_rule_words.
Qed.

Lemma maze_cells (m : mode) width height grid : word_of m = W32 ->
  width * height = N.of_nat (length grid) -> printable m width height ->
  exists im, print_maze m width height grid = Ret (Ok im) /\
    i_width im = 10 * width + 1 /\ i_height im = 10 * height + 1 /\
    forall x y, x < i_width im -> y < i_height im ->
      (wall_pixel width grid x y -> i_pix im x y = BLACK_PIXEL) /\
      (~ wall_pixel width grid x y -> i_pix im x y = WHITE_PIXEL).
Proof.
  intros Hm Hl Hp. apply print_maze_exact; [done|done|]. destruct Hp as (_&_&H). rewrite Hm in H. cbn [memory_limit] in H. nia.
Qed.

Lemma small_sides width height : side width * side height * 3 < 2 ^ 31 -> side width < 2 ^ 23 /\ side height < 2 ^ 23.
Proof.
  intros H. assert (150 <= side width) by (unfold side, margin; lia). assert (150 <= side height) by (unfold side, margin; lia). nia.
Qed.
Lemma nonogram_clues (m : mode) text width height col row : word_of m = W32 ->
  keeps_size text -> width = N.of_nat (length col) -> height = N.of_nat (length row) ->
  Forall (fun vs => min_length vs <= height) col -> drawable m width height col ->
  exists im, print_nonogram m text width height col row = Ret (Ok im) /\
    i_width im = side width /\ i_height im = side height /\
    forall x y, x < i_width im -> y < i_height im ->
      (nonogram_gray width height x y -> i_pix im x y = GRAY_PIXEL) /\
      (~ nonogram_gray width height x y ->
         i_pix im x y = i_pix (draw_texts text (col_texts width col ++ row_texts height row)
           (Image (side width) (side height) (fun _ _ => WHITE_PIXEL))) x y).
Proof.
  intros Hm Hk Hw Hh Hf (_&_&H&_). apply print_nonogram_exact; [done..|]. rewrite Hm in H |- *. cbn [memory_limit] in H.
  destruct (small_sides _ _ H) as [H1 H2]. split; [lia|]. split; [lia|]. split; [done|].
  eapply Forall_impl; [exact Hf|]. intros vs Hv. cbn beta in Hv. unfold min_length in Hv. unfold side in H2. lia.
Qed.
Lemma nonogram_squares (m : mode) width height im grid : word_of m = W32 ->
  N.of_nat (length grid) = width * height -> i_width im = side width -> i_height im = side height ->
  side width * side height * 3 < memory_limit m ->
  exists im', print_solution32 m width height im grid = Ret (Ok im') /\
    i_width im' = i_width im /\ i_height im' = i_height im /\
    forall x y, x < i_width im -> y < i_height im ->
      (filled_pixel width height grid x y -> i_pix im' x y = BLACK_PIXEL) /\
      (~ filled_pixel width height grid x y -> i_pix im' x y = i_pix im x y).
Proof.
  intros Hm Hl Hw Hh H. rewrite Hm in H. cbn [memory_limit] in H. destruct (small_sides _ _ H) as [H1 H2].
  assert (width * height < 2 ^ 32) as Hn.
  { assert (50 * width <= side width) by (unfold side; lia). assert (50 * height <= side height) by (unfold side; lia). nia. }
  assert (width * height < usize_size m) as Hn' by (rewrite Hm; exact Hn).
  destruct (print_solution_exact m width height im grid Hn' Hl Hw Hh) as (im1&E1&Hw1&Hh1&Hpx); [lia|lia|lia|].
  pose proof (rect_same m width height im grid Hn') as Hr. rewrite E1 in Hr.
  destruct (print_solution32 m width height im grid) as [[im'|e']|f]; [|destruct Hr; lia|destruct Hr; lia].
  destruct Hr as (Hw2&Hh2&Hp2); [lia|lia|lia|lia|]. exists im'. split; [done|]. split; [lia|]. split; [lia|].
  intros x y Hx Hy. rewrite Hp2 by lia. apply Hpx.
Qed.
