(** Images of nonograms and their solutions. *)
From Verif Require Import Base Image Nonogram NonogramPrint SpecPrint SpecNonogram SpecNonogramText PrintProofs NonogramProofs.
From Coq Require Import ZifyNat ZifyN.
Local Open Scope N_scope.

(** * Lines *)

Lemma gray_black : GRAY_PIXEL <> BLACK_PIXEL.
Proof. by vm_compute. Qed.

Lemma lines_covered : exists (m : mode) text col row im grid im' x y,
  keeps_size text /\ nonogram_printable m 1 1 col /\
  print_nonogram m text 1 1 col row = Ret (Ok im) /\ print_nonogram_solution m 1 1 im grid = Ret (Ok im') /\
  x < i_width im /\ y < i_height im /\ nonogram_gray 1 1 x y /\ i_pix im' x y <> GRAY_PIXEL.
Proof.
  assert (filled_pixel 1 1 [true] 151 170) as Hf.
  { exists 0, 0. split_and!; [done|done|..]; by vm_compute. }
  set (text := (fun im _ _ _ _ => im) : text_renderer).
  assert (keeps_size text) as Hk by done.
  assert (nonogram_printable (Mode Debug W64) 1 1 [[1]]) as Hp.
  { unfold nonogram_printable. split_and!; [by vm_compute..|]. repeat constructor. }
  destruct (print_nonogram_exact (Mode Debug W64) text 1 1 [[1]] [[1]] Hk eq_refl eq_refl Hp) as (im&E&Hw&Hh&_).
  destruct (print_solution_exact (Mode Debug W64) 1 1 im [true] eq_refl eq_refl Hw Hh eq_refl eq_refl) as (im'&E'&_&_&Hpx); [by vm_compute|].
  exists (Mode Debug W64), text, [[1]], [[1]], im, [true], im', 151, 170. rewrite Hw, Hh.
  split; [exact Hk|]. split; [exact Hp|]. split; [exact E|]. split; [exact E'|].
  clear E E'. split; [by vm_compute|]. split; [by vm_compute|]. split.
  - left. exists 0. split; [done|]. right. split; [done|by left].
  - rewrite (proj1 (Hpx 151 170) Hf). clear. by vm_compute.
Qed.

(** The middle pixel row or column of every line stays. *)
Lemma middle_lines (m : mode) text w h col row im grid im' x y :
  keeps_size text -> nonogram_printable m w h col -> w * h <= 2 ^ 32 ->
  print_nonogram m text w h col row = Ret (Ok im) -> print_nonogram_solution m w h im grid = Ret (Ok im') ->
  x < i_width im -> y < i_height im ->
  ((exists k, k < w /\ x = margin w + 50 * k) \/ exists k, k < h /\ y = margin h + 50 * k) ->
  i_pix im' x y = GRAY_PIXEL.
Proof.
  intros Hk Hp Hwh E E' Hx Hy Hl.
  destruct (decide (w = N.of_nat (length col))) as [Hc|Hc]; [|rewrite (proj2 (print_nonogram_dim m text w h col row)) in E by (by left); done].
  destruct (decide (h = N.of_nat (length row))) as [Hr|Hr]; [|rewrite (proj2 (print_nonogram_dim m text w h col row)) in E by (by right); done].
  destruct (print_nonogram_exact m text w h col row Hk Hc Hr Hp) as (i1&F&Hw1&Hh1&Hpx). assert (i1 = im) as -> by congruence.
  pose proof (nonogram_printable_cells m w h col Hp) as Hcells. destruct Hp as (Hp1&Hp2&Hp3&_).
  assert (N.of_nat (length grid) = w * h) as Hg.
  { destruct (decide (N.of_nat (length grid) = w * h)) as [|Hn]; [done|].
    rewrite (proj2 (print_solution_dim m w h im grid Hcells ltac:(lia) ltac:(lia))) in E' by (by left). done. }
  destruct (print_solution_exact m w h im grid Hcells Hg Hw1 Hh1 Hp1 Hp2 Hwh) as (i2&F2&_&_&Hpx2). assert (i2 = im') as -> by congruence.
  rewrite (proj2 (Hpx2 x y)).
  - apply (Hpx x y Hx Hy). destruct Hl as [(k&?&?)|(k&?&?)]; [left|right]; exists k; (split; [done|by left]).
  - intros (c&r&_&_&Hcx&Hcy). destruct Hl as [(k&?&?)|(k&?&?)]; lia.
Qed.

(** * Texts *)

Lemma sum_count (rule : list N) : Forall (fun v => v <> 0) rule -> N.of_nat (length rule) <= foldr N.add 0 rule.
Proof. induction 1; cbn [length foldr]; lia. Qed.

(** Every column clue text begins above the grid. *)
Lemma col_text_in width col x y s t : (x, y, s, t) ∈ col_texts width col ->
  exists rule k, rule ∈ col /\ (k < length rule)%nat /\ y = (30 * Z.of_nat k + 10)%Z.
Proof.
  unfold col_texts. rewrite elem_of_list_join. intros (l&Hin&Hl).
  apply elem_of_lookup_imap in Hl as (i&rule&->&Hi).
  apply elem_of_lookup_imap in Hin as (k&v&E&Hk). injection E as _ -> _ _.
  exists rule, k. split_and!; [by eapply elem_of_list_lookup_2|by eapply lookup_lt_Some|done].
Qed.
Lemma texts_above height width col x y s t :
  Forall (fun rule => min_length rule <= height) col ->
  (height <= 10 /\ Forall (Forall (fun v => v <> 0)) col) \/ height <= 4 ->
  (x, y, s, t) ∈ col_texts width col -> (y < Z.of_N (margin height))%Z.
Proof.
  intros Hm Hh Hin. apply col_text_in in Hin as (rule&k&Hr&Hk&->).
  rewrite Forall_forall in Hm. specialize (Hm rule Hr). unfold min_length, rule_sum in Hm. unfold margin.
  destruct Hh as [[Hh Hp]|Hh].
  - rewrite Forall_forall in Hp. pose proof (sum_count rule (Hp rule Hr)). lia.
  - lia.
Qed.

Lemma sum_ones n : foldr N.add 0 (replicate n 1) = N.of_nat n.
Proof. induction n; cbn [replicate foldr]; lia. Qed.
Lemma texts_overlap height : 11 <= height -> exists rule,
  min_length rule <= height /\ Forall (fun v => v <> 0) rule /\
  forall width, exists x y s t, (x, y, s, t) ∈ col_texts width [rule] /\ (Z.of_N (margin height) <= y)%Z.
Proof.
  intros Hh. set (n := N.to_nat ((height + 1) / 2)). exists (replicate n 1). split_and!.
  - unfold min_length, rule_sum. rewrite sum_ones, replicate_length. subst n.
    pose proof (N.div_mod (height + 1) 2 ltac:(done)). pose proof (N.mod_lt (height + 1) 2 ltac:(done)). lia.
  - by apply Forall_replicate.
  - intros width. eexists _, (30 * Z.of_nat (n - 1) + 10)%Z, _, _. split.
    + unfold col_texts. apply elem_of_list_join. eexists. split; cycle 1.
      * apply elem_of_lookup_imap. exists 0%nat, (replicate n 1). split; [reflexivity|done].
      * apply elem_of_lookup_imap. exists (n - 1)%nat, 1. split; [reflexivity|]. apply lookup_replicate_2.
        subst n. pose proof (N.div_mod (height + 1) 2 ltac:(done)). pose proof (N.mod_lt (height + 1) 2 ltac:(done)). lia.
    + unfold margin. subst n. pose proof (N.div_mod (height + 1) 2 ltac:(done)). pose proof (N.mod_lt (height + 1) 2 ltac:(done)). lia.
Qed.

(** * The printed solution *)

Lemma print_ok m text w h col row im : print_nonogram m text w h col row = Ret (Ok im) ->
  w = N.of_nat (length col) /\ h = N.of_nat (length row).
Proof.
  intros E. split.
  - destruct (decide (w = N.of_nat (length col))) as [|Hc]; [done|].
    rewrite (proj2 (print_nonogram_dim m text w h col row)) in E by (by left). done.
  - destruct (decide (h = N.of_nat (length row))) as [|Hc]; [done|].
    rewrite (proj2 (print_nonogram_dim m text w h col row)) in E by (by right). done.
Qed.

(** The image of a solved grid shows the grid. *)
Lemma solution_injective (m m' : mode) w h im g g' im1 im2 :
  w * h < limit m -> w * h < limit m' ->
  side w < 2 ^ 31 -> side h < 2 ^ 31 -> w * h <= 2 ^ 32 ->
  (forall c r, c < w -> r < h -> exists x y, cell_interior w h c r x y /\ i_pix im x y <> BLACK_PIXEL) ->
  print_nonogram_solution m w h im g = Ret (Ok im1) -> print_nonogram_solution m' w h im g' = Ret (Ok im2) ->
  (forall x y, x < i_width im -> y < i_height im -> i_pix im1 x y = i_pix im2 x y) -> g = g'.
Proof.
  intros Hm Hm' Hw Hh Hwh Hcell E1 E2 Heq.
  assert (forall (m : mode) g im', w * h < limit m -> print_nonogram_solution m w h im g = Ret (Ok im') ->
    N.of_nat (length g) = w * h /\ i_width im = side w /\ i_height im = side h /\
    forall x y, (filled_pixel w h g x y -> i_pix im' x y = BLACK_PIXEL) /\
                (~ filled_pixel w h g x y -> i_pix im' x y = i_pix im x y)) as Hex.
  { clear -Hw Hh Hwh. intros m g im' Hcells E.
    pose proof (proj2 (print_solution_dim m w h im g Hcells ltac:(lia) ltac:(lia))) as Hd. rewrite E in Hd.
    destruct (decide (N.of_nat (length g) = w * h)) as [Hg|]; [|by discriminate Hd; left].
    destruct (decide (i_width im = side w)) as [H1|]; [|by discriminate Hd; right; left].
    destruct (decide (i_height im = side h)) as [H2|]; [|by discriminate Hd; right; right].
    destruct (print_solution_exact m w h im g Hcells Hg H1 H2 Hw Hh Hwh) as (i2&F2&_&_&Hpx2).
    assert (i2 = im') as -> by congruence. done. }
  destruct (Hex m g im1 Hm E1) as (L1&S1&S2&P1). destruct (Hex m' g' im2 Hm' E2) as (L2&_&_&P2). clear Hex.
  apply list_eq_same_length with (length g); [lia|done|]. intros i b b' Hi Hb Hb'.
  assert (w <> 0) as Hw0 by lia.
  set (c := N.of_nat i mod w). set (r := N.of_nat i / w). assert (c < w) as Hc by (by apply N.mod_lt).
  pose proof (N.div_mod (N.of_nat i) w Hw0) as Hdm. fold r c in Hdm.
  assert (N.to_nat (r * w + c) = i) as Hi' by lia.
  assert (r < h) as Hr. { apply N.div_lt_upper_bound; lia. }
  destruct (Hcell c r Hc Hr) as (x&y&Hxy&Hnb).
  assert (forall g b, g !! i = Some b -> filled_pixel w h g x y <-> b = true) as Hf.
  { clear -Hc Hxy Hi'. intros g b Hg. split.
    - intros (c'&r'&Hc'&Hg'&Hx'&Hy'). destruct Hxy as [Hx Hy]. assert (c' = c) as -> by lia. assert (r' = r) as -> by lia.
      rewrite Hi' in Hg'. congruence.
    - intros ->. exists c, r. by rewrite Hi'. }
  pose proof (Hf g b Hb) as F1. pose proof (Hf g' b' Hb') as F2.
  assert (i_pix im1 x y = i_pix im2 x y) as Hpx.
  { apply Heq; rewrite ?S1, ?S2; destruct Hxy; unfold side; lia. }
  destruct (P1 x y) as [A1 B1]. destruct (P2 x y) as [A2 B2]. rewrite F1 in A1, B1. rewrite F2 in A2, B2.
  destruct b, b'; try done.
  - rewrite A1, B2 in Hpx by done. by destruct Hnb.
  - rewrite B1, A2 in Hpx by done. by destruct Hnb.
Qed.

(** From the clues to the picture. *)
Lemma pipeline (m : mode) text col row im g :
  let ncol := map (map N.to_nat) col in let nrow := map (map N.to_nat) row in
  let w := N.of_nat (length col) in let h := N.of_nat (length row) in
  keeps_size text -> nonogram_printable m w h col -> w * h <= 2 ^ 32 ->
  print_nonogram m text w h col row = Ret (Ok im) -> solve_nonogram m ncol nrow = Ret (Ok g) ->
  exists im', print_nonogram_solution m w h im g = Ret (Ok im') /\
    forall b c r x y, solution ncol nrow b -> cell_interior w h c r x y -> c < w -> r < h ->
      i_pix im' x y <> i_pix im x y -> i_pix im' x y = BLACK_PIXEL /\ b !! N.to_nat (r * w + c) = Some true.
Proof.
  intros ncol nrow w h Hk Hp Hwh E Es.
  assert (N.of_nat (length ncol * length nrow) < usize_size m) as Hn.
  { unfold ncol, nrow. rewrite !map_length. pose proof (nonogram_printable_cells m w h col Hp). unfold w, h in *. lia. }
  destruct (print_nonogram_exact m text w h col row Hk eq_refl eq_refl Hp) as (i1&F&Hw1&Hh1&_). assert (i1 = im) as -> by congruence.
  pose proof (nonogram_printable_cells m w h col Hp) as Hcells. destruct Hp as (Hp1&Hp2&Hp3&_).
  assert (N.of_nat (length g) = w * h) as Hg.
  { rewrite (solve_length m ncol nrow Hn g Es). unfold ncol, nrow. rewrite !map_length. lia. }
  destruct (print_solution_exact m w h im g Hcells Hg Hw1 Hh1 Hp1 Hp2 Hwh) as (im'&E'&_&_&Hpx).
  exists im'. split; [done|]. intros b c r x y Hb Hxy Hc Hr Hne.
  destruct (Hpx x y) as [H1 H2].
  assert (0 < w) by lia.
  assert (exists v, g !! N.to_nat (r * w + c) = Some v) as [v Hv].
  { apply lookup_lt_is_Some_2. assert ((r + 1) * w <= h * w) by (apply N.mul_le_mono_r; lia). lia. }
  destruct v.
  - split.
    + apply H1. exists c, r. done.
    + exact (solve_sound m ncol nrow Hn g b _ Es Hb Hv).
  - destruct Hne. apply H2. intros (c'&r'&Hc'&Hg'&Hx'&Hy'). destruct Hxy as [Hx Hy].
    assert (c' = c) as -> by lia. assert (r' = r) as -> by lia. congruence.
Qed.
