(** Proofs about [print_sudoku], [print_nonogram] and [print_nonogram_solution]. *)
From Coq Require Import ZifyBool ZifyNat ZifyN.
From Verif Require Import Base Image ImageProofs Dlx Sudoku Nonogram NonogramPrint SpecPrint.
Local Open Scope N_scope.

Lemma seq_painted c P Q im1 im2 r :
  painted c P im1 im2 -> (exists im3, r = Ret im3 /\ painted c Q im2 im3) ->
  exists im3, r = Ret im3 /\ painted c (fun x y => P x y || Q x y) im1 im3.
Proof. intros HP (im3&->&HQ). exists im3. split; [done|]. by eapply painted_trans. Qed.

(** * Sudoku *)
Definition thick (g : N) : bool := (g mod 3 =? 0) && negb (g =? 0) && negb (g =? 8).
Definition grid_bool (g l a b : N) : bool :=
  (thick g && ((((a =? l) && (b =? g * 100 + 1) || (a =? l) && (b =? g * 100 - 1)) ||
    (a =? g * 100 + 1) && (b =? l)) || (a =? g * 100 - 1) && (b =? l))) ||
  ((a =? l) && (b =? g * 100) || (a =? g * 100) && (b =? l)).

Lemma draw_grid_painted im : i_width im = 900 -> i_height im = 900 ->
  exists im', draw_grid im = Ret im' /\
    painted BLACK_PIXEL (fun a b => existsb (fun g => existsb (fun l => grid_bool g l a b) (range 0 900)) (range 0 9)) im im'.
Proof.
  intros W H. assert (HU : u32_size = 4294967296) by done. unfold draw_grid. change IMAGE_SIZE with 900.
  apply foldM_painted. intros g im1 Hg W1 H1. apply elem_of_range in Hg.
  apply foldM_painted. intros l im2 Hl W2 H2. apply elem_of_range in Hl.
  rewrite u32_mul_ok by lia. cbn [bind].
  change ((g mod 3 =? 0) && negb (g =? 0) && negb (g =? 8)) with (thick g). unfold grid_bool.
  destruct (thick g) eqn:Ht.
  - assert (1 <= g) as Hg' by (unfold thick in Ht; lia). clear Ht.
    rewrite u32_add_ok by lia. cbn [bind]. rewrite u32_sub_ok by lia. cbn [bind andb].
    destruct (put_pixel_painted im2 l (g * 100 + 1) BLACK_PIXEL) as (im3&E3&P3); [lia..|].
    rewrite E3. cbn [bind]. pose proof (pt_width _ _ _ _ P3). pose proof (pt_height _ _ _ _ P3).
    destruct (put_pixel_painted im3 l (g * 100 - 1) BLACK_PIXEL) as (im4&E4&P4); [lia..|].
    rewrite E4. cbn [bind]. pose proof (pt_width _ _ _ _ P4). pose proof (pt_height _ _ _ _ P4).
    destruct (put_pixel_painted im4 (g * 100 + 1) l BLACK_PIXEL) as (im5&E5&P5); [lia..|].
    rewrite E5. cbn [bind]. pose proof (pt_width _ _ _ _ P5). pose proof (pt_height _ _ _ _ P5).
    destruct (put_pixel_painted im5 (g * 100 - 1) l BLACK_PIXEL) as (im6&E6&P6); [lia..|].
    rewrite E6. cbn [bind]. pose proof (pt_width _ _ _ _ P6). pose proof (pt_height _ _ _ _ P6).
    destruct (put_pixel_painted im6 l (g * 100) BLACK_PIXEL) as (im7&E7&P7); [lia..|].
    rewrite E7. cbn [bind]. pose proof (pt_width _ _ _ _ P7). pose proof (pt_height _ _ _ _ P7).
    destruct (put_pixel_painted im7 (g * 100) l BLACK_PIXEL) as (im8&E8&P8); [lia..|].
    rewrite E8. eexists. split; [done|].
    eapply painted_trans; [eapply painted_trans; [eapply painted_trans; [eapply painted_trans|]|]
      |eapply painted_trans]; eassumption.
  - cbn [bind andb orb].
    destruct (put_pixel_painted im2 l (g * 100) BLACK_PIXEL) as (im7&E7&P7); [lia..|].
    rewrite E7. cbn [bind]. pose proof (pt_width _ _ _ _ P7). pose proof (pt_height _ _ _ _ P7).
    destruct (put_pixel_painted im7 (g * 100) l BLACK_PIXEL) as (im8&E8&P8); [lia..|].
    rewrite E8. eexists. split; [done|]. eapply painted_trans; eassumption.
Qed.

Lemma grid_bool_true g l a b : grid_bool g l a b = true <->
  (thick g = true /\ ((a = l /\ (b = g * 100 + 1 \/ b = g * 100 - 1)) \/
                      (b = l /\ (a = g * 100 + 1 \/ a = g * 100 - 1)))) \/
  (a = l /\ b = g * 100) \/ (a = g * 100 /\ b = l).
Proof.
  unfold grid_bool.
  repeat (rewrite orb_true_iff || rewrite andb_true_iff || rewrite N.eqb_eq). tauto.
Qed.
Lemma thick_true g : g < 9 -> thick g = true <-> g = 3 \/ g = 6.
Proof.
  intros Hg. unfold thick. rewrite !andb_true_iff, !negb_true_iff, !N.eqb_neq, N.eqb_eq.
  split; [|intros [-> | ->]; done]. intros [[Hm H0] H8].
  assert (g = 1 \/ g = 2 \/ g = 3 \/ g = 4 \/ g = 5 \/ g = 6 \/ g = 7) as Hc by lia.
  destruct Hc as [-> | [-> | [-> | [-> | [-> | [-> | ->]]]]]]; try done; auto.
Qed.
Lemma sudoku_line_iff v : v < 900 -> sudoku_line v <->
  exists g, g < 9 /\ (v = g * 100 \/ ((g = 3 \/ g = 6) /\ (v = g * 100 + 1 \/ v = g * 100 - 1))).
Proof.
  intros Hv. unfold sudoku_line. split.
  - intros [Hm|Hb].
    + exists (v / 100). pose proof (N.div_mod v 100 ltac:(done)) as Hd. rewrite Hm in Hd.
      revert Hd. generalize (v / 100). clear Hm. intros q Hd. split; [lia|left; lia].
    + destruct Hb as [-> | [-> | [-> | ->]]].
      * exists 3. split; [done|right]. split; [by left|by right].
      * exists 3. split; [done|right]. split; [by left|by left].
      * exists 6. split; [done|right]. split; [by right|by right].
      * exists 6. split; [done|right]. split; [by right|by left].
  - intros (g&Hg&[->|[[-> | ->] [-> | ->]]]).
    + left. by apply N.mod_mul.
    + by right; right; left.
    + by right; left.
    + by right; right; right; right.
    + by right; right; right; left.
Qed.

Lemma grid_bool_spec x y : x < 900 -> y < 900 ->
  existsb (fun g => existsb (fun l => grid_bool g l x y) (range 0 900)) (range 0 9) = true <-> sudoku_black x y.
Proof.
  intros Hx Hy. rewrite range_exists. setoid_rewrite range_exists. setoid_rewrite grid_bool_true.
  unfold sudoku_black. rewrite !sudoku_line_iff by done. split.
  - intros (g&[_ Hg]&l&Hl&[[Ht Hb]|Hb]).
    + apply thick_true in Ht; [|done].
      destruct Hb as [[_ Hb]|[_ Hb]]; [right|left]; exists g; auto.
    + destruct Hb as [[_ Hb]|[Hb _]]; [right|left]; exists g; auto.
  - intros [(g&Hg&Hb)|(g&Hg&Hb)]; exists g; (split; [lia|]).
    + exists y. split; [lia|]. destruct Hb as [Hb|[Ht Hb]]; [by right; right|left].
      split; [by apply thick_true|]. right. auto.
    + exists x. split; [lia|]. destruct Hb as [Hb|[Ht Hb]]; [by right; left|left].
      split; [by apply thick_true|]. left. auto.
Qed.

Lemma draw_digits_texts text puzzle im :
  draw_digits text puzzle im = draw_texts text (sudoku_texts puzzle) im.
Proof.
  unfold draw_digits, sudoku_texts, draw_texts. change (imap pair puzzle) with (enumerate puzzle).
  generalize (enumerate puzzle) as l. intros l. revert im.
  induction l as [|[i v] l IH]; intros im; cbn [fold_left]; [done|].
  cbn [omap list_omap]. destruct (v =? 0); cbn [fold_left]; [apply IH|].
  rewrite <-IH. f_equal. f_equal; lia.
Qed.

Lemma print_sudoku_spec text puzzle :
  (print_sudoku text puzzle = Ret (Err (InvalidSize (length puzzle))) <-> length puzzle <> 81%nat) /\
  (length puzzle = 81%nat -> exists lines,
     print_sudoku text puzzle = Ret (Ok (draw_texts text (sudoku_texts puzzle) lines)) /\
     i_width lines = 900 /\ i_height lines = 900 /\
     forall x y, x < 900 -> y < 900 ->
       (sudoku_black x y -> i_pix lines x y = BLACK_PIXEL) /\
       (~ sudoku_black x y -> i_pix lines x y = WHITE_PIXEL)).
Proof.
  assert (Hok : length puzzle = 81%nat -> exists lines,
     print_sudoku text puzzle = Ret (Ok (draw_texts text (sudoku_texts puzzle) lines)) /\
     i_width lines = 900 /\ i_height lines = 900 /\
     forall x y, x < 900 -> y < 900 ->
       (sudoku_black x y -> i_pix lines x y = BLACK_PIXEL) /\
       (~ sudoku_black x y -> i_pix lines x y = WHITE_PIXEL)).
  { intros Hl. unfold print_sudoku. rewrite Hl. rewrite decide_False by (intros H; by apply H).
    rewrite from_pixel_ok by done. cbn [bind]. change IMAGE_SIZE with 900.
    destruct (draw_grid_painted (Image 900 900 (fun _ _ => WHITE_PIXEL))) as (im&E&[W H P]); [done..|].
    rewrite E. cbn [bind]. rewrite draw_digits_texts. exists im. split_and!; [done|done|done|].
    intros x y Hx Hy. rewrite P, <-grid_bool_spec by done.
    generalize (existsb (fun g => existsb (fun l => grid_bool g l x y) (range 0 900)) (range 0 9)).
    clear. intros []; naive_solver. }
  split; [|done]. split.
  - intros H Hl. destruct (Hok Hl) as (lines&E&_). congruence.
  - intros Hl. unfold print_sudoku. by rewrite decide_True.
Qed.

(** * Nonograms *)
Lemma rule_space_ok m n : side n < u32_size -> rule_space m n = Ret (margin n).
Proof.
  intros H. unfold rule_space, side, margin in *. rewrite u32_mul_ok by lia. cbn [bind].
  by rewrite (N.mul_comm n).
Qed.

Lemma draw_texts_app text l l' im : draw_texts text (l ++ l') im = draw_texts text l' (draw_texts text l im).
Proof. unfold draw_texts. apply fold_left_app. Qed.

Lemma draw_texts_size text l im : keeps_size text ->
  i_width (draw_texts text l im) = i_width im /\ i_height (draw_texts text l im) = i_height im.
Proof.
  intros Hk. revert im. induction l as [|[[[x y] s] t] l IH]; intros im; [done|].
  destruct (IH (text im x y s t)) as [H1 H2]. destruct (Hk im x y s t) as [H3 H4].
  change (draw_texts text ((x, y, s, t) :: l) im) with (draw_texts text l (text im x y s t)).
  split; congruence.
Qed.

Lemma as_i32_small x : x < 2 ^ 31 -> as_i32 x = Z.of_N x.
Proof. intros H. unfold as_i32. by destruct (N.ltb_spec x (2 ^ 31)); [|lia]. Qed.

Lemma foldM_texts {A} text (f : A -> image -> res image) (T : A -> list (Z * Z * N * list N)) l im :
  (forall a im, a ∈ l -> f a im = Ret (draw_texts text (T a) im)) ->
  foldM f l im = Ret (draw_texts text (mjoin (T <$> l)) im).
Proof.
  revert im. induction l as [|a l IH]; intros im H; [done|].
  cbn [foldM]. rewrite H by apply elem_of_list_here. cbn [bind].
  rewrite IH by (intros; apply H; by apply elem_of_list_further).
  f_equal. change (mjoin (T <$> a :: l)) with (T a ++ mjoin (T <$> l)). by rewrite draw_texts_app.
Qed.

Lemma enumerate_fmap {A B} (f : nat -> A -> B) (l : list A) :
  (fun p => f p.1 p.2) <$> enumerate l = imap f l.
Proof. unfold enumerate. by rewrite fmap_imap. Qed.

Lemma mjoin_singletons {A B} (f : A -> B) (l : list A) : mjoin ((fun a => [f a]) <$> l) = f <$> l.
Proof. induction l as [|a l IH]; [done|]. cbn. f_equal. apply IH. Qed.

Lemma nonogram_printable_cells (m : mode) width height col : nonogram_printable m width height col -> width * height < usize_size m.
Proof.
  intros (_&_&Hs&_). rewrite bytes_max in Hs. pose proof (isize_usize m).
  assert (width <= side width) by (unfold side; lia). assert (height <= side height) by (unfold side; lia). nia.
Qed.

Lemma draw_col_rules_texts (m : mode) text width height col im :
  width = N.of_nat (length col) -> nonogram_printable m width height col ->
  draw_col_rules m text (margin width) col im = Ret (draw_texts text (col_texts width col) im).
Proof.
  intros Hw (Hsw&Hsh&_&Hcol). assert (HU : u32_size = 4294967296) by done.
  change (2 ^ 31) with 2147483648 in *. unfold draw_col_rules, col_texts.
  rewrite (foldM_texts text _ (fun c => imap (fun y v =>
    ((50 * Z.of_nat c.1 + Z.of_N (margin width) + 15)%Z, (30 * Z.of_nat y + 10)%Z, 30, to_decimal v)) c.2)).
  { rewrite (enumerate_fmap (fun x rule => imap (fun y v =>
      ((50 * Z.of_nat x + Z.of_N (margin width) + 15)%Z, (30 * Z.of_nat y + 10)%Z, 30, to_decimal v)) rule)). done. }
  intros [x rule] im1 Hx. apply elem_of_enumerate in Hx. cbn [fst snd].
  pose proof (lookup_lt_Some _ _ _ Hx) as Hlt. rewrite Forall_lookup in Hcol.
  pose proof (Hcol _ _ Hx) as Hr. unfold side in Hsw.
  unfold as_u32 at 1. rewrite N.mod_small by lia. rewrite u32_mul_ok by lia. cbn [bind].
  rewrite u32_add_ok by lia. cbn [bind]. rewrite u32_add_ok by lia. cbn [bind].
  rewrite (foldM_texts text _ (fun c => [((50 * Z.of_nat x + Z.of_N (margin width) + 15)%Z, (30 * Z.of_nat c.1 + 10)%Z, 30, to_decimal c.2)])).
  { by rewrite mjoin_singletons, (enumerate_fmap (fun y v =>
      ((50 * Z.of_nat x + Z.of_N (margin width) + 15)%Z, (30 * Z.of_nat y + 10)%Z, 30, to_decimal v))). }
  intros [y v] im2 Hy. apply elem_of_enumerate in Hy. cbn [fst snd]. apply lookup_lt_Some in Hy.
  unfold as_u32. rewrite N.mod_small by lia. rewrite u32_mul_ok by lia. cbn [bind].
  rewrite u32_add_ok by lia. cbn [bind]. rewrite !as_i32_small by (change (2 ^ 31) with 2147483648; lia).
  unfold draw_texts; cbn [fold_left]. do 2 f_equal; lia.
Qed.

Lemma join_text_spaced l : join_text [32; 32] l = spaced l.
Proof. induction l as [|x [|y l] IH]; [done..|]. cbn [join_text spaced] in *. by rewrite IH. Qed.

Lemma draw_row_rules_texts (m : mode) text width height col row im :
  height = N.of_nat (length row) -> nonogram_printable m width height col ->
  draw_row_rules m text (margin height) row im = Ret (draw_texts text (row_texts height row) im).
Proof.
  intros Hw (Hsw&Hsh&_&_). assert (HU : u32_size = 4294967296) by done.
  change (2 ^ 31) with 2147483648 in *. unfold draw_row_rules, row_texts.
  rewrite (foldM_texts text _ (fun c => [(10%Z, (50 * Z.of_nat c.1 + Z.of_N (margin height) + 10)%Z, 30, spaced (to_decimal <$> c.2))])).
  { by rewrite mjoin_singletons, (enumerate_fmap (fun y rule =>
      (10%Z, (50 * Z.of_nat y + Z.of_N (margin height) + 10)%Z, 30, spaced (to_decimal <$> rule)))). }
  intros [y rule] im1 Hy. apply elem_of_enumerate in Hy. cbn [fst snd]. apply lookup_lt_Some in Hy.
  unfold side in Hsh.
  unfold as_u32. rewrite N.mod_small by lia. rewrite u32_mul_ok by lia. cbn [bind].
  rewrite u32_add_ok by lia. cbn [bind]. rewrite u32_add_ok by lia. cbn [bind].
  rewrite as_i32_small by (change (2 ^ 31) with 2147483648; lia). rewrite join_text_spaced.
  unfold draw_texts; cbn [fold_left]. do 2 f_equal; lia.
Qed.

(** Lines along one axis: [v] is the coordinate across the lines. *)
Definition line_bool (mg k v : N) : bool :=
  (v =? k * 50 + mg) || (k mod 5 =? 0) && ((v =? k * 50 + mg + 1) || (v =? k * 50 + mg - 1)).

Lemma line_bool_spec n v :
  existsb (fun k => line_bool (margin n) k v) (range 0 n) = true <-> grid_line n v.
Proof.
  rewrite range_exists. unfold grid_line, line_bool.
  assert (150 <= margin n) by (unfold margin; lia).
  split; intros (k&Hk&Hb); exists k; (split; [lia|]).
  - rewrite !orb_true_iff, andb_true_iff, orb_true_iff, !N.eqb_eq in Hb.
    destruct Hb as [Hb|[Hm [Hb|Hb]]]; [left|right; split; [done|left]|right; split; [done|right]]; lia.
  - rewrite !orb_true_iff, andb_true_iff, orb_true_iff, !N.eqb_eq.
    destruct Hb as [Hb|[Hm [Hb|Hb]]]; [left|right; split; [done|left]|right; split; [done|right]]; lia.
Qed.

Lemma draw_vlines_painted m width height im :
  i_width im = side width -> i_height im = side height -> side width < 2 ^ 32 -> side height < 2 ^ 32 ->
  exists im', draw_vlines m width height (margin width) (margin height) im = Ret im' /\
    painted GRAY_PIXEL (fun x y => existsb (fun k => existsb (fun l => line_bool (margin width) k x && (y =? l))
       (range 0 (side height))) (range 0 width)) im im'.
Proof.
  intros W H Hsw Hsh. assert (HU : u32_size = 4294967296) by done. change (2 ^ 32) with 4294967296 in *.
  assert (150 <= margin width) by (unfold margin; lia).
  unfold draw_vlines, side in *. apply foldM_painted. intros k im1 Hk W1 H1. apply elem_of_range in Hk.
  rewrite u32_mul_ok by lia. cbn [bind]. rewrite u32_add_ok by lia. cbn [bind]. rewrite (N.mul_comm height).
  apply foldM_painted. intros l im2 Hl W2 H2. apply elem_of_range in Hl.
  rewrite u32_mul_ok by lia. cbn [bind]. rewrite u32_add_ok by lia. cbn [bind].
  destruct (put_pixel_painted im2 (k * 50 + margin width) l GRAY_PIXEL) as (im3&E3&P3); [lia..|].
  rewrite E3. cbn [bind]. pose proof (pt_width _ _ _ _ P3). pose proof (pt_height _ _ _ _ P3).
  unfold line_bool. destruct (k mod 5 =? 0).
  - rewrite u32_add_ok by lia. cbn [bind].
    destruct (put_pixel_painted im3 (k * 50 + margin width + 1) l GRAY_PIXEL) as (im4&E4&P4); [lia..|].
    rewrite E4. cbn [bind]. pose proof (pt_width _ _ _ _ P4). pose proof (pt_height _ _ _ _ P4).
    rewrite u32_sub_ok by lia. cbn [bind].
    destruct (put_pixel_painted im4 (k * 50 + margin width - 1) l GRAY_PIXEL) as (im5&E5&P5); [lia..|].
    rewrite E5. eexists. split; [done|].
    eapply painted_ext; [eapply painted_trans; [eapply painted_trans|]; eassumption|].
    intros x y. cbn. by destruct (x =? _), (x =? _), (x =? _), (y =? l).
  - eexists. split; [done|]. eapply painted_ext; [eassumption|].
    intros x y. cbn. by rewrite orb_false_r.
Qed.

Lemma draw_hlines_painted m width height im :
  i_width im = side width -> i_height im = side height -> side width < 2 ^ 32 -> side height < 2 ^ 32 ->
  exists im', draw_hlines m width height (margin width) (margin height) im = Ret im' /\
    painted GRAY_PIXEL (fun x y => existsb (fun k => existsb (fun l => line_bool (margin height) k y && (x =? l))
       (range 0 (side width))) (range 0 height)) im im'.
Proof.
  intros W H Hsw Hsh. assert (HU : u32_size = 4294967296) by done. change (2 ^ 32) with 4294967296 in *.
  assert (150 <= margin height) by (unfold margin; lia).
  unfold draw_hlines, side in *. apply foldM_painted. intros k im1 Hk W1 H1. apply elem_of_range in Hk.
  rewrite u32_mul_ok by lia. cbn [bind]. rewrite u32_add_ok by lia. cbn [bind]. rewrite (N.mul_comm width).
  apply foldM_painted. intros l im2 Hl W2 H2. apply elem_of_range in Hl.
  rewrite u32_mul_ok by lia. cbn [bind]. rewrite u32_add_ok by lia. cbn [bind].
  destruct (put_pixel_painted im2 l (k * 50 + margin height) GRAY_PIXEL) as (im3&E3&P3); [lia..|].
  rewrite E3. cbn [bind]. pose proof (pt_width _ _ _ _ P3). pose proof (pt_height _ _ _ _ P3).
  unfold line_bool. destruct (k mod 5 =? 0).
  - rewrite u32_add_ok by lia. cbn [bind].
    destruct (put_pixel_painted im3 l (k * 50 + margin height + 1) GRAY_PIXEL) as (im4&E4&P4); [lia..|].
    rewrite E4. cbn [bind]. pose proof (pt_width _ _ _ _ P4). pose proof (pt_height _ _ _ _ P4).
    rewrite u32_sub_ok by lia. cbn [bind].
    destruct (put_pixel_painted im4 l (k * 50 + margin height - 1) GRAY_PIXEL) as (im5&E5&P5); [lia..|].
    rewrite E5. eexists. split; [done|].
    eapply painted_ext; [eapply painted_trans; [eapply painted_trans|]; eassumption|].
    intros x y. cbn. by destruct (y =? _), (y =? _), (y =? _), (x =? l).
  - eexists. split; [done|]. eapply painted_ext; [eassumption|].
    intros x y. cbn. rewrite orb_false_r. apply andb_comm.
Qed.

Lemma lines_bool_spec n v len o : o < len ->
  existsb (fun k => existsb (fun l => line_bool (margin n) k v && (o =? l)) (range 0 len)) (range 0 n) = true
  <-> grid_line n v.
Proof.
  intros Ho. rewrite <-line_bool_spec, !range_exists. setoid_rewrite range_exists.
  split.
  - intros (k&Hk&l&Hl&Hb). apply andb_true_iff in Hb as [Hb _]. eauto.
  - intros (k&Hk&Hb). exists k. split; [done|]. exists o. split; [lia|]. by rewrite Hb, N.eqb_refl.
Qed.

Lemma print_nonogram_dim m text width height col row :
  print_nonogram m text width height col row = Ret (Err InvalidDimensions) <->
  (width <> N.of_nat (length col) \/ height <> N.of_nat (length row)).
Proof.
  unfold print_nonogram.
  destruct (N.eqb_spec width (N.of_nat (length col))), (N.eqb_spec height (N.of_nat (length row)));
    cbn [negb orb]; split; try done; try tauto.
  repeat match goal with |- (let! _ := ?e in _) = _ -> _ => destruct e; cbn [bind] end; done.
Qed.

Lemma print_nonogram_exact (m : mode) text width height col row :
  keeps_size text -> width = N.of_nat (length col) -> height = N.of_nat (length row) ->
  nonogram_printable m width height col ->
  exists im, print_nonogram m text width height col row = Ret (Ok im) /\
    i_width im = side width /\ i_height im = side height /\
    forall x y, x < i_width im -> y < i_height im ->
      (nonogram_gray width height x y -> i_pix im x y = GRAY_PIXEL) /\
      (~ nonogram_gray width height x y ->
         i_pix im x y = i_pix (draw_texts text (col_texts width col ++ row_texts height row)
           (Image (side width) (side height) (fun _ _ => WHITE_PIXEL))) x y).
Proof.
  intros Hk Hw Hh Hp. pose proof Hp as (Hsw&Hsh&Hs&_). rewrite bytes_max in Hs.
  assert (HU : u32_size = 4294967296) by done.
  change (2 ^ 31) with 2147483648 in *.
  unfold print_nonogram. rewrite (proj2 (N.eqb_eq _ _) Hw), (proj2 (N.eqb_eq _ _) Hh). cbn [negb orb].
  rewrite !rule_space_ok by lia. cbn [bind].
  rewrite u32_mul_ok by (unfold side in *; lia). cbn [bind].
  rewrite u32_add_ok by (unfold side in *; lia). cbn [bind].
  rewrite u32_mul_ok by (unfold side in *; lia). cbn [bind].
  rewrite u32_add_ok by (unfold side in *; lia). cbn [bind].
  rewrite !(N.mul_comm _ 50).
  change (50 * width + margin width) with (side width). change (50 * height + margin height) with (side height).
  rewrite from_pixel_ok by lia. cbn [bind].
  rewrite (draw_col_rules_texts m text width height) by done. cbn [bind].
  rewrite (draw_row_rules_texts m text width height col) by done. cbn [bind].
  rewrite <-draw_texts_app.
  set (im0 := draw_texts text _ _).
  destruct (draw_texts_size text (col_texts width col ++ row_texts height row)
    (Image (side width) (side height) (fun _ _ => WHITE_PIXEL)) Hk) as [W0 H0].
  change (i_width im0 = side width) in W0. change (i_height im0 = side height) in H0.
  clearbody im0.
  destruct (draw_vlines_painted m width height im0 W0 H0) as (im1&E1&P1); [change (2 ^ 32) with u32_size; lia..|].
  rewrite E1. cbn [bind]. pose proof (pt_width _ _ _ _ P1). pose proof (pt_height _ _ _ _ P1).
  destruct (draw_hlines_painted m width height im1) as (im2&E2&P2); [congruence|congruence|change (2 ^ 32) with u32_size; lia..|].
  rewrite E2. cbn [bind]. exists im2. pose proof (pt_width _ _ _ _ P2). pose proof (pt_height _ _ _ _ P2).
  split_and!; [done|congruence|congruence|]. intros x y Hx Hy.
  rewrite (pt_pix _ _ _ _ (painted_trans _ _ _ _ _ _ P1 P2)).
  match goal with |- context [if ?b then _ else _] =>
    assert (Hb : b = true <-> nonogram_gray width height x y) end.
  { unfold nonogram_gray. rewrite orb_true_iff, !lines_bool_spec; [done|lia|lia]. }
  match goal with |- context [if ?b then _ else _] => revert Hb; generalize b end.
  clear. intros []; naive_solver.
Qed.

(** * print_nonogram_solution *)
Lemma rect_painted im x y w h c :
  painted c (fun a b => (x <=? Z.of_N a)%Z && (Z.of_N a <? x + Z.of_N w)%Z &&
           (y <=? Z.of_N b)%Z && (Z.of_N b <? y + Z.of_N h)%Z &&
           (Z.of_N a <? Z.of_N (i_width im))%Z && (Z.of_N b <? Z.of_N (i_height im))%Z)
    im (draw_filled_rect im x y w h c).
Proof. by split. Qed.

Definition interior_bool (width height c r a b : N) : bool :=
  (margin width + 50 * c <? a) && (a <? margin width + 50 * (c + 1)) &&
  (margin height + 50 * r <? b) && (b <? margin height + 50 * (r + 1)).

Lemma draw_cells_painted m width height grid im :
  i_width im = side width -> i_height im = side height -> side width < 2 ^ 31 -> side height < 2 ^ 31 ->
  N.of_nat (length grid) = width * height -> width * height <= 2 ^ 32 ->
  exists im', draw_cells m width height grid im = Ret im' /\
    painted BLACK_PIXEL (fun x y => existsb (fun p => (p.2 : bool) &&
      interior_bool width height (N.of_nat p.1 mod width) (N.of_nat p.1 / width) x y) (enumerate grid)) im im'.
Proof.
  intros W H Hsw Hsh Hlen Hsmall. assert (HU : u32_size = 4294967296) by done.
  change (2 ^ 31) with 2147483648 in *. change (2 ^ 32) with 4294967296 in *.
  unfold draw_cells. apply foldM_painted. intros [i sq] im1 Hi W1 H1. cbn [fst snd].
  apply elem_of_enumerate in Hi. destruct sq; cbn [negb andb]; [|eexists; split; [done|apply painted_none]].
  assert (N.of_nat i < width * height) as Hlt by (apply lookup_lt_Some in Hi; lia).
  assert (width <> 0) as Hw0 by (intros ->; lia).
  unfold as_u32. rewrite N.mod_small by lia.
  unfold u32_rem, u32_div. destruct (N.eqb_spec width 0); [done|]. cbn [bind].
  assert (N.of_nat i mod width < width) as Hc by (by apply N.mod_lt).
  assert (N.of_nat i / width < height) as Hr by (by apply N.div_lt_upper_bound).
  revert Hc Hr. generalize (N.of_nat i mod width) (N.of_nat i / width). intros c r Hc Hr.
  rewrite u32_mul_ok by (unfold side in *; lia). cbn [bind].
  rewrite !rule_space_ok by lia. cbn [bind].
  rewrite u32_add_ok by (unfold side in *; lia). cbn [bind].
  rewrite u32_add_ok by (unfold side in *; lia). cbn [bind].
  rewrite u32_mul_ok by (unfold side in *; lia). cbn [bind].
  rewrite u32_add_ok by (unfold side in *; lia). cbn [bind].
  rewrite u32_add_ok by (unfold side in *; lia). cbn [bind].
  rewrite !as_i32_small by (change (2 ^ 31) with 2147483648; unfold side in *; lia).
  eexists. split; [done|]. eapply painted_ext; [apply rect_painted|].
  intros a b. unfold interior_bool. rewrite W1, H1, W, H. unfold side in *.
  generalize dependent (margin width). generalize dependent (margin height). intros mh ? mw. intros.
  apply eq_true_iff_eq. lia.
Qed.

Lemma print_solution_dim (m : mode) width height im grid :
  width * height < usize_size m -> side width < 2 ^ 32 -> side height < 2 ^ 32 ->
  print_nonogram_solution m width height im grid = Ret (Err InvalidDimensions) <->
  (N.of_nat (length grid) <> width * height \/ i_width im <> side width \/ i_height im <> side height).
Proof.
  intros Hn Hsw Hsh. change (2 ^ 32) with u32_size in *. assert (HU : u32_size = 4294967296) by done.
  unfold print_nonogram_solution. rewrite !rule_space_ok by lia. cbn [bind]. rewrite usize_mul_ok by done. cbn [bind].
  destruct (N.eqb_spec (N.of_nat (length grid)) (width * height)); cbn [negb]; [|tauto].
  rewrite u32_mul_ok by (unfold side in *; lia). cbn [bind].
  rewrite u32_add_ok by (unfold side in *; lia). cbn [bind]. rewrite !(N.mul_comm _ 50).
  change (50 * width + margin width) with (side width).
  destruct (N.eqb_spec (i_width im) (side width)); cbn [negb]; [|tauto].
  rewrite (u32_mul_ok m height 50) by (unfold side in *; lia). cbn [bind].
  rewrite u32_add_ok by (unfold side in *; lia). cbn [bind]. rewrite (N.mul_comm height).
  change (50 * height + margin height) with (side height).
  destruct (N.eqb_spec (i_height im) (side height)); cbn [negb]; [|tauto].
  split; [|tauto]. destruct (draw_cells _ _ _ _ _); done.
Qed.

Lemma print_solution_exact (m : mode) width height im grid : width * height < usize_size m ->
  N.of_nat (length grid) = width * height -> i_width im = side width -> i_height im = side height ->
  side width < 2 ^ 31 -> side height < 2 ^ 31 -> width * height <= 2 ^ 32 ->
  exists im', print_nonogram_solution m width height im grid = Ret (Ok im') /\
    i_width im' = i_width im /\ i_height im' = i_height im /\
    forall x y, (filled_pixel width height grid x y -> i_pix im' x y = BLACK_PIXEL) /\
                (~ filled_pixel width height grid x y -> i_pix im' x y = i_pix im x y).
Proof.
  intros Hn Hlen W H Hsw Hsh Hsmall. assert (HU : u32_size = 4294967296) by done.
  destruct (draw_cells_painted m width height grid im W H Hsw Hsh Hlen Hsmall) as (im'&E&P).
  change (2 ^ 31) with 2147483648 in *.
  unfold print_nonogram_solution. rewrite !rule_space_ok by lia. cbn [bind].
  rewrite usize_mul_ok by done. cbn [bind]. rewrite (proj2 (N.eqb_eq _ _) Hlen). cbn [negb].
  rewrite u32_mul_ok by (unfold side in *; lia). cbn [bind].
  rewrite u32_add_ok by (unfold side in *; lia). cbn [bind]. rewrite !(N.mul_comm _ 50).
  change (50 * width + margin width) with (side width).
  rewrite (proj2 (N.eqb_eq _ _) W). cbn [negb].
  rewrite (u32_mul_ok m height 50) by (unfold side in *; lia). cbn [bind].
  rewrite u32_add_ok by (unfold side in *; lia). cbn [bind]. rewrite (N.mul_comm height).
  change (50 * height + margin height) with (side height).
  rewrite (proj2 (N.eqb_eq _ _) H). cbn [negb]. rewrite E. cbn [bind].
  exists im'. split_and!; [done|apply (pt_width _ _ _ _ P)|apply (pt_height _ _ _ _ P)|].
  intros x y. rewrite (pt_pix _ _ _ _ P).
  match goal with |- context [if ?b then _ else _] =>
    assert (Hb : b = true <-> filled_pixel width height grid x y) end.
  { rewrite existsb_elem. unfold filled_pixel, cell_interior, interior_bool. split.
    - intros ([i sq]&Hi&Hb). apply elem_of_enumerate in Hi. cbn [fst snd] in Hb.
      apply andb_true_iff in Hb as [-> Hb].
      assert (width <> 0) as Hw0 by (intros ->; apply lookup_lt_Some in Hi; lia).
      pose proof (N.div_mod (N.of_nat i) width Hw0) as Hdm.
      exists (N.of_nat i mod width), (N.of_nat i / width).
      split_and!; [by apply N.mod_lt| |revert Hb; generalize (N.of_nat i mod width) (N.of_nat i / width); intros; lia..].
      rewrite (N.mul_comm _ width), <-Hdm. by rewrite Nat2N.id.
    - intros (c&r&Hc&Hg&Hin). exists (N.to_nat (r * width + c), true).
      split; [by apply elem_of_enumerate|]. cbn [fst snd andb]. rewrite N2Nat.id.
      assert ((r * width + c) mod width = c) as ->.
      { rewrite N.add_comm, N.mod_add by lia. by apply N.mod_small. }
      assert ((r * width + c) / width = r) as ->.
      { rewrite N.add_comm, N.div_add by lia. rewrite N.div_small by done. lia. }
      lia. }
  match goal with |- context [if ?b then _ else _] => revert Hb; generalize b end.
  clear. intros []; naive_solver.
Qed.
