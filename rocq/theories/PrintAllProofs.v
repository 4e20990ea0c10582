(** Proofs about nonogram images of all sizes. *)
From Verif Require Import Base Image Dlx Sudoku Nonogram NonogramPrint SpecPrint SpecPrintAll ImageProofs PrintProofs.
Local Open Scope N_scope.

Lemma as_i32_signed n : n < 2 ^ 32 -> as_i32 n = signed32 n.
Proof.
  intros Hn. unfold as_i32, signed32.
  change (2 ^ 32)%N with 4294967296%N in *. change (2 ^ 31)%N with 2147483648%N.
  change (2 ^ 31)%Z with 2147483648%Z. change (2 ^ 32)%Z with 4294967296%Z.
  destruct (N.ltb_spec n 2147483648) as [H|H].
  - rewrite Z.mod_small by lia. lia.
  - replace (Z.of_N n + 2147483648)%Z with (Z.of_N n - 2147483648 + 1 * 4294967296)%Z by lia.
    rewrite Z_mod_plus_full, Z.mod_small by lia. lia.
Qed.

Lemma draw_col_rules_texts32 (m : mode) text width height col im :
  width = N.of_nat (length col) -> drawable m width height col ->
  draw_col_rules m text (margin width) col im = Ret (draw_texts text (col_texts32 width col) im).
Proof.
  intros Hw (Hsw&Hsh&_&Hcol). assert (HU : u32_size = 4294967296) by done.
  change (2 ^ 32) with 4294967296 in *. unfold draw_col_rules, col_texts32.
  set (T := fun (x : nat) (y : nat) (v : N) => (signed32 (50 * N.of_nat x + margin width + 15), signed32 (30 * N.of_nat y + 10), 30, to_decimal v)).
  rewrite (foldM_texts text _ (fun c => imap (T c.1) c.2)).
  { rewrite (enumerate_fmap (fun x rule => imap (T x) rule)). done. }
  intros [x rule] im1 Hx. apply elem_of_enumerate in Hx. cbn [fst snd].
  pose proof (lookup_lt_Some _ _ _ Hx) as Hlt.
  assert (forall y, (y < length rule)%nat -> 30 * N.of_nat y + 10 < 4294967296) as Hr.
  { intros y. apply Hcol. by eapply elem_of_list_lookup_2. }
  unfold side in Hsw.
  unfold as_u32 at 1. rewrite N.mod_small by lia. rewrite u32_mul_ok by lia. cbn [bind].
  rewrite u32_add_ok by lia. cbn [bind]. rewrite u32_add_ok by lia. cbn [bind].
  rewrite (foldM_texts text _ (fun c => [T x c.1 c.2])).
  { by rewrite mjoin_singletons, (enumerate_fmap (T x)). }
  intros [y v] im2 Hy. apply elem_of_enumerate in Hy. cbn [fst snd]. apply lookup_lt_Some in Hy.
  specialize (Hr _ Hy).
  unfold as_u32. rewrite N.mod_small by lia. rewrite u32_mul_ok by lia. cbn [bind].
  rewrite u32_add_ok by lia. cbn [bind]. rewrite !as_i32_signed by (change (2 ^ 32) with 4294967296; lia).
  unfold draw_texts, T; cbn [fold_left]. by rewrite !(N.mul_comm _ 50), !(N.mul_comm _ 30).
Qed.

Lemma draw_row_rules_texts32 (m : mode) text width height col row im :
  height = N.of_nat (length row) -> drawable m width height col ->
  draw_row_rules m text (margin height) row im = Ret (draw_texts text (row_texts32 height row) im).
Proof.
  intros Hw (Hsw&Hsh&_&_). assert (HU : u32_size = 4294967296) by done.
  change (2 ^ 32) with 4294967296 in *. unfold draw_row_rules, row_texts32.
  set (T := fun (y : nat) (rule : list N) => (10%Z, signed32 (50 * N.of_nat y + margin height + 10), 30, spaced (to_decimal <$> rule))).
  rewrite (foldM_texts text _ (fun c => [T c.1 c.2])).
  { by rewrite mjoin_singletons, (enumerate_fmap T). }
  intros [y rule] im1 Hy. apply elem_of_enumerate in Hy. cbn [fst snd]. apply lookup_lt_Some in Hy.
  unfold side in Hsh.
  unfold as_u32. rewrite N.mod_small by lia. rewrite u32_mul_ok by lia. cbn [bind].
  rewrite u32_add_ok by lia. cbn [bind]. rewrite u32_add_ok by lia. cbn [bind].
  rewrite as_i32_signed by (change (2 ^ 32) with 4294967296; lia). rewrite join_text_spaced.
  unfold draw_texts, T; cbn [fold_left]. by rewrite (N.mul_comm _ 50).
Qed.

Lemma print_all (m : mode) text width height col row :
  keeps_size text -> width = N.of_nat (length col) -> height = N.of_nat (length row) ->
  drawable m width height col ->
  exists im, print_nonogram m text width height col row = Ret (Ok im) /\
    i_width im = side width /\ i_height im = side height /\
    forall x y, x < i_width im -> y < i_height im ->
      (nonogram_gray width height x y -> i_pix im x y = GRAY_PIXEL) /\
      (~ nonogram_gray width height x y ->
         i_pix im x y = i_pix (draw_texts text (col_texts32 width col ++ row_texts32 height row)
           (Image (side width) (side height) (fun _ _ => WHITE_PIXEL))) x y).
Proof.
  intros Hk Hw Hh Hp. pose proof Hp as (Hsw&Hsh&Hs&_). rewrite bytes_max in Hs.
  assert (HU : u32_size = 4294967296) by done.
  change (2 ^ 32) with 4294967296 in *.
  unfold print_nonogram. rewrite (proj2 (N.eqb_eq _ _) Hw), (proj2 (N.eqb_eq _ _) Hh). cbn [negb orb].
  rewrite !rule_space_ok by (change (2 ^ 32) with 4294967296; lia). cbn [bind].
  rewrite u32_mul_ok by (unfold side in *; lia). cbn [bind].
  rewrite u32_add_ok by (unfold side in *; lia). cbn [bind].
  rewrite u32_mul_ok by (unfold side in *; lia). cbn [bind].
  rewrite u32_add_ok by (unfold side in *; lia). cbn [bind].
  rewrite !(N.mul_comm _ 50).
  change (50 * width + margin width) with (side width). change (50 * height + margin height) with (side height).
  rewrite from_pixel_ok by lia. cbn [bind].
  rewrite (draw_col_rules_texts32 m text width height) by done. cbn [bind].
  rewrite (draw_row_rules_texts32 m text width height col) by done. cbn [bind].
  rewrite <-draw_texts_app.
  set (im0 := draw_texts text _ _).
  destruct (draw_texts_size text (col_texts32 width col ++ row_texts32 height row)
    (Image (side width) (side height) (fun _ _ => WHITE_PIXEL)) Hk) as [W0 H0].
  change (i_width im0 = side width) in W0. change (i_height im0 = side height) in H0.
  clearbody im0.
  destruct (draw_vlines_painted m width height im0 W0 H0) as (im1&E1&P1); [done..|].
  rewrite E1. cbn [bind]. pose proof (pt_width _ _ _ _ P1). pose proof (pt_height _ _ _ _ P1).
  destruct (draw_hlines_painted m width height im1) as (im2&E2&P2); [congruence|congruence|done..|].
  rewrite E2. cbn [bind]. exists im2. pose proof (pt_width _ _ _ _ P2). pose proof (pt_height _ _ _ _ P2).
  split_and!; [done|congruence|congruence|]. intros x y Hx Hy.
  rewrite (pt_pix _ _ _ _ (painted_trans _ _ _ _ _ _ P1 P2)).
  match goal with |- context [if ?b then _ else _] =>
    assert (Hb : b = true <-> nonogram_gray width height x y) end.
  { unfold nonogram_gray. rewrite orb_true_iff, !lines_bool_spec; [done|lia|lia]. }
  match goal with |- context [if ?b then _ else _] => revert Hb; generalize b end.
  clear. intros []; naive_solver.
Qed.

(** * When printing panics *)
Lemma foldM_panic {A S} (f : A -> S -> res S) l s a :
  a ∈ l -> (forall b s, f b s = Fault Panic \/ exists s', f b s = Ret s') ->
  (forall s, f a s = Fault Panic) -> foldM f l s = Fault Panic.
Proof.
  intros Ha Hf Hp. revert s. induction Ha as [a l|a b l Ha IH]; intros s; cbn [foldM].
  - by rewrite Hp.
  - destruct (Hf b s) as [E|[s' E]]; rewrite E; [done|]. cbn [bind]. by apply IH.
Qed.
Lemma foldM_total {A S} (f : A -> S -> res S) l s :
  (forall b s, f b s = Fault Panic \/ exists s', f b s = Ret s') ->
  foldM f l s = Fault Panic \/ exists s', foldM f l s = Ret s'.
Proof.
  intros Hf. revert s. induction l as [|a l IH]; intros s; cbn [foldM]; [eauto|].
  destruct (Hf a s) as [E|[s' E]]; rewrite E; [by left|]. cbn [bind]. apply IH.
Qed.
Lemma arith_total ws x y : u32_mul (Mode Debug ws) x y = Fault Panic \/ exists z, u32_mul (Mode Debug ws) x y = Ret z.
Proof. unfold u32_mul, arith. destruct (_ <? _); eauto. Qed.
Lemma arith_total_add ws x y : u32_add (Mode Debug ws) x y = Fault Panic \/ exists z, u32_add (Mode Debug ws) x y = Ret z.
Proof. unfold u32_add, arith. destruct (_ <? _); eauto. Qed.

Lemma col_rules_panic ws text rw col im rule y :
  rule ∈ col -> (y < length rule)%nat -> 2 ^ 32 <= 30 * N.of_nat y + 10 ->
  draw_col_rules (Mode Debug ws) text rw col im = Fault Panic.
Proof.
  intros Hr Hy Hbig. change (2 ^ 32) with 4294967296 in *. assert (HU : u32_size = 4294967296) by done.
  assert (Hin : forall px rule im,
    let f := (fun '(y, value) im =>
      let! y30 := u32_mul (Mode Debug ws) (as_u32 (N.of_nat y)) 30 in
      let! py := u32_add (Mode Debug ws) y30 10 in
      Ret (text im (as_i32 px) (as_i32 py) 30%N (to_decimal value))) in
    foldM f (enumerate rule) im = Fault Panic \/ exists im', foldM f (enumerate rule) im = Ret im').
  { intros px r im1 f. apply foldM_total. intros [y' v] im2. unfold f.
    destruct (arith_total ws (as_u32 (N.of_nat y')) 30) as [E|[z E]]; rewrite E; [by left|]. cbn [bind].
    destruct (arith_total_add ws z 10) as [E'|[z' E']]; rewrite E'; [by left|]. cbn [bind]. eauto. }
  assert (Hbad : forall px im,
    foldM (fun '(y, value) im =>
      let! y30 := u32_mul (Mode Debug ws) (as_u32 (N.of_nat y)) 30 in
      let! py := u32_add (Mode Debug ws) y30 10 in
      Ret (text im (as_i32 px) (as_i32 py) 30%N (to_decimal value))) (enumerate rule) im = Fault Panic).
  { intros px im1. set (y0 := N.to_nat 143165577).
    destruct (lookup_lt_is_Some_2 rule y0) as [v Hv]; [unfold y0; lia|].
    apply (foldM_panic _ _ _ (y0, v)).
    - by apply elem_of_enumerate.
    - intros [y' v'] im2.
      destruct (arith_total ws (as_u32 (N.of_nat y')) 30) as [E|[z E]]; rewrite E; [by left|]. cbn [bind].
      destruct (arith_total_add ws z 10) as [E'|[z' E']]; rewrite E'; [by left|]. cbn [bind]. eauto.
    - intros im2. unfold y0. rewrite N2Nat.id. unfold as_u32. rewrite N.mod_small by lia.
      by rewrite u32_mul_panic by lia. }
  apply elem_of_list_lookup in Hr as [x Hx].
  unfold draw_col_rules. apply (foldM_panic _ _ _ (x, rule)).
  - by apply elem_of_enumerate.
  - intros [x' r] im1.
    destruct (arith_total ws (as_u32 (N.of_nat x')) 50) as [E|[z E]]; rewrite E; [by left|]. cbn [bind].
    destruct (arith_total_add ws z rw) as [E'|[z' E']]; rewrite E'; [by left|]. cbn [bind].
    destruct (arith_total_add ws z' 15) as [E2|[z2 E2]]; rewrite E2; [by left|]. cbn [bind]. apply Hin.
  - intros im1.
    destruct (arith_total ws (as_u32 (N.of_nat x)) 50) as [E|[z E]]; rewrite E; [done|]. cbn [bind].
    destruct (arith_total_add ws z rw) as [E'|[z' E']]; rewrite E'; [done|]. cbn [bind].
    destruct (arith_total_add ws z' 15) as [E2|[z2 E2]]; rewrite E2; [done|]. cbn [bind]. apply Hbad.
Qed.

Lemma print_all_panics ws text width height col row :
  width = N.of_nat (length col) -> height = N.of_nat (length row) ->
  ~ drawable ws width height col -> print_nonogram (Mode Debug ws) text width height col row = Fault Panic.
Proof.
  intros Hw Hh Hd. assert (HU : u32_size = 4294967296) by done.
  unfold print_nonogram. rewrite (proj2 (N.eqb_eq _ _) Hw), (proj2 (N.eqb_eq _ _) Hh). cbn [negb orb].
  unfold drawable in Hd. rewrite bytes_max in Hd. change (2 ^ 32) with 4294967296 in *. unfold side, margin in Hd. unfold rule_space.
  destruct (decide (width * 10 < u32_size)) as [H1|H1]; [rewrite u32_mul_ok by done|by rewrite u32_mul_panic by lia].
  cbn [bind].
  destruct (decide (height * 10 < u32_size)) as [H2|H2]; [rewrite u32_mul_ok by done|by rewrite u32_mul_panic by lia].
  cbn [bind].
  destruct (decide (width * 50 < u32_size)) as [H3|H3]; [rewrite (u32_mul_ok _ width) by done|by rewrite u32_mul_panic by lia].
  cbn [bind].
  destruct (decide (width * 50 + N.max 150 (width * 10) < u32_size)) as [H4|H4]; [rewrite u32_add_ok by done|by rewrite u32_add_panic by lia].
  cbn [bind].
  destruct (decide (height * 50 < u32_size)) as [H5|H5]; [rewrite (u32_mul_ok _ height) by done|by rewrite u32_mul_panic by lia].
  cbn [bind].
  destruct (decide (height * 50 + N.max 150 (height * 10) < u32_size)) as [H6|H6]; [rewrite u32_add_ok by done|by rewrite u32_add_panic by lia].
  cbn [bind]. rewrite !(N.mul_comm _ 10), !(N.mul_comm _ 50) in *.
  destruct (decide ((50 * width + N.max 150 (10 * width)) * (50 * height + N.max 150 (10 * height)) * 3 <= isize_max ws)) as [H7|H7];
    [rewrite from_pixel_ok by done|by rewrite from_pixel_panic by (cbn [word_of]; lia)].
  cbn [bind].
  destruct (decide (Forall (fun rule : list N => 30 * N.of_nat (length rule) < 4294967316) col)) as [H8|H8].
  - exfalso. apply Hd. split_and!; [lia|lia|done|]. intros rule y Hr Hy. rewrite Forall_forall in H8. specialize (H8 _ Hr).
    cbn beta in H8. lia.
  - apply not_Forall_Exists in H8; [|apply _]. apply Exists_exists in H8 as (rule&Hr&Hbig). unfold compose in Hbig. cbn beta in Hbig.
    rewrite (col_rules_panic ws text _ _ _ rule (length rule - 1)); [done|done|lia|change (2 ^ 32) with 4294967296; lia].
Qed.

(** * Clues of columns whose position is negative *)
Lemma draw_texts_mjoin text l l' im :
  Forall2 (fun a b => forall im, draw_texts text a im = draw_texts text b im) l l' ->
  draw_texts text (mjoin l) im = draw_texts text (mjoin l') im.
Proof.
  intros H. revert im. induction H as [|a b l l' Hab H IH]; intros im; [done|].
  change (mjoin (a :: l)) with (a ++ mjoin l). change (mjoin (b :: l')) with (b ++ mjoin l').
  by rewrite !draw_texts_app, Hab, IH.
Qed.
Lemma draw_texts_none text l im : (forall x y s t, (x, y, s, t) ∈ l -> forall im, text im x y s t = im) ->
  draw_texts text l im = im.
Proof.
  revert im. induction l as [|[[[x y] s] t] l IH]; intros im H; [done|].
  change (draw_texts text ((x, y, s, t) :: l) im) with (draw_texts text l (text im x y s t)).
  rewrite (H x y s t) by apply elem_of_list_here. apply IH. intros. eapply H. by apply elem_of_list_further.
Qed.

Lemma print_hidden (m : mode) (text : text_renderer) width height col col' row :
  (forall im x y s t, (x < - 2 ^ 30)%Z -> text im x y s t = im) ->
  side width < 2 ^ 31 + 2 ^ 30 -> length col = length col' ->
  drawable m width height col -> drawable m width height col' ->
  (forall x : nat, 50 * N.of_nat x + margin width + 15 < 2 ^ 31 -> col !! x = col' !! x) ->
  print_nonogram m text width height col row = print_nonogram m text width height col' row.
Proof.
  intros Ht Hside Hlen Hd Hd' Heq. unfold print_nonogram. rewrite <-Hlen.
  destruct (N.eqb_spec width (N.of_nat (length col))) as [Hw|Hw]; [|done]. cbn [negb orb].
  destruct (N.eqb_spec height (N.of_nat (length row))) as [Hh|Hh]; [|done]. cbn [negb].
  assert (HU : u32_size = 4294967296) by done.
  pose proof Hd as (Hsw&Hsh&_&_). rewrite !rule_space_ok by (change u32_size with (2 ^ 32); lia). cbn [bind].
  destruct (u32_mul m width 50) as [w50|]; [|done]. cbn [bind].
  destruct (u32_add m w50 _) as [iw|]; [|done]. cbn [bind].
  destruct (u32_mul m height 50) as [h50|]; [|done]. cbn [bind].
  destruct (u32_add m h50 _) as [ih|]; [|done]. cbn [bind].
  destruct (from_pixel m iw ih WHITE_PIXEL) as [im|]; [|done]. cbn [bind].
  rewrite (draw_col_rules_texts32 m text width height col) by done.
  rewrite (draw_col_rules_texts32 m text width height col') by (done || lia). cbn [bind].
  replace (draw_texts text (col_texts32 width col') im) with (draw_texts text (col_texts32 width col) im); [done|].
  unfold col_texts32. apply draw_texts_mjoin. apply Forall2_lookup. intros x. rewrite !list_lookup_imap.
  destruct (decide (50 * N.of_nat x + margin width + 15 < 2 ^ 31)) as [Hx|Hx].
  { rewrite <-(Heq _ Hx). destruct (col !! x); constructor. done. }
  destruct (col !! x) as [r|] eqn:E; destruct (col' !! x) as [r'|] eqn:E'.
  - constructor. apply lookup_lt_Some in E. change (2 ^ 31) with 2147483648 in *. change (2 ^ 30) with 1073741824 in *.
    change (2 ^ 32) with 4294967296 in *. unfold side in *.
    assert (signed32 (50 * N.of_nat x + margin width + 15) < - 2 ^ 30)%Z as Hneg.
    { rewrite <-as_i32_signed by (change (2 ^ 32) with 4294967296; lia). unfold as_i32.
      change (2 ^ 31) with 2147483648. change (2 ^ 30)%Z with 1073741824%Z. change (2 ^ 32)%Z with 4294967296%Z.
      destruct (N.ltb_spec (50 * N.of_nat x + margin width + 15) 2147483648); lia. }
    intros im1. rewrite !draw_texts_none; [done|..].
    + intros a b s t Hin im2. apply elem_of_lookup_imap in Hin as (i&v&[= -> -> -> ->]&_). by apply Ht.
    + intros a b s t Hin im2. apply elem_of_lookup_imap in Hin as (i&v&[= -> -> -> ->]&_). by apply Ht.
  - apply lookup_lt_Some in E. apply lookup_ge_None in E'. lia.
  - apply lookup_ge_None in E. apply lookup_lt_Some in E'. lia.
  - constructor.
Qed.

Lemma print_panics_iff ws text width height col row : keeps_size text ->
  print_nonogram (Mode Debug ws) text width height col row = Fault Panic <->
  width = N.of_nat (length col) /\ height = N.of_nat (length row) /\ ~ drawable ws width height col.
Proof.
  intros Hk. split.
  - intros E.
    destruct (decide (width = N.of_nat (length col))) as [Hw|Hw];
      [|rewrite (proj2 (print_nonogram_dim (Mode Debug ws) text width height col row)) in E by tauto; done].
    destruct (decide (height = N.of_nat (length row))) as [Hh|Hh];
      [|rewrite (proj2 (print_nonogram_dim (Mode Debug ws) text width height col row)) in E by tauto; done].
    split_and!; [done..|]. intros Hd.
    destruct (print_all (Mode Debug ws) text width height col row) as (im&E'&_); [done..|]. congruence.
  - intros (Hw&Hh&Hd). by apply print_all_panics.
Qed.

Lemma wide_drawable n (a b : list N) (rows : N) :
  n = N.to_nat 39999999 -> length a = 1%nat -> length b = 1%nat -> rows <= 10 ->
  drawable W64 40000000 rows (replicate n a ++ [b]).
Proof.
  intros Hn Ha Hb Hrows. unfold drawable, side.
  assert (margin 40000000 = 400000000) as -> by done.
  assert (margin rows = 150) as -> by (unfold margin; lia).
  unfold memory_limit. change (2 ^ 32) with 4294967296. change (2 ^ 63) with 9223372036854775808.
  split_and!; [lia..|]. intros rule y Hr Hy. apply elem_of_app in Hr as [Hr|Hr].
  - apply elem_of_replicate in Hr as [-> _]. lia.
  - apply elem_of_list_singleton in Hr as ->. lia.
Qed.

Lemma print_hidden_refuted : exists width height col col' row,
  col <> col' /\ width = N.of_nat (length col) /\ height = N.of_nat (length row) /\
  drawable W64 width height col /\ drawable W64 width height col' /\
  forall (m : mode) (text : text_renderer), word_of m = W64 -> (forall im x y s t, (x < - 2 ^ 30)%Z -> text im x y s t = im) ->
  print_nonogram m text width height col row = print_nonogram m text width height col' row.
Proof.
  remember (N.to_nat 39999999) as n eqn:Hn.
  exists 40000000, 2, (replicate n [1] ++ [[1]]), (replicate n [1] ++ [[2]]), [[1]; [2]].
  pose proof (wide_drawable n [1] [1] 2 Hn eq_refl eq_refl ltac:(lia)) as D1.
  pose proof (wide_drawable n [1] [2] 2 Hn eq_refl eq_refl ltac:(lia)) as D2.
  split_and!; [|rewrite app_length, replicate_length; cbn [length]; lia|done|done|done|].
  - intros E. apply app_inv_head in E. done.
  - intros m text Hword Ht. rewrite <-Hword in D1, D2. apply print_hidden; [done| |by rewrite !app_length|done|done|].
    + unfold side. assert (margin 40000000 = 400000000) as -> by done.
      change (2 ^ 31) with 2147483648. change (2 ^ 30) with 1073741824. lia.
    + intros x Hx. assert (margin 40000000 = 400000000) as Hm by done. rewrite Hm in Hx. clear Hm.
      change (2 ^ 31) with 2147483648 in Hx.
      rewrite !lookup_app_l by (rewrite replicate_length; lia). done.
Qed.
