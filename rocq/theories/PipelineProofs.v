(** From the text of a nonogram to pictures. *)
From Verif Require Import Base SpecWord Image Dlx Sudoku SpecDlx SpecSudoku SpecSudokuText.
From Verif Require Import Nonogram NonogramPrint NonogramRect NonogramCapacity Png.
From Verif Require Import SpecNonogram SpecNonogramText SpecPrint SpecPng SpecNonogramRect.
From Verif Require Import Maze MazePrint MazeCapacity Serde SpecMaze SpecMazePrint.
From Verif Require Import WordProofs.
From Verif Require SerdeProofs MazeProofs MazePrintProofs MazeCapacityProofs.
From Verif Require SudokuProofs SudokuTextProofs SudokuParseProofs PngProofs.
From Verif Require Import NonogramProofs NonogramParseProofs NonogramCapacityProofs PrintProofs NonogramRectProofs NonogramImage.
Local Open Scope N_scope.

Lemma rules_nonempty m s bound vss : parse_nonogram_rules m s bound = Ret (Ok vss) -> (1 <= length vss)%nat.
Proof.
  unfold parse_nonogram_rules. pose proof (split_on_nonempty 59 s) as H. destruct (split_on 59 s) as [|t ts]; [done|].
  cbn [parse_rule_list]. destruct (parse_rule m bound t) as [[vs|e]|]; cbn [bind]; [|done|done].
  destruct (parse_rule_list m bound ts) as [[vss'|e]|]; cbn [bind]; [|done|done]. intros [= <-]. cbn. lia.
Qed.
Lemma png_ok {E} (encode : png_encoder E) im : encodes encode -> 0 < i_width im -> 0 < i_height im ->
  encoded encode im (image_to_png_bytes encode im).
Proof.
  intros He Hw Hh. destruct (He im Hw Hh) as [bytes Hb]. exists bytes. unfold image_to_png_bytes. by rewrite (Hb []).
Qed.
Lemma side_bounds n ws : n <= largest_side ws -> 150 <= side n /\ side n <= 60 * largest_side ws.
Proof. unfold side, margin. destruct ws; cbn [largest_side]; lia. Qed.

Lemma whole {E} (encode : png_encoder E) (m : mode) text grow s t col row :
  let ncol := map (map N.to_nat) col in let nrow := map (map N.to_nat) row in
  let w := N.of_nat (length col) in let h := N.of_nat (length row) in
  encodes encode -> keeps_size text -> grows grow -> w <= largest_side m -> h <= largest_side m ->
  profile_of m = Debug \/ no_overflow m s /\ no_overflow m t ->
  parse_nonogram_rules m s h = Ret (Ok col) -> parse_nonogram_rules m t w = Ret (Ok row) ->
  Forall proper ncol -> Forall proper nrow ->
  exists im, print_nonogram m text w h col row = Ret (Ok im) /\ encoded encode im (image_to_png_bytes encode im) /\
    ((solve_checked grow m ncol nrow = Ret (Err NoSolution) /\ forall b, ~ solution ncol nrow b) \/
     exists g im', solve_checked grow m ncol nrow = Ret (Ok g) /\ print_solution32 m w h im g = Ret (Ok im') /\
       encoded encode im' (image_to_png_bytes encode im') /\
       (forall b i, solution ncol nrow b -> g !! i = Some true -> b !! i = Some true) /\
       forall x y, x < i_width im -> y < i_height im ->
         (filled_pixel w h g x y -> i_pix im' x y = BLACK_PIXEL) /\
         (~ filled_pixel w h g x y -> i_pix im' x y = i_pix im x y)).
Proof.
  intros ncol nrow w h He Hk Hg Hw Hh Hm Hs Ht Hpc Hpr.
  destruct (largest_fits m) as (HL1&HL2&HL3&HL4&HL5&HL6).
  assert (Hfc : Forall (fun vs => vs <> [] /\ min_length vs <= h) col).
  { apply (accepted_fit m s); [|destruct Hm as [?|[? ?]]; auto|done]. lia. }
  assert (Hfr : Forall (fun vs => vs <> [] /\ min_length vs <= w) row).
  { apply (accepted_fit m t); [|destruct Hm as [?|[? ?]]; auto|done]. lia. }
  pose proof (rules_nonempty _ _ _ _ Hs) as Hc1. pose proof (rules_nonempty _ _ _ _ Ht) as Hr1.
  pose proof (side_bounds w _ Hw) as [Hsw1 Hsw2]. pose proof (side_bounds h _ Hh) as [Hsh1 Hsh2].
  assert (Hwh : w * h <= 100000000) by nia.
  assert (Hsz : side w * side h <= 60 * largest_side m * (60 * largest_side m)) by (by apply N.mul_le_mono).
  assert (Hp : nonogram_printable m w h col).
  { split; [lia|]. split; [lia|]. split; [lia|]. eapply Forall_impl; [exact Hfc|]. intros vs [_ Hv]. unfold min_length in Hv. lia. }
  assert (Hn : N.of_nat (length ncol * length nrow) < usize_size m).
  { unfold ncol, nrow. rewrite !map_length. lia. }
  destruct (print_nonogram_exact m text w h col row Hk eq_refl eq_refl Hp) as (im&Eim&Hiw&Hih&_).
  exists im. split; [done|]. split; [apply png_ok; [done|lia|lia]|].
  assert (Hsame : solve_checked grow m ncol nrow = solve_nonogram m ncol nrow).
  { assert (Hptr : forall x, x <= 20010 -> 6 * pointer_bytes m * x < memory_limit m /\ 3 * pointer_bytes m * x < memory_limit m)
      by (clear; intros x Hx; destruct m as [? []]; unfold pointer_bytes, memory_limit; cbn [word_of]; lia).
    apply solve_small_lt; [done|..].
    - unfold ncol, nrow. rewrite !map_length. lia.
    - unfold ncol. rewrite map_length. apply Hptr. lia.
    - unfold nrow. rewrite map_length. apply Hptr. lia.
    - apply Forall_app. split; apply Forall_fmap; (eapply Forall_impl; [eassumption|]); intros vs [_ Hv]; cbn beta in *;
        unfold compose; rewrite map_length, !Nat2N.inj_add; change (map N.to_nat vs) with (N.to_nat <$> vs);
        rewrite rule_sum_nat; unfold min_length in Hv; apply Hptr; lia. }
  rewrite Hsame. destruct (solve_total m ncol nrow Hn Hpc Hpr) as [[g|e] Eg].
  { left. unfold nrow. rewrite map_length. exact Hr1. }
  - right. exists g.
    assert (Hlen : N.of_nat (length g) = w * h).
    { rewrite (solve_length m ncol nrow Hn g Eg). unfold ncol, nrow. rewrite !map_length. lia. }
    destruct (print_solution_exact m w h im g ltac:(lia) Hlen Hiw Hih) as (im1&E1&Hw1&Hh1&Hpx); [lia|lia|lia|].
    pose proof (rect_same m w h im g) as Hr. rewrite E1 in Hr.
    destruct (print_solution32 m w h im g) as [[im'|e']|f] eqn:E2; [|destruct Hr; lia|destruct Hr; lia].
    destruct Hr as (Hw2&Hh2&Hp2); [lia|lia|lia|lia|lia|].
    exists im'. split; [done|]. split; [done|]. split; [apply png_ok; [done|lia|lia]|]. split.
    + intros b i Hb Hi. exact (solve_sound m ncol nrow Hn g b i Eg Hb Hi).
    + intros x y Hx Hy. rewrite Hp2 by lia. apply Hpx.
  - left. pose proof (solve_errors m ncol nrow Hn e Eg) as ->. split; [done|].
    exact (solve_no_solution m ncol nrow Hn Eg).
Qed.

Lemma whole_maze {E} (encode : png_encoder E) (m : mode) rng w h : encodes encode ->
  (1 <= w)%nat -> (1 <= h)%nat -> N.of_nat w <= largest_side m -> N.of_nat h <= largest_side m ->
  exists g sol im, create_checked m rng w h = Ret (g, sol) /\ de_maze (ser_maze (g, sol)) = Ok (g, sol) /\
    print_maze m (N.of_nat w) (N.of_nat h) g = Ret (Ok im) /\ encoded encode im (image_to_png_bytes encode im) /\
    (forall x y, x < i_width im -> y < i_height im ->
       (wall_pixel (N.of_nat w) g x y -> i_pix im x y = BLACK_PIXEL) /\
       (~ wall_pixel (N.of_nat w) g x y -> i_pix im x y = WHITE_PIXEL)) /\
    print_maze_solution m im sol = Ret (Err InvalidSolution).
Proof.
  intros He Hw1 Hh1 Hw Hh.
  destruct (largest_fits m) as (HL1&HL2&HL3&HL4&HL5&HL6).
  assert (Hwh : N.of_nat w * N.of_nat h <= 100000000) by nia.
  destruct (MazeCapacityProofs.create_capacity m rng w h) as [Hc _]; [lia|].
  assert (HLw : N.of_nat w * N.of_nat h <= largest_side m * largest_side m) by (by apply N.mul_le_mono).
  destruct Hc as [Hc Hst]; [done|done| |].
  { rewrite Nat2N.inj_mul. eapply N.le_lt_trans; [|exact HL4]. by apply N.mul_le_mono_l. }
  destruct (MazeProofs.create_total m rng w h Hw1 Hh1 Hst) as (g&sol&Eg&Hl).
  assert (Hp : printable m (N.of_nat w) (N.of_nat h)).
  { split; [lia|]. split; [lia|]. eapply N.le_lt_trans; [|exact HL2]. apply N.mul_le_mono_r, N.mul_le_mono; lia. }
  destruct (MazePrintProofs.print_maze_exact m (N.of_nat w) (N.of_nat h) g) as (im&Ei&Hiw&Hih&Hpx); [lia|done|lia|].
  exists g, sol, im. split; [congruence|]. split; [apply SerdeProofs.maze_round|]. split; [done|].
  split; [apply png_ok; [done|lia|lia]|]. split; [done|].
  eapply (MazeProofs.draw_fails m m m rng w h g sol im); try done; lia.
Qed.

Lemma whole_sudoku {E} (encode : png_encoder E) fuel text s v :
  let p := N.to_nat <$> v in
  encodes encode -> keeps_size text -> (matrix_size SUDOKU_CONSTRAINTS < fuel)%nat ->
  parse_sudoku s = Ok v -> (forall i j, ~ clash p i j) ->
  exists im, print_sudoku text v = Ret (Ok im) /\ encoded encode im (image_to_png_bytes encode im) /\
    ((solve_sudoku fuel p = Ret (Err Sudoku.NoSolution, ∅) /\ forall t, ~ text_completes s t) \/
     exists g im', solve_sudoku fuel p = Ret (Ok g, ∅) /\ text_completes s (grid_text g) /\
       print_sudoku text (N.of_nat <$> g) = Ret (Ok im') /\ encoded encode im' (image_to_png_bytes encode im')).
Proof.
  intros p He Hk Hf Hp Hc. pose proof Hp as (Hl&Hd&->)%SudokuParseProofs.parse_accepts.
  destruct (SudokuTextProofs.parse_text s Hl Hd) as (_&Hv&Hok).
  assert (Himg : forall q, length q = 81%nat -> exists im, print_sudoku text q = Ret (Ok im) /\
    encoded encode im (image_to_png_bytes encode im)).
  { intros q Hq. destruct (PrintProofs.print_sudoku_spec text q) as [_ H]. destruct (H Hq) as (ls&El&_).
    eexists. split; [exact El|]. eapply PngProofs.encode_ok; [|done|exact El]. by apply PngProofs.sudoku_sides. }
  destruct (Himg (digit_value <$> s)) as (im&Ei&Hi); [by rewrite fmap_length|].
  exists im. split; [done|]. split; [done|]. unfold p in Hc |- *. rewrite Hv in Hc |- *.
  destruct (SudokuProofs.solve_no_clash fuel _ Hok Hf Hc) as [(g&Eg&Hg)|[Eg Hno]].
  - right. destruct (Himg (N.of_nat <$> g)) as (im'&Ei'&Hi'); [rewrite fmap_length; apply Hg|].
    exists g, im'. split; [done|]. split; [|done]. apply SudokuTextProofs.text_completes_iff; [done|done|apply Hg|done].
  - left. split; [done|]. intros t Ht. pose proof Ht as [(g&Hg&->) _]. apply (Hno g).
    by apply SudokuTextProofs.text_completes_iff.
Qed.
