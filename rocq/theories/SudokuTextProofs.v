(** Proof of C72. *)
From Verif Require Import Base Dlx Sudoku SpecDlx SpecSudoku SpecSudokuText SudokuParseProofs SudokuProofs.

Definition text_grid (s : list N) : list nat := (fun c => N.to_nat (digit_value c)) <$> s.

Lemma grid_text_digits g : Forall (fun v => v <= 9) g -> Forall is_digit (grid_text g).
Proof. intros H. apply Forall_fmap. eapply Forall_impl; [exact H|]. intros v Hv. cbn in *. unfold is_digit, digit_char. lia. Qed.
Lemma text_grid_text g : text_grid (grid_text g) = g.
Proof.
  unfold text_grid, grid_text. rewrite <-list_fmap_compose. rewrite <-(list_fmap_id g) at 2. apply list_fmap_ext.
  intros i v _. unfold compose, digit_value, digit_char. cbn. lia.
Qed.
Lemma parse_text s : length s = 81 -> Forall is_digit s ->
  parse_sudoku s = Ok (digit_value <$> s) /\ N.to_nat <$> (digit_value <$> s) = text_grid s /\ puzzle_ok (text_grid s).
Proof.
  intros Hl Hd. split_and!; [by apply parse_accepts|by rewrite <-list_fmap_compose|]. split; [unfold text_grid; by rewrite fmap_length|].
  apply Forall_fmap. eapply Forall_impl; [exact Hd|]. intros c Hc. unfold is_digit in Hc. unfold compose, digit_value. lia.
Qed.
Lemma parse_grid_text g : complete_grid g -> parse_sudoku (grid_text g) = Ok (N.of_nat <$> g).
Proof.
  intros (Hl&H9&_). apply parse_accepts. unfold grid_text. rewrite fmap_length. split_and!; [done|..].
  - apply grid_text_digits. eapply Forall_impl; [exact H9|]. cbn. lia.
  - rewrite <-list_fmap_compose. apply list_fmap_ext. intros i v _. unfold compose, digit_value, digit_char. lia.
Qed.
Lemma text_completes_iff s g : length s = 81 -> Forall is_digit s -> complete_grid g ->
  text_completes s (grid_text g) <-> completes (text_grid s) g.
Proof.
  intros Hl Hd Hg. split.
  - intros [_ Ht]. split; [done|]. intros i v (c&->&Hc)%list_lookup_fmap_inv Hv.
    destruct (lookup_lt_is_Some_2 g i) as [w Hw].
    { pose proof (Forall2_length _ _ _ Ht) as Hl'. unfold grid_text in Hl'. rewrite fmap_length in Hl'. rewrite <-Hl'.
      by eapply lookup_lt_Some. }
    assert (grid_text g !! i = Some (digit_char (N.of_nat w))) as Hi by (unfold grid_text; by rewrite list_lookup_fmap, Hw).
    destruct (Forall2_lookup_lr _ _ _ _ _ _ Ht Hc Hi) as [->|E]; [by cbn in Hv|]. subst c. rewrite Hw. f_equal.
    unfold digit_value, digit_char. lia.
  - intros [_ Hk]. split; [by exists g|]. apply Forall2_same_length_lookup.
    split; [unfold grid_text; rewrite fmap_length; destruct Hg as [-> _]; done|]. intros i a b Ha Hb.
    destruct (decide (a = 48%N)) as [->|Hn]; [by left|]. right.
    pose proof (proj1 (Forall_lookup _ _) Hd _ _ Ha) as Had. unfold is_digit in Had. cbn in Had.
    assert (g !! i = Some (N.to_nat (digit_value a))) as Hi.
    { apply Hk; [unfold text_grid; by rewrite list_lookup_fmap, Ha|]. unfold digit_value. lia. }
    unfold grid_text in Hb. rewrite list_lookup_fmap, Hi in Hb. injection Hb as <-. unfold digit_char, digit_value. lia.
Qed.
Lemma text_completes_digits s t : text_completes s t -> length s = 81 /\ Forall is_digit s.
Proof.
  intros [(g&Hg&->) Ht]. pose proof Hg as (Hl&H9&_). pose proof (Forall2_length _ _ _ Ht) as Hl'. unfold grid_text in Hl'.
  rewrite fmap_length in Hl'. split; [congruence|]. apply Forall_lookup. intros i a Ha.
  destruct (lookup_lt_is_Some_2 (grid_text g) i) as [b Hb].
  { rewrite <-(Forall2_length _ _ _ Ht). by eapply lookup_lt_Some. }
  destruct (Forall2_lookup_lr _ _ _ _ _ _ Ht Ha Hb) as [->|<-]; [unfold is_digit; lia|].
  assert (Forall is_digit (grid_text g)) as Hd.
  { apply grid_text_digits. eapply Forall_impl; [exact H9|]. cbn. lia. }
  by apply (proj1 (Forall_lookup _ _) Hd i).
Qed.

Lemma text_solved fuel s : enough fuel -> (exists t, text_completes s t) ->
  exists v g, parse_sudoku s = Ok v /\ solve_sudoku fuel (N.to_nat <$> v) = Ret (Ok g, ∅) /\ text_completes s (grid_text g).
Proof.
  intros Hf [t Ht]. destruct (text_completes_digits s t Ht) as [Hl Hd]. destruct (parse_text s Hl Hd) as (Hp&Hv&Hok).
  pose proof Ht as [(g0&Hg0&->) _]. destruct (sudoku_complete fuel (text_grid s) Hok Hf) as (g&E&Hg).
  { exists g0. by apply text_completes_iff. }
  exists (digit_value <$> s), g. rewrite Hv. split_and!; [done|done|]. apply text_completes_iff; [done..|apply Hg|done].
Qed.
Lemma text_sound fuel s v g h : enough fuel -> parse_sudoku s = Ok v -> solve_sudoku fuel (N.to_nat <$> v) = Ret (Ok g, h) ->
  text_completes s (grid_text g) /\ parse_sudoku (grid_text g) = Ok (N.of_nat <$> g) /\
  solve_sudoku fuel (N.to_nat <$> (N.of_nat <$> g)) = Ret (Ok g, ∅).
Proof.
  intros Hf Hp E. pose proof Hp as (Hl&Hd&->)%parse_accepts. destruct (parse_text s Hl Hd) as (_&Hv&Hok). rewrite Hv in E.
  pose proof (sudoku_sound _ _ _ _ Hok Hf E) as Hg. split_and!.
  - apply text_completes_iff; [done..|apply Hg|done].
  - apply parse_grid_text, Hg.
  - assert (N.to_nat <$> (N.of_nat <$> g) = g) as ->.
    { rewrite <-list_fmap_compose. rewrite <-(list_fmap_id g) at 2. apply list_fmap_ext. intros i x _. unfold compose. cbn. lia. }
    by apply sudoku_idempotent with (p := text_grid s) (h := h).
Qed.
