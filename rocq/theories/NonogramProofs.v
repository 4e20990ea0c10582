(** Correctness of the nonogram solver. *)
From Verif Require Import Base Nonogram SpecNonogram NonogramStates NonogramLine NonogramDeduce SudokuProofs NonogramGrid.

From Coq Require Import ZifyNat.
Ltac Zify.zify_post_hook ::= Z.div_mod_to_equations.

(** * Puzzles without rows *)

Lemma solve_no_rows m col : 2 <= length col ->
  solve_nonogram m col [] = Fault Panic \/
  (solve_nonogram m col [] = Ret (Err NoSolution) /\ forall b, ~ solution col [] b).
Proof.
  intros Hw. destruct col as [|r0 col]; [cbn in Hw; lia|]. destruct col as [|r1 col]; [cbn in Hw; lia|].
  unfold solve_nonogram.
  rewrite n_mul_small by (rewrite Nat.mul_0_r; by destruct m as [? []]). cbn [bind]. rewrite Nat.mul_0_r.
  unfold grid_right_left. cbn [replicate length rounds]. unfold one_round.
  cbn [fmap list_fmap enumerate imap run_lines length].
  set (w := S (S (length col))). 
  assert (column_positions 0 0 w = Ret []) as Hpos.
  { unfold column_positions. rewrite decide_False by lia. rewrite decide_False by (unfold w; lia).
    replace ((0 - 0 + w - 1) `div` w) with 0; [done|]. symmetry. apply Nat.div_small. unfold w. lia. }
  rewrite Hpos. cbn [bind].
  destruct (run_line_spec r0 [] []) as [(g'&E&Hok)|[[E Herr]|[E _]]].
  { split; constructor. }
  - rewrite E. cbn [bind compose]. left. unfold column_positions. rewrite decide_True by lia. done.
  - rewrite E. cbn [bind]. right. split; [done|]. intros b (Hl&Hc&_). rewrite Nat.mul_0_r in Hl. destruct b; [|done].
    destruct Herr as [Herr _]. apply (Herr []); [constructor|]. constructor; [|constructor]. unfold meets. cbn [fst snd].
    apply (Hc 0 r0). done.
  - rewrite E. by left.
Qed.

Section solve.
Context (m : mode) (col row : list (list nat)).
Local Notation w := (length col).
Local Notation h := (length row).
Context (Hov : (N.of_nat (w * h) < usize_size m)%N).

Lemma solve_cases :
  (exists k, grid_right_left m (replicate (w * h) Blank) col row = Ret (Ok k) /\
     solve_nonogram m col row = Ret (Ok (shown k)) /\ final_ok col row (start col row) k) \/
  (solve_nonogram m col row = Ret (Err NoSolution) /\ forall b, ~ solution col row b) \/
  (solve_nonogram m col row = Fault Panic /\ (h = 0 /\ 2 <= w \/ ~ (Forall proper col /\ Forall proper row))).
Proof.
  destruct (decide (1 <= h \/ w <= 1)) as [Hd|Hd].
  - destruct (solve_nonogram_spec m col row Hov Hd) as [H|[[E [Hno _]]|[E Hex]]]; [by left|..].
    2:{ right. right. split; [done|]. right. by intros ?%proper_lines. }
    right. left. split; [done|]. intros b Hb. apply solution_meets in Hb as [Hl Hm].
    apply (Hno b); [|done]. by apply start_agrees.
  - destruct row as [|r row0]; [|cbn in Hd; lia]. right.
    destruct (solve_no_rows m col) as [E|H]; [lia|right; split; [done|left; split; [done|lia]]|by left].
Qed.

Lemma shown_true k b i : Forall2 agrees k b -> shown k !! i = Some true -> b !! i = Some true.
Proof.
  intros HF Hi. unfold shown in Hi. rewrite list_lookup_fmap in Hi. destruct (k !! i) as [s|] eqn:Hs; [|done].
  destruct s; try done. destruct (Forall2_lookup_l _ _ _ _ _ HF Hs) as (x&Hx&Ha). cbn in Ha. by subst x.
Qed.

Lemma solve_sound g b i : solve_nonogram m col row = Ret (Ok g) -> solution col row b ->
  g !! i = Some true -> b !! i = Some true.
Proof.
  intros E Hb. destruct solve_cases as [(k&_&E'&_&Hs&_)|[[E' _]|[E' _]]]; rewrite E' in E; try done.
  injection E as <-. apply solution_meets in Hb as [Hl Hm]. apply shown_true. apply Hs; [by apply start_agrees|done].
Qed.

Lemma solve_no_solution : solve_nonogram m col row = Ret (Err NoSolution) -> forall b, ~ solution col row b.
Proof.
  intros E. destruct solve_cases as [(k&_&E'&_)|[[E' H]|[E' _]]]; [|done|]; rewrite E' in E; done.
Qed.

Lemma solve_errors e : solve_nonogram m col row = Ret (Err e) -> e = NoSolution.
Proof.
  intros E. destruct solve_cases as [(k&_&E'&_)|[[E' H]|[E' _]]]; rewrite E' in E; try done; by injection E.
Qed.

Lemma solve_length g : solve_nonogram m col row = Ret (Ok g) -> length g = w * h.
Proof.
  intros E. destruct solve_cases as [(k&_&E'&Hf)|[[E' H]|[E' _]]]; rewrite E' in E; [|done|done].
  injection E as <-. destruct Hf as [Hle _]. unfold shown. rewrite fmap_length. apply Forall2_length in Hle.
  rewrite <-Hle. unfold start. by rewrite replicate_length.
Qed.

(** * Counting *)

Definition count (b : list bool) : nat := sum_list_with (fun x : bool => if x then 1 else 0) b.
Lemma blocks_sum b : forall cur, sum_list (blocks cur b) = cur + count b.
Proof.
  unfold count. induction b as [|x b IH]; intros cur; cbn [blocks sum_list_with].
  - case_decide; cbn; lia.
  - destruct x; [rewrite IH; lia|]. case_decide; cbn [sum_list_with]; rewrite ?IH; cbn; lia.
Qed.
Lemma count_eq b1 b2 : Forall2 (fun x y : bool => x = true -> y = true) b1 b2 -> count b1 = count b2 -> b1 = b2.
Proof.
  assert (forall b1 b2, Forall2 (fun x y : bool => x = true -> y = true) b1 b2 -> count b1 <= count b2) as Hle.
  { induction 1 as [|x y c1 c2 Hx _ IH]; [done|]. unfold count in *. cbn. destruct x, y; try lia. }
  induction 1 as [|x y c1 c2 Hx H IH]; [done|]. apply Hle in H. unfold count in *. cbn. intros He.
  destruct x, y; try (specialize (Hx eq_refl); done); try (f_equal; apply IH; lia); lia.
Qed.

Lemma grid_row_lookup {A} (g : list A) y x : x < w -> grid_row w g y !! x = g !! (w * y + x).
Proof. intros Hx. unfold grid_row. rewrite lookup_take by done. by rewrite lookup_drop. Qed.

Lemma solve_unique g : solve_nonogram m col row = Ret (Ok g) -> solution col row g ->
  forall b, solution col row b -> b = g.
Proof.
  intros E Hg b Hb. pose proof Hg as (Hlg&_&Hrg). pose proof Hb as (Hlb&_&Hrb).
  assert (forall y, y < h -> grid_row w g y = grid_row w b y) as Hrows.
  { intros y Hy. destruct (lookup_lt_is_Some_2 row y Hy) as [rule Hr].
    apply count_eq.
    - apply Forall2_same_length_lookup. split.
      { unfold grid_row. rewrite !take_length, !drop_length. by rewrite Hlg, Hlb. }
      intros x u v Hu Hv. assert (x < w) as Hx.
      { apply lookup_lt_Some in Hu. unfold grid_row in Hu. rewrite take_length in Hu. lia. }
      rewrite grid_row_lookup in Hu, Hv by done. intros ->.
      pose proof (solve_sound g b _ E Hb Hu) as Hv'. congruence.
    - specialize (Hrg _ _ Hr). specialize (Hrb _ _ Hr). apply spells_clue in Hrg, Hrb.
      pose proof (blocks_sum (grid_row w g y) 0) as H1. pose proof (blocks_sum (grid_row w b y) 0) as H2.
      unfold clue_of in Hrg, Hrb. rewrite Hrg in H1. rewrite Hrb in H2. lia. }
  symmetry. apply list_eq. intros i. destruct (decide (i < w * h)) as [Hi|Hi].
  2:{ rewrite !lookup_ge_None_2 by lia. done. }
  assert (w <> 0) as Hw by lia. assert (i = w * (i / w) + i mod w) as Hdiv by (by apply Nat.div_mod).
  assert (i mod w < w) as Hmod by (by apply Nat.mod_upper_bound).
  assert (i / w < h) as Hq by (apply Nat.div_lt_upper_bound; lia).
  specialize (Hrows _ Hq). rewrite Hdiv. rewrite <-!grid_row_lookup by done. by rewrite Hrows.
Qed.

(** * Fully determined grids *)

Lemma shown_sel ps k : shown (sel ps k) = sel ps (shown k).
Proof.
  unfold shown, sel. induction ps as [|p ps IH]; [done|]. cbn. rewrite list_lookup_fmap.
  destruct (k !! p); cbn; by rewrite IH.
Qed.
Lemma agrees_shown s b : Forall2 agrees s b -> Blank ∉ s -> b = shown s.
Proof.
  unfold shown. induction 1 as [|x y s b Ha _ IH]; intros Hn; [done|]. apply not_elem_of_cons in Hn as [Hn1 Hn2]. cbn.
  rewrite IH by done. f_equal. by destruct x.
Qed.
Lemma sel_elem {A} ps (g : list A) x : x ∈ sel ps g -> x ∈ g.
Proof. unfold sel. intros (p&_&Hp)%elem_of_list_omap. by eapply elem_of_list_lookup_2. Qed.

Lemma solve_determined k : grid_right_left m (replicate (w * h) Blank) col row = Ret (Ok k) -> Blank ∉ k ->
  solve_nonogram m col row = Ret (Ok (shown k)) /\ solution col row (shown k).
Proof.
  intros E Hk.
  assert (solve_nonogram m col row = Ret (Ok (shown k))) as Es.
  { unfold solve_nonogram. rewrite n_mul_small by done. cbn [bind]. rewrite E. done. }
  split; [done|].
  destruct solve_cases as [(k'&E'&_&Hf)|[[E' _]|[E' _]]]; [|rewrite E' in Es; done|rewrite E' in Es; done].
  rewrite E' in E. injection E as ->. apply solution_meets.
  split; [by apply solve_length|]. destruct Hf as (_&_&_&Hst). 
  apply Forall_lookup. intros i [rule ps] Hi. rewrite Forall_lookup in Hst. specialize (Hst _ _ Hi).
  destruct (stable_refine _ _ Hst) as (L&R&((Hc&Ha)&_)&_). cbn [fst snd] in *. unfold meets. cbn [fst snd].
  rewrite <-shown_sel. rewrite <-(agrees_shown _ _ Ha); [done|]. intros Hin. by apply sel_elem in Hin.
Qed.

Lemma solve_proper g : solve_nonogram m col row = Ret (Ok g) -> Forall proper col /\ Forall proper row.
Proof.
  intros E. destruct solve_cases as [(k&_&E'&Hf)|[[E' _]|[E' _]]]; [|rewrite E' in E; done..]. by apply final_proper in Hf.
Qed.
Lemma solve_total : Forall proper col -> Forall proper row -> 1 <= h \/ w <= 1 ->
  exists r, solve_nonogram m col row = Ret r.
Proof.
  intros Hc Hr Hd. destruct solve_cases as [(k&_&E&_)|[[E _]|[_ [H|H]]]]; [eauto|eauto|lia|by destruct H].
Qed.
Lemma solve_panics f : solve_nonogram m col row = Fault f ->
  f = Panic /\ (h = 0 /\ 2 <= w \/ exists rule, rule ∈ col ++ row /\ ~ proper rule).
Proof.
  intros E. destruct solve_cases as [(k&_&E'&_)|[[E' _]|[E' H]]]; rewrite E' in E; [done..|]. injection E as <-. split; [done|].
  destruct H as [H|H]; [by left|]. right. rewrite <-Forall_app in H.
  apply not_Forall_Exists, Exists_exists in H; [|apply _]. done.
Qed.
(** A solvable puzzle panics exactly in these cases. *)
Lemma solve_panics_iff b : solution col row b ->
  solve_nonogram m col row = Fault Panic <-> (h = 0 /\ 2 <= w) \/ exists rule, rule ∈ col ++ row /\ ~ proper rule.
Proof.
  intros Hb. split; [by intros [_ H]%solve_panics|]. intros H.
  destruct solve_cases as [(k&E&E'&Hf)|[[E' Hno]|[E' _]]]; [|by apply Hno in Hb|done].
  exfalso. destruct H as [[Hh Hw]|(rule&Hin&Hp)].
  - clear Hb Hf. destruct row; [|done]. destruct (solve_no_rows m col Hw) as [E2|[E2 _]]; congruence.
  - apply final_proper in Hf as [H1 H2]. apply elem_of_app in Hin as [Hin|Hin].
    + rewrite Forall_forall in H1. by apply Hp, H1.
    + rewrite Forall_forall in H2. by apply Hp, H2.
Qed.
End solve.

(** * Transposition *)

Lemma concat_lookup {A} (n : nat) (ls : list (list A)) x y : Forall (fun l => length l = n) ls -> y < n ->
  concat ls !! (n * x + y) = l ← ls !! x; l !! y.
Proof.
  intros HF Hy. revert x. induction HF as [|l ls Hl HF IH]; intros x; [by rewrite lookup_nil|]. cbn [concat].
  destruct x as [|x].
  - rewrite Nat.mul_0_r, lookup_app_l by lia. done.
  - rewrite lookup_app_r by nia. replace (n * S x + y - length l) with (n * x + y) by nia. apply IH.
Qed.
Lemma concat_length {A} (n : nat) (ls : list (list A)) : Forall (fun l => length l = n) ls -> length (concat ls) = n * length ls.
Proof. induction 1 as [|l ls Hl _ IH]; cbn; [lia|]. rewrite app_length, IH. nia. Qed.

Section transpose.
Context {A : Type}.
Lemma grid_col_length w h (g : list A) x : length g = w * h -> x < w -> length (grid_col w h g x) = h.
Proof.
  intros Hg Hx. rewrite <-sel_col_ps. rewrite sel_length.
  - unfold col_ps. by rewrite fmap_length, seq_length.
  - rewrite Hg. by apply col_ps_good.
Qed.
Lemma grid_col_lookup w h (g : list A) x y : length g = w * h -> x < w -> y < h -> grid_col w h g x !! y = g !! (w * y + x).
Proof.
  intros Hg Hx Hy. rewrite <-sel_col_ps. rewrite sel_lookup by (rewrite Hg; by apply col_ps_good).
  unfold col_ps. rewrite list_lookup_fmap, lookup_seq_lt by done. cbn. f_equal. lia.
Qed.
Lemma columns_uniform w h (g : list A) : length g = w * h -> Forall (fun l => length l = h) (grid_col w h g <$> seq 0 w).
Proof.
  intros Hg. apply Forall_fmap, Forall_forall. intros x Hx. apply elem_of_seq in Hx. apply grid_col_length; [done|lia].
Qed.
Lemma transpose_length w h (g : list A) : length g = w * h -> length (transpose w h g) = h * w.
Proof.
  intros Hg. unfold transpose. rewrite (concat_length h) by (by apply columns_uniform). by rewrite fmap_length, seq_length.
Qed.
Lemma transpose_lookup w h (g : list A) x y : length g = w * h -> x < w -> y < h ->
  transpose w h g !! (h * x + y) = g !! (w * y + x).
Proof.
  intros Hg Hx Hy. unfold transpose. rewrite (concat_lookup h); [|by apply columns_uniform|done].
  rewrite list_lookup_fmap, lookup_seq_lt by done. cbn. by apply grid_col_lookup.
Qed.
Lemma coordinates w h i : i < w * h -> exists x y, x < w /\ y < h /\ i = w * y + x.
Proof.
  intros Hi. assert (w <> 0) as Hw by lia. exists (i mod w), (i / w).
  split_and!; [by apply Nat.mod_upper_bound|apply Nat.div_lt_upper_bound; lia|by apply Nat.div_mod].
Qed.
Lemma transpose_involutive w h (g : list A) : length g = w * h -> transpose h w (transpose w h g) = g.
Proof.
  intros Hg. apply list_eq. intros i. destruct (decide (i < w * h)) as [Hi|Hi].
  - destruct (coordinates w h i Hi) as (x&y&Hx&Hy&->).
    rewrite transpose_lookup; [|by apply transpose_length|done|done]. by apply transpose_lookup.
  - rewrite !lookup_ge_None_2; [done|lia|]. rewrite transpose_length by (by apply transpose_length). lia.
Qed.
Lemma transpose_row w h (g : list A) x : length g = w * h -> x < w ->
  grid_row h (transpose w h g) x = grid_col w h g x.
Proof.
  intros Hg Hx. apply list_eq. intros y. destruct (decide (y < h)) as [Hy|Hy].
  - rewrite grid_col_lookup by done. unfold grid_row. rewrite lookup_take, lookup_drop by done. by apply transpose_lookup.
  - rewrite !lookup_ge_None_2; [done|by rewrite grid_col_length by done; lia|].
    unfold grid_row. rewrite take_length. lia.
Qed.
Lemma transpose_col w h (g : list A) y : length g = w * h -> y < h ->
  grid_col h w (transpose w h g) y = grid_row w g y.
Proof.
  intros Hg Hy. rewrite <-transpose_row; [|by apply transpose_length|done]. by rewrite transpose_involutive.
Qed.
End transpose.
Lemma transpose_Forall2 {A B} (P : A -> B -> Prop) w h g k : length g = w * h ->
  Forall2 P g k -> Forall2 P (transpose w h g) (transpose w h k).
Proof.
  intros Hg HF. assert (length k = w * h) as Hk by (rewrite <-Hg; symmetry; by eapply Forall2_length).
  apply Forall2_same_length_lookup. rewrite !transpose_length by done. split; [done|].
  intros i a b Ha Hb. assert (i < h * w) as Hi by (apply lookup_lt_Some in Ha; by rewrite transpose_length in Ha).
  destruct (coordinates h w i Hi) as (y&x&Hy&Hx&->). rewrite transpose_lookup in Ha by done. rewrite transpose_lookup in Hb by done.
  by eapply Forall2_lookup_lr.
Qed.
Lemma transpose_shown w h k : length k = w * h -> shown (transpose w h k) = transpose w h (shown k).
Proof.
  intros Hk. apply list_eq. intros i. assert (length (shown k) = w * h) as Hs by (unfold shown; by rewrite fmap_length).
  destruct (decide (i < h * w)) as [Hi|Hi].
  - destruct (coordinates h w i Hi) as (y&x&Hy&Hx&->). unfold shown at 1. rewrite list_lookup_fmap.
    rewrite !transpose_lookup by done. unfold shown. by rewrite list_lookup_fmap.
  - rewrite !lookup_ge_None_2; [done|by rewrite transpose_length by done; lia|].
    unfold shown. rewrite fmap_length, transpose_length by done. lia.
Qed.

Lemma stable_lines col row k : length k = length col * length row ->
  Forall (stable k) (all_lines col row) <->
  (forall x rule, col !! x = Some rule -> line_stable rule (grid_col (length col) (length row) k x)) /\
  (forall y rule, row !! y = Some rule -> line_stable rule (grid_row (length col) k y)).
Proof.
  intros Hl. unfold all_lines. rewrite Forall_app, !Forall_lookup. split.
  - intros [Hc Hr]. split.
    + intros x rule Hx. rewrite <-sel_col_ps. apply (Hc x (rule, _)). apply list_lookup_imap_Some. eauto.
    + intros y rule Hy. rewrite <-(sel_row_ps _ (length row)) by (done || by apply lookup_lt_Some in Hy).
      apply (Hr y (rule, _)). apply list_lookup_imap_Some. eauto.
  - intros [Hc Hr]. split; intros i l Hi; apply list_lookup_imap_Some in Hi as (rule&Hi&->); unfold stable; cbn [fst snd].
    + rewrite sel_col_ps. by apply Hc.
    + rewrite (sel_row_ps _ (length row)) by (done || by apply lookup_lt_Some in Hi). by apply Hr.
Qed.
Lemma stable_transpose col row k : length k = length col * length row ->
  Forall (stable k) (all_lines col row) -> Forall (stable (transpose (length col) (length row) k)) (all_lines row col).
Proof.
  intros Hl. rewrite !stable_lines by (done || by apply transpose_length). intros [Hc Hr]. split.
  - intros y rule Hy. rewrite transpose_col by (done || by apply lookup_lt_Some in Hy). by apply Hr.
  - intros x rule Hx. rewrite transpose_row by (done || by apply lookup_lt_Some in Hx). by apply Hc.
Qed.

Lemma solve_transpose (m : mode) col row : Forall proper col -> Forall proper row ->
  (N.of_nat (length col * length row) < usize_size m)%N -> col <> [] -> row <> [] ->
  solve_nonogram m row col =
    match solve_nonogram m col row with
    | Ret (Ok g) => Ret (Ok (transpose (length col) (length row) g))
    | r => r
    end.
Proof.
  intros Hpc Hpr Hov Hc Hr. assert (1 <= length col) as Hw by (destruct col; cbn; [done|lia]).
  assert (1 <= length row) as Hh by (destruct row; cbn; [done|lia]).
  assert (length (start row col) = length row * length col) as Hs1 by (unfold start; by rewrite replicate_length).
  assert (length (start col row) = length col * length row) as Hs2 by (unfold start; by rewrite replicate_length).
  destruct (solve_nonogram_spec m col row) as [(k&_&E&Hle&_&Hleast&Hst)|[[E [_ Herr]]|[E Hex]]]; [done|by left|..|exfalso; by apply (proper_lines col row) in Hex]; rewrite E;
  (destruct (solve_nonogram_spec m row col) as [(k'&_&E'&Hle'&_&Hleast'&Hst')|[[E' [_ Herr']]|[E' Hex']]];
    [by rewrite Nat.mul_comm|by left|..|exfalso; by apply (proper_lines row col) in Hex']); rewrite E'.
  - assert (length k = length col * length row) as Hk by (rewrite <-Hs2; symmetry; by eapply Forall2_length).
    assert (length k' = length row * length col) as Hk' by (rewrite <-Hs1; symmetry; by eapply Forall2_length).
    assert (gle k' (transpose (length col) (length row) k)) as H1.
    { apply Hleast'; [apply start_least; by apply transpose_length|by apply stable_transpose]. }
    assert (gle k (transpose (length row) (length col) k')) as H2.
    { apply Hleast; [apply start_least; by apply transpose_length|by apply stable_transpose]. }
    apply (transpose_Forall2 _ (length col) (length row)) in H2; [|done]. rewrite transpose_involutive in H2 by done.
    assert (k' = transpose (length col) (length row) k) as -> by (by apply gle_antisym).
    by rewrite transpose_shown.
  - exfalso. assert (length k = length col * length row) as Hk by (rewrite <-Hs2; symmetry; by eapply Forall2_length).
    apply (Herr' (transpose (length col) (length row) k)); [apply start_least; by apply transpose_length|by apply stable_transpose].
  - exfalso. assert (length k' = length row * length col) as Hk' by (rewrite <-Hs1; symmetry; by eapply Forall2_length).
    apply (Herr (transpose (length row) (length col) k')); [apply start_least; by apply transpose_length|by apply stable_transpose].
  - done.
Qed.

(** * Forms used in the property file *)

Lemma determined_solution (m : mode) col row k :
  (N.of_nat (length col * length row) < usize_size m)%N ->
  grid_right_left m (replicate (length col * length row) Blank) col row = Ret (Ok k) -> Blank ∉ k ->
  exists g, solve_nonogram m col row = Ret (Ok g) /\ solution col row g.
Proof. intros Hn E Hk. exists (shown k). by apply solve_determined. Qed.

Lemma determined_cells (m : mode) col row k :
  (N.of_nat (length col * length row) < usize_size m)%N ->
  grid_right_left m (replicate (length col * length row) Blank) col row = Ret (Ok k) -> Blank ∉ k ->
  exists g, solve_nonogram m col row = Ret (Ok g) /\ solution col row g /\
    forall i, g !! i = Some true <-> k !! i = Some Filled.
Proof.
  intros Hn E Hk. exists (shown k). destruct (solve_determined m col row Hn k E Hk) as [H1 H2].
  split_and!; [done|done|]. intros i. unfold shown. rewrite list_lookup_fmap.
  destruct (k !! i) as [[]|]; cbn; split; intros H; try done; congruence.
Qed.

Lemma unsolved_refuted : exists col row g, Forall positive col /\ Forall positive row /\
  (exists b, solution col row b) /\
  (forall m, solve_nonogram m col row = Ret (Ok g)) /\ ~ solution col row g.
Proof.
  exists [[1]; [1]], [[1]; [1]], [false; false; false; false].
  assert (Forall positive [[1]; [1]]) as Hp by (repeat constructor).
  split_and!; [done|done|..].
  - exists [true; false; false; true]. apply solution_clues; [done|..]; intros [|[|x]] rule H; try done; by injection H as <-.
  - intros [[] []]; vm_compute; reflexivity.
  - intros (_&Hc&_)%solution_positive; [|done..]. specialize (Hc 0 _ eq_refl). done.
Qed.

Lemma panics_refuted :
  (exists text vss, forall m, parse_nonogram_rules m text 1 = Ret (Ok vss) /\
     solve_nonogram m (map (map N.to_nat) vss) (map (map N.to_nat) vss) = Fault Panic) /\
  (forall m, solve_nonogram m [[]; []] [] = Fault Panic).
Proof.
  split; [|intros [[] []]; vm_compute; reflexivity].
  exists [48%N], [[0%N]]. intros [[] []]; split; vm_compute; reflexivity.
Qed.
