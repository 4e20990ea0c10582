(** Proofs for C84 and for the sizes in C36 and C80. *)
From Verif Require Import Base Nonogram SpecNonogram SpecNonogramDeduce SpecNonogramSizes.
From Verif Require Import NonogramStates NonogramDeduce NonogramForced NonogramTotals NonogramUnique.
From Verif Require NonogramProofs NonogramGrid.

Notation shown := NonogramGrid.shown.

(** * Counting *)

Lemma filled_cnt g : filled_squares g = cnt g.
Proof.
  unfold filled_squares. induction g as [|x g IH]; [done|]. change (cnt (x :: g)) with (Nat.b2n x + cnt g). destruct x.
  - rewrite filter_cons_True by done. cbn. by rewrite IH.
  - rewrite filter_cons_False by done. done.
Qed.
Lemma agrees_cnt line b : Forall2 agrees line b ->
  cnt (shown line) <= cnt b /\ (cnt (shown line) = cnt b -> b = shown line).
Proof.
  induction 1 as [|s x line b Hs _ [IH1 IH2]]; [done|].
  change (cnt (shown (s :: line))) with (Nat.b2n (match s with Filled => true | _ => false end) + cnt (shown line)).
  change (cnt (x :: b)) with (Nat.b2n x + cnt b). change (shown (s :: line)) with ((match s with Filled => true | _ => false end) :: shown line).
  destruct s, x; cbn in Hs |- *; try done; (split; [lia|]); intros H; try lia; f_equal; apply IH2; lia.
Qed.
Lemma closed_cnt rule line : closed rule line ->
  cnt (shown line) <= sum_list rule /\
  (cnt (shown line) = sum_list rule -> Blank ∉ line /\ spells rule (shown line)).
Proof.
  intros [[b Hb] Hno]. assert (forall b', fits rule line b' -> cnt b' = sum_list rule /\
    cnt (shown line) <= sum_list rule /\ (cnt (shown line) = sum_list rule -> b' = shown line)) as K.
  { intros b' [Hs Ha]. pose proof (spells_cnt _ _ Hs) as Hc. rewrite <-Hc. split; [done|]. by apply agrees_cnt. }
  split; [by apply (K b)|]. intros E. split.
  - intros [i Hi]%elem_of_list_lookup. destruct (lookup_lt_is_Some_2 (shown line) i) as [v Hv].
    { unfold NonogramGrid.shown. rewrite fmap_length. by eapply lookup_lt_Some. }
    apply (Hno i v Hi). exists (block_no (shown line) i). intros b' Hb'. destruct (K b' Hb') as (_&_&Hu).
    rewrite (Hu E). done.
  - destruct (K b Hb) as (_&_&Hu). rewrite <-(Hu E). apply Hb.
Qed.

Lemma total_le f g n : (forall k, k < n -> f k <= g k) -> total f n <= total g n /\ (total f n = total g n -> forall k, k < n -> f k = g k).
Proof.
  induction n as [|n IH]; intros H; [split; [done|lia]|]. rewrite !total_S.
  destruct IH as [IH1 IH2]; [intros k Hk; apply H; lia|]. pose proof (H n ltac:(lia)) as Hn. split; [lia|]. intros E k Hk.
  destruct (decide (k = n)) as [->|Hne]; [lia|]. apply IH2; lia.
Qed.
Lemma cnt_rows w h g : length g = w * h -> cnt g = total (fun y => cnt (grid_row w g y)) h.
Proof.
  revert g. induction h as [|h IH]; intros g Hl.
  - rewrite Nat.mul_0_r in Hl. by destruct g.
  - rewrite total_S. rewrite <-(take_drop (w * h) g) at 1. rewrite cnt_app, (IH (take (w * h) g)) by (rewrite take_length; lia). f_equal.
    + apply total_ext. intros y Hy. f_equal. unfold grid_row. rewrite skipn_firstn_comm.
      rewrite take_take. f_equal. nia.
    + unfold grid_row. rewrite take_ge; [done|]. rewrite drop_length. lia.
Qed.
Lemma cnt_cols w h g : length g = w * h -> cnt g = total (fun x => cnt (grid_col w h g x)) w.
Proof.
  intros Hl. rewrite (cnt_rows w h g Hl). set (f := fun x y => from_option Nat.b2n 0 (g !! (w * y + x))).
  rewrite (total_ext _ (fun y => total (fun x => f x y) w)).
  - rewrite <-total_swap. apply total_ext. intros x Hx. unfold grid_col. by rewrite (cnt_omap g (fun y => w * y + x)).
  - intros y Hy. rewrite row_omap. by rewrite (cnt_omap g (fun x => w * y + x)).
Qed.
Lemma shown_row w k y : shown (grid_row w k y) = grid_row w (shown k) y.
Proof. unfold NonogramGrid.shown, grid_row. by rewrite fmap_take, fmap_drop. Qed.
Lemma shown_col w h k x : shown (grid_col w h k x) = grid_col w h (shown k) x.
Proof.
  unfold NonogramGrid.shown, grid_col. induction (seq 0 h) as [|y l IH]; [done|]. cbn. rewrite list_lookup_fmap.
  destruct (k !! (w * y + x)); cbn; by rewrite IH.
Qed.
Lemma clue_total_eq rules g : (forall i r, rules !! i = Some r -> g i = sum_list r) -> total g (length rules) = clue_total rules.
Proof. apply total_list. Qed.
Definition nth_total (rules : list (list nat)) (i : nat) : nat := sum_list (default [] (rules !! i)).
Lemma nth_total_eq rules : total (nth_total rules) (length rules) = clue_total rules.
Proof. apply clue_total_eq. intros i r E. unfold nth_total. by rewrite E. Qed.

Lemma elem_row {A} w h (k : list A) a : length k = w * h -> a ∈ k -> exists y, y < h /\ a ∈ grid_row w k y.
Proof.
  intros Hl [i Hi]%elem_of_list_lookup. pose proof (lookup_lt_Some _ _ _ Hi) as Hlt. rewrite Hl in Hlt.
  destruct (NonogramProofs.coordinates w h i Hlt) as (x&y&Hx&Hy&->). exists y. split; [done|].
  apply elem_of_list_lookup. exists x. unfold grid_row. by rewrite lookup_take, lookup_drop.
Qed.
Lemma elem_col {A} w h (k : list A) a : length k = w * h -> a ∈ k -> exists x, x < w /\ a ∈ grid_col w h k x.
Proof.
  intros Hl [i Hi]%elem_of_list_lookup. pose proof (lookup_lt_Some _ _ _ Hi) as Hlt. rewrite Hl in Hlt.
  destruct (NonogramProofs.coordinates w h i Hlt) as (x&y&Hx&Hy&->). exists x. split; [done|].
  unfold grid_col. apply elem_of_list_omap. exists y. split; [|done]. apply elem_of_seq. lia.
Qed.

Section grid.
  Context (col row : list (list nat)) (k : list square) (Hk : closed_grid col row k).
  Let g := shown k.
  Lemma shown_length : length g = length col * length row.
  Proof using Hk. unfold g, NonogramGrid.shown. rewrite fmap_length. apply Hk. Qed.
  Lemma row_bound y : y < length row -> cnt (grid_row (length col) g y) <= nth_total row y /\
    (cnt (grid_row (length col) g y) = nth_total row y -> Blank ∉ grid_row (length col) k y).
  Proof using Hk.
    intros Hy. destruct (lookup_lt_is_Some_2 row y Hy) as [rule E]. unfold nth_total. rewrite E. cbn [default from_option id].
    destruct Hk as (_&_&Hr). pose proof (closed_cnt _ _ (Hr y rule E)) as [H1 H2]. rewrite shown_row in H1, H2. split; [done|].
    intros H. by apply H2.
  Qed.
  Lemma col_bound x : x < length col -> cnt (grid_col (length col) (length row) g x) <= nth_total col x /\
    (cnt (grid_col (length col) (length row) g x) = nth_total col x -> Blank ∉ grid_col (length col) (length row) k x).
  Proof using Hk.
    intros Hx. destruct (lookup_lt_is_Some_2 col x Hx) as [rule E]. unfold nth_total. rewrite E. cbn [default from_option id].
    destruct Hk as (_&Hc&_). pose proof (closed_cnt _ _ (Hc x rule E)) as [H1 H2]. rewrite shown_col in H1, H2. split; [done|].
    intros H. by apply H2.
  Qed.
  Lemma grid_bound_rows : cnt g <= clue_total row /\ (cnt g = clue_total row -> Blank ∉ k).
  Proof using Hk.
    rewrite (cnt_rows _ _ _ shown_length), <-nth_total_eq.
    destruct (total_le (fun y => cnt (grid_row (length col) g y)) (nth_total row) (length row)) as [H1 H2].
    { intros y Hy. by apply row_bound. }
    split; [done|]. intros E Hb. destruct (elem_row (length col) (length row) k Blank) as (y&Hy&Hin); [apply Hk|done|].
    by apply (proj2 (row_bound y Hy) (H2 E y Hy)).
  Qed.
  Lemma grid_bound_cols : cnt g <= clue_total col /\ (cnt g = clue_total col -> Blank ∉ k).
  Proof using Hk.
    rewrite (cnt_cols _ _ _ shown_length), <-nth_total_eq.
    destruct (total_le (fun x => cnt (grid_col (length col) (length row) g x)) (nth_total col) (length col)) as [H1 H2].
    { intros x Hx. by apply col_bound. }
    split; [done|]. intros E Hb. destruct (elem_col (length col) (length row) k Blank) as (x&Hx&Hin); [apply Hk|done|].
    by apply (proj2 (col_bound x Hx) (H2 E x Hx)).
  Qed.
  Lemma no_blank_solution : Blank ∉ k -> solution col row g.
  Proof using Hk.
    intros Hb. assert (forall line rule, (forall s, s ∈ line -> s ∈ k) -> closed rule line -> spells rule (shown line)) as K.
    { intros line rule Hin [[b [Hs Ha]] _]. assert (b = shown line) as <-; [|done]. clear Hs.
      induction Ha as [|s x line b Hsx _ IH]; [done|]. cbn. f_equal.
      - destruct s, x; try done. exfalso. apply Hb, Hin, elem_of_list_here.
      - apply IH. intros s' Hs'. apply Hin. by apply elem_of_list_further. }
    destruct Hk as (Hl&Hc&Hr). split; [apply shown_length|]. split.
    - intros x rule E. unfold g. rewrite <-shown_col. apply K; [|by apply Hc]. intros s Hs. unfold grid_col in Hs.
      apply elem_of_list_omap in Hs as (y&_&Hs). by eapply elem_of_list_lookup_2.
    - intros y rule E. unfold g. rewrite <-shown_row. apply K; [|by apply Hr]. intros s Hs. unfold grid_row in Hs.
      apply elem_of_take in Hs as (i&Hs&_). rewrite lookup_drop in Hs. by eapply elem_of_list_lookup_2.
  Qed.
  Lemma solution_cnt : solution col row g -> cnt g = clue_total row /\ cnt g = clue_total col.
  Proof using Hk.
    intros Hs. pose proof (solution_totals _ _ _ Hs) as Ht. unfold clue_total. rewrite Ht. split; [|rewrite <-Ht].
    - destruct Hs as (Hl&_&Hr). rewrite (cnt_rows _ _ _ Hl). apply total_list. intros y r E. by apply spells_cnt, Hr.
    - destruct Hs as (Hl&Hc&_). rewrite Ht. fold (clue_total row). rewrite (cnt_cols _ _ _ Hl).
      transitivity (clue_total col); [|done]. apply total_list. intros x r E. by apply spells_cnt, Hc.
  Qed.
End grid.

Lemma count_check (m : mode) col row g : Forall proper col -> Forall proper row ->
  (N.of_nat (length col * length row) < usize_size m)%N -> 1 <= length row \/ length col <= 1 ->
  solve_nonogram m col row = Ret (Ok g) ->
  filled_squares g <= clue_total row /\ filled_squares g <= clue_total col /\
  (solution col row g <-> filled_squares g = clue_total row) /\
  (solution col row g <-> filled_squares g = clue_total col).
Proof.
  intros Hc Hr Hn Hd E. destruct (solve_least m col row Hc Hr Hn Hd) as [(k&Hk&_&E')|[_ E']]; [|congruence].
  rewrite E in E'. injection E' as ->. change (map _ k) with (shown k). rewrite filled_cnt.
  destruct (grid_bound_rows col row k Hk) as [B1 B2]. destruct (grid_bound_cols col row k Hk) as [B3 B4].
  pose proof (solution_cnt col row k Hk) as S. pose proof (no_blank_solution col row k Hk) as S'.
  split_and!; [done|done|split..].
  - intros H. by destruct (S H).
  - intros H. by apply S', B2.
  - intros H. by destruct (S H).
  - intros H. by apply S', B4.
Qed.

(** A solution is returned iff nothing is left undecided. *)
Lemma solved_iff (m : mode) col row k : Forall proper col -> Forall proper row ->
  (N.of_nat (length col * length row) < usize_size m)%N -> 1 <= length row \/ length col <= 1 ->
  grid_right_left m (replicate (length col * length row) Blank) col row = Ret (Ok k) ->
  exists g, solve_nonogram m col row = Ret (Ok g) /\ (solution col row g <-> Blank ∉ k).
Proof.
  intros Hc Hr Hn Hd E. destruct (deduce_least m col row Hc Hr Hn Hd (replicate (length col * length row) Blank)) as [(k'&E'&_&Hk&Hle)|[E' _]].
  - apply replicate_length.
  - rewrite E in E'. injection E' as <-. exists (shown k).
    assert (solve_nonogram m col row = Ret (Ok (shown k))) as Es.
    { destruct (solve_least m col row Hc Hr Hn Hd) as [(k'&Hk'&Hle'&E')|[Hno _]]; [|by apply Hno in Hk].
      rewrite E'. do 2 f_equal. f_equal. apply refines_antisym; [by apply Hle'|]. apply Hle; [done|].
      destruct Hk' as [Hl' _]. rewrite <-Hl'. clear. induction k' as [|a k IH]; constructor; [by left|done]. }
    split; [done|]. split.
    + intros Hs. apply (grid_bound_rows col row k Hk). by apply (solution_cnt col row k Hk).
    + by apply no_blank_solution.
  - congruence.
Qed.

(** * Sizes *)

Lemma answer_sizes (m : mode) w h : 1 <= w -> 1 <= h -> (N.of_nat (w * h) < usize_size m)%N ->
  w = 1 \/ h = 1 <->
  forall col row g, length col = w -> length row = h -> Forall positive col -> Forall positive row ->
    solve_nonogram m col row = Ret (Ok g) -> solution col row g.
Proof.
  intros Hw Hh Hn. split.
  - intros Hd col row g <- <- Hc Hr E. destruct (thin_solved m col row Hc Hr Hn Hd) as [(g'&E'&H)|[E' _]]; congruence.
  - intros H. destruct (decide (w = 1 \/ h = 1)) as [|Hd]; [done|]. exfalso.
    assert (forall n, Forall positive (replicate n [1])) as Hp by (intros n; apply Forall_replicate; repeat constructor).
    specialize (H (replicate w [1]) (replicate h [1]) (replicate (w * h) false) ltac:(apply replicate_length) ltac:(apply replicate_length)
      (Hp w) (Hp h) (ones_solve m w h ltac:(lia) ltac:(lia) Hn)).
    destruct H as (_&Hc&_). specialize (Hc 0 [1]). rewrite !replicate_length in Hc.
    specialize (Hc (lookup_replicate_2 _ _ _ Hw)). apply spells_cnt in Hc. cbn in Hc. revert Hc. unfold grid_col.
    rewrite (omap_all _ _ false).
    + by rewrite cnt_replicate.
    + intros y Hy%elem_of_seq. apply lookup_replicate_2. nia.
Qed.

Lemma one_pad_closed a : 2 <= a -> closed [1] (replicate a Blank ++ replicate 1 Blocked).
Proof.
  intros Ha. set (hot := fun j => replicate j false ++ replicate 1 true ++ replicate (a - 1 - j) false).
  assert (forall j, j < a -> length (hot j) = a) as Hl.
  { intros j Hj. unfold hot. rewrite !app_length, !replicate_length. lia. }
  assert (forall j i, j < a -> i < a -> hot j !! i = Some (bool_decide (i = j))) as Hv.
  { intros j i Hj Hi. unfold hot. destruct (decide (i < j)) as [H|H].
    - rewrite lookup_app_l, lookup_replicate_2 by (rewrite ?replicate_length; lia). by rewrite bool_decide_false by lia.
    - rewrite lookup_app_r by (rewrite replicate_length; lia). rewrite replicate_length. destruct (decide (i = j)) as [->|Hne].
      + rewrite Nat.sub_diag. cbn. by rewrite bool_decide_true.
      + rewrite lookup_app_r by (rewrite replicate_length; lia). rewrite !replicate_length, lookup_replicate_2 by lia. by rewrite bool_decide_false. }
  apply (closed_pad [1] (replicate a Blank) 1 (hot <$> seq 0 a)).
  - repeat constructor.
  - destruct a; [lia|done].
  - intros b (j&->&Hj%elem_of_seq)%elem_of_list_fmap. split.
    + apply Forall2_replicate_l; [apply Hl; lia|]. apply Forall_true. done.
    + apply spells_positive; [repeat constructor|]. cbn. by exists j, (a - 1 - j).
  - intros i [_ Hi]%lookup_replicate. exists (hot i), (hot (if decide (i = 0) then 1 else 0)). split_and!.
    + apply elem_of_list_fmap. exists i. split; [done|]. apply elem_of_seq. lia.
    + apply elem_of_list_fmap. eexists. split; [done|]. apply elem_of_seq. destruct (decide _); lia.
    + rewrite !Hv by (try destruct (decide _); lia). rewrite bool_decide_true, bool_decide_false by (done || destruct (decide (i = 0)); lia). done.
Qed.

(** A square grid with an empty column. *)
Section square.
  Context (n : nat) (H3 : 3 <= n).
  Definition sq_col : list (list nat) := replicate (n - 1) [1] ++ [[]].
  Definition sq_row : list (list nat) := replicate n [1].
  Definition sq_known (x y : nat) : square := if decide (x < n - 1) then Blank else Blocked.
  Lemma sq_sizes : length sq_col = n /\ length sq_row = n.
  Proof using H3. unfold sq_col, sq_row. rewrite app_length, !replicate_length. cbn. lia. Qed.
  Lemma sq_positive : Forall positive sq_col /\ Forall positive sq_row.
  Proof using.
    unfold sq_col, sq_row. split; [apply Forall_app; split|]; [apply Forall_replicate; repeat constructor|repeat constructor|apply Forall_replicate; repeat constructor].
  Qed.
  Lemma sq_closed : closed_grid sq_col sq_row (grid_of n n sq_known).
  Proof using H3.
    destruct sq_sizes as [Lw Lh]. split_and!.
    - by rewrite grid_of_length, Lw, Lh.
    - intros x rule E. pose proof (lookup_lt_Some _ _ _ E) as Hx. rewrite Lw in Hx. rewrite Lw, Lh, grid_of_col by done. unfold sq_col in E.
      destruct (decide (x < n - 1)) as [H|H].
      + rewrite lookup_app_l in E by (by rewrite replicate_length). apply lookup_replicate in E as [-> _].
        rewrite (seq_const _ 0 n Blank); [apply ones_closed; lia|]. intros y _. unfold sq_known. by rewrite decide_True.
      + replace x with (length (replicate (n - 1) [1])) in E by (rewrite replicate_length; lia). rewrite list_lookup_middle in E by done.
        injection E as <-. rewrite (seq_const _ 0 n Blocked); [apply all_blocked|]. intros y _. unfold sq_known. by rewrite decide_False.
    - intros y rule E. apply lookup_replicate in E as [-> Hy]. rewrite Lw, grid_of_row by done.
      replace n with ((n - 1) + 1) at 1 by lia. rewrite seq_app, fmap_app. rewrite (seq_const _ 0 (n - 1) Blank), (seq_const _ (0 + (n - 1)) 1 Blocked).
      + apply one_pad_closed. lia.
      + intros x Hx. unfold sq_known. by rewrite decide_False by lia.
      + intros x Hx. unfold sq_known. by rewrite decide_True by lia.
  Qed.
  Lemma sq_unsolvable b : ~ solution sq_col sq_row b.
  Proof using H3.
    intros Hb%solution_totals. unfold sq_row in Hb. rewrite ones_sum in Hb. unfold sq_col in Hb.
    rewrite fmap_app, sum_list_with_app in Hb. change (sum_list_with id (sum_list <$> replicate (n - 1) [1])) with (sum_list (sum_list <$> replicate (n - 1) [1])) in Hb.
    rewrite ones_sum in Hb. cbn in Hb. lia.
  Qed.
  Lemma sq_solve (m : mode) : (N.of_nat (n * n) < usize_size m)%N -> solve_nonogram m sq_col sq_row <> Ret (Err NoSolution).
  Proof using H3.
    intros Hn E. destruct sq_sizes as [Lw Lh]. destruct sq_positive as [Pc Pr].
    destruct (solve_least m sq_col sq_row) as [(k&_&_&E')|[Hno _]].
    - eapply Forall_impl; [exact Pc|apply positive_proper].
    - eapply Forall_impl; [exact Pr|apply positive_proper].
    - by rewrite Lw, Lh.
    - rewrite Lh. lia.
    - congruence.
    - by apply (Hno _ sq_closed).
  Qed.
End square.

(** 2 x 2. *)
Definition two_clues : list (list nat) := [[]; [1]; [2]].
Definition two_check (ws : word) : bool :=
  forallb (fun a => forallb (fun b => forallb (fun c => forallb (fun d =>
    match solve_nonogram (Mode Debug ws) [a; b] [c; d] with
    | Ret (Ok _) => existsb (fun g => if same (col_clues 2 2 g) [a; b] then same (row_clues 2 2 g) [c; d] else false) (all_bools 4)
    | _ => true
    end) two_clues) two_clues) two_clues) two_clues.
Lemma two_check_true ws : two_check ws = true.
Proof. destruct ws; vm_compute; reflexivity. Qed.
Lemma two_clue rule line : positive rule -> length line = 2 -> closed rule line -> rule ∈ two_clues.
Proof.
  intros Hp Hl [[b [Hs Ha]] _]. apply spells_positive in Hs; [|done]. subst rule. apply Forall2_length in Ha. rewrite Hl in Ha.
  destruct b as [|x [|y [|? ?]]]; try done. destruct x, y; cbn; unfold two_clues; rewrite !elem_of_cons; auto.
Qed.
Lemma two_reported (m : mode) col row : length col = 2 -> length row = 2 -> Forall positive col -> Forall positive row ->
  (forall b, ~ solution col row b) -> solve_nonogram m col row = Ret (Err NoSolution).
Proof.
  intros Lc Lr Hc Hr Hno.
  assert (Forall proper col) as Hc' by (eapply Forall_impl; [exact Hc|apply positive_proper]).
  assert (Forall proper row) as Hr' by (eapply Forall_impl; [exact Hr|apply positive_proper]).
  assert (N.of_nat (length col * length row) < usize_size m)%N as Hn by (rewrite Lc, Lr; by destruct (word_of m)).
  assert (1 <= length row \/ length col <= 1) as Hd by lia.
  assert (forall p, (exists k, closed_grid col row k /\ solve_nonogram (Mode p m) col row = Ret (Ok (shown k))) \/
    solve_nonogram (Mode p m) col row = Ret (Err NoSolution)) as K.
  { intros p. destruct (solve_least (Mode p m) col row Hc' Hr' Hn Hd) as [(k&Hk&_&E)|[_ E]]; [left|by right]. by exists k. }
  destruct m as [p ws]. cbn in *. destruct (K p) as [(k&Hk&E)|E]; [|done]. exfalso.
  destruct (K Debug) as [(k'&_&E')|E'].
  2:{ destruct p; [congruence|]. destruct (ModeProofs.checked_solve_nonogram ws col row) as [H|H]; congruence. }
  destruct Hk as (Lk&Hcc&Hcr). rewrite Lc, Lr in *. destruct col as [|a [|b [|? ?]]]; try done. destruct row as [|c [|d [|? ?]]]; try done.
  pose proof (two_check_true ws) as T. unfold two_check in T. rewrite forallb_forall in T.
  assert (forall x rule, [a; b] !! x = Some rule -> rule ∈ two_clues) as Ic.
  { intros x rule Ex. pose proof (lookup_lt_Some _ _ _ Ex) as Hx. cbn in Hx. eapply two_clue; [|by apply NonogramProofs.grid_col_length|by apply Hcc].
    by eapply (proj1 (Forall_lookup _ _) Hc). }
  assert (forall x rule, [c; d] !! x = Some rule -> rule ∈ two_clues) as Ir.
  { intros x rule Ex. pose proof (lookup_lt_Some _ _ _ Ex) as Hx. cbn in Hx. eapply two_clue; [| |by apply Hcr].
    - by eapply (proj1 (Forall_lookup _ _) Hr).
    - cbn. unfold grid_row. rewrite take_length, drop_length. lia. }
  specialize (T a (proj1 (elem_of_list_In _ _) (Ic 0 a eq_refl))). rewrite forallb_forall in T.
  specialize (T b (proj1 (elem_of_list_In _ _) (Ic 1 b eq_refl))). rewrite forallb_forall in T.
  specialize (T c (proj1 (elem_of_list_In _ _) (Ir 0 c eq_refl))). rewrite forallb_forall in T.
  specialize (T d (proj1 (elem_of_list_In _ _) (Ir 1 d eq_refl))). rewrite E' in T.
  apply existsb_exists in T as (g&Hg%elem_of_list_In%all_bools_length&T). unfold same in T.
  destruct (bool_decide_reflect (col_clues 2 2 g = [a; b])) as [G1|]; [|done].
  apply bool_decide_eq_true in T. apply (Hno g), NonogramUnique.solution_clues; [done..|]. done.
Qed.

Lemma report_sizes (m : mode) w h : 1 <= w -> 1 <= h -> (N.of_nat (w * h) < usize_size m)%N ->
  w = 1 \/ h = 1 \/ w = 2 /\ h = 2 <->
  forall col row, length col = w -> length row = h -> Forall positive col -> Forall positive row ->
    (forall b, ~ solution col row b) -> solve_nonogram m col row = Ret (Err NoSolution).
Proof.
  intros Hw Hh Hn. split.
  - intros Hd col row <- <- Hc Hr Hno. destruct (decide (length col = 2 /\ length row = 2)) as [[H1 H2]|H]; [by apply two_reported|].
    destruct (thin_solved m col row Hc Hr Hn) as [(g&_&Hg)|[E _]]; [lia| |done]. by apply Hno in Hg.
  - intros H. destruct (decide (w = 1 \/ h = 1 \/ w = 2 /\ h = 2)) as [|Hd]; [done|]. exfalso.
    destruct (decide (w = h)) as [<-|Hne].
    + destruct (sq_sizes w) as [Lw Lh]; [lia|]. destruct (sq_positive w) as [Pc Pr].
      apply (sq_solve w ltac:(lia) m Hn). apply H; [done..|]. apply sq_unsolvable. lia.
    + destruct (unsolvable_accepted m w h) as [U E]; [lia..|done|done|].
      assert (forall n, Forall positive (replicate n [1])) as Hp by (intros n; apply Forall_replicate; repeat constructor).
      specialize (H _ _ (replicate_length w [1]) (replicate_length h [1]) (Hp w) (Hp h) U). rewrite E in H. done.
Qed.
