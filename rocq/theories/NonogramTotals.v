(** Proofs for C80: puzzles without solution that are not recognised. *)
From Verif Require Import Base Nonogram SpecNonogram SpecNonogramDeduce SpecNonogramOverlap.
From Verif Require Import NonogramStates NonogramDeduce NonogramForced NonogramOverlap.
From Verif Require NonogramProofs.

(** * Totals *)

Definition cnt (b : list bool) : nat := sum_list (Nat.b2n <$> b).
Lemma cnt_app b b' : cnt (b ++ b') = cnt b + cnt b'.
Proof. unfold cnt. by rewrite fmap_app, sum_list_with_app. Qed.
Lemma cnt_replicate n (x : bool) : cnt (replicate n x) = if x then n else 0.
Proof. induction n as [|n IH]; [by destruct x|]. unfold cnt in *. cbn in *. rewrite IH. by destruct x. Qed.
Lemma spells_cnt rule : forall b, spells rule b -> cnt b = sum_list rule.
Proof.
  assert (forall v b, one_block v b -> cnt b = v) as H1.
  { intros v b (i&j&->). rewrite !cnt_app, !cnt_replicate. lia. }
  induction rule as [|v rule IH]; intros b Hb; [by apply H1|]. destruct rule as [|u rule].
  - apply H1 in Hb. cbn. lia.
  - destruct Hb as (b1&b2&->&Hb1&Hb2). apply H1 in Hb1. apply IH in Hb2.
    rewrite cnt_app. change (cnt (false :: b2)) with (cnt b2). rewrite Hb1, Hb2. done.
Qed.

Definition total (f : nat -> nat) (n : nat) : nat := sum_list (f <$> seq 0 n).
Lemma total_S f n : total f (S n) = total f n + f n.
Proof. unfold total. rewrite seq_S, fmap_app. cbn. rewrite sum_list_with_app. cbn. lia. Qed.
Lemma total_ext f g n : (forall k, k < n -> f k = g k) -> total f n = total g n.
Proof. induction n as [|n IH]; intros H; [done|]. rewrite !total_S, IH, H; [done|lia|]. intros k Hk. apply H. lia. Qed.
Lemma total_add f g n : total (fun k => f k + g k) n = total f n + total g n.
Proof. induction n as [|n IH]; [done|]. rewrite !total_S, IH. lia. Qed.
Lemma total_swap (f : nat -> nat -> nat) a b : total (fun i => total (f i) b) a = total (fun j => total (fun i => f i j) a) b.
Proof.
  induction b as [|b IH].
  - clear. induction a as [|a IH]; [done|]. by rewrite total_S, IH.
  - rewrite total_S, <-IH, <-total_add. apply total_ext. intros k _. by rewrite total_S.
Qed.
Lemma total_list (f : list nat -> nat) (l : list (list nat)) (g : nat -> nat) :
  (forall i r, l !! i = Some r -> g i = f r) -> total g (length l) = sum_list (f <$> l).
Proof.
  revert g. induction l as [|r l IH] using rev_ind; intros g H; [done|].
  rewrite app_length, Nat.add_1_r, total_S, fmap_app, sum_list_with_app, (IH g).
  - cbn. rewrite (H (length l) r); [lia|]. by apply list_lookup_middle.
  - intros i r' Hi. apply H. by apply lookup_app_l_Some.
Qed.

Lemma cnt_omap (g : list bool) (p : nat -> nat) n :
  cnt (omap (fun k => g !! p k) (seq 0 n)) = total (fun k => from_option Nat.b2n 0 (g !! p k)) n.
Proof.
  induction n as [|n IH]; [done|]. rewrite total_S, seq_S. cbn [plus].
  rewrite omap_app, cnt_app, IH. f_equal. cbn. destruct (g !! p n) as [x|]; [|done]. unfold cnt. cbn. lia.
Qed.
Lemma row_omap {A} (g : list A) w y : grid_row w g y = omap (fun x => g !! (w * y + x)) (seq 0 w).
Proof.
  unfold grid_row. induction w as [|w IH] in y, g |- *; [done|]. generalize (S w * y). clear IH. intros o.
  generalize (S w). clear. intros n. induction n as [|n IH]; [done|]. rewrite seq_S. cbn [plus]. rewrite omap_app, <-IH. cbn.
  destruct (g !! (o + n)) as [x|] eqn:E.
  - apply take_S_r. by rewrite lookup_drop.
  - rewrite app_nil_r. apply lookup_ge_None in E. rewrite !take_ge; [done|rewrite drop_length; lia..].
Qed.

Lemma solution_totals col row g : solution col row g -> sum_list (sum_list <$> col) = sum_list (sum_list <$> row).
Proof.
  intros (_&Hc&Hr). set (f := fun x y => from_option Nat.b2n 0 (g !! (length col * y + x))).
  rewrite <-(total_list sum_list col (fun x => total (f x) (length row))).
  - rewrite total_swap. apply total_list. intros y rule Hy. apply Hr, spells_cnt in Hy. rewrite row_omap in Hy.
    rewrite cnt_omap in Hy. done.
  - intros x rule Hx. apply Hc, spells_cnt in Hx. unfold grid_col in Hx. rewrite (cnt_omap g (fun y => length col * y + x)) in Hx. done.
Qed.

(** * One filled square in every line *)

Lemma ones_closed n : 2 <= n -> closed [1] (replicate n Blank).
Proof.
  intros Hn. assert (positive [1]) as Hp by (repeat constructor). assert (n = room [1] + (n - 1)) as Hr by (cbn; lia). split.
  - exists (true :: replicate (n - 1) false). apply (fits_blank [1] (n - 1) n Hr). split.
    + by exists 0, (n - 1).
    + cbn. rewrite replicate_length. lia.
  - intros i v Hi. apply lookup_lt_Some in Hi. rewrite replicate_length in Hi. destruct v.
    + rewrite (forced_filled [1] (n - 1) n Hp ltac:(done) Hr i Hi). intros (k&(v&Hv&H1)&(v'&Hv'&H2)).
      destruct k as [|k]; [|done]. injection Hv as <-. injection Hv' as <-. rewrite first_0 in H1, H2. lia.
    + rewrite (forced_blocked [1] (n - 1) n Hp ltac:(done) Hr i Hi). lia.
Qed.
Lemma blank_row w h y : y < h -> grid_row w (replicate (w * h) Blank) y = replicate w Blank.
Proof. intros Hy. unfold grid_row. rewrite drop_replicate, take_replicate. f_equal. nia. Qed.
Lemma omap_all {A B} (f : A -> option B) l b : (forall a, a ∈ l -> f a = Some b) -> omap f l = replicate (length l) b.
Proof.
  induction l as [|a l IH]; intros H; [done|]. cbn. rewrite (H a) by apply elem_of_list_here. f_equal. apply IH.
  intros x Hx. apply H. by apply elem_of_list_further.
Qed.
Lemma blank_col w h x : x < w -> grid_col w h (replicate (w * h) Blank) x = replicate h Blank.
Proof.
  intros Hx. unfold grid_col. rewrite (omap_all _ _ Blank); [by rewrite seq_length|].
  intros y Hy%elem_of_seq. apply lookup_replicate_2. nia.
Qed.
Lemma ones_grid w h : 2 <= w -> 2 <= h -> closed_grid (replicate w [1]) (replicate h [1]) (replicate (w * h) Blank).
Proof.
  intros Hw Hh. split_and!.
  - by rewrite !replicate_length.
  - intros x rule Hx. apply lookup_replicate in Hx as [-> Hx]. rewrite !replicate_length, blank_col by done. by apply ones_closed.
  - intros y rule Hy. apply lookup_replicate in Hy as [-> Hy]. rewrite !replicate_length, blank_row by done. by apply ones_closed.
Qed.
Lemma ones_proper n : Forall proper (replicate n [1]).
Proof. apply Forall_replicate, positive_proper. repeat constructor. Qed.
Lemma ones_solve (m : mode) w h : 2 <= w -> 2 <= h -> (N.of_nat (w * h) < usize_size m)%N ->
  solve_nonogram m (replicate w [1]) (replicate h [1]) = Ret (Ok (replicate (w * h) false)).
Proof.
  intros Hw Hh Hn. pose proof (ones_grid w h Hw Hh) as Hc.
  destruct (solve_least m (replicate w [1]) (replicate h [1]) (ones_proper w) (ones_proper h)) as [(k&Hk&Hle&->)|[Hno _]].
  - by rewrite !replicate_length.
  - rewrite !replicate_length. lia.
  - specialize (Hle _ Hc). do 2 f_equal. assert (k = replicate (w * h) Blank) as ->.
    { apply list_eq_same_length with (n := w * h).
      - by rewrite replicate_length.
      - destruct Hk as [Hk _]. rewrite Hk, !replicate_length. done.
      - intros i x y Hi Hx Hy. destruct (Forall2_lookup_lr _ _ _ _ _ _ Hle Hx Hy) as [->| ->]; [|done].
        by apply lookup_replicate in Hy as [-> _]. }
    exact (fmap_replicate (fun s => match s with Filled => true | _ => false end) (w * h) Blank).
  - by apply Hno in Hc.
Qed.
Lemma ones_sum n : sum_list (sum_list <$> replicate n [1]) = n.
Proof. induction n as [|n IH]; [done|]. cbn in *. lia. Qed.
Lemma unsolvable_accepted (m : mode) w h : 2 <= w -> 2 <= h -> w <> h -> (N.of_nat (w * h) < usize_size m)%N ->
  (forall b, ~ solution (replicate w [1]) (replicate h [1]) b) /\
  solve_nonogram m (replicate w [1]) (replicate h [1]) = Ret (Ok (replicate (w * h) false)).
Proof.
  intros Hw Hh Hne Hn. split; [|by apply ones_solve].
  intros b Hb%solution_totals. by rewrite !ones_sum in Hb.
Qed.

(** * A single row or column *)

Lemma unit_line rule : positive rule -> ~ closed rule [Blank].
Proof.
  intros Hp [(b&Hb) Hno]. assert (forall b', fits rule [Blank] b' -> exists x, b' = [x] /\ clue_of [x] = rule) as Hx.
  { intros b' [Hs Hl]. apply spells_positive in Hs; [|done]. apply Forall2_length in Hl.
    destruct b' as [|x [|? ?]]; [done| |done]. by exists x. }
  destruct (Hx b Hb) as (x&->&Ex). apply (Hno 0 x eq_refl). exists (Nat.b2n x). intros b' Hb'.
  destruct (Hx b' Hb') as (x'&->&Ex'). assert (x' = x) as ->.
  { rewrite <-Ex in Ex'. by destruct x, x'. }
  split; [done|]. by destruct x.
Qed.
Lemma thin_determined col row k : Forall positive col -> Forall positive row -> length col = 1 \/ length row = 1 ->
  closed_grid col row k -> Blank ∉ k.
Proof.
  intros Hc Hr Hd (Hl&Hcc&Hcr) [i Hi]%elem_of_list_lookup. pose proof (lookup_lt_Some _ _ _ Hi) as Hlt. destruct Hd as [Hd|Hd].
  - destruct (lookup_lt_is_Some_2 row i) as [rule Hrule]; [rewrite Hl, Hd in Hlt; lia|].
    pose proof (Hcr i rule Hrule) as H. rewrite row_omap, Hd in H. cbn in H. replace (i + 0 + 0) with i in H by lia. rewrite Hi in H.
    eapply unit_line; [|exact H]. by eapply (proj1 (Forall_lookup _ _) Hr).
  - destruct (lookup_lt_is_Some_2 col i) as [rule Hrule]; [rewrite Hl, Hd in Hlt; lia|].
    pose proof (Hcc i rule Hrule) as H. unfold grid_col in H. rewrite Hd in H. cbn in H.
    replace (length col * 0 + i) with i in H by lia. rewrite Hi in H.
    eapply unit_line; [|exact H]. by eapply (proj1 (Forall_lookup _ _) Hc).
Qed.
Lemma thin_solved (m : mode) col row : Forall positive col -> Forall positive row -> (N.of_nat (length col * length row) < usize_size m)%N ->
  length col = 1 \/ length row = 1 ->
  (exists g, solve_nonogram m col row = Ret (Ok g) /\ solution col row g) \/
  (solve_nonogram m col row = Ret (Err NoSolution) /\ forall b, ~ solution col row b).
Proof.
  intros Hc Hr Hn Hd. assert (Forall proper col) as Hc' by (eapply Forall_impl; [exact Hc|apply positive_proper]).
  assert (Forall proper row) as Hr' by (eapply Forall_impl; [exact Hr|apply positive_proper]).
  assert (1 <= length row \/ length col <= 1) as Hd' by lia.
  destruct (solve_least m col row Hc' Hr' Hn Hd') as [(k&Hk&_)|[Hno ->]].
  - left. destruct (deduce_least m col row Hc' Hr' Hn Hd' (replicate (length col * length row) Blank)) as [(k'&E&_&Hk'&_)|[_ Hno]].
    + apply replicate_length.
    + apply (NonogramProofs.determined_solution m col row k' Hn E). by apply (thin_determined col row).
    + exfalso. apply (Hno k Hk). destruct Hk as [Hk _]. rewrite <-Hk. clear. induction k as [|a k IH]; constructor; [by left|done].
  - right. split; [done|]. intros b Hb%solution_closed. by apply Hno in Hb.
Qed.
Lemma unsolvable_refuted : exists col row g, Forall positive col /\ Forall positive row /\
  (forall b, ~ solution col row b) /\ forall m, solve_nonogram m col row = Ret (Ok g).
Proof.
  exists (replicate 3 [1]), (replicate 2 [1]), (replicate 6 false). split_and!; [by repeat constructor..| |].
  - apply (unsolvable_accepted (Mode Debug W64) 3 2); (lia || done).
  - intros m. apply (unsolvable_accepted m 3 2); [lia..|]. by destruct (word_of m).
Qed.
