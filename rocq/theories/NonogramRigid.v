(** Proofs for C82: puzzles whose rows, or whose columns, leave no choice. *)
From Verif Require Import Base Nonogram SpecNonogram SpecNonogramDeduce SpecNonogramOverlap SpecNonogramRigid.
From Verif Require Import NonogramStates NonogramDeduce NonogramForced NonogramOverlap.
From Verif Require NonogramProofs.

(** * Tight clues *)

(** The blocks of the clue with one square between them. *)
Fixpoint pack (rule : list nat) : list bool :=
  match rule with
  | [] => []
  | [v] => replicate v true
  | v :: rule => replicate v true ++ false :: pack rule
  end.
Lemma pack_length rule : length (pack rule) = sum_list rule + (length rule - 1).
Proof.
  induction rule as [|v rule IH]; [done|]. destruct rule as [|v' rule].
  - cbn. rewrite replicate_length. lia.
  - change (pack (v :: v' :: rule)) with (replicate v true ++ false :: pack (v' :: rule)).
    rewrite app_length, replicate_length. change (sum_list (v :: v' :: rule)) with (v + sum_list (v' :: rule)).
    cbn [length] in *. lia.
Qed.
Lemma one_block_length v b : one_block v b -> v <= length b /\ (length b = v -> b = replicate v true).
Proof.
  intros (i&j&->). rewrite !app_length, !replicate_length. split; [lia|]. intros H.
  assert (i = 0) as -> by lia. assert (j = 0) as -> by lia. cbn. by rewrite app_nil_r.
Qed.
Lemma spells_length rule : forall b, rule <> [] -> spells rule b ->
  sum_list rule + (length rule - 1) <= length b /\
  (length b = sum_list rule + (length rule - 1) -> b = pack rule).
Proof.
  induction rule as [|v rule IH]; [done|]. intros b _ H. destruct rule as [|v' rule].
  - apply one_block_length in H as [H1 H2]. cbn. split; [lia|]. intros H. apply H2. lia.
  - destruct H as (b1&b2&->&H1&H2). apply one_block_length in H1 as [L1 E1].
    destruct (IH b2) as [L2 E2]; [done|done|]. rewrite app_length.
    change (pack (v :: v' :: rule)) with (replicate v true ++ false :: pack (v' :: rule)).
    change (sum_list (v :: v' :: rule)) with (v + sum_list (v' :: rule)).
    cbn [length] in *. split; [lia|]. intros H. rewrite E1, E2 by lia. done.
Qed.
Lemma pack_app rule k : spells rule (pack rule ++ replicate k false).
Proof.
  induction rule as [|v rule IH]; [by exists 0, k|]. destruct rule as [|v' rule]; [by exists 0, k|].
  exists (replicate v true), (pack (v' :: rule) ++ replicate k false). split.
  { change (pack (v :: v' :: rule)) with (replicate v true ++ false :: pack (v' :: rule)). by rewrite <-app_assoc. }
  split; [|done]. exists 0, 0. cbn. by rewrite app_nil_r.
Qed.
Lemma spells_shift rule b : spells rule b -> spells rule (false :: b).
Proof.
  destruct rule as [|v rule]; [|destruct rule as [|v' rule]].
  - intros (i&j&->). by exists (S i), j.
  - intros (i&j&->). by exists (S i), j.
  - intros (b1&b2&->&(i&j&->)&H). exists (false :: replicate i false ++ replicate v true ++ replicate j false), b2.
    split; [done|]. split; [|done]. by exists (S i), j.
Qed.
Lemma one_way_iff n rule : positive rule ->
  one_way n rule <-> rule = [] \/ n <= sum_list rule + (length rule - 1).
Proof.
  intros Hp. split.
  - intros H. destruct (decide (rule = [])) as [->|Hne]; [by left|]. right.
    destruct (decide (n <= sum_list rule + (length rule - 1))) as [Hle|Hgt]; [done|exfalso].
    set (k := n - (sum_list rule + (length rule - 1))). assert (exists k', k = S k') as [k' Hk] by (exists (k - 1); lia).
    pose proof (pack_length rule) as Hl.
    specialize (H (pack rule ++ replicate k false) (false :: pack rule ++ replicate k' false)).
    rewrite app_length, replicate_length in H. cbn [length] in H. rewrite app_length, replicate_length in H.
    specialize (H ltac:(lia) ltac:(lia) (pack_app _ _) (spells_shift _ _ (pack_app _ _))).
    destruct rule as [|v rule]; [done|]. inversion Hp as [|? ? Hv]; subst. destruct v; [lia|].
    destruct rule; cbn in H; done.
  - intros [->|Hle] b b' Hb Hb' H H'.
    + destruct H as (i&j&->), H' as (i'&j'&->). cbn in *. rewrite <-!replicate_add in *. rewrite !replicate_length in *. congruence.
    + destruct (decide (rule = [])) as [->|Hne].
      * cbn in Hle. destruct b, b'; cbn in *; try lia. done.
      * apply spells_length in H as [L E], H' as [L' E']; [|done..]. rewrite E, E' by lia. done.
Qed.

(** * Grids *)

Lemma one_way_closed rule line i : one_way (length line) rule -> closed rule line -> line !! i <> Some Blank.
Proof.
  intros H1 [[b Hb] Hno] Hi. assert (forall b', fits rule line b' -> b' = b) as Hu.
  { intros b' [Hs' Hl']. destruct Hb as [Hs Hl]. apply Forall2_length in Hl, Hl'. by apply H1. }
  destruct (lookup_lt_is_Some_2 b i) as [v Hv].
  { destruct Hb as [_ Hl%Forall2_length]. rewrite <-Hl. by eapply lookup_lt_Some. }
  apply (Hno i v Hi). exists (block_no b i). intros b' ->%Hu. done.
Qed.
Lemma grid_row_length {A} w h (g : list A) y : length g = w * h -> y < h -> length (grid_row w g y) = w.
Proof. intros Hl Hy. unfold grid_row. rewrite take_length, drop_length, Hl. nia. Qed.
Lemma grid_col_length {A} w h (g : list A) x : length g = w * h -> x < w -> length (grid_col w h g x) = h.
Proof.
  intros Hl Hx. unfold grid_col. assert (forall l, (forall y, y ∈ l -> y < h) -> length (omap (fun y => g !! (w * y + x)) l) = length l) as H.
  { induction l as [|y l IH]; [done|]. intros Hin. cbn.
    destruct (lookup_lt_is_Some_2 g (w * y + x)) as [a ->].
    - rewrite Hl. assert (y < h) by (apply Hin, elem_of_list_here). nia.
    - cbn. f_equal. apply IH. intros z Hz. apply Hin. by apply elem_of_list_further. }
  rewrite H; [apply seq_length|]. intros y. rewrite elem_of_seq. lia.
Qed.
Lemma rigid_determined col row k :
  Forall (one_way (length col)) row \/ Forall (one_way (length row)) col ->
  closed_grid col row k -> Blank ∉ k.
Proof.
  intros Hd (Hl&Hcc&Hcr) [i Hi]%elem_of_list_lookup. pose proof (lookup_lt_Some _ _ _ Hi) as Hlt. rewrite Hl in Hlt.
  set (w := length col) in *. set (h := length row) in *. assert (w <> 0) as Hw by (intros Hz; rewrite Hz in Hlt; lia).
  pose proof (Nat.div_mod i w Hw) as Hdm. pose proof (Nat.mod_upper_bound i w Hw) as Hx.
  assert (i / w < h) as Hy by (apply Nat.div_lt_upper_bound; lia).
  revert Hdm Hx Hy. generalize (i mod w) as x. generalize (i / w) as y. intros y x -> Hx Hy.
  destruct Hd as [Hd|Hd]; rewrite Forall_lookup in Hd.
  - destruct (lookup_lt_is_Some_2 row y Hy) as [rule Hr].
    apply (one_way_closed rule (grid_row w k y) x); [|by apply Hcr|unfold grid_row; by rewrite lookup_take, lookup_drop].
    rewrite (grid_row_length w h) by done. by eapply Hd.
  - destruct (lookup_lt_is_Some_2 col x Hx) as [rule Hr].
    apply (one_way_closed rule (grid_col w h k x) y); [|by apply Hcc|by rewrite NonogramProofs.grid_col_lookup].
    rewrite (grid_col_length w h) by done. by eapply Hd.
Qed.
Lemma rigid_solved (m : mode) col row :
  Forall proper col -> Forall proper row -> (N.of_nat (length col * length row) < usize_size m)%N ->
  1 <= length row \/ length col <= 1 ->
  Forall (one_way (length col)) row \/ Forall (one_way (length row)) col ->
  (exists g, solve_nonogram m col row = Ret (Ok g) /\ forall b, solution col row b <-> b = g) \/
  (solve_nonogram m col row = Ret (Err NoSolution) /\ forall b, ~ solution col row b).
Proof.
  intros Hc Hr Hn Hd Hw.
  destruct (solve_least m col row Hc Hr Hn Hd) as [(k&Hk&_)|[Hno ->]].
  - left. destruct (deduce_least m col row Hc Hr Hn Hd (replicate (length col * length row) Blank)) as [(k'&E&_&Hk'&_)|[_ Hno]].
    + apply replicate_length.
    + destruct (NonogramProofs.determined_solution m col row k' Hn E) as (g&Eg&Hg); [by apply (rigid_determined col row)|].
      exists g. split; [done|]. intros b. split; [|by intros ->]. by apply (NonogramProofs.solve_unique m col row Hn g).
    + exfalso. apply (Hno k Hk). destruct Hk as [Hk _]. rewrite <-Hk. clear. induction k as [|a k IH]; constructor; [by left|done].
  - right. split; [done|]. intros b Hb%solution_closed. by apply Hno in Hb.
Qed.
