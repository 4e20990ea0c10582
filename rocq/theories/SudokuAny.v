(** The Sudoku solver on entries of any size. *)
From Verif Require Import Base Dlx Sudoku SpecDlx SpecSudoku DlxSets DlxReady DlxProofs SudokuTable SudokuProofs.
From Coq Require Import ZifyNat.
Ltac Zify.zify_post_hook ::= Z.div_mod_to_equations.

Local Opaque SUDOKU_CONSTRAINTS.
Notation SC := SUDOKU_CONSTRAINTS.

(** Rows that exist. *)
Definition eff (l : list (nat * nat)) : list nat := filter (fun r => r < 729) (clue_rows l).
Lemma eff_cons i v l : eff ((i, v) :: l) =
  if decide (v = 0) then eff l else if decide (i * 9 + v - 1 < 729) then (i * 9 + v - 1) :: eff l else eff l.
Proof.
  unfold eff. rewrite clue_rows_cons. case_decide; [done|]. by rewrite filter_cons.
Qed.
Lemma elem_of_eff p r : r ∈ eff (enumerate p) <-> r < 729 /\ exists i v, p !! i = Some v /\ v <> 0 /\ r = i * 9 + v - 1.
Proof. unfold eff. rewrite elem_of_list_filter. fold (p_rows p). by rewrite elem_of_p_rows. Qed.

Lemma conflict_dec cs l r : Decision (conflict cs l r).
Proof.
  destruct (decide (Exists (fun k => Exists (fun a => a ∈ k) l /\ r ∈ k) cs)) as [H|H].
  - left. apply Exists_exists in H as (k&Hk&(a&Ha&Hak)%Exists_exists&Hr). exists k, a. done.
  - right. intros (k&a&Hk&Ha&Hak&Hr). apply H, Exists_exists. exists k. split_and!; [done| |done].
    apply Exists_exists. eauto.
Qed.
Lemma shares_last_dec cs a r : Decision (shares_last cs a r).
Proof.
  unfold shares_last. destruct (last (filter (fun k => a ∈ k) cs)) as [k|].
  - destruct (decide (r ∈ k)) as [H|H]; [left; eauto|right; intros (k'&[= <-]&?); done].
  - right. intros (k&?&_). done.
Qed.
Lemma nulled_dec cs added r : nulled cs added r \/ ~ nulled cs added r.
Proof.
  induction added as [|a added [IH|IH]] using rev_ind.
  - right. intros (l1&a&l2&Hl&_). by destruct l1.
  - left. apply nulled_snoc. by left.
  - destruct (conflict_dec cs added r) as [Hc|Hc].
    { right. rewrite nulled_snoc. naive_solver. }
    destruct (shares_last_dec cs a r) as [Hs|Hs].
    + left. apply nulled_snoc. naive_solver.
    + right. rewrite nulled_snoc. naive_solver.
Qed.

Lemma compatible_snoc cs added r : compatible cs added -> occurs cs r -> ~ conflict cs added r -> compatible cs (added ++ [r]).
Proof.
  intros Hc Ho Hn l1 r' l2 Hl. destruct l2 as [|y l2 _] using rev_ind.
  - apply app_inj_tail in Hl as [-> ->]. done.
  - rewrite app_comm_cons, app_assoc in Hl. apply app_inj_tail in Hl as [-> _]. by eapply Hc.
Qed.

Lemma any_clues fuel l : forall added mx,
  Ready fuel SC added mx -> d_partial mx = added -> compatible SC added ->
  (exists mx', add_clues fuel l mx = Ret (Ok mx', mx') /\ Ready fuel SC (added ++ eff l) mx' /\
     d_partial mx' = added ++ eff l /\ compatible SC (added ++ eff l)) \/
  (exists mx', add_clues fuel l mx = Ret (Err NoSolution, mx') /\ matrix_drop fuel (d_root mx') (d_heap mx') = Ret ∅ /\
     ~ compatible SC (added ++ eff l)) \/
  (add_clues fuel l mx = Fault UB /\ ~ compatible SC (added ++ eff l)).
Proof.
  induction l as [|[i v] l IH]; intros added mx HR Hp Hc.
  - left. exists mx. unfold eff. cbn. rewrite app_nil_r. done.
  - rewrite eff_cons. cbn [add_clues]. destruct (decide (v = 0)) as [Hv|Hv]; [by apply IH|].
    set (r := i * 9 + v - 1). destruct (decide (r < 729)) as [Hr|Hr].
    + assert (occurs SC r) as Ho by (by apply occurs_sudoku). destruct (conflict_dec SC added r) as [Hcf|Hcf].
      * assert (~ compatible SC (added ++ r :: eff l)) as Hnc by (intros H; by destruct (H added r (eff l) eq_refl)).
        right. destruct (nulled_dec SC added r) as [Hn|Hn].
        -- left. rewrite (ready_invalid fuel SC added mx r HR) by (by eauto || by right). cbn [bind].
           eexists. split_and!; [done| |done]. eapply ready_drop. by apply ready_partial.
        -- right. rewrite (ready_ub fuel SC added mx r HR) by done. done.
      * destruct (ready_ok fuel SC added mx r HR Ho Hcf) as (mx1&E&HR1&Hp1). rewrite E. cbn [bind].
        destruct (IH (added ++ [r]) mx1) as [H|[H|H]]; [done|by rewrite Hp1, Hp|by apply compatible_snoc|..];
          rewrite <-app_assoc in H; cbn [app] in H; auto.
    + rewrite (ready_index_error fuel SC added mx r HR).
      * cbn [bind]. by apply IH.
      * intros r' Hr'%occurs_sudoku. lia.
Qed.

Lemma reads_eff p g : length p = 81 -> complete_grid g -> reads p g <-> eff (enumerate p) ⊆ choices g.
Proof.
  intros Hl (Hlg&Hr&_). split.
  - intros Hrd r [Hlt (i&v&Hi&Hv&->)]%elem_of_eff. apply elem_of_choices. exists (i + (v - 1) `div` 9), ((v - 1) `mod` 9 + 1).
    split; [by apply Hrd|lia].
  - intros Hs i v Hi Hv Hlt. assert (i * 9 + v - 1 ∈ choices g) as H by (apply Hs, elem_of_eff; eauto 10).
    replace (i * 9 + v - 1) with ((i + (v - 1) `div` 9) * 9 + (v - 1) `mod` 9) in H by lia.
    apply choices_lookup in H; [|done|lia]. rewrite H. f_equal. lia.
Qed.

(** Incompatible rows: repeated, or excluded by every grid. *)
Lemma clue_rows_split l : forall l1 r l2, clue_rows l = l1 ++ r :: l2 ->
  exists (k i v : nat), l !! k = Some (i, v) /\ v <> 0 /\ r = i * 9 + v - 1 /\ l1 = clue_rows (take k l).
Proof.
  induction l as [|[i v] l IH]; intros l1 r l2.
  - destruct l1; done.
  - rewrite clue_rows_cons. case_decide as Hv.
    + intros (k&i'&v'&?&?&?&?)%IH. exists (S k), i', v'. split_and!; try done. cbn [take].
      by rewrite clue_rows_cons, decide_True.
    + destruct l1 as [|a l1]; cbn [app]; intros [= <- Heq].
      * exists 0, i, v. by split_and!.
      * apply IH in Heq as (k&i'&v'&?&?&?&?). exists (S k), i', v'. split_and!; try done.
        cbn [take]. rewrite clue_rows_cons, decide_False by done. by subst.
Qed.
Lemma filter_split (P : nat -> Prop) `{forall x, Decision (P x)} (l : list nat) : forall l1 r l2, filter P l = l1 ++ r :: l2 ->
  exists m1 m2, l = m1 ++ r :: m2 /\ filter P m1 = l1.
Proof.
  induction l as [|x l IH]; intros l1 r l2; [by destruct l1|]. rewrite filter_cons. case_decide as Hx.
  - destruct l1 as [|y l1]; cbn [app]; intros [= -> E].
    + by exists [], l.
    + apply IH in E as (m1&m2&->&<-). exists (y :: m1), m2. split; [done|]. by rewrite filter_cons, decide_True.
  - intros (m1&m2&->&<-)%IH. exists (x :: m1), m2. split; [done|]. by rewrite filter_cons, decide_False.
Qed.

Lemma incompatible p : ~ compatible SC (eff (enumerate p)) ->
  repeated p \/ forall g, complete_grid g -> ~ eff (enumerate p) ⊆ choices g.
Proof.
  intros Hn. set (E := eff (enumerate p)) in *.
  destruct (decide (NoDup E)) as [Hnd|Hnd].
  - right. intros g Hg Hs. apply Hn. intros l1 r l2 Hl. assert (r ∈ E) as Hr.
    { rewrite Hl. apply elem_of_app. right. apply elem_of_list_here. }
    split; [apply occurs_sudoku; apply elem_of_eff in Hr; tauto|].
    intros (k&a&Hk&Ha&Hak&Hrk). assert (exact_cover SC (choices g)) as (_&Hu&_) by (apply exact_cover_sudoku; by exists g).
    destruct (Hu k Hk) as (x&_&Hx). pose proof (Hx r (conj (Hs r Hr) Hrk)).
    assert (a ∈ E) as HaE by (rewrite Hl; apply elem_of_app; by left).
    pose proof (Hx a (conj (Hs a HaE) Hak)). assert (a = r) as -> by congruence.
    rewrite Hl in Hnd. apply NoDup_app in Hnd as (_&Hd&_). apply (Hd r Ha). apply elem_of_list_here.
  - left. assert (exists l1 r l2, E = l1 ++ r :: l2 /\ r ∈ l1) as (l1&r&l2&Hl&Hin).
    { clear Hn. clearbody E. induction E as [|x E IH]; [destruct Hnd; constructor|].
      destruct (decide (x ∈ E)) as [Hx|Hx].
      - apply elem_of_list_split in Hx as (l1&l2&->). exists (x :: l1), x, l2. split; [done|apply elem_of_list_here].
      - destruct IH as (l1&r&l2&->&Hr); [intros H; apply Hnd; by constructor|].
        exists (x :: l1), r, l2. split; [done|]. by apply elem_of_list_further. }
    assert (r < 729) as Hr729.
    { assert (r ∈ E) as HrE by (rewrite Hl; apply elem_of_app; by left). apply elem_of_eff in HrE. tauto. }
    unfold E, eff in Hl. apply filter_split in Hl as (m1&m2&Hm&<-). apply elem_of_list_filter in Hin as [_ Hin].
    apply clue_rows_split in Hm as (k&j&w&Hk&Hw&->&->). rewrite enumerate_lookup in Hk.
    apply fmap_Some in Hk as (x&Hx&[= -> ->]). apply elem_of_p_rows_to in Hin as (i&v&Hik&Hi&Hv&Heq).
    exists i, k, v, x. split_and!; try done; lia.
Qed.

Lemma repeated_incompatible p : repeated p -> ~ compatible SC (eff (enumerate p)).
Proof.
  intros (i&j&v&w&Hij&Hi&Hj&Hv&Hw&Heq&Hr) Hc.
  specialize (Hc (filter (fun r => r < 729) (p_rows_to p j)) (j * 9 + w - 1)
    (filter (fun r => r < 729) (clue_rows (drop (S j) (enumerate p))))) as [Ho Hn].
  { unfold eff. fold (p_rows p). rewrite (p_rows_split p j w Hj Hw), filter_app, filter_cons.
    rewrite decide_True by lia. done. }
  apply Hn. destruct Ho as (k&Hk&Hrk). exists k, (j * 9 + w - 1). split_and!; [done| |done..].
  apply elem_of_list_filter. split; [lia|]. apply elem_of_p_rows_to. exists i, v. split_and!; try done. lia.
Qed.

(** C47. *)
Lemma sudoku_any fuel p : length p = 81 -> enough fuel ->
  (exists g, solve_sudoku fuel p = Ret (Ok g, ∅) /\ complete_grid g /\ reads p g /\ ~ repeated p) \/
  ((solve_sudoku fuel p = Ret (Err NoSolution, ∅) \/ solve_sudoku fuel p = Fault UB) /\
   (repeated p \/ forall g, complete_grid g -> ~ reads p g)).
Proof.
  intros Hl Hf. unfold solve_sudoku. rewrite decide_False by (rewrite Hl; intros H; by apply H).
  destruct (ready_new _ constraints_NoDup) as (mx&->&Hpar&HR). specialize (HR fuel Hf). cbn [bind].
  assert (~ compatible SC (eff (enumerate p)) -> repeated p \/ forall g, complete_grid g -> ~ reads p g) as Hinc.
  { intros [H|H]%incompatible; [by left|]. right. intros g Hg Hr. apply reads_eff in Hr; [|done..]. by eapply H. }
  destruct (any_clues fuel (enumerate p) [] mx HR Hpar (compatible_nil _)) as [(mx'&->&HR'&Hp'&Hc)|[(mx'&->&Hd&Hc)|[-> Hc]]];
    cbn [app] in *; cbn [bind].
  - destruct (ready_solve _ _ _ _ HR') as [(sol&->&Hec)|[-> Hnone]]; cbn [bind].
    + left. rewrite Hp'. apply exact_cover_sudoku in Hec as (g&Hg&Hperm). pose proof Hg as (_&Hr&_).
      exists g. rewrite (sort_choices g) by done. rewrite read_choices by done. split_and!; [done|done| |intros H; by apply repeated_incompatible in H].
      apply reads_eff; [done..|]. intros r Hin. rewrite <-Hperm. apply elem_of_app. by left.
    + right. split; [by left|]. right. intros g Hg Hrd. apply reads_eff in Hrd; [|done..].
      destruct (submseteq_Permutation (eff (enumerate p)) (choices g)) as [k Hk].
      { apply NoDup_submseteq; [by eapply compatible_NoDup|done]. }
      apply (Hnone k). apply exact_cover_sudoku. exists g. by split.
  - rewrite Hd. cbn [bind]. right. split; [by left|]. by apply Hinc.
  - right. split; [by right|]. by apply Hinc.
Qed.

(** The outcome for entries of any size, exactly. *)
Lemma stands_row p i c v : stands p i c v <-> exists x, p !! i = Some x /\ x <> 0 /\ i * 9 + x - 1 < 729 /\
  i * 9 + x - 1 = c * 9 + (v - 1) /\ 1 <= v <= 9.
Proof.
  split.
  - intros (x&?&?&->&->&?). exists x. split_and!; try done; lia.
  - intros (x&?&?&?&?&?). exists x. split_and!; try done; lia.
Qed.
Lemma stands_range p i c v : stands p i c v -> c < 81 /\ 1 <= v <= 9.
Proof. intros (x&?&?&->&->&?). split; [done|lia]. Qed.
Lemma stands_det p i c v c' v' : stands p i c v -> stands p i c' v' -> c = c' /\ v = v'.
Proof. intros (x&Hx&?&->&->&?) (y&Hy&?&->&->&?). rewrite Hx in Hy. injection Hy as ->. done. Qed.
Lemma collision_conflict p i j c v c' v' : i < j -> stands p i c v -> stands p j c' v' ->
  conflict SC [c * 9 + (v - 1)] (c' * 9 + (v' - 1)) <-> collision p i j.
Proof.
  intros Hij Hi Hj. destruct (stands_range _ _ _ _ Hi). destruct (stands_range _ _ _ _ Hj).
  rewrite conflict_sudoku by lia. split.
  - intros HC. split; [done|]. exists c, v, c', v'. split_and!; [done..|]. destruct HC as [|[? ?]]; [by left|right]. split; [lia|done].
  - intros (_&a&b&a'&b'&Ha&Hb&HC). destruct (stands_det _ _ _ _ _ _ Hi Ha) as [-> ->].
    destruct (stands_det _ _ _ _ _ _ Hj Hb) as [-> ->]. destruct HC as [|[-> ?]]; auto.
Qed.
Lemma shares_last_stands p i j c v c' v' : stands p i c v -> stands p j c' v' ->
  shares_last SC (c * 9 + (v - 1)) (c' * 9 + (v' - 1)) <-> box_collision p i j.
Proof.
  intros Hi Hj. destruct (stands_range _ _ _ _ Hi). destruct (stands_range _ _ _ _ Hj).
  replace (c * 9 + (v - 1)) with (c * 9 + v - 1) by lia. replace (c' * 9 + (v' - 1)) with (c' * 9 + v' - 1) by lia.
  rewrite shares_last_box by lia. split.
  - intros [-> Hb]. exists c, c', v'. done.
  - intros (a&a'&b&Ha&Hb&H'). destruct (stands_det _ _ _ _ _ _ Hi Ha) as [-> ->].
    destruct (stands_det _ _ _ _ _ _ Hj Hb) as [-> ->]. done.
Qed.

Definition eff_to (p : list nat) (j : nat) : list nat := filter (fun r => r < 729) (p_rows_to p j).
Lemma elem_of_eff_to p j r : r ∈ eff_to p j <-> exists i c v, i < j /\ stands p i c v /\ r = c * 9 + (v - 1).
Proof.
  unfold eff_to. rewrite elem_of_list_filter, elem_of_p_rows_to. split.
  - intros (Hr&i&x&Hi&Hx&H0&->). exists i, (i + (x - 1) `div` 9), ((x - 1) `mod` 9 + 1).
    split_and!; [done| |lia]. exists x. split_and!; try done; lia.
  - intros (i&c&v&Hi&(x&Hx&H0&H1&H2&H3)%stands_row&->). split; [lia|]. exists i, x. split_and!; try done; lia.
Qed.
Lemma eff_split p j c v : stands p j c v -> exists rest, eff (enumerate p) = eff_to p j ++ (c * 9 + (v - 1)) :: rest.
Proof.
  intros (x&Hx&H0&H1&H2&H3)%stands_row. eexists. unfold eff. fold (p_rows p).
  rewrite (p_rows_split p j x Hx H0), filter_app, filter_cons, decide_True by lia. rewrite H2. done.
Qed.
Lemma eff_to_split p i j c v : i < j -> stands p i c v -> exists rest, eff_to p j = eff_to p i ++ (c * 9 + (v - 1)) :: rest.
Proof.
  intros Hij (x&Hx&H0&H1&H2&H3)%stands_row. destruct (p_rows_to_split p j i x) as [rest Hr]; [done..|].
  eexists. unfold eff_to at 1. rewrite Hr, filter_app, filter_cons, decide_True by lia. rewrite H2. done.
Qed.
Lemma eff_prefix p l1 r l2 : eff (enumerate p) = l1 ++ r :: l2 ->
  exists j c v, stands p j c v /\ r = c * 9 + (v - 1) /\ l1 = eff_to p j.
Proof.
  intros Hl. assert (r ∈ eff (enumerate p)) as [Hr _]%elem_of_eff by (rewrite Hl; apply elem_of_app; right; apply elem_of_list_here).
  unfold eff in Hl. apply filter_split in Hl as (m1&m2&Hm&<-).
  apply clue_rows_split in Hm as (k&j&w&Hk&Hw&->&->). rewrite enumerate_lookup in Hk.
  apply fmap_Some in Hk as (x&Hx&[= -> ->]). exists k, (k + (x - 1) `div` 9), ((x - 1) `mod` 9 + 1).
  split_and!; [|lia|done]. exists x. split_and!; try done; lia.
Qed.
Lemma conflict_collision p j c v : stands p j c v ->
  conflict SC (eff_to p j) (c * 9 + (v - 1)) <-> exists i, collision p i j.
Proof.
  intros Hj. rewrite conflict_one. split.
  - intros (a&(i&c'&v'&Hij&Hi&->)%elem_of_eff_to&Hc). exists i. by eapply collision_conflict in Hc.
  - intros (i&Hc). destruct Hc as (Hij&c1&v1&c2&v2&H1&H2&H3). exists (c1 * 9 + (v1 - 1)). split; [apply elem_of_eff_to; eauto 10|].
    eapply collision_conflict; [done..|]. split; [done|]. eauto 10.
Qed.
Lemma compatible_collision p : compatible SC (eff (enumerate p)) <-> forall i j, ~ collision p i j.
Proof.
  split.
  - intros Hc i j Hij. destruct (id Hij) as (_&_&_&c&v&_&Hj&_). destruct (eff_split p j c v Hj) as [rest E].
    destruct (Hc _ _ _ E) as [_ Hn]. apply Hn. apply conflict_collision; eauto.
  - intros H l1 r l2 Hl. apply eff_prefix in Hl as (j&c&v&Hj&->&->).
    destruct (stands_range _ _ _ _ Hj). split; [apply occurs_sudoku; lia|].
    intros [i Hi]%conflict_collision; [|done]. by apply H in Hi.
Qed.

(** Where incompatible rows fail is unique. *)
Lemma fail_unique cs l1 r l2 l1' r' l2' : l1 ++ r :: l2 = l1' ++ r' :: l2' ->
  compatible cs l1 -> conflict cs l1 r -> compatible cs l1' -> conflict cs l1' r' -> l1 = l1' /\ r = r'.
Proof.
  intros E Hc Hr Hc' Hr'. apply app_eq_inv in E as [(k&->&E2)|(k&->&E2)].
  - destruct k as [|x k]; cbn in E2; injection E2 as <- _; [by rewrite app_nil_r|]. by destruct (Hc _ _ _ eq_refl).
  - destruct k as [|x k]; cbn in E2; injection E2 as <- _; [by rewrite app_nil_r|]. by destruct (Hc' _ _ _ eq_refl).
Qed.

Lemma any_clues_fail fuel l : forall added mx l1 r l2,
  Ready fuel SC added mx -> d_partial mx = added -> compatible SC added ->
  added ++ eff l = l1 ++ r :: l2 -> compatible SC l1 -> conflict SC l1 r ->
  (nulled SC l1 r -> exists mx', add_clues fuel l mx = Ret (Err NoSolution, mx') /\ matrix_drop fuel (d_root mx') (d_heap mx') = Ret ∅) /\
  (~ nulled SC l1 r -> add_clues fuel l mx = Fault UB).
Proof.
  induction l as [|[i v] l IH]; intros added mx l1 r l2 HR Hp Hc E Hc1 Hr.
  - exfalso. unfold eff in E. cbn in E. rewrite app_nil_r in E. by destruct (Hc _ _ _ E).
  - rewrite eff_cons in E. cbn [add_clues]. destruct (decide (v = 0)) as [Hv|Hv]; [by eapply IH|].
    set (q := i * 9 + v - 1) in *. destruct (decide (q < 729)) as [Hq|Hq].
    + assert (occurs SC q) as Ho by (by apply occurs_sudoku). destruct (conflict_dec SC added q) as [Hcf|Hcf].
      * destruct (fail_unique _ _ _ _ _ _ _ E Hc Hcf Hc1 Hr) as [<- <-]. split; intros Hn.
        -- rewrite (ready_invalid fuel SC added mx q HR) by (by eauto || by right). cbn [bind].
           eexists. split; [done|]. eapply ready_drop. by apply ready_partial.
        -- by rewrite (ready_ub fuel SC added mx q HR) by done.
      * destruct (ready_ok fuel SC added mx q HR Ho Hcf) as (mx1&E1&HR1&Hp1). rewrite E1. cbn [bind].
        eapply (IH (added ++ [q]) mx1); [done|by rewrite Hp1, Hp|by apply compatible_snoc| |done..].
        by rewrite <-app_assoc.
    + rewrite (ready_index_error fuel SC added mx q HR).
      * cbn [bind]. by eapply IH.
      * intros r' Hr'%occurs_sudoku. lia.
Qed.

Lemma first_collision_fail p i j c v : first_collision p i j -> stands p j c v ->
  compatible SC (eff_to p j) /\ conflict SC (eff_to p j) (c * 9 + (v - 1)) /\
  (nulled SC (eff_to p j) (c * 9 + (v - 1)) <-> box_collision p i j).
Proof.
  intros [Hc Hmin] Hj. split_and!.
  - intros l1 r l2 Hl. destruct (eff_split p j c v Hj) as [rest E].
    rewrite Hl, <-app_assoc in E. cbn [app] in E. apply eff_prefix in E as (k&c'&v'&Hk&->&E).
    destruct (stands_range _ _ _ _ Hk). split; [apply occurs_sudoku; lia|]. rewrite E.
    intros [i' Hi']%conflict_collision; [|done]. apply Hmin in Hi'.
    assert (j <= k) as Hjk by lia. assert (eff_to p j `prefix_of` eff_to p k) as Hpre.
    { destruct (decide (j = k)) as [->|]; [done|]. destruct (eff_to_split p j k c v) as [rest' E']; [lia|done|].
      rewrite E'. by eexists. }
    apply prefix_length in Hpre. rewrite Hl, <-E, app_length in Hpre. cbn in Hpre. lia.
  - apply conflict_collision; eauto.
  - destruct (id Hc) as (Hij&c1&v1&c2&v2&Hi&Hj'&_). destruct (stands_det _ _ _ _ _ _ Hj Hj') as [<- <-]. clear Hj'.
    destruct (eff_to_split p i j c1 v1) as [rest E]; [done..|].
    assert (~ conflict SC (eff_to p i) (c * 9 + (v - 1))) as Hno.
    { intros (a&(i'&c'&v'&Hi'&Hs&->)%elem_of_eff_to&Hcf)%conflict_one.
      eapply collision_conflict in Hcf; [|by etransitivity|done..]. apply Hmin in Hcf. lia. }
    assert (conflict SC [c1 * 9 + (v1 - 1)] (c * 9 + (v - 1))) as Hyes by (by eapply collision_conflict).
    rewrite <-(shares_last_stands p i j c1 v1 c v) by done. split.
    + intros (l1&a&l2&El&Hn&Hs). rewrite E in El. pose proof (shares_last_conflict _ _ _ Hs) as Ha.
      apply app_eq_inv in El as [(k&E1&E2)|(k&E1&E2)]; destruct k as [|x k]; cbn in E2; injection E2 as <- _; try done.
      * exfalso. apply Hno, conflict_one. exists a. split; [|exact Ha]. rewrite E1. apply elem_of_app. right. apply elem_of_list_here.
      * exfalso. apply Hn, conflict_one. eexists. split; [|exact Hyes]. rewrite E1. apply elem_of_app. right. apply elem_of_list_here.
    + intros Hs. exists (eff_to p i), (c1 * 9 + (v1 - 1)), rest. done.
Qed.

(** C08. *)
Lemma sudoku_no_collision fuel p : length p = 81 -> enough fuel -> (forall i j, ~ collision p i j) ->
  (exists g, solve_sudoku fuel p = Ret (Ok g, ∅) /\ complete_grid g /\ reads p g) \/
  (solve_sudoku fuel p = Ret (Err NoSolution, ∅) /\ forall g, complete_grid g -> ~ reads p g).
Proof.
  intros Hl Hf Hno. apply compatible_collision in Hno. unfold solve_sudoku. rewrite decide_False by (rewrite Hl; intros H; by apply H).
  destruct (ready_new _ constraints_NoDup) as (mx&->&Hpar&HR). specialize (HR fuel Hf). cbn [bind].
  destruct (any_clues fuel (enumerate p) [] mx HR Hpar (compatible_nil _)) as [(mx'&->&HR'&Hp'&Hc)|[(mx'&->&Hd&Hc)|[-> Hc]]];
    cbn [app] in *; cbn [bind]; [|done..].
  destruct (ready_solve _ _ _ _ HR') as [(sol&->&Hec)|[-> Hnone]]; cbn [bind].
  - left. rewrite Hp'. apply exact_cover_sudoku in Hec as (g&Hg&Hperm). pose proof Hg as (_&Hr&_).
    exists g. rewrite (sort_choices g) by done. rewrite read_choices by done. split_and!; [done|done|].
    apply reads_eff; [done..|]. intros r Hin. rewrite <-Hperm. apply elem_of_app. by left.
  - right. split; [done|]. intros g Hg Hrd. apply reads_eff in Hrd; [|done..].
    destruct (submseteq_Permutation (eff (enumerate p)) (choices g)) as [k Hk].
    { apply NoDup_submseteq; [by eapply compatible_NoDup|done]. }
    apply (Hnone k). apply exact_cover_sudoku. exists g. by split.
Qed.
Lemma sudoku_collision fuel p i j : length p = 81 -> enough fuel -> first_collision p i j ->
  (box_collision p i j -> solve_sudoku fuel p = Ret (Err NoSolution, ∅)) /\
  (~ box_collision p i j -> solve_sudoku fuel p = Fault UB).
Proof.
  intros Hl Hf Hc. unfold solve_sudoku. rewrite decide_False by (rewrite Hl; intros H; by apply H).
  destruct (ready_new _ constraints_NoDup) as (mx&->&Hpar&HR). specialize (HR fuel Hf). cbn [bind].
  destruct (id Hc) as [(_&_&_&c&v&_&Hj&_) _]. destruct (first_collision_fail p i j c v Hc Hj) as (H1&H2&H3).
  destruct (eff_split p j c v Hj) as [rest E].
  destruct (any_clues_fail fuel (enumerate p) [] mx _ _ _ HR Hpar (compatible_nil _) E H1 H2) as [Hn Hu]. split; intros Hb.
  - apply H3, Hn in Hb as (mx'&->&Hd). cbn [bind]. by rewrite Hd.
  - rewrite Hu; [done|]. by rewrite H3.
Qed.
Lemma collision_dec p i j : Decision (collision p i j).
Proof.
  unfold collision. apply and_dec; [apply _|].
  destruct (p !! i) as [x|] eqn:Ei; [|right; intros (c&v&c'&v'&(y&?&_)&_); congruence].
  destruct (p !! j) as [y|] eqn:Ej; [|right; intros (c&v&c'&v'&_&(z&?&_)&_); congruence].
  set (c := i + (x - 1) `div` 9). set (c' := j + (y - 1) `div` 9). set (v := (x - 1) `mod` 9 + 1). set (v' := (y - 1) `mod` 9 + 1).
  destruct (decide (x <> 0 /\ y <> 0 /\ c < 81 /\ c' < 81 /\ (c = c' \/ v = v' /\ Exists (fun u => c ∈ u /\ c' ∈ u) units))) as [(H1&H2&H3&H4&H5)|H].
  - left. exists c, v, c', v'. split_and!; [by exists x|by exists y|]. by rewrite Exists_exists in H5.
  - right. intros (?&?&?&?&(x1&Hx&?&->&->&?)&(y1&Hy&?&->&->&?)&Hd). apply H. rewrite Ei in Hx. injection Hx as <-.
    rewrite Ej in Hy. injection Hy as <-. split_and!; [done..|]. by rewrite Exists_exists.
Qed.
Lemma first_collision_cases p : (exists i j, first_collision p i j) \/ forall i j, ~ collision p i j.
Proof.
  pose proof (collision_dec p) as HD.
  assert (forall j, Decision (exists i, collision p i j)) as HDj.
  { intros j. destruct (decide (Exists (fun i => collision p i j) (seq 0 j))) as [H|H].
    - left. apply Exists_exists in H as (i&_&?). eauto.
    - right. intros (i&Hi). apply H, Exists_exists. exists i. split; [|done]. destruct Hi as [? _]. apply elem_of_seq. lia. }
  destruct (decide (Exists (fun j => exists i, collision p i j) (seq 0 (length p)))) as [(j0&_&Hj0)%Exists_exists|H].
  - left. destruct (least _ HDj j0 Hj0) as (j&(i0&Hi0)&Hj).
    destruct (least _ (fun i => HD i j) i0 Hi0) as (i&Hi&Hmin).
    exists i, j. split; [done|]. intros i' j' Hc. assert (j <= j') as Hle by (apply Hj; eauto).
    destruct (decide (j = j')) as [->|]; [|lia]. right. split; [done|]. by apply Hmin.
  - right. intros i j Hc. apply H, Exists_exists. exists j. split; [|eauto].
    destruct Hc as (_&_&_&_&_&_&(x&Hx&_)&_). apply lookup_lt_Some in Hx. apply elem_of_seq. lia.
Qed.

(** 10 in cell 0 stands for 1 in cell 1. *)
Lemma ten_collision x : x = 1 \/ x = 2 -> let p := 10 :: x :: replicate 79 0 in
  length p = 81 /\ first_collision p 0 1 /\ (box_collision p 0 1 <-> x = 1).
Proof.
  intros Hx p. assert (stands p 0 1 1) as H0 by (exists 10; split_and!; done || lia).
  assert (stands p 1 1 x) as H1 by (exists x; destruct Hx; subst x; split_and!; done || lia).
  split_and!; [done|split|split].
  - split; [lia|]. exists 1, 1, 1, x. split_and!; [done..|by left].
  - intros i j (Hij&_&_&_&_&_&(y&Hy&Hy0&_)&_). destruct j as [|[|j]]; [lia|lia|].
    change (replicate 79 0 !! j = Some y) in Hy. apply lookup_replicate in Hy as [-> _]. done.
  - intros (c&c'&v&Ha&Hb&_). destruct (stands_det _ _ _ _ _ _ H0 Ha) as [_ <-].
    by destruct (stands_det _ _ _ _ _ _ H1 Hb) as [_ <-].
  - intros ->. exists 1, 1, 1. split_and!; [done..|]. exists 0. split_and!; [lia|..]; (apply elem_of_box; [lia|split; [lia|reflexivity]]).
Qed.
