(** One application of the left/right deduction to a line. *)
From Verif Require Import Base Nonogram SpecNonogram NonogramStates NonogramLine.

(** Block starts and block counters. *)
Lemma starts_level b : forall i (prev : bool) k j x,
  starts_from i prev b !! j = Some x ->
  exists y, x = i + y /\ levels prev k b !! y = Some (2 * j + (if prev then k + 2 else k + 1)) /\
    forall y' l, y' < y -> levels prev k b !! y' = Some l -> l < 2 * j + (if prev then k + 2 else k + 1).
Proof.
  induction b as [|a b IH]; intros i prev k j x; cbn [starts_from levels]; [done|].
  destruct (a && negb prev) eqn:E.
  - apply andb_true_iff in E as [-> ->%negb_true_iff]. cbn [Bool.eqb]. destruct j as [|j].
    + intros [= <-]. exists 0. split_and!; [lia|cbn; f_equal; lia|lia].
    + intros H. change (starts_from (S i) true b !! j = Some x) in H. apply (IH _ _ (S k)) in H as (y&->&H1&H2).
      exists (S y). split_and!; [lia|etrans; [exact H1|f_equal; lia]|]. intros [|y'] l Hy Hl; [injection Hl as <-; lia|].
      pose proof (H2 y' l ltac:(lia) Hl). lia.
  - intros H. set (k' := if Bool.eqb a prev then k else S k) in *. destruct (IH _ _ k' _ _ H) as (y&->&H1&H2). exists (S y).
    assert ((if a then k' + 2 else k' + 1) = (if prev then k + 2 else k + 1)) as Hk.
    { unfold k'. destruct a, prev; cbn [Bool.eqb]; try done; lia. }
    rewrite Hk in *. split_and!; [lia|done|]. intros [|y'] l Hy; [|intros Hl; apply (H2 y'); [lia|done]].
    intros [= <-]. unfold k'. destruct a, prev; try done; cbn [Bool.eqb]; lia.
Qed.
Lemma starts_length b c i : length (blocks c b) =
  length (starts_from i (bool_decide (c <> 0)) b) + (if decide (c = 0) then 0 else 1).
Proof.
  revert c i. induction b as [|[] b IH]; intros c i; cbn [blocks starts_from].
  - case_decide; done.
  - rewrite (IH (S c) (S i)). rewrite (bool_decide_eq_true_2 (S c <> 0)) by done.
    rewrite (decide_False (P := S c = 0)) by done. cbn [andb]. case_decide as Hc.
    + rewrite bool_decide_eq_false_2 by (intros H; by apply H). cbn [negb length]. lia.
    + rewrite bool_decide_eq_true_2 by done. cbn [negb]. lia.
  - cbn [andb]. case_decide as Hc.
    + rewrite (IH 0 (S i)). rewrite bool_decide_eq_false_2 by (intros H; by apply H). by rewrite decide_True.
    + cbn [length]. rewrite (IH 0 (S i)). rewrite bool_decide_eq_false_2 by (intros H; by apply H).
      rewrite decide_True by done. lia.
Qed.
Lemma starts_clue b : length (starts b) = length (clue_of b).
Proof.
  unfold clue_of. rewrite (starts_length b 0 0). rewrite bool_decide_eq_false_2 by (intros H; by apply H).
  rewrite decide_True by done. unfold starts. lia.
Qed.
Lemma levels_starts b b' : Forall2 le (lv b') (lv b) -> clue_of b = clue_of b' -> Forall2 le (starts b) (starts b').
Proof.
  intros Hl Hc. apply Forall2_same_length_lookup. split; [by rewrite !starts_clue, Hc|].
  intros j x x' Hx Hx'.
  apply (starts_level _ _ _ 0) in Hx as (y&->&_&H2). apply (starts_level _ _ _ 0) in Hx' as (y'&->&H1'&_).
  destruct (decide (y <= y')) as [|Hn]; [lia|]. exfalso. destruct (Forall2_lookup_l _ _ _ _ _ Hl H1') as (l&Hll&Hle).
  apply (H2 y') in Hll; lia.
Qed.

(** C39. *)
Lemma find_left_leftmost rule squares : head rule <> Some 0 ->
  exists r, find_left (rule_states rule) squares = Ret r /\
    (r = None <-> ~ exists b, fits rule squares b) /\
    forall b, r = Some b -> fits rule squares b /\
      forall b', fits rule squares b' -> Forall2 le (starts b) (starts b').
Proof.
  intros Hp. destruct (find_left_spec rule squares Hp) as [(b&E&Hb&Hdom)|[E Hno]].
  - exists (Some b). split_and!; [done|split; [done|]|].
    + intros Hn. exfalso. apply Hn. by exists b.
    + intros ? [= <-]. split; [done|]. intros b' Hb'. apply levels_starts; [by apply Hdom|].
      destruct Hb as [Hb%spells_clue _], Hb' as [Hb'%spells_clue _]. congruence.
  - exists None. split_and!; [done|split; [|done]|done]. intros _ [b Hb]. by apply Hno in Hb.
Qed.

(** Reversal. *)
Lemma rev_reverse {A} (l : list A) : rev l = reverse l.
Proof. apply rev_alt. Qed.
Lemma blocks_app_false b b' c : blocks c (b ++ false :: b') = blocks c b ++ blocks 0 b'.
Proof.
  revert c. induction b as [|[] b IH]; intros c; cbn [app blocks].
  - by case_decide.
  - apply IH.
  - case_decide; rewrite IH; done.
Qed.
Lemma blocks_true k c : blocks c (replicate k true) = if decide (c + k = 0) then [] else [c + k].
Proof.
  revert c. induction k as [|k IH]; intros c; cbn [replicate blocks]; [by rewrite Nat.add_0_r|].
  rewrite IH. by replace (S c + k) with (c + S k) by lia.
Qed.
Lemma split_true b : (exists k, b = replicate k true) \/ exists k b', b = replicate k true ++ false :: b'.
Proof.
  induction b as [|[] b [[k ->]|(k&b'&->)]].
  - left. by exists 0.
  - left. by exists (S k).
  - right. by exists (S k), b'.
  - right. by exists 0, (replicate k true).
  - right. by exists 0, (replicate k true ++ false :: b').
Qed.
Lemma clue_of_rev b : clue_of (rev b) = rev (clue_of b).
Proof.
  unfold clue_of. remember (length b) as len eqn:Hlen. revert b Hlen.
  induction (lt_wf len) as [len _ IH]. intros b ->. destruct (split_true b) as [[k ->]|(k&b'&->)].
  - rewrite rev_reverse, reverse_replicate, blocks_true. by case_decide.
  - rewrite rev_app_distr. cbn [rev]. rewrite <-app_assoc. cbn [app]. rewrite !blocks_app_false, rev_app_distr.
    rewrite (IH (length b')) by (rewrite ?app_length; cbn; lia || done). f_equal.
    rewrite rev_reverse, reverse_replicate, blocks_true. by case_decide.
Qed.
Lemma one_block_rev v b : one_block v b -> one_block v (rev b).
Proof.
  intros (i&j&->). exists j, i. rewrite !rev_reverse, !reverse_app, !reverse_replicate. by rewrite <-app_assoc.
Qed.
Lemma spells_snoc rule v b1 b2 : rule <> [] -> spells rule b1 -> one_block v b2 -> spells (rule ++ [v]) (b1 ++ false :: b2).
Proof.
  revert b1. induction rule as [|w r IH]; [done|]. intros b1 _ H1 H2. destruct r as [|u r].
  - cbn [app]. apply spells_cons. by exists b1, b2.
  - apply spells_cons in H1 as (c1&c2&->&Hc1&Hc2). cbn [app]. apply spells_cons. exists c1, (c2 ++ false :: b2).
    split_and!; [by rewrite <-app_assoc|done|]. by apply IH.
Qed.
Lemma spells_rev rule b : spells rule b -> spells (rev rule) (rev b).
Proof.
  revert b. induction rule as [|v r IH]; intros b H; [by apply one_block_rev|]. destruct r as [|w r].
  - by apply one_block_rev.
  - apply spells_cons in H as (b1&b2&->&H1&H2). rewrite rev_app_distr.
    change (rev (false :: b2)) with (rev b2 ++ [false]). rewrite <-app_assoc. change (rev (v :: w :: r)) with (rev (w :: r) ++ [v]).
    apply spells_snoc; [|by apply IH|by apply one_block_rev]. cbn [rev]. by destruct (rev r).
Qed.
Lemma fits_rev rule squares b : fits rule squares b -> fits (rev rule) (rev squares) (rev b).
Proof.
  intros [H1 H2]. split; [by apply spells_rev|]. rewrite !rev_reverse. by apply Forall2_reverse.
Qed.
Lemma proper_rev rule : proper rule -> proper (rev rule).
Proof. unfold proper. rewrite rev_reverse. intros [H1 H2]. rewrite head_reverse, last_reverse. done. Qed.
Lemma positive_proper rule : positive rule -> proper rule.
Proof.
  intros Hp. split.
  - destruct Hp; [done|]. cbn. intros [= ->]. lia.
  - intros [l ->]%last_Some. apply Forall_app in Hp as [_ Hp]. inversion Hp. lia.
Qed.

(** Number of changes in a sequence. *)
Fixpoint changes (l : list bool) : nat :=
  match l with
  | x :: (y :: _) as l' => (if Bool.eqb y x then 0 else 1) + changes l'
  | _ => 0
  end.
Lemma changes_cons x y l : changes (x :: y :: l) = (if Bool.eqb y x then 0 else 1) + changes (y :: l).
Proof. done. Qed.
Lemma changes_app l1 x l2 : changes (l1 ++ x :: l2) = changes (l1 ++ [x]) + changes (x :: l2).
Proof.
  induction l1 as [|y l1 IH]; [cbn; lia|]. destruct l1 as [|z l1]; cbn [app] in *.
  - rewrite !changes_cons. cbn [changes]. lia.
  - rewrite !changes_cons, IH. lia.
Qed.
Lemma changes_rev l : changes (rev l) = changes l.
Proof.
  induction l as [|x l IH]; [done|]. destruct l as [|y l]; [done|]. cbn [rev] in *. rewrite changes_cons, <-IH.
  rewrite <-app_assoc. cbn [app]. rewrite changes_app, changes_cons. cbn [changes]. destruct x, y; cbn; lia.
Qed.
Lemma levels_changes b : forall prev k i, i < length b ->
  levels prev k b !! i = Some (k + changes (prev :: take (S i) b)).
Proof.
  induction b as [|x b IH]; intros prev k i Hi; cbn [length] in Hi; [lia|]. cbn [levels take].
  rewrite changes_cons. destruct i as [|i]; cbn [lookup list_lookup].
  - f_equal. rewrite take_0. change (changes [x]) with 0. destruct (Bool.eqb x prev); lia.
  - change (list_lookup i ?l) with (l !! i). rewrite IH by lia. f_equal. cbn [take]. destruct (Bool.eqb x prev); lia.
Qed.
Lemma changes_blocks b c : changes (bool_decide (c <> 0) :: b ++ [false]) + (if decide (c = 0) then 0 else 1)
  = 2 * length (blocks c b).
Proof.
  revert c. induction b as [|x b IH]; intros c.
  - cbn [app blocks]. rewrite changes_cons. case_decide as Hc.
    + rewrite bool_decide_eq_false_2 by (intros H; by apply H). done.
    + rewrite bool_decide_eq_true_2 by done. done.
  - cbn [app]. rewrite changes_cons. destruct x; cbn [blocks].
    + specialize (IH (S c)). rewrite (bool_decide_eq_true_2 (S c <> 0)) in IH by done.
      rewrite (decide_False (P := S c = 0)) in IH by done. case_decide as Hc.
      * rewrite bool_decide_eq_false_2 by (intros H; by apply H). cbn [Bool.eqb]. lia.
      * rewrite bool_decide_eq_true_2 by done. cbn [Bool.eqb]. lia.
    + specialize (IH 0). rewrite (bool_decide_eq_false_2 (0 <> 0)) in IH by (intros H; by apply H).
      rewrite (decide_True (P := 0 = 0)) in IH by done. case_decide as Hc.
      * rewrite bool_decide_eq_false_2 by (intros H; by apply H). cbn [Bool.eqb]. lia.
      * rewrite bool_decide_eq_true_2 by done. cbn [Bool.eqb length]. lia.
Qed.
Lemma lv_length b : length (lv b) = length b.
Proof.
  unfold lv. generalize false 0. induction b as [|x b IH]; intros p k; [done|]. cbn. by rewrite IH.
Qed.
Lemma lv_rev b i : i < length b -> exists l r, lv b !! i = Some l /\ lv (rev b) !! (length b - 1 - i) = Some r /\
  l + r = 2 * length (clue_of b).
Proof.
  intros Hi. destruct (lookup_lt_is_Some_2 b i Hi) as [x Hx]. unfold lv.
  rewrite (levels_changes b false 0 i Hi). rewrite levels_changes by (rewrite rev_length; lia).
  eexists _, _. split_and!; [done|done|]. pose proof (changes_blocks b 0) as Hcb.
  rewrite bool_decide_eq_false_2 in Hcb by (intros H; by apply H). rewrite decide_True in Hcb by done.
  assert (changes (false :: b ++ [false]) =
    changes (false :: take i b ++ [x]) + changes (x :: drop (S i) b ++ [false])) as Hsplit.
  { rewrite <-(take_drop_middle b i x Hx) at 1. rewrite <-app_assoc. cbn [app].
    exact (changes_app (false :: take i b) x (drop (S i) b ++ [false])). }
  assert (take (S (length b - 1 - i)) (rev b) = rev (x :: drop (S i) b)) as ->.
  { rewrite <-(take_drop_middle b i x Hx) at 2. rewrite rev_app_distr.
    assert (S (length b - 1 - i) = length (rev (x :: drop (S i) b))) as ->.
    { rewrite rev_length. cbn [length]. rewrite drop_length. lia. }
    apply take_app. }
  assert (false :: rev (x :: drop (S i) b) = rev ((x :: drop (S i) b) ++ [false])) as -> by (by rewrite rev_app_distr).
  rewrite changes_rev. rewrite (take_S_r b i x Hx). unfold clue_of. cbn [app] in *. lia.
Qed.

(** The parity of the counter is the cell. *)
Lemma levels_parity b : forall prev k i x l, Nat.odd k = prev ->
  b !! i = Some x -> levels prev k b !! i = Some l -> Nat.odd l = x.
Proof.
  induction b as [|y b IH]; intros prev k i x l Hk; [done|]. cbn [levels].
  assert (Nat.odd (if Bool.eqb y prev then k else S k) = y) as Hy.
  { destruct y, prev; cbn [Bool.eqb]; rewrite ?Nat.odd_succ, <-?Nat.negb_odd, ?Hk; done. }
  destruct i as [|i]; cbn [lookup list_lookup].
  - by intros [= <-] [= <-].
  - intros H1 H2. by eapply IH.
Qed.
Lemma lv_parity b i x l : b !! i = Some x -> lv b !! i = Some l -> Nat.odd l = x.
Proof. by apply levels_parity. Qed.

(** The information order on squares. *)
Definition sqle (a b : square) : Prop := a = Blank \/ a = b.
Global Instance square_eq_dec : EqDecision square.
Proof. solve_decision. Defined.

(** What the deduction does to one square. *)
Definition refine_cell (sq : square) (a b : nat) : square :=
  match sq with
  | Blank => if decide (a = b) then (if Nat.odd a then Filled else Blocked) else Blank
  | _ => sq
  end.
Fixpoint refine (g : list square) (la lb : list nat) : list square :=
  match g, la, lb with
  | sq :: g, a :: la, b :: lb => refine_cell sq a b :: refine g la lb
  | _, _, _ => g
  end.
Lemma refine_length g la lb : length (refine g la lb) = length g.
Proof. revert la lb. induction g as [|sq g IH]; intros [|a la] [|b lb]; cbn; try done. by rewrite IH. Qed.
Lemma refine_le g la lb : Forall2 sqle g (refine g la lb).
Proof.
  revert la lb. induction g as [|sq g IH]; intros la lb; cbn [refine]; [constructor|].
  destruct la as [|a la]; [|destruct lb as [|b lb]].
  1, 2: clear IH; constructor; [by right|]; induction g; constructor; [by right|done].
  constructor; [|apply IH]. unfold refine_cell. destruct sq; [by left|by right..].
Qed.
Lemma refine_lookup g la lb i sq a b : g !! i = Some sq -> la !! i = Some a -> lb !! i = Some b ->
  refine g la lb !! i = Some (refine_cell sq a b).
Proof.
  revert la lb i. induction g as [|s g IH]; intros [|a' la] [|b' lb] [|i]; try done.
  - cbn. by intros [= ->] [= ->] [= ->].
  - cbn [refine]. intros H1 H2 H3. by apply (IH la lb i).
Qed.

Lemma rl_loop L rgt : length L = length rgt -> forall Lt Rt gt Lp Rp gd c (lb rb : nat) (l r : bool),
  L = Lp ++ Lt -> rev rgt = Rp ++ Rt -> length Lp = length gd -> length Rp = length gd ->
  length Lt = length gt -> Nat.odd lb = l -> Nat.odd rb = r ->
  exists s, foldM (rl_step L rgt) (seq (length gd) (length Lt)) (RlState c lb rb l r (gd ++ gt)) = Ret s /\
    rl_grid s = gd ++ refine gt (levels l lb Lt) (levels r rb Rt) /\
    rl_changed s = c || bool_decide (refine gt (levels l lb Lt) (levels r rb Rt) <> gt).
Proof.
  intros HlenLR. induction Lt as [|x Lt IH]; intros Rt gt Lp Rp gd c lb rb l r HL HR HlL HlR Hlg Hl Hr.
  - destruct gt; [|done]. eexists. split; [done|]. cbn. split; [done|]. by rewrite orb_false_r.
  - destruct gt as [|sq gt]; [done|].
    assert (length (rev rgt) = length L) as Hlr by (by rewrite rev_length).
    destruct Rt as [|y Rt].
    { exfalso. rewrite HL, HR in Hlr. rewrite !app_length in Hlr. cbn in Hlr. lia. }
    cbn [length seq foldM levels].
    set (lb' := if Bool.eqb x l then lb else S lb). set (rb' := if Bool.eqb y r then rb else S rb).
    assert (Nat.odd lb' = x) as Hlx.
    { unfold lb'. destruct x, l; cbn [Bool.eqb]; rewrite ?Nat.odd_succ, <-?Nat.negb_odd, ?Hl; done. }
    assert (Nat.odd rb' = y) as Hrx.
    { unfold rb'. destruct y, r; cbn [Bool.eqb]; rewrite ?Nat.odd_succ, <-?Nat.negb_odd, ?Hr; done. }
    assert (rl_step L rgt (length gd) (RlState c lb rb l r (gd ++ sq :: gt)) =
      Ret (RlState (c || bool_decide (refine_cell sq lb' rb' <> sq)) lb' rb' x y (gd ++ refine_cell sq lb' rb' :: gt))) as ->.
    { unfold rl_step. unfold vec_get. cbn [rl_changed rl_lblock rl_rblock rl_l rl_r rl_grid].
      rewrite HL at 1. rewrite <-HlL at 1. rewrite list_lookup_middle by done. cbn [expect bind].
      rewrite decide_False. 2:{ rewrite <-HlenLR, HL, app_length. cbn. lia. }
      assert (rgt !! (length rgt - 1 - length gd) = Some y) as ->.
      { replace (length rgt - 1 - length gd) with (length rgt - S (length gd)) by lia.
        rewrite <-reverse_lookup. 2:{ rewrite <-HlenLR, HL, app_length. cbn. lia. }
        rewrite <-rev_reverse, HR, <-HlR. by rewrite list_lookup_middle. }
      cbn [expect bind]. fold lb' rb'. rewrite list_lookup_middle by done. cbn [expect bind].
      destruct sq; cbn [refine_cell].
      - destruct (decide (lb' = rb')) as [He|He].
        + rewrite He, Nat.eqb_refl. assert (x = y) as -> by congruence. rewrite Bool.eqb_reflx. cbn [andb].
          unfold vec_set. rewrite decide_True by (rewrite app_length; cbn; lia). cbn [bind].
          rewrite <-(Nat.add_0_r (length gd)), insert_app_r. cbn. rewrite Hrx.
          rewrite bool_decide_eq_true_2 by (by destruct y). by rewrite orb_true_r.
        + apply Nat.eqb_neq in He as ->. cbn [andb]. rewrite bool_decide_eq_false_2 by (intros H; by apply H).
          by rewrite orb_false_r.
      - rewrite bool_decide_eq_false_2 by (intros H; by apply H). by rewrite orb_false_r.
      - rewrite bool_decide_eq_false_2 by (intros H; by apply H). by rewrite orb_false_r. }
    cbn [bind]. set (c' := c || bool_decide (refine_cell sq lb' rb' <> sq)).
    destruct (IH Rt gt (Lp ++ [x]) (Rp ++ [y]) (gd ++ [refine_cell sq lb' rb']) c' lb' rb' x y) as (s&E&Hg&Hc);
      [by rewrite <-app_assoc|by rewrite <-app_assoc|rewrite !app_length; cbn; lia|rewrite !app_length; cbn; lia|by injection Hlg|done|done|].
    rewrite app_length, <-!app_assoc in E. cbn [length app] in E. rewrite Nat.add_1_r in E. exists s. split; [done|].
    rewrite <-app_assoc in Hg. cbn [app] in Hg. cbn [refine]. split; [done|].
    rewrite Hc. unfold c'. rewrite <-orb_assoc. f_equal.
    destruct (decide (refine_cell sq lb' rb' = sq)) as [He|He].
    + rewrite He. rewrite (bool_decide_eq_false_2 (sq <> sq)) by (intros H; by apply H). cbn [orb].
      apply bool_decide_ext. split; [intros H1 H2; apply H1; congruence|intros H1 H2; apply H1; congruence].
    + rewrite bool_decide_eq_true_2 by done. symmetry. apply bool_decide_eq_true_2. intros H. apply He. congruence.
Qed.

(** Leftmost and rightmost fillings. *)
Definition extremes (rule : list nat) (g : list square) (L R : list bool) : Prop :=
  fits rule g L /\ fits rule g R /\
  forall b, fits rule g b -> Forall2 le (lv R) (lv b) /\ Forall2 le (lv b) (lv L).

Lemma fits_length rule g b : fits rule g b -> length b = length g.
Proof. intros [_ H]. by rewrite (Forall2_length _ _ _ H). Qed.

Lemma line_spec rule g : proper rule ->
  (exists L R, extremes rule g L R /\
     line_right_left (machine_new rule) g =
       Ret (Ok (bool_decide (refine g (lv L) (lv R) <> g), refine g (lv L) (lv R)))) \/
  (line_right_left (machine_new rule) g = Ret (Err NoSolution) /\ forall b, ~ fits rule g b).
Proof.
  intros Hp. unfold line_right_left, machine_new. cbn [left_states right_states].
  destruct (find_left_spec rule g (proj1 Hp)) as [(L&->&HL&HdL)|[-> Hno]]; cbn [bind]; [|by right].
  pose proof (proj1 (proper_rev rule Hp)) as Hp'.
  destruct (find_left_spec (rev rule) (rev g) Hp') as [(R&->&HR&HdR)|[-> Hno]]; cbn [bind].
  2:{ right. split; [done|]. intros b Hb. apply fits_rev in Hb. by apply Hno in Hb. }
  left. exists L, (rev R).
  assert (fits rule g (rev R)) as HRr.
  { apply fits_rev in HR. by rewrite !rev_involutive in HR. }
  split.
  - split_and!; [done|done|]. intros b Hb. split; [|by apply HdL].
    pose proof (HdR (rev b) (fits_rev _ _ _ Hb)) as Hle.
    apply Forall2_same_length_lookup. rewrite !lv_length. split.
    { rewrite (fits_length _ _ _ HRr), (fits_length _ _ _ Hb). done. }
    intros i x y Hx Hy. assert (i < length b) as Hi by (apply lookup_lt_Some in Hy; by rewrite lv_length in Hy).
    assert (length (rev R) = length b) as Hlen by (by rewrite (fits_length _ _ _ HRr), (fits_length _ _ _ Hb)).
    destruct (lv_rev b i Hi) as (l1&r1&E1&E2&E3). destruct (lv_rev (rev R) i) as (l2&r2&F1&F2&F3); [lia|].
    rewrite rev_involutive, Hlen in F2. rewrite E1 in Hy. rewrite F1 in Hx. injection Hx as <-. injection Hy as <-.
    destruct HRr as [Hc1%spells_clue _], Hb as [Hc2%spells_clue _]. rewrite Hc1 in F3. rewrite Hc2 in E3.
    destruct (Forall2_lookup_lr _ _ _ _ _ _ Hle E2 F2) as []; lia.
  - destruct (rl_loop L R) with (Lt := L) (Rt := rev R) (gt := g) (Lp := @nil bool) (Rp := @nil bool) (gd := @nil square)
      (c := false) (lb := 0) (rb := 0) (l := false) (r := false) as (s&E&Hg&Hc); try done.
    { apply fits_length in HRr. rewrite rev_length in HRr. by rewrite HRr, (fits_length _ _ _ HL). }
    { by apply fits_length in HL. }
    cbn [length app] in E. rewrite E. cbn [bind]. rewrite Hg, Hc. done.
Qed.
