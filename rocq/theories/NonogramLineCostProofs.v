(** Proofs for C91: how much work is done for a line. *)
From Verif Require Import Base Nonogram NonogramCost NonogramLineCost NonogramStates NonogramLine.
From Verif Require Import NonogramCostProofs NonogramGrid SpecLineCost.

Lemma push_tail_same st squares : forall path c, (push_tail_cost st squares path c).1 = push_tail st squares path.
Proof. induction squares as [|[] squares IH]; intros path c; cbn [push_tail_cost push_tail]; [done|apply IH|done|apply IH]. Qed.
Lemma match_pass_same states sq rest : forall old state new c,
  forget (match_pass_cost states sq rest state old new c) = match_pass states sq rest state old new.
Proof.
  induction old as [|[path|] old IH]; intros state new c; cbn [match_pass_cost match_pass]; [done| |apply IH].
  destruct (vec_get states state) as [cur|f]; cbn [bind]; [|done].
  destruct (vec_get states (state + 1)) as [next|f]; cbn [bind]; [|done].
  match goal with |- context [bind ?x _] => destruct x as [new1|f] end; cbn [bind]; [|done].
  destruct next; [done| | |].
  - match goal with |- context [bind ?x _] => destruct x as [new2|f] end; cbn [bind]; [apply IH|done].
  - match goal with |- context [bind ?x _] => destruct x as [new2|f] end; cbn [bind]; [apply IH|done].
  - destruct (states !! (state + 2)) as [[]|]; [done| |done|done|].
    + match goal with |- context [bind ?x _] => destruct x as [new2|f] end; cbn [bind]; [|done].
      match goal with |- context [bind ?x _] => destruct x as [new3|f] end; cbn [bind]; [apply IH|done].
    + rewrite <-(push_tail_same _ _ _ (count_active (count_entry c))).
      destruct (push_tail_cost _ _ _ _) as [[pushed|] c']; cbn [fst]; [|apply IH].
      by destruct (vec_set new1 (state + 2) (Some pushed)).
Qed.
Lemma match_loop_same states : forall squares old c, forget (match_loop_cost states squares old c) = match_loop states squares old.
Proof.
  induction squares as [|sq rest IH]; intros old c; cbn [match_loop_cost match_loop]; cbv zeta;
    rewrite <-(match_pass_same _ _ _ _ _ _ (count_pass c)); destruct (match_pass_cost _ _ _ _ _ _ _) as [[[new stop] c']|f];
    cbn [bind forget]; [done..| |done].
  destruct stop; [done|apply IH].
Qed.
Lemma find_left_same states squares c : forget (find_left_cost states squares c) = find_left states squares.
Proof.
  unfold find_left_cost, find_left. destruct (vec_set _ _ _) as [old|f]; cbn [bind]; [|done].
  rewrite <-(match_loop_same _ _ _ c). destruct (match_loop_cost _ _ _ _) as [[new c']|f]; cbn [bind forget]; [|done].
  destruct (vec_get new (length states)) as [[path|]|f]; cbn [bind]; [|done|done]. by destruct (mapM _ _).
Qed.
Lemma compare_same lft rgt l : forall s c,
  forget (foldM (fun i '(s, c) => let! s := rl_step lft rgt i s in Ret (s, count_compared c)) l (s, c)) =
  foldM (rl_step lft rgt) l s.
Proof.
  induction l as [|i l IH]; intros s c; cbn [foldM]; [done|]. destruct (rl_step lft rgt i s) as [s'|f]; cbn [bind]; [apply IH|done].
Qed.
Lemma line_same mc grid c : forget (line_right_left_cost mc grid c) = line_right_left mc grid.
Proof.
  unfold line_right_left_cost, line_right_left. rewrite <-(find_left_same _ _ c).
  destruct (find_left_cost (left_states mc) grid c) as [[[lft|] c1]|f]; cbn [bind forget]; [|done|done].
  rewrite <-(find_left_same _ _ c1). destruct (find_left_cost (right_states mc) _ c1) as [[[rgt|] c2]|f]; cbn [bind forget]; [|done|done].
  rewrite <-(compare_same _ _ _ _ c2). by destruct (foldM _ _ _) as [[s c3]|f].
Qed.
Lemma run_line_steps_same mc ps grid c : forget (run_line_steps mc ps grid c) = run_line mc ps grid.
Proof.
  unfold run_line_steps, run_line. destruct (mapM _ _) as [line|f]; cbn [bind]; [|done]. rewrite <-(line_same _ _ c).
  destruct (line_right_left_cost mc line c) as [[[[ch line']|e] c']|f]; cbn [bind forget]; [|done|done]. by destruct (foldM _ _ _).
Qed.
Lemma run_lines_steps_same positions : forall machines changed grid c,
  forget (run_lines_steps positions machines changed grid c) = run_lines positions machines changed grid.
Proof.
  induction machines as [|[index mc] machines IH]; intros changed grid c; cbn [run_lines_steps run_lines]; [done|].
  destruct (positions index) as [ps|f]; cbn [bind]; [|done]. rewrite <-(run_line_steps_same _ _ _ c).
  destruct (run_line_steps mc ps grid c) as [[[[ch g]|e] c']|f]; cbn [bind forget]; [|done|done]. apply IH.
Qed.
Lemma one_round_steps_same m w cols rows grid c : forget (one_round_steps m w cols rows grid c) = one_round m w cols rows grid.
Proof.
  unfold one_round_steps, one_round. rewrite <-(run_lines_steps_same _ _ _ _ c).
  destruct (run_lines_steps _ (enumerate cols) _ _ _) as [[[[ch g]|e] c']|f]; cbn [bind forget]; [|done|done]. apply run_lines_steps_same.
Qed.
Lemma rounds_steps_same m w cols rows : forall fuel grid c,
  forget (rounds_steps fuel m w cols rows grid c) = rounds fuel m w cols rows grid.
Proof.
  induction fuel as [|fuel IH]; intros grid c; cbn [rounds_steps rounds]; [done|]. rewrite <-(one_round_steps_same _ _ _ _ _ c).
  destruct (one_round_steps m w cols rows grid c) as [[[[ch g]|e] c']|f]; cbn [bind forget]; [|done|done].
  destruct ch; [apply IH|done].
Qed.
Lemma solve_steps_same m col row :
  (let! (r, _) := solve_steps m col row in
   Ret (match r with Err e => Err e | Ok g => Ok ((fun s => match s with Filled => true | _ => false end) <$> g) end)) =
  solve_nonogram m col row.
Proof.
  unfold solve_steps, solve_nonogram, grid_right_left. destruct (n_mul m (length col) (length row)) as [n|f]; cbn [bind]; [|done]. cbv zeta.
  rewrite <-(rounds_steps_same _ _ _ _ _ _ no_cost). by destruct (rounds_steps _ _ _ _ _ _ _) as [[[g|e] c]|f].
Qed.

(** Bounds for any list of states. *)
Lemma push_tail_count st squares : forall path c r c', push_tail_cost st squares path c = (r, c') ->
  passes c' = passes c /\ entries c' = entries c /\ active c' = active c /\ compared c' = compared c /\
  scanned c <= scanned c' <= scanned c + length squares.
Proof.
  induction squares as [|[] squares IH]; intros path c r c'; cbn [push_tail_cost length].
  - intros [= <- <-]. lia.
  - intros H%IH. cbn in H. lia.
  - intros [= <- <-]. cbn. lia.
  - intros H%IH. cbn in H. lia.
Qed.
Definition low (b : nat) (l : list (option (list nat))) : Prop := forall s p, l !! s = Some (Some p) -> s <= b.
Lemma low_set b l i v l' : i <= b -> low b l -> vec_set l i v = Ret l' -> low b l' /\ length l' = length l.
Proof.
  intros Hi Hl. unfold vec_set. destruct (decide (i < length l)); [|done]. intros [= <-]. split; [|apply insert_length].
  intros s p. destruct (decide (s = i)) as [->|]; [done|]. rewrite list_lookup_insert_ne by done. apply Hl.
Qed.
Lemma low_set_if (cond : bool) b l i v l' : i <= b -> low b l -> (if cond then vec_set l i v else Ret l) = Ret l' ->
  low b l' /\ length l' = length l.
Proof. destruct cond; [apply low_set|]. by intros _ H [= <-]. Qed.
Definition tail_length (sq : option square) (rest : list square) : nat := match sq with Some s => S (length rest) | None => 0 end.
Lemma match_pass_count states sq rest b : forall old state new c new' stop c',
  (forall s p, old !! s = Some (Some p) -> state + s <= b) -> low (S (S b)) new ->
  match_pass_cost states sq rest state old new c = Ret (new', stop, c') ->
  passes c' = passes c /\ compared c' = compared c /\ entries c' <= entries c + length old /\
  active c' <= active c + (length states - 1 - state) /\ active c' <= active c + (S b - state) /\
  scanned c' <= scanned c + (if decide (state + 1 < length states) then tail_length sq rest else 0) /\
  low (S (S b)) new' /\ length new' = length new.
Proof.
  induction old as [|[path|] old IH]; intros state new c new' stop c' Hold Hnew; cbn [match_pass_cost length].
  - intros [= <- <- <-]. split_and!; [..|done|done]; repeat case_decide; lia.
  - assert (state <= b) as Hb by (specialize (Hold 0 path eq_refl); lia).
    assert (forall s p, old !! s = Some (Some p) -> S state + s <= b) as Hold'.
    { intros s p Hs. specialize (Hold (S s) p Hs). lia. }
    destruct (vec_get states state) as [cur|f] eqn:Ecur; cbn [bind]; [|done].
    destruct (vec_get states (state + 1)) as [next|f] eqn:Enext; cbn [bind]; [|done].
    assert (state + 1 < length states) as Hst.
    { unfold vec_get in Enext. destruct (states !! (state + 1)) eqn:El; [|done]. by apply lookup_lt_Some in El. }
    rewrite (decide_True (P := state + 1 < length states)) by done.
    set (c1 := count_active (count_entry c)).
    assert (passes c1 = passes c /\ compared c1 = compared c /\ entries c1 = S (entries c) /\ active c1 = S (active c) /\
      scanned c1 = scanned c) as (P1&P2&P3&P4&P5) by done. clearbody c1.
    assert (forall new2, low (S (S b)) new2 /\ length new2 = length new ->
      match_pass_cost states sq rest (S state) old new2 c1 = Ret (new', stop, c') ->
      passes c' = passes c /\ compared c' = compared c /\ entries c' <= entries c + S (length old) /\
      active c' <= active c + (length states - 1 - state) /\ active c' <= active c + (S b - state) /\
      scanned c' <= scanned c + tail_length sq rest /\ low (S (S b)) new' /\ length new' = length new) as Hrec.
    { intros new2 [H2 Hl] H. apply IH in H; [|done..]. destruct H as (?&?&?&?&?&Hs&?&?). split_and!; [..|done|congruence]; repeat case_decide; lia. }
    match goal with |- context [bind ?x _] => destruct x as [new1|f] eqn:E1 end; cbn [bind]; [|done].
    assert (low (S (S b)) new1 /\ length new1 = length new) as [L1 L1'].
    { destruct cur; [by injection E1 as <-..|by eapply low_set_if; [|done|exact E1]; lia|by eapply low_set_if; [|done|exact E1]; lia]. }
    destruct next; [done| | |].
    + match goal with |- context [bind ?x _] => destruct x as [new2|f] eqn:E2 end; cbn [bind]; [apply Hrec|done].
      rewrite <-L1'. by eapply low_set_if; [|done|exact E2]; lia.
    + match goal with |- context [bind ?x _] => destruct x as [new2|f] eqn:E2 end; cbn [bind]; [apply Hrec|done].
      rewrite <-L1'. by eapply low_set_if; [|done|exact E2]; lia.
    + destruct (states !! (state + 2)) as [[]|] eqn:E2; [done| |done|done|].
      * match goal with |- context [bind ?x _] => destruct x as [new2|f] eqn:E3 end; cbn [bind]; [|done].
        assert (low (S (S b)) new2 /\ length new2 = length new1) as [L2 L2'] by (by eapply low_set_if; [|done|exact E3]; lia).
        match goal with |- context [bind ?x _] => destruct x as [new3|f] eqn:E4 end; cbn [bind]; [apply Hrec|done].
        rewrite <-L1', <-L2'. by eapply low_set_if; [|done|exact E4]; lia.
      * apply lookup_ge_None in E2.
        match goal with |- context [push_tail_cost ?a ?b ?d ?e] => destruct (push_tail_cost a b d e) as [pushed c2] eqn:Ep end.
        apply push_tail_count in Ep as (Q1&Q2&Q3&Q4&Q5).
        assert (length match sq with Some s => s :: rest | None => [] end = tail_length sq rest)
          as Hl by (by destruct sq). rewrite Hl in Q5. clear Hl.
        destruct pushed as [path'|].
        -- match goal with |- context [bind ?x _] => destruct x as [new2|f] eqn:E3 end; cbn [bind]; [|done].
           assert (low (S (S b)) new2 /\ length new2 = length new1) as [L2 L2'] by (by eapply low_set; [|done|exact E3]; lia).
           intros [= <- <- <-]. split_and!; [lia..|done|congruence].
        -- intros H. apply IH in H; [|done..]. destruct H as (?&?&?&?&?&Hs&?&?). rewrite decide_False in Hs by lia.
           split_and!; [lia..|done|congruence].
  - intros H. apply IH in H; [|intros s p Hs; specialize (Hold (S s) p Hs); lia|done].
    destruct H as (?&?&?&?&?&Hs&?&?). cbn [count_entry passes entries active scanned compared] in *.
    split_and!; [lia..| |done|done]. repeat case_decide; lia.
Qed.

(** A whole line; [b] is the bound for active states, twice the number of
    squares consumed. *)
Lemma match_loop_count states : forall squares old c new' c' b,
  low b old -> length old = S (length states) ->
  match_loop_cost states squares old c = Ret (new', c') ->
  exists k, 1 <= k <= S (length squares) /\ passes c' = passes c + k /\ compared c' = compared c /\
    entries c' <= entries c + k * S (length states) /\ active c' <= active c + k * (length states - 1) /\
    active c' <= active c + k * (b + k) /\
    2 * scanned c' <= 2 * scanned c + length squares * S (length squares).
Proof.
  assert (forall n b, low b (replicate n None)) as Hblank.
  { intros n b s p Hs. by apply lookup_replicate in Hs as [? _]. }
  induction squares as [|sq rest IH]; intros old c new' c' b Hlow Hlen; cbn [match_loop_cost length]; cbv zeta.
  - destruct (match_pass_cost _ _ _ _ _ _ _) as [[[new stop] c1]|f] eqn:E; cbn [bind]; [|done]. intros [= <- <-].
    apply (match_pass_count _ _ _ b) in E; [|exact Hlow|apply Hblank]. cbn [count_pass passes entries active scanned compared] in E.
    destruct E as (E1&E2&E3&E4&E5&E6&_). rewrite Hlen in E3. cbn [tail_length] in E6.
    exists 1. split_and!; [lia..|]. case_decide; lia.
  - destruct (match_pass_cost _ _ _ _ _ _ _) as [[[new stop] c1]|f] eqn:E; cbn [bind]; [|done].
    apply (match_pass_count _ _ _ b) in E; [|exact Hlow|apply Hblank]. cbn [count_pass passes entries active scanned compared] in E.
    destruct E as (E1&E2&E3&E4&E5&E6&E7&E8). rewrite Hlen in E3. rewrite replicate_length in E8. cbn [tail_length] in E6.
    assert (scanned c1 <= scanned c + S (length rest)) as E6' by (case_decide; lia). clear E6.
    destruct stop.
    + intros [= <- <-]. exists 1. split_and!; [lia..|]. nia.
    + intros H. apply (IH _ _ _ _ (S (S b))) in H; [|done|lia]. destruct H as (k&H1&H2&H3&H4&H5&H6&H7).
      exists (S k). split_and!; [lia..|nia|nia|nia|nia].
Qed.
Lemma find_left_count states squares c r c' : find_left_cost states squares c = Ret (r, c') ->
  exists k, 1 <= k <= S (length squares) /\ passes c' = passes c + k /\ compared c' = compared c /\
    entries c' <= entries c + k * S (length states) /\ active c' <= active c + k * (length states - 1) /\
    active c' <= active c + k * k /\ 2 * scanned c' <= 2 * scanned c + length squares * S (length squares).
Proof.
  unfold find_left_cost, vec_set. destruct (decide _) as [Hl|]; cbn [bind]; [|done]. rewrite replicate_length in Hl.
  destruct (match_loop_cost _ _ _ _) as [[new c1]|f] eqn:E; cbn [bind]; [|done].
  apply (match_loop_count _ _ _ _ _ _ 0) in E.
  - destruct (vec_get new (length states)) as [[path|]|f]; cbn [bind]; [|by intros [= _ <-]|done].
    destruct (mapM _ _); cbn [bind]; [|done]. by intros [= _ <-].
  - intros [|s] p Hs; [done|]. rewrite list_lookup_insert_ne in Hs by done. by apply lookup_replicate in Hs as [? _].
  - rewrite insert_length, replicate_length. lia.
Qed.

(** The exact number of passes. *)
Lemma last_state_fill rule : rule <> [] -> last rule <> Some 0 -> isfill rule (length (descs rule) - 2) = true.
Proof.
  intros Hne Hl. destruct rule as [|v rule _] using rev_ind; [done|]. rewrite last_snoc in Hl.
  assert (v <> 0) as Hv by (intros ->; by apply Hl).
  assert (kind (rule ++ [v]) (length (descs (rule ++ [v])) - 2) = Some Fill) as Hk.
  { rewrite <-rule_states_lookup, <-rule_states_length. unfold rule_states. rewrite fold_left_app. cbn [fold_left].
    set (X := fold_left _ rule _). rewrite insert_length. rewrite list_lookup_insert_ne; rewrite !app_length, replicate_length; cbn [length].
    - replace (length X + (v + 1) - 2) with (length X + (v - 1)) by lia. rewrite lookup_app_r by lia.
      rewrite lookup_app_l by (rewrite replicate_length; lia). apply lookup_replicate_2. lia.
    - lia. }
  unfold isfill. by rewrite Hk.
Qed.
Section passes.
  Context (rule : list nat) (Hhd : head rule <> Some 0).
  Local Notation n := (length (descs rule)).
  Lemma match_loop_passes rest : forall dn old c new c', Good rule dn old -> Early rule dn rest ->
    match_loop_cost (rule_states rule) rest old c = Ret (new, c') ->
    (exists p k, k <= length rest /\ passes c' = passes c + S k /\
       new !! n = Some (Some (p ++ replicate (length rest - k) (n - 1))) /\ length p = length dn + k /\
       chain rule 0 p /\ endst 0 p = n - 2) \/
    (new !! n = Some None /\ passes c' = passes c + S (length rest)).
  Proof.
    induction rest as [|sq rest IH]; intros dn old c new c' HG HE; cbn [match_loop_cost length]; cbv zeta; rewrite rule_states_length.
    - pose proof (match_pass_same (rule_states rule) None [] old 0 (replicate (n + 1) None) (count_pass c)) as Hsame.
      destruct (match_pass_cost _ _ _ _ _ _ _) as [[[new1 stop] c1]|f] eqn:E1; cbn [bind]; [|done]. intros [= <- <-].
      assert (passes c1 = passes c + 1) as Hp1.
      { apply (match_pass_count _ _ _ (length old)) in E1; [cbn in E1; lia|..].
        - intros s p Hs. apply lookup_lt_Some in Hs. lia.
        - intros s p Hs. by apply lookup_replicate in Hs as [? _]. }
      destruct (pass_spec rule Hhd None [] old (proj1 HG) (fun s p => Good_active rule dn old s p HG) [] old _ eq_refl (NewOK_blank rule _ _ (proj1 HG)))
        as [(new&E&Hnew&Hno)|(new&p&E&Hp&Hop&Hn)]; [pose proof (n_ge' rule); cbn; lia|..];
        cbn [length forget bind] in E, Hsame; rewrite E in Hsame; injection Hsame as -> ->.
      + right. split; [|lia]. destruct Hnew as [Hl Hnew]. specialize (Hnew n ltac:(lia)). destruct (new !! n) as [[r|]|]; [|done..].
        destruct Hnew as (s&p&_&_&(_&?&_)&_). lia.
      + left. destruct HG as [Hl HG]. pose proof (n_ge' rule). specialize (HG (n - 2) ltac:(lia)). rewrite Hp in HG.
        destruct HG as (_&Hc&Hf&Hend&_). exists p, 0. split_and!; [lia|lia|exact Hn| |done|done].
        apply Forall2_length in Hf. lia.
    - pose proof (match_pass_same (rule_states rule) (Some sq) rest old 0 (replicate (n + 1) None) (count_pass c)) as Hsame.
      destruct (match_pass_cost _ _ _ _ _ _ _) as [[[new1 stop] c1]|f] eqn:E1; cbn [bind]; [|done].
      assert (passes c1 = passes c + 1) as Hp1.
      { apply (match_pass_count _ _ _ (length old)) in E1; [cbn in E1; lia|..].
        - intros s p Hs. apply lookup_lt_Some in Hs. lia.
        - intros s p Hs. by apply lookup_replicate in Hs as [? _]. }
      destruct (pass_spec rule Hhd (Some sq) rest old (proj1 HG) (fun s p => Good_active rule dn old s p HG) [] old _ eq_refl (NewOK_blank rule _ _ (proj1 HG)))
        as [(new2&E&Hnew&Hno)|(new2&p&E&Hp&Hop&Hn)]; [pose proof (n_ge' rule); cbn; lia|..];
        cbn [length forget bind] in E, Hsame; rewrite E in Hsame; injection Hsame as -> ->.
      + intros Hr. apply (IH (dn ++ [sq])) in Hr; [|by apply (Good_step rule Hhd dn old)|by apply (Early_step rule Hhd dn sq rest old)].
        destruct Hr as [(p&k&Hk&H1&H2&H3&H4&H5)|[H1 H2]]; [left|right].
        * exists p, (S k). rewrite app_length in H3. cbn [length] in H3. split_and!; [lia|lia|exact H2|lia|done|done].
        * split; [done|lia].
      + intros [= <- <-]. left. destruct HG as [Hl HG]. pose proof (n_ge' rule). specialize (HG (n - 2) ltac:(lia)). rewrite Hp in HG.
        destruct HG as (_&Hc&Hf&Hend&_). exists p, 0. split_and!; [lia|lia|exact Hn| |done|done].
        apply Forall2_length in Hf. lia.
  Qed.
  Lemma find_left_passes squares c r c' : last rule <> Some 0 -> find_left_cost (rule_states rule) squares c = Ret (r, c') ->
    match r with
    | None => passes c' = passes c + S (length squares)
    | Some b => exists k, passes c' = passes c + S k /\ k <= length b /\ (forall i, k <= i -> b !! i <> Some true) /\
        (k <> 0 -> b !! (k - 1) = Some true)
    end.
  Proof.
    intros Hlast. unfold find_left_cost, vec_set. destruct (decide _) as [Hl|]; cbn [bind]; [|done].
    pose proof (n_ge' rule) as Hn2. rewrite rule_states_length.
    destruct (match_loop_cost _ _ _ _) as [[new c1]|f] eqn:E; cbn [bind]; [|done].
    apply (match_loop_passes squares []) in E; [|apply Good_init|intros q _; change (1 < n); lia].
    unfold vec_get. destruct E as [(p&k&Hk&H1&H2&H3&H4&H5)|[H1 H2]]; [rewrite H2|rewrite H1]; cbn [expect bind].
    - destruct (chain_states rule Hhd 0 p ltac:(lia) H4) as [Hst _].
      rewrite mapM_state_filled.
      2:{ apply Forall_app. split; [done|]. apply Forall_replicate. lia. }
      cbn [bind]. intros [= <- <-]. cbn [length] in H3. exists k. rewrite fmap_app, fmap_replicate, isfill_last.
      split_and!; [done|rewrite app_length, fmap_length; lia|..].
      + intros i Hi. rewrite lookup_app_r by (rewrite fmap_length; lia). intros Ht. by apply lookup_replicate in Ht as [? _].
      + intros Hk0. rewrite lookup_app_l by (rewrite fmap_length; lia). rewrite list_lookup_fmap.
        destruct p as [|x p _] using rev_ind; [cbn in H3; lia|]. rewrite app_length in H3. cbn [length] in H3.
        rewrite lookup_app_r by lia. replace (k - 1 - length p) with 0 by lia. cbn.
        assert (x = n - 2) as ->.
        { rewrite <-H5. unfold endst. by rewrite last_snoc. }
        f_equal. apply last_state_fill; [|done]. intros ->. cbn in *.
        apply Forall_app in Hst as [_ Hst]. apply Forall_cons in Hst as [[_ H0] _]. by apply H0.
    - intros [= <- <-]. done.
  Qed.
End passes.

(** The whole solver. *)
Definition machine_bound (n : nat) (mc : machine) : nat :=
  (n + 1) * (n + length (left_states mc) + length (right_states mc) + 5).
Lemma compare_count lft rgt : forall k i s c s' c',
  foldM (fun i '(s, c) => let! s := rl_step lft rgt i s in Ret (s, count_compared c)) (seq i k) (s, c) = Ret (s', c') ->
  passes c' = passes c /\ entries c' = entries c /\ scanned c' = scanned c /\ compared c' = compared c + k /\
  length (rl_grid s') = length (rl_grid s) /\ (k <> 0 -> i + k <= length (rl_grid s)).
Proof.
  induction k as [|k IH]; intros i s c s' c'; cbn [seq foldM].
  - intros [= <- <-]. split_and!; [done..|lia|done|done].
  - destruct (rl_step lft rgt i s) as [s1|f] eqn:E1; cbn [bind]; [|done]. intros Hr. apply IH in Hr.
    assert (length (rl_grid s1) = length (rl_grid s) /\ i < length (rl_grid s)) as [Hl Hi].
    { revert E1. unfold rl_step. destruct (vec_get lft i) as [l|]; cbn [bind]; [|done].
      destruct (decide (length rgt <= i)); cbn [bind]; [done|].
      destruct (vec_get rgt _) as [r|]; cbn [bind]; [|done]. unfold vec_get at 1.
      destruct (rl_grid s !! i) as [g|] eqn:Eg; cbn [expect bind]; [|done]. apply lookup_lt_Some in Eg.
      destruct g; [|by intros [= <-]..]. destruct (_ && _); [|by intros [= <-]].
      unfold vec_set. rewrite decide_True by done. cbn [bind]. intros [= <-]. cbn [rl_grid]. split; [apply insert_length|done]. }
    cbn [count_compared passes entries scanned compared] in Hr. destruct Hr as (?&?&?&?&?&Hk). split_and!; [lia..|].
    intros _. destruct k; [lia|]. specialize (Hk ltac:(done)). lia.
Qed.
Lemma line_count mc grid c r c' : line_right_left_cost mc grid c = Ret (r, c') ->
  steps c' <= steps c + machine_bound (length grid) mc /\ (forall ch g, r = Ok (ch, g) -> length g = length grid).
Proof.
  unfold line_right_left_cost, steps, machine_bound.
  destruct (find_left_cost (left_states mc) grid c) as [[lft c1]|f] eqn:E1; cbn [bind]; [|done].
  apply find_left_count in E1 as (k1&K1&P1&P2&P3&_&_&P4). set (n := length grid) in *.
  assert (k1 * S (length (left_states mc)) <= (n + 1) * S (length (left_states mc))) as M1 by (apply Nat.mul_le_mono_r; lia).
  destruct lft as [lft|]; [|by intros [= <- <-]; split; [nia|]].
  destruct (find_left_cost (right_states mc) (rev grid) c1) as [[rgt c2]|f] eqn:E2; cbn [bind]; [|done].
  apply find_left_count in E2 as (k2&K2&Q1&Q2&Q3&_&_&Q4). rewrite rev_length in *. fold n in K2, Q4.
  assert (k2 * S (length (right_states mc)) <= (n + 1) * S (length (right_states mc))) as M2 by (apply Nat.mul_le_mono_r; lia).
  destruct rgt as [rgt|]; [|by intros [= <- <-]; split; [nia|]].
  destruct (foldM _ _ _) as [[s c3]|f] eqn:E3; cbn [bind]; [|done]. intros [= <- <-].
  apply compare_count in E3 as (R1&R2&R3&R4&R5&R6). cbn [rl_grid] in R5, R6. fold n in R5, R6.
  split; [|by intros ch g [= <- <-]].
  assert (length lft <= n) as Hl by (destruct (decide (length lft = 0)); [lia|specialize (R6 ltac:(done)); lia]).
  rewrite R1, R2, R3, R4. nia.
Qed.
Lemma foldM_set_length l : forall (g g' : list square), foldM (fun '(p, v) g => vec_set g p v) l g = Ret g' -> length g' = length g.
Proof.
  induction l as [|[p v] l IH]; intros g g'; cbn [foldM]; [by intros [= <-]|]. unfold vec_set at 1.
  destruct (decide _); cbn [bind]; [|done]. intros ->%IH. apply insert_length.
Qed.
Lemma mapM_length {A B} (f : A -> res B) l : forall l', mapM f l = Ret l' -> length l' = length l.
Proof.
  induction l as [|x l IH]; intros l'; cbn [mapM]; [by intros [= <-]|]. destruct (f x); cbn [bind]; [|done].
  destruct (mapM f l) as [ys|]; cbn [bind]; [|done]. intros [= <-]. cbn [length]. by rewrite (IH ys).
Qed.
Lemma run_line_count mc ps grid c r c' : run_line_steps mc ps grid c = Ret (r, c') ->
  steps c' <= steps c + machine_bound (length ps) mc /\ (forall ch g, r = Ok (ch, g) -> length g = length grid).
Proof.
  unfold run_line_steps. destruct (mapM _ _) as [line|f] eqn:E1; cbn [bind]; [|done]. apply mapM_length in E1.
  destruct (line_right_left_cost mc line c) as [[[[ch line']|e] c1]|f] eqn:E2; cbn [bind]; [|..|done];
    apply line_count in E2 as [H1 H2]; rewrite E1 in H1.
  - destruct (foldM _ _ _) as [g|f] eqn:E3; cbn [bind]; [|done]. intros [= <- <-]. split; [done|].
    intros ? ? [= <- <-]. by apply foldM_set_length in E3.
  - intros [= <- <-]. by split.
Qed.
Lemma run_lines_steps_count (positions : nat -> res (list nat)) n : forall machines changed grid c r c',
  (forall index mc ps, (index, mc) ∈ machines -> positions index = Ret ps -> length ps = n) ->
  run_lines_steps positions machines changed grid c = Ret (r, c') ->
  steps c' <= steps c + sum_list (machine_bound n <$> machines.*2) /\ (forall ch g, r = Ok (ch, g) -> length g = length grid).
Proof.
  induction machines as [|[index mc] machines IH]; intros changed grid c r c' Hps; cbn [run_lines_steps].
  - intros [= <- <-]. split; [cbn; lia|]. by intros ? ? [= <- <-].
  - destruct (positions index) as [ps|f] eqn:Ep; cbn [bind]; [|done].
    destruct (run_line_steps mc ps grid c) as [[[[ch g]|e] c1]|f] eqn:E1; cbn [bind]; [|..|done];
      apply run_line_count in E1 as [H1 H2]; rewrite (Hps index mc ps) in H1; [|by left|done| |by left|done]; rewrite !fmap_cons; cbn [snd sum_list sum_list_with id].
    + intros Hr. apply IH in Hr; [|intros; eapply Hps; [by right|done]]. destruct Hr as [H3 H4].
      split; [unfold id in *; lia|]. intros ch' g' Hg. rewrite (H4 _ _ Hg). by eapply H2.
    + intros [= <- <-]. split; [unfold id in *; lia|done].
Qed.
Lemma enumerate_snd {A} (l : list A) : (enumerate l).*2 = l.
Proof.
  apply list_eq. intros i. unfold enumerate. rewrite list_lookup_fmap, list_lookup_imap. by destruct (l !! i).
Qed.
Lemma elem_of_enumerate {A} (l : list A) i x : (i, x) ∈ enumerate l -> i < length l.
Proof.
  intros Hi. apply elem_of_list_lookup in Hi as [j Hj]. unfold enumerate in Hj. rewrite list_lookup_imap in Hj.
  apply fmap_Some in Hj as (y&Hy&[= -> ->]). by apply lookup_lt_Some in Hy.
Qed.
Lemma column_length w h i ps : i < w -> column_positions (w * h) i w = Ret ps -> length ps = h.
Proof.
  intros Hi. unfold column_positions. destruct (decide _); [done|]. destruct (decide _); [done|]. intros [= <-].
  rewrite fmap_length, seq_length.
  destruct h as [|h]; [rewrite Nat.mul_0_r; apply Nat.div_small; lia|]. replace (w * S h - i + w - 1) with (S h * w + (w - 1 - i)) by nia.
  rewrite Nat.div_add_l by lia. rewrite Nat.div_small by lia. lia.
Qed.
Lemma row_length (m : mode) w h i ps : (N.of_nat (w * h) < usize_size m)%N -> i < h -> row_positions m (w * h) i w = Ret ps -> length ps = w.
Proof.
  intros Hov Hi. unfold row_positions. rewrite !n_mul_small by nia. cbn [bind]. destruct (decide _); [done|]. intros [= <-].
  rewrite seq_length. nia.
Qed.
Lemma rule_states_size rule : length (rule_states rule) = 2 + (sum_list rule + length rule).
Proof.
  unfold rule_states. rewrite insert_length.
  assert (forall st, length (fold_left (fun st value => st ++ replicate value Fill ++ [Space]) rule st) = length st + (sum_list rule + length rule)) as H.
  { induction rule as [|v rule IH]; intros st; cbn [fold_left length]; [cbn; lia|]. rewrite IH, !app_length, replicate_length.
    cbn [length sum_list sum_list_with]. unfold id. lia. }
  by rewrite H.
Qed.
Lemma machine_line n rule : machine_bound n (machine_new rule) = line_bound n rule.
Proof.
  unfold machine_bound, line_bound, machine_new. cbn [left_states right_states]. rewrite !rule_states_size, rev_length.
  assert (sum_list (rev rule) = sum_list rule) as -> by (by rewrite <-Permutation_rev). nia.
Qed.
Lemma machine_lines n rules : sum_list (machine_bound n <$> (machine_new <$> rules)) = sum_list (line_bound n <$> rules).
Proof. induction rules as [|rule rules IH]; [done|]. rewrite !fmap_cons. cbn [sum_list sum_list_with]. unfold id, sum_list in *. by rewrite machine_line, IH. Qed.
Section total.
  Context (m : mode) (col row : list (list nat)).
  Local Notation w := (length col).
  Local Notation h := (length row).
  Context (Hov : (N.of_nat (w * h) < usize_size m)%N).
  Definition round_bound : nat := sum_list (line_bound h <$> col) + sum_list (line_bound w <$> row).
  Lemma one_round_steps_count grid c r c' : length grid = w * h ->
    one_round_steps m w (machine_new <$> col) (machine_new <$> row) grid c = Ret (r, c') ->
    steps c' <= steps c + round_bound /\ (forall ch g, r = Ok (ch, g) -> length g = w * h).
  Proof.
    intros Hlen. unfold one_round_steps, round_bound.
    destruct (run_lines_steps _ (enumerate (machine_new <$> col)) _ _ _) as [[r1 c1]|f] eqn:E1; cbn [bind]; [|done].
    apply (run_lines_steps_count _ h) in E1.
    2:{ intros i mc ps Hi. apply elem_of_enumerate in Hi. rewrite fmap_length in Hi. rewrite Hlen. by apply column_length. }
    rewrite enumerate_snd, machine_lines in E1. destruct E1 as [H1 H2]. destruct r1 as [[ch g]|e].
    - specialize (H2 _ _ eq_refl). intros Hr. apply (run_lines_steps_count _ w) in Hr.
      2:{ intros i mc ps Hi. apply elem_of_enumerate in Hi. rewrite fmap_length in Hi. rewrite H2, Hlen. by apply row_length. }
      rewrite enumerate_snd, machine_lines in Hr. destruct Hr as [H3 H4]. split; [lia|]. intros ch' g' Hg. rewrite (H4 _ _ Hg). lia.
    - intros [= <- <-]. split; [lia|done].
  Qed.
  Lemma rounds_steps_count : forall fuel grid c r c', length grid = w * h ->
    rounds_steps fuel m w (machine_new <$> col) (machine_new <$> row) grid c = Ret (r, c') -> steps c' <= steps c + fuel * round_bound.
  Proof.
    induction fuel as [|fuel IH]; intros grid c r c' Hlen; cbn [rounds_steps]; [done|].
    destruct (one_round_steps _ _ _ _ _ _) as [[r1 c1]|f] eqn:E1; cbn [bind]; [|done].
    apply one_round_steps_count in E1 as [H1 H2]; [|done]. destruct r1 as [[[] g]|e].
    - specialize (H2 _ _ eq_refl). intros Hr. apply IH in Hr; [|done]. lia.
    - intros [= <- <-]. lia.
    - intros [= <- <-]. lia.
  Qed.
  Lemma solve_steps_count r c : solve_steps m col row = Ret (r, c) ->
    steps c <= (w * h + 1) * (sum_list (line_bound h <$> col) + sum_list (line_bound w <$> row)).
  Proof.
    unfold solve_steps. rewrite n_mul_small by done. cbn [bind]. cbv zeta. rewrite replicate_length. intros Hr.
    apply rounds_steps_count in Hr; [|apply replicate_length]. fold round_bound. change (steps no_cost) with 0 in Hr. lia.
  Qed.
  Lemma bound_fits n rules : Forall (fits_line n) rules ->
    sum_list (line_bound n <$> rules) <= length rules * ((n + 1) * (3 * n + 11)).
  Proof.
    unfold fits_line. induction 1 as [|rule rules Hr _ IH]; [done|].
    change (line_bound n rule + sum_list (line_bound n <$> rules) <= S (length rules) * ((n + 1) * (3 * n + 11))).
    assert (line_bound n rule <= (n + 1) * (3 * n + 11)) by (unfold line_bound; apply Nat.mul_le_mono_l; lia). lia.
  Qed.
  Lemma solve_steps_fits r c : Forall (fits_line h) col -> Forall (fits_line w) row -> solve_steps m col row = Ret (r, c) ->
    steps c <= (w * h + 1) * (w * ((h + 1) * (3 * h + 11)) + h * ((w + 1) * (3 * w + 11))).
  Proof.
    intros Hc%bound_fits Hr%bound_fits Hs%solve_steps_count. etransitivity; [exact Hs|]. apply Nat.mul_le_mono_l. lia.
  Qed.
End total.

(** The counters of [NonogramCost] and of [NonogramLineCost] side by side. *)
Definition spare {A} (r : result A nonogram_error) : nat := match r with Err _ => 1 | Ok _ => 0 end.
Lemma forget_ret {A} (e : res (A * line_cost)) r c : e = Ret (r, c) -> forget e = Ret r.
Proof. by intros ->. Qed.
Lemma found_length rule squares c b c' : find_left_cost (rule_states rule) squares c = Ret (Some b, c') -> length b = length squares.
Proof.
  intros H%forget_ret. rewrite find_left_same in H. destruct (decide (head rule = Some 0)) as [Hd|Hd].
  - destruct rule as [|v rule]; [done|]. injection Hd as ->. by rewrite find_left_zero in H.
  - destruct (find_left_spec rule squares Hd) as [(b'&E&[_ Hf]&_)|[E _]]; rewrite H in E; [|done].
    injection E as <-. symmetry. first [by eapply Forall2_length|symmetry; by eapply Forall2_length].
Qed.
Lemma line_least rule grid c r c' : line_right_left_cost (machine_new rule) grid c = Ret (r, c') ->
  passes c + 2 <= passes c' + spare r /\ (forall x, r = Ok x -> compared c' = compared c + length grid).
Proof.
  unfold line_right_left_cost. cbn [left_states right_states machine_new].
  destruct (find_left_cost (rule_states rule) grid c) as [[lft c1]|f] eqn:E1; cbn [bind]; [|done].
  pose proof E1 as (k1&K1&P1&P2&_)%find_left_count.
  destruct lft as [lft|]; [|intros [= <- <-]; cbn [spare]; split; [lia|done]]. apply found_length in E1.
  destruct (find_left_cost (rule_states (rev rule)) (rev grid) c1) as [[rgt c2]|f] eqn:E2; cbn [bind]; [|done].
  apply find_left_count in E2 as (k2&K2&Q1&Q2&_).
  destruct rgt as [rgt|]; [|intros [= <- <-]; cbn [spare]; split; [lia|done]].
  destruct (foldM _ _ _) as [[s c3]|f] eqn:E3; cbn [bind]; [|done]. intros [= <- <-]. cbn [spare].
  apply compare_count in E3 as (R1&_&_&R4&_). split; [lia|]. intros _ _. lia.
Qed.
Lemma run_line_least rule ps grid c r c' : run_line_steps (machine_new rule) ps grid c = Ret (r, c') ->
  passes c + 2 <= passes c' + spare r /\ (forall x, r = Ok x -> compared c' = compared c + length ps).
Proof.
  unfold run_line_steps. destruct (mapM _ _) as [line|f] eqn:E1; cbn [bind]; [|done]. apply mapM_length in E1.
  destruct (line_right_left_cost _ line c) as [[[[ch line']|e] c1]|f] eqn:E2; cbn [bind]; [|..|done];
    apply line_least in E2 as [H1 H2]; rewrite E1 in H2; cbn [spare] in *.
  - destruct (foldM _ _ _) as [g|f]; cbn [bind]; [|done]. intros [= <- <-]. cbn [spare]. split; [done|]. intros x _. by eapply H2.
  - intros [= <- <-]. cbn [spare]. by split.
Qed.
Lemma run_lines_least (positions : nat -> res (list nat)) n : forall machines changed grid c l r c',
  (forall index mc, (index, mc) ∈ machines -> exists rule, mc = machine_new rule) ->
  (forall index mc ps, (index, mc) ∈ machines -> positions index = Ret ps -> length ps = n) ->
  run_lines_steps positions machines changed grid c = Ret (r, c') ->
  exists l', run_lines_cost positions machines changed grid l = Ret (r, l') /\
    passes c + 2 * (l' - l) <= passes c' + spare r /\ l <= l' /\
    (forall x, r = Ok x -> l' = l + length machines /\ compared c' = compared c + n * length machines).
Proof.
  induction machines as [|[index mc] machines IH]; intros changed grid c l r c' Hm Hps; cbn [run_lines_steps run_lines_cost].
  - intros [= <- <-]. exists l. cbn [length]. split_and!; [done|lia..|]. intros x _. lia.
  - destruct (positions index) as [ps|f] eqn:Ep; cbn [bind]; [|done].
    destruct (Hm index mc) as [rule ->]; [by left|].
    rewrite <-(run_line_steps_same _ _ _ c).
    destruct (run_line_steps _ ps grid c) as [[[[ch g]|e] c1]|f] eqn:E1; cbn [bind forget]; [|..|done];
      apply run_line_least in E1 as [H1 H2]; rewrite (Hps index (machine_new rule) ps) in H2; [|by left|done| |by left|done]; cbn [spare] in *.
    + intros Hr. eapply (IH _ _ _ (S l)) in Hr; [|intros; eapply Hm; by right|intros; eapply Hps; [by right|done]].
      destruct Hr as (l'&Hl&H3&H4&H5). exists l'. specialize (H2 _ eq_refl). cbn [length].
      split_and!; [done|lia|lia|]. intros x Hx. specialize (H5 x Hx). lia.
    + intros [= <- <-]. exists (S l). cbn [spare]. split_and!; [done|lia|lia|done].
Qed.
Lemma elem_of_machines rules i mc : (i, mc) ∈ enumerate (machine_new <$> rules) -> exists rule, mc = machine_new rule.
Proof.
  intros Hi. apply elem_of_list_lookup in Hi as [j Hj]. unfold enumerate in Hj. rewrite list_lookup_imap, list_lookup_fmap in Hj.
  destruct (rules !! j) as [rule|]; [|done]. injection Hj as _ <-. eauto.
Qed.
Section least.
  Context (m : mode) (col row : list (list nat)).
  Local Notation w := (length col).
  Local Notation h := (length row).
  Context (Hov : (N.of_nat (w * h) < usize_size m)%N).
  Lemma one_round_least grid c l r c' : length grid = w * h ->
    one_round_steps m w (machine_new <$> col) (machine_new <$> row) grid c = Ret (r, c') ->
    exists l', one_round_cost m w (machine_new <$> col) (machine_new <$> row) grid l = Ret (r, l') /\
      passes c + 2 * (l' - l) <= passes c' + spare r /\ l <= l' /\
      (forall x, r = Ok x -> l' = l + (w + h) /\ compared c' = compared c + 2 * (w * h)).
  Proof.
    intros Hlen. unfold one_round_steps, one_round_cost.
    destruct (run_lines_steps _ (enumerate (machine_new <$> col)) _ _ _) as [[r1 c1]|f] eqn:E1; cbn [bind]; [|done].
    pose proof E1 as E1'. apply (run_lines_steps_count _ h) in E1' as [_ H2].
    2:{ intros i mc ps Hi. apply elem_of_enumerate in Hi. rewrite fmap_length in Hi. rewrite Hlen. by apply column_length. }
    apply (run_lines_least _ h _ _ _ _ l) in E1 as (l1&El&H3&H4&H5).
    2:{ intros i mc. apply elem_of_machines. }
    2:{ intros i mc ps Hi. apply elem_of_enumerate in Hi. rewrite fmap_length in Hi. rewrite Hlen. by apply column_length. }
    rewrite El. cbn [bind]. unfold enumerate in H5. rewrite imap_length, fmap_length in H5.
    destruct r1 as [[ch g]|e]; cbn [spare] in *.
    - specialize (H2 _ _ eq_refl). specialize (H5 _ eq_refl). intros Hr. apply (run_lines_least _ w _ _ _ _ l1) in Hr as (l2&El2&H6&H7&H8).
      2:{ intros i mc. apply elem_of_machines. }
      2:{ intros i mc ps Hi. apply elem_of_enumerate in Hi. rewrite fmap_length in Hi. rewrite H2, Hlen. by apply row_length. }
      unfold enumerate in H8. rewrite imap_length, fmap_length in H8.
      exists l2. split_and!; [done|lia|lia|]. intros x Hx. specialize (H8 x Hx). nia.
    - intros [= <- <-]. exists l1. cbn [spare]. by split_and!.
  Qed.
  Lemma rounds_least : forall fuel grid c k l r c', length grid = w * h ->
    rounds_steps fuel m w (machine_new <$> col) (machine_new <$> row) grid c = Ret (r, c') ->
    exists k' l', rounds_cost fuel m w (machine_new <$> col) (machine_new <$> row) grid k l = Ret (r, (k', l')) /\
      passes c + 2 * (l' - l) <= passes c' + spare r /\ l <= l' /\ k <= k' /\
      (forall x, r = Ok x -> l' = l + (k' - k) * (w + h) /\ compared c' = compared c + (k' - k) * (2 * (w * h))).
  Proof.
    induction fuel as [|fuel IH]; intros grid c k l r c' Hlen; cbn [rounds_steps rounds_cost]; [done|].
    destruct (one_round_steps _ _ _ _ _ _) as [[r1 c1]|f] eqn:E1; cbn [bind]; [|done].
    pose proof E1 as E1'. apply one_round_steps_count in E1' as [_ H2]; [|done..].
    apply (one_round_least _ _ l) in E1 as (l1&El&H3&H4&H5); [|done]. rewrite El. cbn [bind].
    destruct r1 as [[[] g]|e]; cbn [spare] in *.
    - specialize (H2 _ _ eq_refl). specialize (H5 _ eq_refl). intros Hr. apply (IH _ _ (S k) l1) in Hr; [|done].
      destruct Hr as (k'&l'&Er&H6&H7&H8&H9). exists k', l'. split_and!; [done|lia..|].
      intros x Hx. specialize (H9 x Hx). replace (k' - k) with (S (k' - S k)) by lia. lia.
    - intros [= <- <-]. exists (S k), l1. specialize (H5 _ eq_refl). cbn [spare]. split_and!; [done|lia..|].
      intros x _. replace (S k - k) with 1 by lia. lia.
    - intros [= <- <-]. exists (S k), l1. cbn [spare]. split_and!; [done|lia..|done].
  Qed.
  Lemma solve_least r c k l r' : solve_steps m col row = Ret (r, c) -> solve_cost m col row = Ret (r', (k, l)) ->
    r' = r /\ 2 * l <= passes c + spare r /\
    (forall g, r = Ok g -> l = k * (w + h) /\ compared c = k * (2 * (w * h))).
  Proof.
    unfold solve_steps, solve_cost. rewrite n_mul_small by done. cbn [bind]. cbv zeta. rewrite replicate_length. intros Hr.
    apply (rounds_least _ _ _ 0 0) in Hr as (k'&l'&Er&H1&H2&H3&H4); [|apply replicate_length].
    rewrite Er. intros [= <- <- <-]. change (passes no_cost) with 0 in H1. change (compared no_cost) with 0 in H4.
    split_and!; [done|lia|]. intros g Hg. specialize (H4 g Hg). lia.
  Qed.
End least.

(** As stated in [PropLineCost]. *)
Lemma find_left_stops rule squares r c : head rule <> Some 0 -> last rule <> Some 0 ->
  find_left_cost (rule_states rule) squares no_cost = Ret (r, c) ->
  match r with
  | None => passes c = length squares + 1
  | Some b => exists k, passes c = k + 1 /\ k <= length b /\
      (forall i, k <= i -> b !! i <> Some true) /\ (k <> 0 -> b !! (k - 1) = Some true)
  end.
Proof.
  intros Hh Hl H. apply find_left_passes in H; [|done..]. change (passes no_cost) with 0 in H. destruct r as [b|]; [|lia].
  destruct H as (k&H1&H2). exists k. split; [lia|done].
Qed.
Lemma find_left_bounds states squares r c : find_left_cost states squares no_cost = Ret (r, c) ->
  1 <= passes c <= length squares + 1 /\ entries c <= passes c * (length states + 1) /\
  active c <= passes c * (length states - 1) /\ active c <= passes c * passes c /\
  2 * scanned c <= length squares * (length squares + 1).
Proof. intros H. apply find_left_count in H as (k&H). cbn [no_cost passes entries active scanned compared] in H. nia. Qed.
