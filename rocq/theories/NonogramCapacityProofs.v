(** Proofs for C101: capacity checks of vectors in [solve_nonogram]. *)
From Verif Require Import Base Nonogram MazeCapacity NonogramCapacity SpecNonogramText.
From Verif Require Import WordProofs SpecWord.
From Verif Require NonogramParseProofs.

Section grow.
Context (grow : N -> N -> N) (Hgrow : grows grow) (m : mode).

Definition states_from (rule : list nat) (st : list rnode) : list rnode :=
  fold_left (fun st value => st ++ replicate value Fill ++ [Space]) rule st.
Lemma states_from_length rule st : length (states_from rule st) = length st + sum_list rule + length rule.
Proof.
  revert st. induction rule as [|v rule IH]; intros st; unfold states_from in *; cbn [fold_left]; [cbn; lia|].
  rewrite IH, !app_length, replicate_length. cbn. lia.
Qed.
Lemma rule_states_length rule : length (rule_states rule) = 2 + sum_list rule + length rule.
Proof. unfold rule_states. rewrite insert_length. apply states_from_length. Qed.

Lemma reserve_ok size n : (size * N.of_nat n <= isize_max m)%N -> reserve m size n = Ret tt.
Proof. intros H. unfold reserve. by rewrite decide_True. Qed.
Lemma reserve_panic size n : (isize_max m < size * N.of_nat n)%N -> reserve m size n = Fault Panic.
Proof. intros H. unfold reserve. rewrite decide_False; [done|]. lia. Qed.

(** A state list that fits is built as without checks. *)
Lemma reserve_more_small len cap extra : (cap <= 2 * len + 8)%N -> (2 * (len + extra) + 8 <= isize_max m)%N ->
  exists cap', reserve_more grow m len cap extra = Ret cap' /\ (cap' <= 2 * (len + extra) + 8)%N.
Proof using Hgrow.
  intros Hc Hi. unfold reserve_more. destruct (decide _) as [Hd|Hd]; [exists cap; split; [done|lia]|].
  destruct (Hgrow cap (len + extra)%N) as [G1 G2].
  assert (grow cap (len + extra) <= 2 * (len + extra) + 8)%N as Hg by lia.
  rewrite decide_True by lia. eauto.
Qed.
Lemma extend_small rule : forall st cap, (cap <= 2 * N.of_nat (length st) + 8)%N ->
  (2 * N.of_nat (length st + sum_list rule + length rule) + 8 <= isize_max m)%N ->
  extend_states grow m rule st cap = Ret (states_from rule st).
Proof using Hgrow.
  induction rule as [|v rule IH]; intros st cap Hc Hi; [done|]. cbn [extend_states sum_list sum_list_with length id] in *. change (id v) with v in Hi.
  rewrite reserve_ok by lia. cbn [bind].
  destruct (reserve_more_small (N.of_nat (length st)) cap (N.of_nat v) Hc ltac:(lia)) as (c1&E1&H1). rewrite E1. cbn [bind].
  assert (length (st ++ replicate v Fill) = length st + v) as El by (rewrite app_length, replicate_length; done).
  rewrite El. destruct (reserve_more_small (N.of_nat (length st + v)) c1 1 ltac:(lia) ltac:(lia)) as (c2&E2&H2).
  rewrite E2. cbn [bind]. rewrite IH.
  - unfold states_from. cbn [fold_left]. by rewrite <-app_assoc.
  - rewrite app_length, El. cbn [length]. lia.
  - rewrite app_length, El. cbn [length]. lia.
Qed.

Definition small_rule (rule : list nat) : Prop := (3 * word_bytes m * N.of_nat (sum_list rule + length rule + 3) <= isize_max m)%N.
Lemma sum_rev (rule : list nat) : sum_list (rev rule) = sum_list rule.
Proof.
  induction rule as [|v rule IH]; [done|]. cbn [rev].
  assert (forall a b, sum_list (a ++ b) = sum_list a + sum_list b) as Happ.
  { induction a as [|x a IHa]; intros b; cbn; [done|]. rewrite IHa. lia. }
  rewrite Happ, IH. cbn. lia.
Qed.
Lemma small_rev rule : small_rule rule -> small_rule (rev rule).
Proof. unfold small_rule. by rewrite sum_rev, rev_length. Qed.
Lemma states_small rule : small_rule rule -> states_checked grow m rule = Ret (rule_states rule).
Proof using Hgrow.
  intros Hs. unfold small_rule in Hs. unfold states_checked. rewrite extend_small; cbn [length]; [done|lia|].
  words (word_of m); lia.
Qed.
Lemma machine_small rule : small_rule rule -> machine_checked grow m rule = Ret (machine_new rule).
Proof using Hgrow.
  intros Hs. unfold machine_checked. rewrite states_small by done. cbn [bind].
  rewrite states_small by (by apply small_rev). done.
Qed.
Lemma machines_small rules : (6 * word_bytes m * N.of_nat (length rules) <= isize_max m)%N -> Forall small_rule rules ->
  machines_checked grow m rules = Ret (machine_new <$> rules).
Proof using Hgrow.
  intros Hl Hs. unfold machines_checked. rewrite reserve_ok by done. cbn [bind]. clear Hl.
  induction Hs as [|rule rules Hr Hs IH]; [done|]. cbn [mapM]. rewrite machine_small by done. cbn [bind].
  rewrite IH. done.
Qed.

(** With state lists that fit the rounds are those without checks. *)
Definition small_machine (mc : machine) : Prop :=
  (3 * word_bytes m * N.of_nat (length (left_states mc) + 1) <= isize_max m)%N /\ (3 * word_bytes m * N.of_nat (length (right_states mc) + 1) <= isize_max m)%N.
Lemma small_machine_new rule : small_rule rule -> small_machine (machine_new rule).
Proof.
  unfold small_rule, small_machine. cbn [machine_new left_states right_states].
  rewrite !rule_states_length, sum_rev, rev_length. intros H. split; words (word_of m); lia.
Qed.
Lemma line_small mc grid : small_machine mc -> line_checked m mc grid = line_right_left mc grid.
Proof.
  intros [Hl Hr]. unfold line_checked, line_right_left, find_left_checked.
  rewrite !reserve_ok by done. done.
Qed.
Lemma run_lines_small positions ms : Forall (fun '(_, mc) => small_machine mc) ms -> forall changed grid,
  run_lines_checked m positions ms changed grid = run_lines positions ms changed grid.
Proof.
  induction 1 as [|[i mc] ms Hm _ IH]; intros changed grid; [done|]. cbn [run_lines_checked run_lines].
  destruct (positions i) as [ps|]; [|done]. cbn [bind]. unfold run_line_checked, run_line.
  destruct (mapM (vec_get grid) ps) as [line|]; [|done]. cbn [bind]. rewrite line_small by done.
  destruct (line_right_left mc line) as [[[c l]|e]|]; [|done|done]. cbn [bind].
  destruct (foldM _ _ _) as [g|]; [|done]. cbn [bind]. apply IH.
Qed.
Lemma Forall_enumerate (P : machine -> Prop) ms : Forall P ms -> Forall (fun '(_, mc) => P mc) (enumerate ms).
Proof.
  intros H. apply Forall_forall. intros [i mc] Hin. unfold enumerate in Hin.
  apply elem_of_lookup_imap in Hin as (j&mc'&[= -> ->]&Hl). by eapply Forall_lookup_1 in H.
Qed.
Lemma rounds_small fuel w cols rows : Forall small_machine cols -> Forall small_machine rows -> forall grid,
  rounds_checked m fuel w cols rows grid = rounds fuel m w cols rows grid.
Proof.
  intros Hc Hr. induction fuel as [|fuel IH]; intros grid; [done|]. cbn [rounds_checked rounds].
  unfold round_checked, one_round. rewrite run_lines_small by (by apply Forall_enumerate).
  destruct (run_lines _ (enumerate cols) _ _) as [[[c g]|e]|]; [|done|done]. cbn [bind].
  rewrite run_lines_small by (by apply Forall_enumerate).
  destruct (run_lines _ (enumerate rows) _ _) as [[[c' g']|e]|]; [|done|done]. cbn [bind].
  destruct c'; [apply IH|done].
Qed.

Lemma n_mul_small w h : (N.of_nat (w * h) < usize_size m)%N -> n_mul m w h = Ret (w * h).
Proof.
  intros H. unfold n_mul, usize_mul, arith. rewrite Nat2N.inj_mul in H.
  destruct (N.ltb_spec (N.of_nat w * N.of_nat h) (usize_size m)) as [Hlt|Hge]; [|lia].
  cbn [bind]. f_equal. lia.
Qed.
Lemma solve_small col row :
  (N.of_nat (length col * length row) <= isize_max m)%N ->
  (6 * word_bytes m * N.of_nat (length col) <= isize_max m)%N -> (6 * word_bytes m * N.of_nat (length row) <= isize_max m)%N ->
  Forall small_rule col -> Forall small_rule row ->
  solve_checked grow m col row = solve_nonogram m col row.
Proof using Hgrow.
  intros Hn Hw Hh Hc Hr. unfold solve_checked, solve_nonogram.
  rewrite n_mul_small by (pose proof (isize_usize m); lia). cbn [bind]. rewrite reserve_ok by lia. cbn [bind].
  rewrite !machines_small by done. cbn [bind]. unfold grid_right_left. rewrite replicate_length.
  rewrite rounds_small; [done| |]; apply Forall_fmap; (eapply Forall_impl; [eassumption|apply small_machine_new]).
Qed.

(** * Rules that are too long *)
Lemma extend_long rule : forall st cap, (cap <= isize_max m)%N ->
  (isize_max m < N.of_nat (length st + sum_list rule + length rule))%N ->
  (N.of_nat (length st) <= cap)%N ->
  extend_states grow m rule st cap = Fault Panic.
Proof using Hgrow.
  induction rule as [|v rule IH]; intros st cap Hc Hi Hl; [change (sum_list []) with 0 in Hi; cbn [length] in Hi; lia|]. cbn [extend_states sum_list sum_list_with length id] in *. change (id v) with v in Hi.
  unfold reserve. destruct (decide _) as [Hv|Hv]; [|done]. cbn [bind].
  assert (forall len extra c, reserve_more grow m len c extra = Fault Panic \/
    exists c', reserve_more grow m len c extra = Ret c' /\ (len + extra <= c')%N /\ (c <= isize_max m -> c' <= isize_max m)%N) as Hres.
  { intros len extra c. unfold reserve_more. destruct (decide (len + extra <= c)%N) as [Hd|Hd]; [right; eauto|].
    destruct (Hgrow c (len + extra)%N) as [G1 G2]. destruct (decide (grow c (len + extra) <= isize_max m)%N); [|by left].
    right. eauto. }
  destruct (Hres (N.of_nat (length st)) (N.of_nat v) cap) as [->|(c1&->&H1&H1')]; [done|]. cbn [bind].
  assert (length (st ++ replicate v Fill) = length st + v) as El by (rewrite app_length, replicate_length; done).
  rewrite El. destruct (Hres (N.of_nat (length st + v)) 1%N c1) as [->|(c2&->&H2&H2')]; [done|]. cbn [bind].
  apply IH.
  - auto.
  - rewrite app_length, El. cbn [length]. lia.
  - rewrite app_length, El. cbn [length]. lia.
Qed.
Lemma machine_long rule : (isize_max m < N.of_nat (sum_list rule + length rule + 2))%N -> machine_checked grow m rule = Fault Panic.
Proof using Hgrow.
  intros H. unfold machine_checked, states_checked. rewrite extend_long; cbn [length]; [done| | |]; pose proof (isize_least m); lia.
Qed.
(** * Capacity checks only add panics *)
Lemma reserve_any size n : reserve m size n = Ret tt \/ reserve m size n = Fault Panic.
Proof. unfold reserve. destruct (decide _); auto. Qed.
Lemma reserve_more_any len cap extra : (exists c, reserve_more grow m len cap extra = Ret c) \/ reserve_more grow m len cap extra = Fault Panic.
Proof. unfold reserve_more. destruct (decide _); [eauto|]. destruct (decide _); eauto. Qed.
Lemma extend_any r : forall st cap, extend_states grow m r st cap = Ret (states_from r st) \/ extend_states grow m r st cap = Fault Panic.
Proof.
  induction r as [|v r IH]; intros st cap; cbn [extend_states]; [by left|].
  destruct (reserve_any 1 v) as [-> | ->]; cbn [bind]; [|by right].
  destruct (reserve_more_any (N.of_nat (length st)) cap (N.of_nat v)) as [[c1 ->] | ->]; cbn [bind]; [|by right].
  destruct (reserve_more_any (N.of_nat (length (st ++ replicate v Fill))) c1 1) as [[c2 ->] | ->]; cbn [bind]; [|by right].
  destruct (IH ((st ++ replicate v Fill) ++ [Space]) c2) as [-> | ->]; [left|by right].
  unfold states_from. cbn [fold_left]. by rewrite <-app_assoc.
Qed.
Lemma machine_any rule : machine_checked grow m rule = Ret (machine_new rule) \/ machine_checked grow m rule = Fault Panic.
Proof.
  unfold machine_checked, states_checked.
  destruct (extend_any rule [Start; End] 2%N) as [-> | ->]; cbn [bind]; [|by right].
  destruct (extend_any (rev rule) [Start; End] 2%N) as [-> | ->]; cbn [bind]; [|by right]. by left.
Qed.
Lemma machines_any rules : machines_checked grow m rules = Ret (machine_new <$> rules) \/ machines_checked grow m rules = Fault Panic.
Proof.
  unfold machines_checked. destruct (reserve_any (6 * word_bytes m) (length rules)) as [-> | ->]; cbn [bind]; [|by right].
  induction rules as [|rule rules IH]; cbn [mapM]; [by left|].
  destruct (machine_any rule) as [-> | ->]; cbn [bind]; [|by right].
  destruct IH as [-> | ->]; cbn [bind]; [|by right]. by left.
Qed.

Lemma line_any mc grid : line_checked m mc grid = line_right_left mc grid \/ line_checked m mc grid = Fault Panic.
Proof.
  unfold line_checked, line_right_left, find_left_checked.
  destruct (reserve_any (3 * word_bytes m) (length (left_states mc) + 1)) as [-> | ->]; cbn [bind]; [|by right].
  destruct (find_left (left_states mc) grid) as [[lft|]|]; cbn [bind]; [|by left|by left].
  destruct (reserve_any (3 * word_bytes m) (length (right_states mc) + 1)) as [-> | ->]; cbn [bind]; [by left|by right].
Qed.
Lemma line_ok mc grid x : line_checked m mc grid = Ret (Ok x) -> small_machine mc.
Proof.
  unfold line_checked, find_left_checked, small_machine, reserve.
  destruct (decide (3 * word_bytes m * N.of_nat (length (left_states mc) + 1) <= isize_max m)%N) as [Hl|Hl]; cbn [bind]; [|done].
  destruct (find_left (left_states mc) grid) as [[lft|]|]; cbn [bind]; [|done|done].
  destruct (decide (3 * word_bytes m * N.of_nat (length (right_states mc) + 1) <= isize_max m)%N) as [Hr|Hr]; cbn [bind]; [done|done].
Qed.
Lemma run_lines_any positions ms : forall changed grid,
  run_lines_checked m positions ms changed grid = run_lines positions ms changed grid \/ run_lines_checked m positions ms changed grid = Fault Panic.
Proof.
  induction ms as [|[i mc] ms IH]; intros changed grid; [by left|]. cbn [run_lines_checked run_lines].
  destruct (positions i) as [ps|]; [|by left]. cbn [bind]. unfold run_line_checked, run_line.
  destruct (mapM (vec_get grid) ps) as [line|]; [|by left]. cbn [bind].
  destruct (line_any mc line) as [-> | ->]; cbn [bind]; [|by right].
  destruct (line_right_left mc line) as [[[c l]|e]|]; [|by left|by left]. cbn [bind].
  destruct (foldM _ _ _) as [g|]; [|by left]. cbn [bind]. apply IH.
Qed.
Lemma run_lines_ok positions ms : forall changed grid x,
  run_lines_checked m positions ms changed grid = Ret (Ok x) -> Forall (fun '(_, mc) => small_machine mc) ms.
Proof.
  induction ms as [|[i mc] ms IH]; intros changed grid x; [constructor|]. cbn [run_lines_checked].
  destruct (positions i) as [ps|]; [|done]. cbn [bind]. unfold run_line_checked.
  destruct (mapM (vec_get grid) ps) as [line|]; [|done]. cbn [bind].
  destruct (line_checked m mc line) as [[[c l]|e]|] eqn:E; [|done|done]. cbn [bind].
  destruct (foldM _ _ _) as [g|]; [|done]. cbn [bind]. intros H. constructor; [by eapply line_ok|by eapply IH].
Qed.
Lemma enumerate_Forall (P : machine -> Prop) ms : Forall (fun '(_, mc) => P mc) (enumerate ms) -> Forall P ms.
Proof.
  intros H. apply Forall_lookup_2. intros i mc Hl.
  apply (proj1 (Forall_lookup _ _) H i (i, mc)). unfold enumerate. rewrite list_lookup_imap, Hl. done.
Qed.
Lemma rounds_any fuel w cols rows : forall grid,
  rounds_checked m fuel w cols rows grid = rounds fuel m w cols rows grid \/ rounds_checked m fuel w cols rows grid = Fault Panic.
Proof.
  induction fuel as [|fuel IH]; intros grid; [by left|]. cbn [rounds_checked rounds].
  unfold round_checked, one_round.
  destruct (run_lines_any (fun index => column_positions (length grid) index w) (enumerate cols) false grid) as [-> | ->]; cbn [bind]; [|by right].
  destruct (run_lines _ (enumerate cols) _ _) as [[[c g]|e]|]; [|by left|by left]. cbn [bind].
  destruct (run_lines_any (fun index => row_positions m (length g) index w) (enumerate rows) c g) as [-> | ->]; cbn [bind]; [|by right].
  destruct (run_lines _ (enumerate rows) _ _) as [[[c' g']|e]|]; [|by left|by left]. cbn [bind].
  destruct c'; [apply IH|by left].
Qed.
Lemma rounds_ok fuel w cols rows grid x : rounds_checked m fuel w cols rows grid = Ret (Ok x) ->
  Forall small_machine cols /\ Forall small_machine rows.
Proof.
  destruct fuel as [|fuel]; [done|]. cbn [rounds_checked]. unfold round_checked.
  destruct (run_lines_checked m _ (enumerate cols) _ _) as [[[c g]|e]|] eqn:E1; [|done|done]. cbn [bind].
  destruct (run_lines_checked m _ (enumerate rows) _ _) as [[[c' g']|e]|] eqn:E2; [|done|done]. intros _.
  split; apply enumerate_Forall; by eapply run_lines_ok.
Qed.
Lemma machine_rule rule : small_machine (machine_new rule) -> small_rule rule.
Proof.
  unfold small_rule, small_machine. cbn [machine_new left_states right_states].
  rewrite !rule_states_length, sum_rev, rev_length. intros [H _]. words (word_of m); lia.
Qed.
Lemma solve_any col row : solve_checked grow m col row = solve_nonogram m col row \/ solve_checked grow m col row = Fault Panic.
Proof.
  unfold solve_checked, solve_nonogram. destruct (n_mul m (length col) (length row)) as [n|f]; cbn [bind]; [|by left].
  destruct (reserve_any 1 n) as [-> | ->]; cbn [bind]; [|by right].
  destruct (machines_any col) as [-> | ->]; cbn [bind]; [|by right].
  destruct (machines_any row) as [-> | ->]; cbn [bind]; [|by right].
  unfold grid_right_left. rewrite replicate_length.
  destruct (rounds_any (S n) (length col) (machine_new <$> col) (machine_new <$> row) (replicate n Blank)) as [-> | ->]; [by left|by right].
Qed.
Lemma machines_len rules ms : machines_checked grow m rules = Ret ms -> (6 * word_bytes m * N.of_nat (length rules) <= isize_max m)%N.
Proof. unfold machines_checked, reserve. by destruct (decide _). Qed.
Lemma solve_ok col row g : solve_checked grow m col row = Ret (Ok g) ->
  solve_nonogram m col row = Ret (Ok g) /\
  (6 * word_bytes m * N.of_nat (length col) <= isize_max m)%N /\ (6 * word_bytes m * N.of_nat (length row) <= isize_max m)%N /\
  Forall small_rule col /\ Forall small_rule row.
Proof.
  intros H. destruct (solve_any col row) as [E|E]; rewrite E in H; [|done]. split; [done|].
  rewrite <-E in H. clear E. unfold solve_checked in H.
  destruct (n_mul m (length col) (length row)) as [n|f]; cbn [bind] in H; [|done].
  destruct (reserve_any 1 n) as [E|E]; rewrite E in H; cbn [bind] in H; [|done].
  destruct (machines_any col) as [Ec|Ec]; rewrite Ec in H; cbn [bind] in H; [|done].
  destruct (machines_any row) as [Er|Er]; rewrite Er in H; cbn [bind] in H; [|done].
  destruct (rounds_checked _ _ _ _ _ _) as [[x|e]|f] eqn:Ex; cbn [bind] in H; [|done|done].
  apply rounds_ok in Ex as [Hc Hr]. split; [exact (machines_len _ _ Ec)|]. split; [exact (machines_len _ _ Er)|].
  split; [apply (proj1 (Forall_fmap machine_new small_machine col)) in Hc|apply (proj1 (Forall_fmap machine_new small_machine row)) in Hr].
  - eapply Forall_impl; [exact Hc|]. intros r. apply machine_rule.
  - eapply Forall_impl; [exact Hr|]. intros r. apply machine_rule.
Qed.

Lemma machines_long rules : Exists (fun rule => isize_max m < N.of_nat (sum_list rule + length rule + 2))%N rules ->
  machines_checked grow m rules = Fault Panic.
Proof using Hgrow.
  intros H. unfold machines_checked, reserve. destruct (decide _) as [_|_]; cbn [bind]; [|done].
  induction H as [rule rules Hr|rule rules _ IH]; cbn [mapM].
  - by rewrite machine_long.
  - destruct (machine_any rule) as [-> | ->]; cbn [bind]; [|done]. by rewrite IH.
Qed.
Lemma solve_long col row : Exists (fun rule => isize_max m < N.of_nat (sum_list rule + length rule + 2))%N (col ++ row) ->
  solve_checked grow m col row = Fault Panic.
Proof using Hgrow.
  intros H. unfold solve_checked.
  assert ((exists n, n_mul m (length col) (length row) = Ret n) \/ n_mul m (length col) (length row) = Fault Panic) as [[n ->] | ->].
  { unfold n_mul, usize_mul, arith. destruct (_ <? _)%N; cbn [bind]; [eauto|]. destruct (profile_of m); cbn [bind]; eauto. }
  2: done.
  cbn [bind]. unfold reserve at 1. destruct (decide _) as [_|_]; cbn [bind]; [|done].
  apply Exists_app in H as [H|H].
  - by rewrite machines_long.
  - destruct (machines_any col) as [-> | ->]; cbn [bind]; [|done]. by rewrite machines_long.
Qed.
End grow.

(** * Texts accepted by the parser without overflow checks *)
Lemma items_mod ws items : forall size vs size', parse_items (Mode Release ws) items size = Ret (Ok (vs, size')) -> (size < usize_size ws)%N ->
  (size' = (size + rule_sum vs) mod usize_size ws)%N.
Proof.
  induction items as [|x items IH]; intros size vs size'; cbn [parse_items word_of].
  - intros [= <- <-] Hs. cbn. rewrite N.add_0_r. symmetry. by apply N.mod_small.
  - destruct (parse_usize ws x) as [v|]; [|done].
    assert (usize_add (Mode Release ws) size v = Ret ((size + v) mod usize_size ws)%N) as E.
    { unfold usize_add, arith. cbn [word_of]. destruct (N.ltb_spec (size + v) (usize_size ws)) as [Hlt|Hge]; [|done].
      by rewrite N.mod_small. }
    rewrite E. cbn [bind]. destruct (parse_items (Mode Release ws) items _) as [[[vs' s']|e]|] eqn:Ei; cbn [bind]; [|done|done].
    intros [= <- <-] Hs. pose proof (usize_pos ws). apply IH in Ei; [|apply N.mod_lt; lia]. rewrite Ei. cbn [rule_sum foldr].
    change (foldr N.add 0 vs')%N with (rule_sum vs'). rewrite N.add_mod_idemp_l by lia. f_equal. lia.
Qed.
Lemma items_length ws items : forall size vs size', parse_items (Mode Release ws) items size = Ret (Ok (vs, size')) -> length vs = length items.
Proof.
  induction items as [|x items IH]; intros size vs size'; cbn [parse_items word_of]; [by intros [= <- <-]|].
  destruct (parse_usize ws x) as [v|]; [|done]. destruct (usize_add (Mode Release ws) size v) as [s1|]; [|done]. cbn [bind].
  destruct (parse_items (Mode Release ws) items _) as [[[vs' s']|e]|] eqn:Ei; cbn [bind]; [|done|done].
  intros [= <- <-]. apply IH in Ei. cbn. lia.
Qed.
Lemma split_on_nonempty sep s : split_on sep s <> [].
Proof. induction s as [|c s IH]; cbn; [done|]. destruct (c =? sep)%N; [done|]. by destruct (split_on sep s). Qed.
Lemma rule_release ws bound t vs : (bound < usize_size ws)%N -> parse_rule (Mode Release ws) bound t = Ret (Ok vs) ->
  vs <> [] /\ ((min_length vs <= bound)%N \/ (usize_size ws <= min_length vs)%N).
Proof.
  intros Hb. unfold parse_rule. destruct (parse_items (Mode Release ws) (split_on 44 t) 0) as [[[vs' size]|e]|] eqn:E; cbn [bind]; [|done|done].
  pose proof (items_length _ _ _ _ _ E) as Hl. pose proof (usize_pos ws) as Hpos. apply items_mod in E; [|done].
  assert (vs' <> []) as Hne.
  { intros ->. destruct (split_on 44 t) eqn:Es; [|done]. by apply split_on_nonempty in Es. }
  assert (n_sub (Mode Release ws) (length vs') 1 = Ret (length vs' - 1)) as Esub.
  { unfold n_sub. rewrite decide_True; [done|]. destruct vs'; [done|]. cbn. lia. }
  rewrite Esub. cbn [bind].
  assert (usize_add (Mode Release ws) size (N.of_nat (length vs' - 1)) = Ret (min_length vs' mod usize_size ws)%N) as Eadd.
  { assert (((size + N.of_nat (length vs' - 1)) mod usize_size ws = min_length vs' mod usize_size ws)%N) as Em.
    { rewrite E, N.add_0_l, N.add_mod_idemp_l by lia. unfold min_length. f_equal. lia. }
    unfold usize_add, arith. cbn [word_of]. rewrite <-Em.
    destruct (N.ltb_spec (size + N.of_nat (length vs' - 1)) (usize_size ws)) as [Hlt|Hge]; [|done].
    by rewrite N.mod_small by done. }
  rewrite Eadd. cbn [bind]. rewrite bool_decide_eq_false_2 by done. cbn [orb].
  destruct (N.ltb_spec bound (min_length vs' mod usize_size ws)) as [Hlt|Hge]; [done|]. intros [= <-]. split; [done|].
  destruct (N.lt_ge_cases (min_length vs') (usize_size ws)) as [Hs|Hs]; [left|by right]. by rewrite N.mod_small in Hge.
Qed.
Lemma rules_release ws bound s vss : (bound < usize_size ws)%N -> parse_nonogram_rules (Mode Release ws) s bound = Ret (Ok vss) ->
  Forall (fun vs => vs <> [] /\ ((min_length vs <= bound)%N \/ (usize_size ws <= min_length vs)%N)) vss.
Proof.
  intros Hb. unfold parse_nonogram_rules. revert vss. induction (split_on 59 s) as [|t ts IH]; intros vss; cbn [parse_rule_list].
  - intros [= <-]. constructor.
  - destruct (parse_rule (Mode Release ws) bound t) as [[vs|e]|] eqn:E; cbn [bind]; [|done|done].
    destruct (parse_rule_list (Mode Release ws) bound ts) as [[vss'|e]|]; cbn [bind]; [|done|done]. intros [= <-].
    constructor; [by eapply rule_release|by apply IH].
Qed.
Lemma rule_sum_nat vs : N.of_nat (sum_list (N.to_nat <$> vs)) = rule_sum vs.
Proof. induction vs as [|v vs IH]; [done|]. cbn. rewrite Nat2N.inj_add, N2Nat.id. unfold rule_sum in IH. rewrite <-IH. done. Qed.
Lemma text_release ws grow s t col row : grows grow ->
  (N.of_nat (length col) < usize_size ws)%N -> (N.of_nat (length row) < usize_size ws)%N ->
  parse_nonogram_rules (Mode Release ws) s (N.of_nat (length row)) = Ret (Ok col) ->
  parse_nonogram_rules (Mode Release ws) t (N.of_nat (length col)) = Ret (Ok row) ->
  (Forall (fun vs => min_length vs <= N.of_nat (length row))%N col /\
   Forall (fun vs => min_length vs <= N.of_nat (length col))%N row) \/
  solve_checked grow (Mode Release ws) ((fun vs : list N => N.to_nat <$> vs) <$> col) ((fun vs : list N => N.to_nat <$> vs) <$> row) = Fault Panic.
Proof.
  intros Hg Hw Hh Hs Ht. apply rules_release in Hs; [|done]. apply rules_release in Ht; [|done].
  assert (forall bound vss, Forall (fun vs : list N => vs <> [] /\ ((min_length vs <= bound)%N \/ (usize_size ws <= min_length vs)%N)) vss ->
    Forall (fun vs => min_length vs <= bound)%N vss \/
    Exists (fun rule => isize_max ws < N.of_nat (sum_list rule + length rule + 2))%N ((fun vs : list N => N.to_nat <$> vs) <$> vss)) as Hsplit.
  { intros bound vss H. induction H as [|vs vss [Hne [H|H]] _ [IH|IH]]; [by left; constructor| | | |].
    - left. by constructor.
    - right. by constructor 2.
    - right. constructor 1. rewrite fmap_length, !Nat2N.inj_add, rule_sum_nat. unfold min_length in H. pose proof (isize_usize ws). lia.
    - right. by constructor 2. }
  destruct (Hsplit _ _ Hs) as [Hs'|Hs']; [destruct (Hsplit _ _ Ht) as [Ht'|Ht']; [by left|]|];
    right; apply solve_long; try done; apply Exists_app; auto.
Qed.

Lemma fits_small (m : mode) bound vss : (6 * word_bytes m * N.of_nat bound <= isize_max m)%N ->
  Forall (fun vs => min_length vs <= N.of_nat bound)%N vss -> Forall (small_rule m) ((fun vs : list N => N.to_nat <$> vs) <$> vss).
Proof.
  intros Hb H. apply Forall_fmap. eapply Forall_impl; [exact H|]. intros vs Hv. cbn.
  unfold small_rule. rewrite fmap_length, !Nat2N.inj_add, rule_sum_nat. unfold min_length in Hv. words (word_of m); lia.
Qed.
Lemma text_outcome ws grow s t col row : grows grow ->
  (N.of_nat (length col * length row) < memory_limit ws)%N ->
  (6 * pointer_bytes ws * N.of_nat (length col) < memory_limit ws)%N -> (6 * pointer_bytes ws * N.of_nat (length row) < memory_limit ws)%N ->
  parse_nonogram_rules (Mode Release ws) s (N.of_nat (length row)) = Ret (Ok col) ->
  parse_nonogram_rules (Mode Release ws) t (N.of_nat (length col)) = Ret (Ok row) ->
  let col' := (fun vs : list N => N.to_nat <$> vs) <$> col in
  let row' := (fun vs : list N => N.to_nat <$> vs) <$> row in
  (Forall (fun vs => min_length vs <= N.of_nat (length row))%N col /\
   Forall (fun vs => min_length vs <= N.of_nat (length col))%N row /\
   solve_checked grow (Mode Release ws) col' row' = solve_nonogram (Mode Release ws) col' row') \/
  solve_checked grow (Mode Release ws) col' row' = Fault Panic.
Proof.
  intros Hg Hn Hw Hh Hs Ht col' row'. rewrite bytes_max in Hn. rewrite bytes_max, <-word_bytes_pointer in Hw. rewrite bytes_max, <-word_bytes_pointer in Hh.
  assert (N.of_nat (length col) < usize_size ws)%N by (words ws; lia). assert (N.of_nat (length row) < usize_size ws)%N by (words ws; lia).
  destruct (text_release ws grow s t col row Hg ltac:(done) ltac:(done) Hs Ht) as [[Hc Hr]|Hp]; [left|by right].
  split; [done|]. split; [done|]. apply solve_small; try done; unfold col', row'; rewrite ?fmap_length; try done.
  - eapply fits_small; [|exact Hc]. done.
  - eapply fits_small; [|exact Hr]. done.
Qed.
Lemma std_grows : grows std_grow.
Proof. intros cap need. unfold std_grow. lia. Qed.
Lemma solve_long_lt grow (m : mode) col row : grows grow ->
  Exists (fun rule => memory_limit m <= N.of_nat (sum_list rule + length rule + 2))%N (col ++ row) ->
  solve_checked grow m col row = Fault Panic.
Proof.
  intros Hg H. apply solve_long; [done|]. eapply Exists_impl; [exact H|]. intros r Hr. cbn beta in Hr |- *. rewrite N.le_ngt, bytes_max in Hr. lia.
Qed.
Lemma solve_small_lt grow (m : mode) col row : grows grow ->
  (N.of_nat (length col * length row) < memory_limit m)%N ->
  (6 * pointer_bytes m * N.of_nat (length col) < memory_limit m)%N -> (6 * pointer_bytes m * N.of_nat (length row) < memory_limit m)%N ->
  Forall (fun rule => 3 * pointer_bytes m * N.of_nat (sum_list rule + length rule + 3) < memory_limit m)%N (col ++ row) ->
  solve_checked grow m col row = solve_nonogram m col row.
Proof.
  intros Hg Hn Hw Hh H. apply Forall_app in H as [Hc Hr].
  rewrite bytes_max in Hn. rewrite bytes_max, <-word_bytes_pointer in Hw. rewrite bytes_max, <-word_bytes_pointer in Hh.
  apply solve_small; [done..| |];
    (eapply Forall_impl; [eassumption|]); intros r H'; cbn beta in H'; rewrite bytes_max, <-word_bytes_pointer in H'; exact H'.
Qed.
Lemma solve_ok_lt grow (m : mode) col row g : solve_checked grow m col row = Ret (Ok g) ->
  solve_nonogram m col row = Ret (Ok g) /\
  (6 * pointer_bytes m * N.of_nat (length col) < memory_limit m)%N /\ (6 * pointer_bytes m * N.of_nat (length row) < memory_limit m)%N /\
  Forall (fun rule => 3 * pointer_bytes m * N.of_nat (sum_list rule + length rule + 3) < memory_limit m)%N (col ++ row).
Proof.
  intros H. apply solve_ok in H as (H&Hw&Hh&Hc&Hr). split; [done|]. rewrite !bytes_max, <-!word_bytes_pointer. split; [done|]. split; [done|].
  apply Forall_app. split; (eapply Forall_impl; [eassumption|]); intros r Hs; cbn beta; rewrite bytes_max; exact Hs.
Qed.
Lemma solve_any_alt grow m col row :
  solve_checked grow m col row = Fault Panic \/ solve_checked grow m col row = solve_nonogram m col row.
Proof. destruct (solve_any grow m col row); auto. Qed.
