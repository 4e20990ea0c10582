(** Proofs for C83: puzzles with exactly one solution. *)
From Verif Require Import Base Nonogram SpecNonogram SpecNonogramDeduce SpecNonogramUnique.
From Verif Require Import NonogramStates NonogramDeduce NonogramForced.
From Verif Require NonogramProofs ModeProofs NonogramTotals.

(** * Small grids, by enumeration *)

Definition col_clues (w h : nat) (g : list bool) : list (list nat) := (fun x => clue_of (grid_col w h g x)) <$> seq 0 w.
Definition row_clues (w h : nat) (g : list bool) : list (list nat) := (fun y => clue_of (grid_row w g y)) <$> seq 0 h.

Lemma solution_clues col row g : Forall positive col -> Forall positive row ->
  solution col row g <->
  length g = length col * length row /\ col_clues (length col) (length row) g = col /\ row_clues (length col) (length row) g = row.
Proof.
  intros Hc Hr. rewrite Forall_lookup in Hc, Hr. unfold solution.
  assert (forall (rules : list (list nat)) (line : nat -> list bool), (forall i r, rules !! i = Some r -> positive r) ->
    ((forall i r, rules !! i = Some r -> spells r (line i)) <-> (fun i => clue_of (line i)) <$> seq 0 (length rules) = rules)) as K.
  { intros rules line Hp. split.
    - intros H. apply list_eq. intros i. rewrite list_lookup_fmap. destruct (rules !! i) as [r|] eqn:E.
      + rewrite lookup_seq_lt by (by eapply lookup_lt_Some). cbn. f_equal. apply spells_positive; [by eapply Hp|by apply H].
      + rewrite lookup_seq_ge by (by apply lookup_ge_None). done.
    - intros H i r E. apply spells_positive; [by eapply Hp|]. rewrite <-H in E. apply list_lookup_fmap_inv in E as (j&->&Hj).
      apply lookup_seq in Hj as [-> _]. done. }
  unfold col_clues, row_clues. by rewrite <-(K col _ Hc), <-(K row _ Hr).
Qed.

Fixpoint all_bools (n : nat) : list (list bool) :=
  match n with
  | 0 => [[]]
  | S n => (cons true <$> all_bools n) ++ (cons false <$> all_bools n)
  end.
Lemma elem_all_bools b : b ∈ all_bools (length b).
Proof.
  induction b as [|x b IH]; [apply elem_of_list_here|]. cbn. apply elem_of_app.
  destruct x; [left|right]; apply elem_of_list_fmap; eauto.
Qed.
Definition same (a b : list (list nat)) : bool := bool_decide (a = b).
Definition check (ws : word) (w h : nat) : bool :=
  let all := (fun g => (g, (col_clues w h g, row_clues w h g))) <$> all_bools (w * h) in
  forallb (fun '(g, (c, r)) =>
    match solve_nonogram (Mode Debug ws) c r with
    | Ret (Ok g') => if bool_decide (g' = g) then true else
        existsb (fun '(b, (c', r')) => if same c c' then if same r r' then negb (bool_decide (b = g)) else false else false) all
    | _ => false
    end) all.
Lemma all_bools_length n b : b ∈ all_bools n -> length b = n.
Proof.
  revert b. induction n as [|n IH]; intros b; cbn; [by intros ->%elem_of_list_singleton|].
  intros [H|H]%elem_of_app; apply elem_of_list_fmap in H as (b'&->&H); cbn; f_equal; by apply IH.
Qed.
Lemma check_solved (m : mode) w h col row b : check m w h = true -> length col = w -> length row = h ->
  Forall positive col -> Forall positive row ->
  (forall b', solution col row b' <-> b' = b) -> solve_nonogram m col row = Ret (Ok b).
Proof.
  intros Hk Hw Hh Hc Hr Hu. assert (solution col row b) as Hb by (by apply Hu).
  apply (solution_clues col row b Hc Hr) in Hb as (Hl&Ec&Er). rewrite Hw, Hh in Hl, Ec, Er.
  unfold check in Hk. rewrite forallb_forall in Hk. specialize (Hk (b, (col, row))).
  assert (solve_nonogram (Mode Debug m) col row = Ret (Ok b)) as E.
  { assert (forall g, g ∈ all_bools (w * h) -> (g, (col_clues w h g, row_clues w h g)) ∈
      ((fun g => (g, (col_clues w h g, row_clues w h g))) <$> all_bools (w * h))) as Hin.
    { intros g Hg. apply elem_of_list_fmap. eauto. }
    specialize (Hk ltac:(apply elem_of_list_In; rewrite <-Ec, <-Er; apply Hin; rewrite <-Hl; apply elem_all_bools)).
    cbv beta iota in Hk. destruct (solve_nonogram (Mode Debug m) col row) as [[g'|]|]; [|discriminate..].
    destruct (bool_decide_reflect (g' = b)) as [Eq|Hne]; [by rewrite Eq|]. exfalso.
    apply existsb_exists in Hk as ([b' [c' r']]&Hb'&H). apply elem_of_list_In, elem_of_list_fmap in Hb' as (b''&[= -> -> ->]&Hall).
    unfold same in H. destruct (bool_decide_reflect (col = col_clues w h b'')) as [Hc'|]; [|done].
    destruct (bool_decide_reflect (row = row_clues w h b'')) as [Hr'|]; [|done].
    destruct (bool_decide_reflect (b'' = b)) as [|Hb'']; [done|]. apply Hb'', Hu, (solution_clues col row b'' Hc Hr).
    rewrite Hw, Hh. split; [by apply all_bools_length|done]. }
  destruct m as [[] ws]; [done|]. destruct (ModeProofs.checked_solve_nonogram ws col row) as [H|H]; cbn in E; congruence.
Qed.
Lemma check_small ws : forallb (fun '(w, h) => check ws w h) [(2, 2); (2, 3); (3, 2); (3, 3)] = true.
Proof. destruct ws; vm_compute; reflexivity. Qed.

Lemma small_solved (m : mode) col row b : 1 <= length col -> 1 <= length row ->
  always_found (length col) (length row) ->
  Forall positive col -> Forall positive row -> (N.of_nat (length col * length row) < usize_size m)%N ->
  (forall b', solution col row b' <-> b' = b) -> solve_nonogram m col row = Ret (Ok b).
Proof.
  intros Hw Hh Ha Hc Hr Hn Hu. destruct (decide (length col = 1 \/ length row = 1)) as [H1|H1].
  - destruct (NonogramTotals.thin_solved m col row Hc Hr Hn H1) as [(g&E&Hg)|[_ Hno]].
    + apply Hu in Hg as ->. done.
    + exfalso. apply (Hno b). by apply Hu.
  - unfold always_found in Ha. pose proof (check_small m) as Hk. rewrite forallb_forall in Hk.
    apply (check_solved m (length col) (length row) col row b); [|done..].
    apply (Hk (length col, length row)). apply elem_of_list_In.
    assert (length col = 2 \/ length col = 3) as [-> | ->] by lia;
    assert (length row = 2 \/ length row = 3) as [-> | ->] by lia; rewrite !elem_of_cons; auto.
Qed.

(** * Larger grids *)

(** A grid given by its cells. *)
Definition grid_of {A} (w h : nat) (f : nat -> nat -> A) : list A := (fun i => f (i mod w) (i / w)) <$> seq 0 (w * h).
Lemma grid_of_length {A} w h (f : nat -> nat -> A) : length (grid_of w h f) = w * h.
Proof. unfold grid_of. by rewrite fmap_length, seq_length. Qed.
Lemma grid_of_lookup {A} w h (f : nat -> nat -> A) x y : x < w -> y < h -> grid_of w h f !! (w * y + x) = Some (f x y).
Proof.
  intros Hx Hy. unfold grid_of. rewrite list_lookup_fmap, lookup_seq_lt by nia. cbn. do 2 f_equal.
  - rewrite Nat.add_comm, Nat.mul_comm, Nat.mod_add by lia. by apply Nat.mod_small.
  - rewrite Nat.add_comm, Nat.mul_comm, Nat.div_add by lia. rewrite Nat.div_small by done. done.
Qed.
Lemma grid_of_row {A} w h (f : nat -> nat -> A) y : y < h -> grid_row w (grid_of w h f) y = (fun x => f x y) <$> seq 0 w.
Proof.
  intros Hy. rewrite NonogramTotals.row_omap.
  assert (forall l : list nat, (forall x, x ∈ l -> x < w) -> omap (fun x => grid_of w h f !! (w * y + x)) l = (fun x => f x y) <$> l) as K.
  { induction l as [|x l IH]; intros Hl; [done|]. cbn. rewrite grid_of_lookup; [|apply Hl, elem_of_list_here|done].
    f_equal. apply IH. intros z Hz. apply Hl. by apply elem_of_list_further. }
  apply K. intros x Hx%elem_of_seq. lia.
Qed.
Lemma grid_of_col {A} w h (f : nat -> nat -> A) x : x < w -> grid_col w h (grid_of w h f) x = (fun y => f x y) <$> seq 0 h.
Proof.
  intros Hx. unfold grid_col.
  assert (forall l : list nat, (forall y, y ∈ l -> y < h) -> omap (fun y => grid_of w h f !! (w * y + x)) l = (fun y => f x y) <$> l) as K.
  { induction l as [|y l IH]; intros Hl; [done|]. cbn. rewrite grid_of_lookup; [|done|apply Hl, elem_of_list_here].
    f_equal. apply IH. intros z Hz. apply Hl. by apply elem_of_list_further. }
  apply K. intros y Hy%elem_of_seq. lia.
Qed.
Lemma grid_of_ext {A} w h (f g : nat -> nat -> A) : (forall x y, x < w -> y < h -> f x y = g x y) -> grid_of w h f = grid_of w h g.
Proof.
  intros H. unfold grid_of. apply list_fmap_ext. intros i j Hj. apply lookup_seq in Hj as [-> Hi]. cbn.
  assert (w <> 0) by (intros ->; lia).
  apply H; [by apply Nat.mod_upper_bound|by apply Nat.div_lt_upper_bound].
Qed.
Lemma grid_of_all {A} (d : A) w h g : length g = w * h -> g = grid_of w h (fun x y => default d (g !! (w * y + x))).
Proof.
  intros Hl. apply list_eq. intros i. unfold grid_of. rewrite list_lookup_fmap. destruct (g !! i) as [a|] eqn:E.
  - pose proof (lookup_lt_Some _ _ _ E) as Hi. rewrite Hl in Hi. rewrite lookup_seq_lt by done. cbn.
    assert (w <> 0) by (intros ->; lia). rewrite <-Nat.div_mod by done. by rewrite E.
  - rewrite lookup_seq_ge; [done|]. rewrite <-Hl. by apply lookup_ge_None.
Qed.

Lemma blocks_pad b n : forall cur, blocks cur (b ++ replicate n false) = blocks cur b.
Proof.
  induction b as [|x b IH]; intros cur.
  - cbn [app blocks]. assert (blocks 0 (replicate n false) = []) as H0 by (induction n; done).
    destruct n as [|n]; [done|]. cbn. destruct (decide (cur = 0)) as [->|Hc].
    + cbn in H0. done.
    + f_equal. clear -H0. by induction n.
  - cbn. destruct x; rewrite !IH; done.
Qed.
Lemma clue_pad b n : clue_of (b ++ replicate n false) = clue_of b.
Proof. apply blocks_pad. Qed.
Lemma clue_false n : clue_of (replicate n false) = [].
Proof. apply (blocks_pad [] n 0). Qed.

(** Lines with several fillings that agree nowhere. *)
Lemma closed_open rule line bs : bs <> [] -> (forall b, b ∈ bs -> fits rule line b) ->
  (forall i, line !! i = Some Blank -> exists b b', b ∈ bs /\ b' ∈ bs /\ b !! i <> b' !! i) -> closed rule line.
Proof.
  intros Hne Hf Hd. split.
  - destruct bs as [|b bs]; [done|]. exists b. apply Hf, elem_of_list_here.
  - intros i v Hi [k Hk]. destruct (Hd i Hi) as (b&b'&Hb&Hb'&Hn). apply Hn.
    destruct (Hk b (Hf b Hb)) as [-> _], (Hk b' (Hf b' Hb')) as [-> _]. done.
Qed.
Lemma fits_pad rule line b n : positive rule -> Forall2 agrees line b -> clue_of b = rule ->
  fits rule (line ++ replicate n Blocked) (b ++ replicate n false).
Proof.
  intros Hp Ha Hc. split.
  - apply spells_positive; [done|]. by rewrite clue_pad.
  - apply Forall2_app; [done|]. apply Forall2_replicate. done.
Qed.
Lemma closed_pad rule line n (bs : list (list bool)) : positive rule -> bs <> [] ->
  (forall b, b ∈ bs -> Forall2 agrees line b /\ clue_of b = rule) ->
  (forall i, line !! i = Some Blank -> exists b b', b ∈ bs /\ b' ∈ bs /\ b !! i <> b' !! i) ->
  closed rule (line ++ replicate n Blocked).
Proof.
  intros Hp Hne Hf Hd. apply (closed_open _ _ ((fun b => b ++ replicate n false) <$> bs)).
  - by destruct bs.
  - intros b0 (b&->&Hb)%elem_of_list_fmap. destruct (Hf b Hb). by apply fits_pad.
  - intros i Hi. assert (i < length line) as Hlt.
    { destruct (decide (i < length line)) as [|Hge]; [done|]. rewrite lookup_app_r in Hi by lia.
      by apply lookup_replicate in Hi as [? _]. }
    rewrite lookup_app_l in Hi by done. destruct (Hd i Hi) as (b&b'&Hb&Hb'&Hn).
    assert (forall b, b ∈ bs -> length b = length line) as Hl.
    { intros c Hc. destruct (Hf c Hc) as [H%Forall2_length _]. done. }
    exists (b ++ replicate n false), (b' ++ replicate n false). split; [apply elem_of_list_fmap; eauto|].
    split; [apply elem_of_list_fmap; eauto|]. rewrite (lookup_app_l b), (lookup_app_l b') by (rewrite Hl; done). done.
Qed.

Lemma seq_const {A} (f : nat -> A) a n c : (forall i, a <= i < a + n -> f i = c) -> f <$> seq a n = replicate n c.
Proof.
  revert a. induction n as [|n IH]; intros a H; [done|]. cbn. rewrite H by lia. f_equal. apply IH. intros i Hi. apply H. lia.
Qed.
Lemma row_two {A} (f : nat -> A) w c : 2 <= w -> (forall x, 2 <= x < w -> f x = c) -> f <$> seq 0 w = [f 0; f 1] ++ replicate (w - 2) c.
Proof.
  intros Hw H. replace w with (2 + (w - 2)) at 1 by lia. rewrite seq_app, fmap_app. cbn [seq fmap list_fmap Nat.add]. f_equal.
  apply seq_const. intros i Hi. apply H. lia.
Qed.
Lemma col_four {A} (f : nat -> A) h c : 4 <= h -> (forall y, 4 <= y < h -> f y = c) ->
  f <$> seq 0 h = [f 0; f 1; f 2; f 3] ++ replicate (h - 4) c.
Proof.
  intros Hh H. replace h with (4 + (h - 4)) at 1 by lia. rewrite seq_app, fmap_app. cbn [seq fmap list_fmap Nat.add]. f_equal.
  apply seq_const. intros i Hi. apply H. lia.
Qed.

Section tall.
  Context (w h : nat) (Hw : 2 <= w) (Hh : 4 <= h).
  Definition tall_col : list (list nat) := [2] :: [1; 1] :: replicate (w - 2) [].
  Definition tall_row : list (list nat) := replicate 4 [1] ++ replicate (h - 4) [].
  Definition tall_cell (x y : nat) : bool :=
    match x, y with
    | 0, 1 | 0, 2 | 1, 0 | 1, 3 => true
    | _, _ => false
    end.
  Definition tall_known (x y : nat) : square := if decide (x < 2 /\ y < 4) then Blank else Blocked.

  Lemma tall_sizes : length tall_col = w /\ length tall_row = h.
  Proof using Hw Hh. unfold tall_col, tall_row. cbn. rewrite !replicate_length. lia. Qed.
  Lemma tall_positive : Forall positive tall_col /\ Forall positive tall_row.
  Proof using.
    unfold tall_col, tall_row. assert (forall n, Forall positive (replicate n [])) as H by (intros n; apply Forall_replicate; constructor).
    split.
    - constructor; [repeat constructor|]. constructor; [repeat constructor|]. done.
    - apply Forall_app. split; [apply Forall_replicate; repeat constructor|done].
  Qed.
  Lemma tall_col_cases x rule : tall_col !! x = Some rule ->
    x < w /\ (x = 0 /\ rule = [2] \/ x = 1 /\ rule = [1; 1] \/ 2 <= x /\ rule = []).
  Proof using Hw Hh.
    intros Hx. split; [rewrite <-(proj1 tall_sizes); by eapply lookup_lt_Some|].
    destruct x as [|[|x]]; cbn in Hx; [injection Hx as <-; auto..|]. apply lookup_replicate in Hx as [-> _]. right. right. split; [lia|done].
  Qed.
  Lemma tall_row_cases y rule : tall_row !! y = Some rule -> y < h /\ (y < 4 /\ rule = [1] \/ 4 <= y /\ rule = []).
  Proof using Hw Hh.
    intros Hy. split; [rewrite <-(proj2 tall_sizes); by eapply lookup_lt_Some|]. unfold tall_row in Hy.
    destruct (decide (y < 4)) as [H|H].
    - left. split; [done|]. rewrite lookup_app_l in Hy by (by rewrite replicate_length). by apply lookup_replicate in Hy as [-> _].
    - right. split; [lia|]. rewrite lookup_app_r in Hy by (rewrite replicate_length; lia). by apply lookup_replicate in Hy as [-> _].
  Qed.

  Lemma tall_solution b : solution tall_col tall_row b <-> b = grid_of w h tall_cell.
  Proof using Hw Hh.
    destruct tall_sizes as [Lw Lh]. destruct tall_positive as [Pc Pr]. split.
    - intros Hb. apply (solution_clues _ _ _ Pc Pr) in Hb as (Hl&Ec&Er). rewrite Lw, Lh in *.
      set (f := fun x y => default false (b !! (w * y + x))). rewrite (grid_of_all false w h b Hl) in Ec, Er |- *. fold f in Ec, Er |- *.
      assert (forall x rule, tall_col !! x = Some rule -> clue_of ((fun y => f x y) <$> seq 0 h) = rule) as Hc.
      { intros x rule Hx. pose proof (tall_col_cases x rule Hx) as [Hxw _].
        rewrite <-(grid_of_col w) by done. rewrite <-Ec in Hx. unfold col_clues in Hx. rewrite list_lookup_fmap, lookup_seq_lt in Hx by done.
        cbn in Hx. by injection Hx. }
      assert (forall y rule, tall_row !! y = Some rule -> clue_of ((fun x => f x y) <$> seq 0 w) = rule) as Hr.
      { intros y rule Hy. pose proof (tall_row_cases y rule Hy) as [Hyh _].
        rewrite <-(grid_of_row w h) by done. rewrite <-Er in Hy. unfold row_clues in Hy. rewrite list_lookup_fmap, lookup_seq_lt in Hy by done.
        cbn in Hy. by injection Hy. }
      assert (forall l, clue_of l = [] -> forall v, v ∈ l -> v = false) as Hnil.
      { intros l El v Hv. assert (spells [] l) as (k&->)%one_block_0 by (apply spells_positive; [constructor|done]).
        by apply elem_of_replicate_inv in Hv. }
      assert (forall x y, 2 <= x -> x < w -> y < h -> f x y = false) as Fx.
      { intros x y H2 Hx Hy. apply (Hnil ((fun y => f x y) <$> seq 0 h)).
        - apply Hc. unfold tall_col. destruct x as [|[|x]]; [lia..|]. cbn. apply lookup_replicate_2. lia.
        - apply elem_of_list_fmap. exists y. split; [done|]. apply elem_of_seq. lia. }
      assert (forall x y, 4 <= y -> x < w -> y < h -> f x y = false) as Fy.
      { intros x y H4 Hx Hy. apply (Hnil ((fun x => f x y) <$> seq 0 w)).
        - apply Hr. unfold tall_row. rewrite lookup_app_r by (rewrite replicate_length; lia). rewrite replicate_length. apply lookup_replicate_2. lia.
        - apply elem_of_list_fmap. exists x. split; [done|]. apply elem_of_seq. lia. }
      assert (forall y, y < 4 -> f 1 y = negb (f 0 y)) as Frow.
      { intros y Hy. specialize (Hr y [1]). rewrite (row_two _ w false), clue_pad in Hr; [|done|intros x Hx; apply Fx; lia].
        assert (clue_of [f 0 y; f 1 y] = [1]) as H.
        { apply Hr. unfold tall_row. rewrite lookup_app_l by (by rewrite replicate_length). by apply lookup_replicate_2. }
        destruct (f 0 y), (f 1 y); done. }
      assert (clue_of [f 0 0; f 0 1; f 0 2; f 0 3] = [2]) as F0.
      { rewrite <-(clue_pad _ (h - 4)), <-(col_four (f 0) h false); [by apply Hc|done|]. intros y Hy. apply Fy; lia. }
      assert (clue_of [f 1 0; f 1 1; f 1 2; f 1 3] = [1; 1]) as F1.
      { rewrite <-(clue_pad _ (h - 4)), <-(col_four (f 1) h false); [by apply Hc|done|]. intros y Hy. apply Fy; lia. }
      assert (f 0 0 = false /\ f 0 1 = true /\ f 0 2 = true /\ f 0 3 = false) as (E0&E1&E2&E3).
      { rewrite !Frow in F1 by lia. clear -F0 F1. revert F0 F1. generalize (f 0 0) (f 0 1) (f 0 2) (f 0 3). intros [] [] [] []; done. }
      apply grid_of_ext. intros x y Hx Hy. destruct (decide (2 <= x)) as [H2|H2]; [rewrite Fx by done; by destruct x as [|[|x]]; [lia..|]|].
      destruct (decide (4 <= y)) as [H4|H4].
      { rewrite Fy by done. destruct x as [|[|x]], y as [|[|[|[|y]]]]; done || lia. }
      destruct x as [|[|x]]; [|rewrite Frow by lia|lia]; destruct y as [|[|[|[|y]]]]; try lia; rewrite ?E0, ?E1, ?E2, ?E3; done.
    - intros ->. apply (solution_clues _ _ _ Pc Pr). rewrite Lw, Lh. split; [apply grid_of_length|]. split.
      + apply list_eq. intros x. unfold col_clues. rewrite list_lookup_fmap. destruct (tall_col !! x) as [rule|] eqn:E.
        * destruct (tall_col_cases x rule E) as [Hx Hcase]. rewrite lookup_seq_lt by done. cbn. f_equal. rewrite grid_of_col by done.
          destruct Hcase as [[-> ->]|[[-> ->]|[H2 ->]]].
          -- rewrite (col_four _ h false), clue_pad; [done|done|]. intros y Hy. destruct y as [|[|[|[|y]]]]; done || lia.
          -- rewrite (col_four _ h false), clue_pad; [done|done|]. intros y Hy. destruct y as [|[|[|[|y]]]]; done || lia.
          -- rewrite (seq_const _ 0 h false); [apply clue_false|]. intros y Hy. by destruct x as [|[|x]]; [lia..|].
        * rewrite lookup_seq_ge; [done|]. rewrite <-Lw. by apply lookup_ge_None.
      + apply list_eq. intros y. unfold row_clues. rewrite list_lookup_fmap. destruct (tall_row !! y) as [rule|] eqn:E.
        * destruct (tall_row_cases y rule E) as [Hy Hcase]. rewrite lookup_seq_lt by done. cbn. f_equal. rewrite grid_of_row by done.
          destruct Hcase as [[H4 ->]|[H4 ->]].
          -- rewrite (row_two _ w false), clue_pad; [|done|].
             ++ destruct y as [|[|[|[|y]]]]; done || lia.
             ++ intros x Hx. by destruct x as [|[|x]]; [lia..|].
          -- rewrite (seq_const _ 0 w false); [apply clue_false|]. intros x Hx.
             destruct x as [|[|x]], y as [|[|[|[|y]]]]; done || lia.
        * rewrite lookup_seq_ge; [done|]. rewrite <-Lh. by apply lookup_ge_None.
  Qed.

  Lemma all_blocked n : closed [] (replicate n Blocked).
  Proof using.
    split.
    - exists (replicate n false). split; [by exists 0, n|]. apply Forall2_replicate. done.
    - intros i v [? _]%lookup_replicate. done.
  Qed.
  Lemma tall_closed : closed_grid tall_col tall_row (grid_of w h tall_known).
  Proof using Hw Hh.
    destruct tall_sizes as [Lw Lh]. split_and!.
    - by rewrite grid_of_length, Lw, Lh.
    - intros x rule E. rewrite Lw, Lh. destruct (tall_col_cases x rule E) as [Hx Hcase]. rewrite grid_of_col by done.
      destruct Hcase as [[-> ->]|[[-> ->]|[H2 ->]]].
      + rewrite (col_four _ h Blocked); [|done|intros y Hy; unfold tall_known; by rewrite decide_False by lia].
        apply (closed_pad _ _ _ [[true; true; false; false]; [false; true; true; false]; [false; false; true; true]]); [repeat constructor|done| |].
        * intros b Hb. rewrite !elem_of_cons in Hb. destruct Hb as [->|[->|[->|Hb%elem_of_nil]]]; [..|done]; (split; [repeat constructor|done]).
        * intros [|[|[|[|i]]]] Hi; [| | | |done].
          -- exists [true; true; false; false], [false; true; true; false]. rewrite !elem_of_cons. naive_solver.
          -- exists [true; true; false; false], [false; false; true; true]. rewrite !elem_of_cons. naive_solver.
          -- exists [true; true; false; false], [false; false; true; true]. rewrite !elem_of_cons. naive_solver.
          -- exists [true; true; false; false], [false; false; true; true]. rewrite !elem_of_cons. naive_solver.
      + rewrite (col_four _ h Blocked); [|done|intros y Hy; unfold tall_known; by rewrite decide_False by lia].
        apply (closed_pad _ _ _ [[true; false; true; false]; [false; true; false; true]]); [repeat constructor|done| |].
        * intros b Hb. rewrite !elem_of_cons in Hb. destruct Hb as [->|[->|Hb%elem_of_nil]]; [..|done]; (split; [repeat constructor|done]).
        * intros i Hi. exists [true; false; true; false], [false; true; false; true]. rewrite !elem_of_cons.
          destruct i as [|[|[|[|i]]]]; [naive_solver..|done].
      + rewrite (seq_const _ 0 h Blocked); [apply all_blocked|]. intros y Hy. unfold tall_known. by rewrite decide_False by lia.
    - intros y rule E. rewrite Lw. destruct (tall_row_cases y rule E) as [Hy Hcase]. rewrite grid_of_row by done.
      destruct Hcase as [[H4 ->]|[H4 ->]].
      + rewrite (row_two _ w Blocked); [|done|intros x Hx; unfold tall_known; by rewrite decide_False by lia].
        unfold tall_known. rewrite !decide_True by lia.
        apply (closed_pad _ _ _ [[true; false]; [false; true]]); [repeat constructor|done| |].
        * intros b Hb. rewrite !elem_of_cons in Hb. destruct Hb as [->|[->|Hb%elem_of_nil]]; [..|done]; (split; [repeat constructor|done]).
        * intros i Hi. exists [true; false], [false; true]. rewrite !elem_of_cons. destruct i as [|[|i]]; [naive_solver..|done].
      + rewrite (seq_const _ 0 w Blocked); [apply all_blocked|]. intros x Hx. unfold tall_known. by rewrite decide_False by lia.
  Qed.

  Lemma tall_solve (m : mode) : (N.of_nat (w * h) < usize_size m)%N ->
    solve_nonogram m tall_col tall_row = Ret (Ok (replicate (w * h) false)).
  Proof using Hw Hh.
    intros Hn. destruct tall_sizes as [Lw Lh]. destruct tall_positive as [Pc Pr].
    assert (Forall proper tall_col) as Qc by (eapply Forall_impl; [exact Pc|apply positive_proper]).
    assert (Forall proper tall_row) as Qr by (eapply Forall_impl; [exact Pr|apply positive_proper]).
    destruct (solve_least m tall_col tall_row Qc Qr) as [(k&Hk&Hle&E)|[Hno _]].
    - by rewrite Lw, Lh.
    - rewrite Lh. lia.
    - rewrite E. do 2 f_equal. specialize (Hle _ tall_closed). destruct Hk as [Hl _]. rewrite Lw, Lh in Hl.
      apply list_eq_same_length with (n := w * h); [by rewrite replicate_length|by rewrite map_length|].
      intros i a b Hi Ha Hb. apply lookup_replicate in Hb as [-> _].
      apply list_lookup_fmap_inv in Ha as (s&->&Hs). 
      destruct (lookup_lt_is_Some_2 (grid_of w h tall_known) i) as [t Ht]; [by rewrite grid_of_length|].
      destruct (Forall2_lookup_lr _ _ _ _ _ _ Hle Hs Ht) as [->| ->]; [done|].
      unfold grid_of in Ht. apply list_lookup_fmap_inv in Ht as (j&->&_). unfold tall_known. by destruct (decide _).
    - exfalso. by apply (Hno _ tall_closed).
  Qed.
  Lemma tall_different : grid_of w h tall_cell <> replicate (w * h) false.
  Proof using Hw Hh.
    intros E. pose proof (grid_of_lookup w h tall_cell 1 0 ltac:(lia) ltac:(lia)) as H. rewrite E in H.
    by apply lookup_replicate in H as [? _].
  Qed.
End tall.

Lemma solution_transpose col row b : solution col row b -> solution row col (transpose (length col) (length row) b).
Proof.
  intros (Hl&Hc&Hr). split; [by apply NonogramProofs.transpose_length|]. split.
  - intros y rule E. rewrite NonogramProofs.transpose_col; [by apply Hr|done|by eapply lookup_lt_Some].
  - intros x rule E. rewrite NonogramProofs.transpose_row; [by apply Hc|done|by eapply lookup_lt_Some].
Qed.
Lemma transpose_replicate {A} w h (a : A) : transpose w h (replicate (w * h) a) = replicate (h * w) a.
Proof.
  apply list_eq. intros i. destruct (decide (i < h * w)) as [Hi|Hi].
  - destruct (NonogramProofs.coordinates h w i Hi) as (y&x&Hy&Hx&->).
    rewrite NonogramProofs.transpose_lookup by (done || by rewrite replicate_length). rewrite !lookup_replicate_2 by nia. done.
  - rewrite !lookup_ge_None_2; [done|by rewrite replicate_length; lia|].
    rewrite NonogramProofs.transpose_length by (by rewrite replicate_length). lia.
Qed.

Lemma missed (m : mode) w h : 1 <= w -> 1 <= h -> (N.of_nat (w * h) < usize_size m)%N -> ~ always_found w h ->
  exists col row b, length col = w /\ length row = h /\ Forall positive col /\ Forall positive row /\
    (forall b', solution col row b' <-> b' = b) /\
    solve_nonogram m col row = Ret (Ok (replicate (w * h) false)) /\ b <> replicate (w * h) false.
Proof.
  intros Hw Hh Hn Ha. unfold always_found in Ha. destruct (decide (4 <= h)) as [H4|H4].
  - exists (tall_col w), (tall_row h), (grid_of w h tall_cell). destruct (tall_sizes w h) as [Lw Lh]; [lia..|].
    destruct (tall_positive w h) as [Pc Pr]. split_and!; try done.
    + apply tall_solution; lia.
    + apply tall_solve; [lia..|done].
    + apply tall_different; lia.
  - assert (4 <= w /\ 2 <= h) as [H4w H2] by lia. rewrite Nat.mul_comm in Hn.
    exists (tall_row w), (tall_col h), (transpose h w (grid_of h w tall_cell)). destruct (tall_sizes h w) as [Lh Lw]; [lia..|].
    destruct (tall_positive h w) as [Pc Pr]. split_and!; try done.
    + intros b'. split.
      * intros Hb. pose proof (solution_transpose _ _ _ Hb) as Ht. rewrite Lh, Lw in Ht. apply tall_solution in Ht; [|lia..].
        rewrite <-Ht. symmetry. apply NonogramProofs.transpose_involutive. destruct Hb as [Hl _]. rewrite Hl, Lh, Lw. done.
      * intros ->. pose proof (solution_transpose (tall_col h) (tall_row w) (grid_of h w tall_cell)) as Ht. rewrite Lh, Lw in Ht.
        apply Ht. apply tall_solution; lia || done.
    + rewrite (NonogramProofs.solve_transpose m (tall_col h) (tall_row w)).
      * rewrite tall_solve by (lia || done). by rewrite Lh, Lw, transpose_replicate.
      * eapply Forall_impl; [exact Pc|apply positive_proper].
      * eapply Forall_impl; [exact Pr|apply positive_proper].
      * by rewrite Lh, Lw.
      * done.
      * done.
    + intros E. apply (tall_different h w); [lia..|]. rewrite <-(NonogramProofs.transpose_involutive h w (grid_of h w tall_cell)) by (apply grid_of_length).
      rewrite E. apply transpose_replicate.
Qed.

Lemma sizes (m : mode) w h : 1 <= w -> 1 <= h -> (N.of_nat (w * h) < usize_size m)%N ->
  always_found w h <->
  forall col row b, length col = w -> length row = h -> Forall positive col -> Forall positive row ->
    (forall b', solution col row b' <-> b' = b) -> solve_nonogram m col row = Ret (Ok b).
Proof.
  intros Hw Hh Hn. split.
  - intros Ha col row b <- <- Hc Hr Hu. by apply small_solved.
  - intros H. destruct (decide (w = 1 \/ h = 1 \/ w <= 3 /\ h <= 3)) as [|Hno]; [done|].
    destruct (missed m w h Hw Hh Hn Hno) as (col&row&b&Lw&Lh&Pc&Pr&Hu&Hs&Hb). exfalso. apply Hb.
    specialize (H col row b Lw Lh Pc Pr Hu). rewrite Hs in H. congruence.
Qed.
