(** Proofs for C107: the number of rounds is not bounded by a constant. *)
From Verif Require Import Base Nonogram NonogramCost SpecNonogram SpecNonogramDeduce SpecNonogramChain SpecWord WordProofs.
From Verif Require Import NonogramStates NonogramLine NonogramDeduce NonogramGrid NonogramProofs NonogramForced NonogramCostProofs.

Notation sq x := (if x : bool then Filled else Blocked).

(** * Closed lines *)
Lemma agrees_sq (b : list bool) : Forall2 agrees ((fun x => sq x) <$> b) b.
Proof. induction b as [|[] b IH]; constructor; done. Qed.
Lemma full_closed rule b : spells rule b -> closed rule ((fun x => sq x) <$> b).
Proof.
  intros H. split; [exists b; split; [done|apply agrees_sq]|]. intros i v Hi. exfalso.
  apply list_lookup_fmap_Some in Hi as (x&_&Hx). by destruct x.
Qed.
Lemma look_block c v d i : (replicate c false ++ replicate v true ++ replicate d false) !! i =
  if decide (i < c + v + d) then Some (bool_decide (c <= i < c + v)) else None.
Proof.
  destruct (decide (i < c)); [|destruct (decide (i < c + v))].
  - rewrite lookup_app_l by (by rewrite replicate_length). rewrite lookup_replicate_2 by done.
    rewrite decide_True by lia. rewrite bool_decide_eq_false_2 by lia. done.
  - rewrite lookup_app_r by (rewrite replicate_length; lia). rewrite replicate_length.
    rewrite lookup_app_l by (rewrite replicate_length; lia). rewrite lookup_replicate_2 by lia.
    rewrite decide_True by lia. rewrite bool_decide_eq_true_2 by lia. done.
  - rewrite lookup_app_r by (rewrite replicate_length; lia). rewrite replicate_length.
    rewrite lookup_app_r by (rewrite replicate_length; lia). rewrite replicate_length.
    case_decide.
    + rewrite lookup_replicate_2 by lia. rewrite bool_decide_eq_false_2 by lia. done.
    + apply lookup_ge_None_2. rewrite replicate_length. lia.
Qed.
Lemma tail_closed rule (P : list bool) v L : 1 <= v -> 2 * v <= L ->
  (forall q, q + v <= L -> spells rule (P ++ replicate q false ++ replicate v true ++ replicate (L - q - v) false)) ->
  closed rule (((fun x => sq x) <$> P) ++ replicate L Blank).
Proof.
  intros Hv HL H. assert (forall q, q + v <= L -> fits rule (((fun x => sq x) <$> P) ++ replicate L Blank)
    (P ++ replicate q false ++ replicate v true ++ replicate (L - q - v) false)) as Hf.
  { intros q Hq. split; [by apply H|]. apply Forall2_app; [apply agrees_sq|].
    apply Forall2_same_length_lookup. split.
    - rewrite !app_length, !replicate_length. lia.
    - intros i a b [-> _]%lookup_replicate _. done. }
  split; [exists (P ++ replicate 0 false ++ replicate v true ++ replicate (L - 0 - v) false); apply Hf; lia|].
  intros i x Hi [k Hk]. destruct (decide (i < length P)) as [Hlt|Hge].
  { rewrite lookup_app_l in Hi by (by rewrite fmap_length). apply list_lookup_fmap_Some in Hi as (y&_&Hy). by destruct y. }
  rewrite lookup_app_r in Hi by (rewrite fmap_length; lia). rewrite fmap_length in Hi.
  apply lookup_replicate in Hi as [_ Hi].
  assert (forall q, q + v <= L -> x = bool_decide (q <= i - length P < q + v)) as Hq.
  { intros q Hq. destruct (Hk _ (Hf q Hq)) as [E _]. rewrite lookup_app_r, look_block, decide_True in E by lia. congruence. }
  destruct (decide (i - length P < v)) as [Hs|Hs].
  - pose proof (Hq 0 ltac:(lia)) as E1. pose proof (Hq v ltac:(lia)) as E2.
    rewrite bool_decide_eq_true_2 in E1 by lia. rewrite bool_decide_eq_false_2 in E2 by lia. congruence.
  - pose proof (Hq 0 ltac:(lia)) as E1. pose proof (Hq (i - length P - (v - 1)) ltac:(lia)) as E2.
    rewrite bool_decide_eq_false_2 in E1 by lia. rewrite bool_decide_eq_true_2 in E2 by lia. congruence.
Qed.
(** A line that can be filled in one way only. *)
Lemma unique_closed rule line s : closed rule line -> (forall b, fits rule line b -> b = s) ->
  forall i, line !! i <> Some Blank.
Proof.
  intros [[b Hb] Hc] Hu i Hi. destruct (lookup_lt_is_Some_2 b i) as [v Hv].
  { rewrite (fits_length _ _ _ Hb). by apply lookup_lt_Some in Hi. }
  apply (Hc i v Hi). exists (block_no b i). intros b' Hb'. rewrite (Hu _ Hb'), <-(Hu _ Hb). done.
Qed.
Lemma block_at v b p : 1 <= v -> one_block v b -> b !! p = Some true -> (forall q, q < p -> b !! q = Some false) ->
  b = replicate p false ++ replicate v true ++ replicate (length b - p - v) false.
Proof.
  intros Hv (c&d&->) Hp Hq. rewrite look_block in Hp. case_decide as Hd; [|done]. injection Hp as Hp. apply bool_decide_eq_true in Hp.
  destruct (decide (c < p)) as [Hc|Hc].
  { specialize (Hq c Hc). rewrite look_block, decide_True, bool_decide_eq_true_2 in Hq by lia. done. }
  assert (c = p) as -> by lia. rewrite !app_length, !replicate_length. do 3 f_equal. lia.
Qed.

(** * Grids given by a function *)
Definition grid_of {A} (w h : nat) (f : nat -> nat -> A) : list A :=
  (fun p => f (p `div` w) (p mod w)) <$> seq 0 (w * h).
Lemma grid_of_length {A} w h (f : nat -> nat -> A) : length (grid_of w h f) = w * h.
Proof. unfold grid_of. by rewrite fmap_length, seq_length. Qed.
Lemma at_div w i j : j < w -> (w * i + j) `div` w = i /\ (w * i + j) mod w = j.
Proof.
  intros H. split.
  - symmetry. by apply (Nat.div_unique _ _ _ j).
  - symmetry. by apply (Nat.mod_unique _ _ i).
Qed.
Lemma grid_of_at {A} w h (f : nat -> nat -> A) i j : i < h -> j < w -> grid_of w h f !! (w * i + j) = Some (f i j).
Proof.
  intros Hi Hj. unfold grid_of. rewrite list_lookup_fmap, lookup_seq_lt by nia. cbn. destruct (at_div w i j Hj) as [-> ->]. done.
Qed.
Lemma grid_at {A} w h (g : list A) p x : length g = w * h -> g !! p = Some x ->
  exists i j, i < h /\ j < w /\ p = w * i + j.
Proof.
  intros Hl Hp. apply lookup_lt_Some in Hp. exists (p `div` w), (p mod w).
  assert (w <> 0) by (intros ->; lia). split_and!.
  - apply Nat.div_lt_upper_bound; lia.
  - by apply Nat.mod_upper_bound.
  - by apply Nat.div_mod.
Qed.
Lemma look_row {A} w h (g : list A) i j : length g = w * h -> i < h ->
  grid_row w g i !! j = if decide (j < w) then g !! (w * i + j) else None.
Proof.
  intros Hl Hi. unfold grid_row. case_decide.
  - rewrite lookup_take by done. by rewrite lookup_drop.
  - apply lookup_ge_None_2. rewrite take_length. lia.
Qed.
Lemma look_col {A} w h (g : list A) i j : length g = w * h -> j < w ->
  grid_col w h g j !! i = if decide (i < h) then g !! (w * i + j) else None.
Proof.
  intros Hl Hj. rewrite <-sel_col_ps. rewrite sel_lookup by (rewrite Hl; by apply col_ps_good). unfold col_ps.
  rewrite list_lookup_fmap. case_decide.
  - rewrite lookup_seq_lt by done. cbn. f_equal. lia.
  - rewrite lookup_seq_ge by lia. done.
Qed.
Lemma grid_of_row {A} w h (f : nat -> nat -> A) i : i < h -> grid_row w (grid_of w h f) i = f i <$> seq 0 w.
Proof.
  intros Hi. apply list_eq. intros j. rewrite (look_row w h), list_lookup_fmap by (by try apply grid_of_length). case_decide.
  - rewrite grid_of_at, lookup_seq_lt by done. done.
  - rewrite lookup_seq_ge by lia. done.
Qed.
Lemma grid_of_col {A} w h (f : nat -> nat -> A) j : j < w -> grid_col w h (grid_of w h f) j = (fun i => f i j) <$> seq 0 h.
Proof.
  intros Hj. apply list_eq. intros i. rewrite (look_col w h), list_lookup_fmap by (by try apply grid_of_length). case_decide.
  - rewrite grid_of_at, lookup_seq_lt by done. done.
  - rewrite lookup_seq_ge by lia. done.
Qed.

(** * The family *)
Section chain.
Context (n : nat) (Hn : 2 <= n).
Local Notation w := (n + 2).
Local Notation col := (chain_cols n).
Local Notation row := (chain_rows n).

Lemma cols_length : length col = w.
Proof. unfold chain_cols. cbn [length]. rewrite app_length, replicate_length. cbn [length]. lia. Qed.
Lemma rows_length : length row = n.
Proof. unfold chain_rows. cbn [length]. rewrite replicate_length. lia. Qed.
Lemma col_at j : j < w -> col !! j = Some [if decide (j = 0) then n else if decide (j = 1) then 1 else if decide (j = n + 1) then 1 else 2].
Proof.
  intros Hj. unfold chain_cols. destruct j as [|[|j]]; [done|done|].
  change ((replicate (n - 1) [2] ++ [[1]]) !! j = Some [if decide (S (S j) = 0) then n else if decide (S (S j) = 1) then 1
    else if decide (S (S j) = n + 1) then 1 else 2]).
  rewrite !(decide_False (P := S (S j) = _)) by lia. case_decide.
  - rewrite lookup_app_r, replicate_length by (rewrite replicate_length; lia). by replace (j - (n - 1)) with 0 by lia.
  - rewrite lookup_app_l by (rewrite replicate_length; lia). by rewrite lookup_replicate_2 by lia.
Qed.
Lemma row_at i : i < n -> row !! i = Some (if decide (i = 0) then [3] else [1; 2]).
Proof.
  intros Hi. unfold chain_rows. destruct i as [|i]; [done|]. rewrite lookup_cons_ne_0 by done. cbn [pred].
  rewrite decide_False by lia. by rewrite lookup_replicate_2 by lia.
Qed.
Lemma cols_proper : Forall proper col.
Proof.
  apply Forall_lookup. intros j rule Hj. pose proof (lookup_lt_Some _ _ _ Hj) as Hlt. rewrite cols_length in Hlt. rewrite col_at in Hj by done.
  injection Hj as <-. unfold proper. cbn. split; intros [= H]; repeat case_decide; lia.
Qed.
Lemma rows_proper : Forall proper row.
Proof.
  apply Forall_lookup. intros i rule Hi. pose proof (lookup_lt_Some _ _ _ Hi) as Hlt. rewrite rows_length in Hlt. rewrite row_at in Hi by done.
  injection Hi as <-. case_decide; split; done.
Qed.

(** The lines of the picture. *)
Lemma stair_col j : j < w -> (fun i => stair i j) <$> seq 0 n =
  replicate (if decide (j = 0) then 0 else j - 2) false ++
  replicate (if decide (j = 0) then n else if decide (j = 1) then 1 else if decide (j = n + 1) then 1 else 2) true ++
  replicate (if decide (j = 0) then 0 else if decide (j = 1) then n - 1 else n - j) false.
Proof.
  intros Hj. apply list_eq. intros i. rewrite look_block, list_lookup_fmap. unfold stair. destruct (decide (i < n)) as [Hi|Hi].
  - rewrite lookup_seq_lt by done. cbn. destruct (decide (j = 0)) as [->|H0]; [|destruct (decide (j = 1)) as [->|H1]].
    + rewrite decide_True by lia. cbn. f_equal. symmetry. by apply bool_decide_eq_true_2; lia.
    + rewrite decide_True by lia. f_equal. apply Bool.eq_iff_eq_true.
      rewrite bool_decide_eq_true, !orb_true_iff, !Nat.eqb_eq. lia.
    + rewrite decide_True by (case_decide; lia). f_equal. apply Bool.eq_iff_eq_true.
      rewrite bool_decide_eq_true, !orb_true_iff, !Nat.eqb_eq. case_decide; lia.
  - rewrite lookup_seq_ge by lia. rewrite decide_False; [done|]. repeat case_decide; lia.
Qed.
Lemma stair_row i : i < n -> stair i <$> seq 0 w = true :: replicate i false ++ replicate 2 true ++ replicate (n - 1 - i) false.
Proof.
  intros Hi. apply list_eq. intros j. rewrite list_lookup_fmap. destruct j as [|j].
  - rewrite lookup_seq_lt by lia. done.
  - rewrite (lookup_cons_ne_0 _ _ (S j)) by done. cbn [pred]. rewrite look_block. destruct (decide (S j < w)) as [Hj|Hj].
    + rewrite lookup_seq_lt by lia. rewrite decide_True by lia. cbn [fmap option_fmap option_map]. f_equal. unfold stair. cbn [Nat.eqb orb].
      apply Bool.eq_iff_eq_true. rewrite bool_decide_eq_true, !orb_true_iff, !Nat.eqb_eq. lia.
    + rewrite lookup_seq_ge by lia. rewrite decide_False by lia. done.
Qed.
Lemma spells_12 c d : spells [1; 2] (true :: replicate (S c) false ++ replicate 2 true ++ replicate d false).
Proof.
  exists [true], (replicate c false ++ replicate 2 true ++ replicate d false). split_and!; [done|by exists 0, 0|].
  by exists c, d.
Qed.
Lemma picture_col j : j < w -> spells [if decide (j = 0) then n else if decide (j = 1) then 1 else if decide (j = n + 1) then 1 else 2]
  ((fun i => stair i j) <$> seq 0 n).
Proof. intros Hj. rewrite stair_col by done. eexists _, _. done. Qed.
Lemma picture_row i : i < n -> spells (if decide (i = 0) then [3] else [1; 2]) (stair i <$> seq 0 w).
Proof.
  intros Hi. rewrite stair_row by done. case_decide.
  - subst i. exists 0, (n - 1). cbn. by rewrite Nat.sub_0_r.
  - destruct i as [|i]; [lia|]. apply spells_12.
Qed.
Lemma picture_solution : solution col row (chain_picture n).
Proof.
  unfold solution. rewrite cols_length, rows_length. change (chain_picture n) with (grid_of w n stair).
  split_and!; [apply grid_of_length|..].
  - intros j rule Hj. pose proof (lookup_lt_Some _ _ _ Hj) as Hlt. rewrite cols_length in Hlt. rewrite col_at in Hj by done.
    injection Hj as <-. rewrite grid_of_col by done. by apply picture_col.
  - intros i rule Hi. pose proof (lookup_lt_Some _ _ _ Hi) as Hlt. rewrite rows_length in Hlt. rewrite row_at in Hi by done.
    injection Hi as <-. rewrite grid_of_row by done. by apply picture_row.
Qed.

(** The first [a] rows and [b] columns of the picture. *)
Definition known (a b i j : nat) : square := if decide (i < a \/ j < b) then sq (stair i j) else Blank.
Local Notation part a b := (grid_of w n (known a b)).
Lemma grid_of_le (f f' : nat -> nat -> square) : (forall i j, i < n -> j < w -> sqle (f i j) (f' i j)) -> gle (grid_of w n f) (grid_of w n f').
Proof.
  intros H. apply Forall2_same_length_lookup. split; [by rewrite !grid_of_length|].
  intros p x y Hx Hy. destruct (grid_at w n _ p x (grid_of_length _ _ _) Hx) as (i&j&Hi&Hj&->).
  rewrite grid_of_at in Hx, Hy by done. injection Hx as <-. injection Hy as <-. by apply H.
Qed.
Lemma part_le a b a' b' : a <= a' -> b <= b' -> gle (part a b) (part a' b').
Proof.
  intros Ha Hb. apply grid_of_le. intros i j _ _. unfold known. case_decide as H1; [|by left].
  rewrite decide_True by lia. by right.
Qed.
Lemma part_col a : 4 <= n - a -> forall j rule, col !! j = Some rule -> closed rule (grid_col w n (part a (a + 2)) j).
Proof.
  intros Ha j rule Hj. pose proof (lookup_lt_Some _ _ _ Hj) as Hlt. rewrite cols_length in Hlt. rewrite col_at in Hj by done.
  injection Hj as <-. rewrite grid_of_col by done. destruct (decide (j < a + 2)) as [Hd|Hd].
  - replace ((fun i => known a (a + 2) i j) <$> seq 0 n) with ((fun x => sq x) <$> ((fun i => stair i j) <$> seq 0 n)).
    { apply full_closed. by apply picture_col. }
    rewrite <-list_fmap_compose. apply list_fmap_ext. intros ? i _. unfold known. cbn. by rewrite decide_True by lia.
  - set (v := if decide (j = 0) then n else if decide (j = 1) then 1 else if decide (j = n + 1) then 1 else 2).
    assert (1 <= v <= 2) as Hv. { unfold v. rewrite !(decide_False (P := j = _)) by lia. case_decide; lia. }
    replace ((fun i => known a (a + 2) i j) <$> seq 0 n) with (((fun x => sq x) <$> replicate a false) ++ replicate (n - a) Blank).
    { apply (tail_closed [v] _ v); [lia|lia|]. intros q Hq. exists (a + q), (n - a - q - v). rewrite replicate_add, <-app_assoc. done. }
    apply list_eq. intros i. rewrite list_lookup_fmap, fmap_replicate. destruct (decide (i < n)) as [Hi|Hi].
    + rewrite lookup_seq_lt by done. cbn [fmap option_fmap option_map Nat.add]. unfold known. destruct (decide (i < a)).
      * rewrite lookup_app_l by (by rewrite replicate_length). rewrite lookup_replicate_2 by done. rewrite decide_True by lia.
        replace (stair i j) with false; [done|]. symmetry. unfold stair. rewrite !orb_false_iff, !Nat.eqb_neq. lia.
      * rewrite lookup_app_r by (rewrite replicate_length; lia). rewrite replicate_length, lookup_replicate_2 by lia. by rewrite decide_False by lia.
    + rewrite lookup_seq_ge by lia. apply lookup_ge_None_2. rewrite app_length, !replicate_length. lia.
Qed.
Lemma part_row a : 4 <= n - a -> forall i rule, row !! i = Some rule -> closed rule (grid_row w (part (a + 1) (a + 2)) i).
Proof.
  intros Ha i rule Hi. pose proof (lookup_lt_Some _ _ _ Hi) as Hlt. rewrite rows_length in Hlt. rewrite row_at in Hi by done.
  injection Hi as <-. rewrite grid_of_row by done. destruct (decide (i < a + 1)) as [Hd|Hd].
  - replace (known (a + 1) (a + 2) i <$> seq 0 w) with ((fun x => sq x) <$> (stair i <$> seq 0 w)).
    { apply full_closed. by apply picture_row. }
    rewrite <-list_fmap_compose. apply list_fmap_ext. intros ? j _. unfold known. cbn. by rewrite decide_True by lia.
  - rewrite decide_False by lia.
    replace (known (a + 1) (a + 2) i <$> seq 0 w) with (((fun x => sq x) <$> (true :: replicate (a + 1) false)) ++ replicate (n - a) Blank).
    { apply (tail_closed [1; 2] _ 2); [lia|lia|]. intros q Hq. pose proof (spells_12 (a + q) (n - a - q - 2)) as Hs.
      replace (S (a + q)) with (a + 1 + q) in Hs by lia. rewrite replicate_add, <-app_assoc in Hs. exact Hs. }
    apply list_eq. intros j. rewrite list_lookup_fmap. destruct (decide (j < w)) as [Hj|Hj].
    + rewrite lookup_seq_lt by done. cbn [fmap option_fmap option_map Nat.add]. unfold known. destruct (decide (j < a + 2)).
      * rewrite decide_True by lia. destruct j as [|j]; [done|]. rewrite fmap_cons, fmap_replicate. rewrite <-app_comm_cons, lookup_cons_ne_0 by done. cbn [pred].
        rewrite lookup_app_l by (rewrite replicate_length; lia). rewrite lookup_replicate_2 by lia.
        replace (stair i (S j)) with false; [done|]. symmetry. unfold stair. rewrite !orb_false_iff, !Nat.eqb_neq. lia.
      * rewrite decide_False by lia. rewrite lookup_app_r by (rewrite fmap_length; cbn [length]; rewrite replicate_length; lia).
        rewrite fmap_length. cbn [length]. rewrite replicate_length. by rewrite lookup_replicate_2 by lia.
    + rewrite lookup_seq_ge by lia. apply lookup_ge_None_2. rewrite app_length, fmap_length. cbn [length]. rewrite !replicate_length. lia.
Qed.

(** A closed grid below the picture is the picture. *)
Section full.
Context (g : list square) (Hg : gle g (grid_of w n (fun i j => sq (stair i j)))).
Context (Hcl : closed_grid col row g).
Local Notation has i j := (g !! (w * i + j) = Some (sq (stair i j))).
Lemma g_length : length g = w * n.
Proof. rewrite (Forall2_length _ _ _ Hg). apply grid_of_length. Qed.
Lemma has_or i j : i < n -> j < w -> g !! (w * i + j) = Some Blank \/ has i j.
Proof.
  intros Hi Hj. destruct (lookup_lt_is_Some_2 g (w * i + j)) as [x Hx]; [rewrite g_length; nia|].
  pose proof (Forall2_lookup_lr _ _ _ _ _ _ Hg Hx (grid_of_at w n _ i j Hi Hj)) as [->| ->]; [by left|by right].
Qed.
Lemma has_col j rule : j < w -> col !! j = Some rule ->
  (forall b, spells rule b -> length b = n -> (forall i, i < n -> has i j -> b !! i = Some (stair i j)) -> b = (fun i => stair i j) <$> seq 0 n) ->
  forall i, i < n -> has i j.
Proof.
  intros Hj Hr Hu i Hi. destruct Hcl as (_&Hc&_). specialize (Hc j rule Hr). rewrite cols_length, rows_length in Hc.
  destruct (has_or i j Hi Hj) as [Hb|]; [|done]. exfalso.
  apply (unique_closed _ _ ((fun i => stair i j) <$> seq 0 n) Hc) with (i := i).
  - intros b [Hs Ha]. apply Hu; [done|..].
    + rewrite <-(Forall2_length _ _ _ Ha). rewrite <-sel_col_ps, sel_length; [by unfold col_ps; rewrite fmap_length, seq_length|].
      rewrite g_length. by apply col_ps_good.
    + intros k Hk Hhas. destruct (Forall2_lookup_l _ _ _ k (sq (stair k j)) Ha) as (x&Hx&Hag).
      { rewrite (look_col w n) by (done || apply g_length). by rewrite decide_True. }
      rewrite Hx. f_equal. by destruct (stair k j), x.
  - rewrite (look_col w n) by (done || apply g_length). by rewrite decide_True.
Qed.
Lemma has_row i rule : i < n -> row !! i = Some rule ->
  (forall b, spells rule b -> length b = w -> (forall j, j < w -> has i j -> b !! j = Some (stair i j)) -> b = stair i <$> seq 0 w) ->
  forall j, j < w -> has i j.
Proof.
  intros Hi Hr Hu j Hj. destruct Hcl as (_&_&Hc). specialize (Hc i rule Hr). rewrite cols_length in Hc.
  destruct (has_or i j Hi Hj) as [Hb|]; [|done]. exfalso.
  apply (unique_closed _ _ (stair i <$> seq 0 w) Hc) with (i := j).
  - intros b [Hs Ha]. apply Hu; [done|..].
    + rewrite <-(Forall2_length _ _ _ Ha). unfold grid_row. rewrite take_length, drop_length, g_length. nia.
    + intros k Hk Hhas. destruct (Forall2_lookup_l _ _ _ k (sq (stair i k)) Ha) as (x&Hx&Hag).
      { rewrite (look_row w n) by (done || apply g_length). by rewrite decide_True. }
      rewrite Hx. f_equal. by destruct (stair i k), x.
  - rewrite (look_row w n) by (done || apply g_length). by rewrite decide_True.
Qed.
Lemma stair_true i j : stair i j = true <-> j = 0 \/ j = i + 1 \/ j = i + 2.
Proof. unfold stair. rewrite !orb_true_iff, !Nat.eqb_eq. lia. Qed.
Lemma stair_false i j : j <> 0 -> j <> i + 1 -> j <> i + 2 -> stair i j = false.
Proof. intros H1 H2 H3. unfold stair. rewrite !orb_false_iff, !Nat.eqb_neq. lia. Qed.
Lemma full_start i : i < n -> has i 0.
Proof.
  apply (has_col 0 [n]); [lia|by rewrite col_at by lia|]. intros b (c&d&->) Hl _. rewrite !app_length, !replicate_length in Hl.
  rewrite stair_col by lia. assert (c = 0) as -> by lia. assert (d = 0) as -> by lia. done.
Qed.
Lemma full_col j : 1 <= j < w -> (forall i, i < j - 1 -> has i j) -> has (j - 2) j -> forall i, i < n -> has i j.
Proof.
  intros Hj Hk Hk0. eapply has_col; [lia|apply col_at; lia|]. intros b Hs Hl Ha. rewrite stair_col by lia. rewrite (decide_False (P := j = 0)) in Hs by lia.
  rewrite !(decide_False (P := j = 0)) by lia. cbn [spells] in Hs.
  apply (block_at _ _ (j - 2)) in Hs.
  - rewrite Hs. do 3 f_equal. rewrite Hl. repeat case_decide; lia.
  - repeat case_decide; lia.
  - rewrite Ha; [f_equal; apply stair_true; lia|lia|done].
  - intros q Hq. rewrite Ha; [f_equal; apply stair_false; lia|lia|apply Hk; lia].
Qed.
Lemma full_row i : i < n -> (forall j, j < i + 1 -> has i j) -> (1 <= i -> has i (i + 1)) -> forall j, j < w -> has i j.
Proof.
  intros Hi Hk Hk0. eapply has_row; [lia|by apply row_at|]. intros b Hs Hl Ha. rewrite stair_row by lia. destruct (decide (i = 0)) as [->|Hi0].
  - cbn [spells] in Hs. apply (block_at _ _ 0) in Hs; [|lia| |lia].
    + rewrite Hs. cbn. do 3 f_equal. rewrite Hl. f_equal. lia.
    + rewrite Ha; [done|lia|apply Hk; lia].
  - destruct Hs as (b1&b2&->&(c1&d1&->)&(c2&d2&->)).
    assert (c1 = 0) as ->.
    { specialize (Ha 0 ltac:(lia) ltac:(apply Hk; lia)). destruct c1; [done|]. done. }
    set (b2 := replicate d1 false ++ false :: replicate c2 false ++ replicate 2 true ++ replicate d2 false).
    change (true :: b2 = true :: replicate i false ++ replicate 2 true ++ replicate (n - 1 - i) false).
    change (length (true :: b2) = w) in Hl. cbn [length] in Hl.
    change (forall j, j < w -> has i j -> (true :: b2) !! j = Some (stair i j)) in Ha.
    assert (one_block 2 b2) as Hb2.
    { exists (d1 + S c2), d2. unfold b2. rewrite replicate_add. cbn [replicate]. by rewrite <-(assoc_L (++)). }
    apply (block_at _ _ i) in Hb2.
    + rewrite Hb2. do 4 f_equal. lia.
    + lia.
    + specialize (Ha (S i) ltac:(lia)). change (b2 !! i = Some true). change (has i (S i) -> b2 !! i = Some (stair i (S i))) in Ha. rewrite Ha; [f_equal; apply stair_true; lia|].
      replace (S i) with (i + 1) by lia. apply Hk0. lia.
    + intros q Hq. specialize (Ha (S q) ltac:(lia)). change (has i (S q) -> b2 !! q = Some (stair i (S q))) in Ha.
      rewrite Ha; [f_equal; apply stair_false; lia|]. apply Hk. lia.
Qed.
Lemma full_upto a : a <= n -> (forall i j, i < a -> j < w -> has i j) /\ (forall i j, i < n -> j < a + 1 -> has i j).
Proof.
  induction a as [|a IH]; intros Ha.
  - split; [lia|]. intros i j Hi Hj. assert (j = 0) as -> by lia. by apply full_start.
  - destruct IH as [H1 H2]; [lia|].
    assert (1 <= a -> forall i, i < n -> has i (a + 1)) as H3.
    { intros H. apply full_col; [lia|intros i Hi; apply H1; lia|apply H1; lia]. }
    assert (forall i j, i < S a -> j < w -> has i j) as H4.
    { intros i j Hi Hj. destruct (decide (i < a)); [by apply H1|]. assert (i = a) as -> by lia.
      apply full_row; [lia|intros k Hk; apply H2; lia|intros H; apply H3; lia|done]. }
    split; [done|]. intros i j Hi Hj. destruct (decide (j < a + 1)); [by apply H2|]. assert (j = a + 1) as -> by lia.
    apply full_col; [lia|intros k Hk; apply H4; lia|apply H4; lia|done].
Qed.
Lemma full : g = grid_of w n (fun i j => sq (stair i j)).
Proof.
  apply list_eq. intros p. destruct (g !! p) as [x|] eqn:Hp.
  - destruct (grid_at w n g p x g_length Hp) as (i&j&Hi&Hj&->). rewrite grid_of_at by done. rewrite <-Hp.
    destruct (full_upto n) as [H _]; [done|]. by apply H.
  - symmetry. apply lookup_ge_None_2. rewrite grid_of_length, <-g_length. by apply lookup_ge_None_1.
Qed.
End full.

(** * Rounds *)
Context (m : mode) (Hov : (N.of_nat (w * n) < usize_size m)%N).
Lemma Hov' : (N.of_nat (length col * length row) < usize_size m)%N.
Proof. by rewrite cols_length, rows_length. Qed.
Lemma Hdim' : 1 <= length row \/ length col <= 1.
Proof. rewrite rows_length. lia. Qed.

Lemma cols_stable U : length U = w * n -> (forall j rule, col !! j = Some rule -> closed rule (grid_col w n U j)) ->
  Forall (stable U) (col_lines col n).
Proof.
  intros Hl H. apply Forall_lookup. intros j l Hj. apply list_lookup_imap_Some in Hj as (rule&Hj&->). unfold stable. cbn [fst snd].
  rewrite cols_length, sel_col_ps. apply stable_closed; [exact (Forall_lookup_1 _ _ _ _ cols_proper Hj)|]. by apply H.
Qed.
Lemma rows_stable U : length U = w * n -> (forall i rule, row !! i = Some rule -> closed rule (grid_row w U i)) ->
  Forall (stable U) (row_lines w row).
Proof.
  intros Hl H. apply Forall_lookup. intros i l Hi. apply list_lookup_imap_Some in Hi as (rule&Hi&->). unfold stable. cbn [fst snd].
  pose proof (lookup_lt_Some _ _ _ Hi) as Hlt. rewrite rows_length in Hlt.
  rewrite (sel_row_ps w n) by done. apply stable_closed; [exact (Forall_lookup_1 _ _ _ _ rows_proper Hi)|]. by apply H.
Qed.

Lemma one_round_part a g g' c : 4 <= n - a -> gle g (part a (a + 1)) ->
  one_round m w (machine_new <$> col) (machine_new <$> row) g = Ret (Ok (c, g')) ->
  gle g' (part (a + 1) (a + 2)).
Proof.
  intros Ha Hg. assert (length g = w * n) as Hl by (rewrite (Forall2_length _ _ _ Hg); apply grid_of_length).
  pose proof (all_lines_good col row) as Hgood. apply Forall_app in Hgood as [Hg1 Hg2].
  unfold one_round. rewrite Hl. rewrite cols_length, rows_length in Hg1, Hg2.
  destruct (run_lines_spec (fun index => column_positions (w * n) index w) (enumerate (machine_new <$> col))
    (col_lines col n) false g) as [(g1&E&Hok)|[[E Herr]|[E Hex]]];
    [..|rewrite E; by cbn [bind]|rewrite E; by cbn [bind]].
  { unfold col_lines. rewrite cols_length.
    apply (enumerate_machines col (fun x rule => (rule, col_ps w n x)) (fun index => column_positions (w * n) index w)).
    intros i rule Hr. split; [done|]. apply lookup_lt_Some in Hr. rewrite cols_length in Hr. apply column_positions_spec; [done|lia]. }
  { by rewrite Hl. }
  rewrite E. cbn [bind]. destruct Hok as (Hle&_&Hleast&_).
  assert (gle g1 (part a (a + 2))) as Hg1'.
  { apply Hleast; [eapply gle_trans; [exact Hg|apply part_le; lia]|]. apply cols_stable; [apply grid_of_length|]. by apply part_col. }
  assert (length g1 = w * n) as Hl1 by (rewrite (Forall2_length _ _ _ Hg1'); apply grid_of_length).
  rewrite Hl1.
  destruct (run_lines_spec (fun index => row_positions m (w * n) index w) (enumerate (machine_new <$> row))
    (row_lines w row) (false || bool_decide (g1 <> g)) g1) as [(g2&E2&Hok2)|[[E2 Herr2]|[E2 Hex]]].
  { apply (enumerate_machines row (fun y rule => (rule, row_ps w y)) (fun index => row_positions m (w * n) index w)).
    intros i rule Hr. split; [done|]. apply row_positions_spec; [|done].
    apply lookup_lt_Some in Hr. by rewrite rows_length in Hr. }
  { by rewrite Hl1. }
  - rewrite E2. intros [= _ <-]. destruct Hok2 as (_&_&Hleast2&_).
    apply Hleast2; [eapply gle_trans; [exact Hg1'|apply part_le; lia]|]. apply rows_stable; [apply grid_of_length|]. by apply part_row.
  - by rewrite E2.
  - by rewrite E2.
Qed.
Lemma rounds_later cols rows g' k' l' : forall fuel g k l,
  rounds_cost fuel m w cols rows g k l = Ret (Ok g', (k', l')) -> k < k'.
Proof.
  induction fuel as [|fuel IH]; intros g k l; cbn [rounds_cost]; [done|].
  destruct (one_round_cost m w _ _ g l) as [[[[[] g1]|e] l1]|f]; cbn [bind]; try done.
  - intros H%IH. lia.
  - intros [= _ <- _]. lia.
Qed.
Lemma rounds_part : forall fuel g k l g' k' l', gle g (part k (k + 1)) ->
  rounds_cost fuel m w (machine_new <$> col) (machine_new <$> row) g k l = Ret (Ok g', (k', l')) -> k' <= n - 3 ->
  gle g' (part k' (k' + 1)).
Proof.
  induction fuel as [|fuel IH]; intros g k l g' k' l' Hg; cbn [rounds_cost]; [done|].
  pose proof (one_round_same m w (machine_new <$> col) (machine_new <$> row) g l) as Hsame.
  destruct (one_round_cost m w _ _ g l) as [[[[c g1]|e] l1]|f] eqn:E1; cbn [bind]; [|done|done]. cbn [forget bind] in Hsame.
  symmetry in Hsame. assert (4 <= n - k -> gle g1 (part (S k) (S k + 1))) as Hp.
  { intros Hk. replace (S k + 1) with (k + 2) by lia. replace (S k) with (k + 1) by lia. by eapply one_round_part. }
  destruct c.
  - intros Hr Hk. pose proof (rounds_later _ _ _ _ _ _ _ _ _ Hr) as Hkk. eapply IH; [|exact Hr|done]. apply Hp. lia.
  - intros [= <- <- <-] Hk. apply Hp. lia.
Qed.

Lemma chain_rounds : exists k l,
  solve_cost m col row = Ret (Ok ((fun x => sq x) <$> chain_picture n), (k, l)) /\ n - 2 <= k.
Proof.
  assert ((fun x => sq x) <$> chain_picture n = grid_of w n (fun i j => sq (stair i j))) as Hpic.
  { unfold chain_picture, grid_of. by rewrite <-list_fmap_compose. }
  assert (closed_grid col row (grid_of w n (fun i j => sq (stair i j)))) as Hclp.
  { rewrite <-Hpic. apply (solution_closed col row (chain_picture n)), picture_solution. }
  assert (length (replicate (w * n) Blank) = length col * length row) as Hl0 by (rewrite cols_length, rows_length; apply replicate_length).
  assert (forall f, gle (replicate (w * n) Blank) (grid_of w n f)) as Hstart.
  { intros f. apply Forall2_same_length_lookup. split; [by rewrite grid_of_length, replicate_length|].
    intros p x y [-> _]%lookup_replicate _. by left. }
  unfold solve_cost. rewrite (n_mul_small m _ _ Hov'). cbn [bind]. cbv zeta.
  replace (length col * length row) with (w * n) by (by rewrite cols_length, rows_length).
  destruct (rounds_spec m col row Hov' Hdim' (S (length (replicate (w * n) Blank))) (replicate (w * n) Blank) Hl0)
    as [(g&E&Hle&_&Hleast&Hst)|[[E [_ Herr]]|[E Hex]]].
  { pose proof (blanks_bound (replicate (w * n) Blank)). lia. }
  2:{ exfalso. apply (Herr (grid_of w n (fun i j => sq (stair i j)))); [apply Hstart|].
      apply stable_closed_grid; [apply cols_proper|apply rows_proper| |done]. rewrite cols_length, rows_length. apply grid_of_length. }
  2:{ exfalso. apply (proper_lines col row) in Hex; [done|]. split; [apply cols_proper|apply rows_proper]. }
  assert (length g = length col * length row) as Hlg by (rewrite <-Hl0; symmetry; by eapply Forall2_length).
  assert (closed_grid col row g) as Hcl by (apply stable_closed_grid; [apply cols_proper|apply rows_proper|done|done]).
  assert (gle g (grid_of w n (fun i j => sq (stair i j)))) as Hgp.
  { apply Hleast; [apply Hstart|]. apply stable_closed_grid; [apply cols_proper|apply rows_proper| |done].
    rewrite cols_length, rows_length. apply grid_of_length. }
  pose proof (full g Hgp Hcl) as ->.
  rewrite <-(rounds_same _ _ _ _ _ _ 0 0) in E. rewrite Hpic.
  destruct (rounds_cost _ m _ _ _ (replicate (w * n) Blank) 0 0) as [[r [k l]]|f] eqn:Ec; [|done].
  cbn [forget bind] in E. injection E as ->. exists k, l. split; [done|].
  destruct (decide (n - 2 <= k)) as [|Hk]; [done|]. exfalso. rewrite cols_length in Ec.
  apply rounds_part in Ec; [|apply Hstart|lia].
  pose proof (Forall2_lookup_lr _ _ _ (w * (n - 1) + (n + 1)) _ _ Ec (grid_of_at w n _ (n - 1) (n + 1) ltac:(lia) ltac:(lia))
    (grid_of_at w n _ (n - 1) (n + 1) ltac:(lia) ltac:(lia))) as Hx.
  unfold known in Hx. rewrite decide_False in Hx by lia. destruct Hx as [Hx|Hx]; by destruct (stair (n - 1) (n + 1)).
Qed.
End chain.

Lemma chain_spec (m : mode) n : 2 <= n -> (N.of_nat ((n + 2) * n) < usize_size m)%N ->
  solution (chain_cols n) (chain_rows n) (chain_picture n) /\
  exists k, solve_cost m (chain_cols n) (chain_rows n) =
      Ret (Ok (map (fun x : bool => if x then Filled else Blocked) (chain_picture n)), (k, k * (2 * n + 2))) /\
    n - 2 <= k.
Proof.
  intros Hn Hov. split; [by apply picture_solution|].
  destruct (chain_rounds n Hn m Hov) as (k&l&E&Hk). exists k. split; [|done].
  apply (solve_count m (chain_cols n) (chain_rows n) (Hov' n Hn m Hov) (Hdim' n Hn m Hov)) in E as Hc.
  destruct Hc as (_&_&Hc&_). destruct (Hc _ eq_refl) as [-> _]. rewrite E. rewrite (cols_length n Hn), (rows_length n Hn).
  do 4 f_equal. lia.
Qed.
Lemma chain_unbounded (m : mode) K : (4 * (N.of_nat K * N.of_nat K) < limit m)%N ->
  exists col row g l, solution col row g /\ exists k, K <= k /\
    solve_cost m col row = Ret (Ok (map (fun x : bool => if x then Filled else Blocked) g), (k, l)).
Proof.
  intros HK. destruct (chain_spec m (K + 2)) as (Hs&k&E&Hk); [lia| |].
  { rewrite !Nat2N.inj_mul, !Nat2N.inj_add. revert HK. generalize (N.of_nat K). intros k HK. words (word_of m).
    - assert (k < 32768)%N by nia. change (2 ^ 32)%N with 4294967296%N. nia.
    - assert (k < 2147483648)%N by nia. change (2 ^ 64)%N with 18446744073709551616%N. nia. }
  exists (chain_cols (K + 2)), (chain_rows (K + 2)), (chain_picture (K + 2)), (k * (2 * (K + 2) + 2)). split; [done|].
  exists k. split; [lia|done].
Qed.
