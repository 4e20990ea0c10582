(** The line deduction finds exactly the forced squares, and the grid deduction
    the least closed grid. *)
From Verif Require Import Base Nonogram SpecNonogram SpecNonogramDeduce NonogramStates NonogramLine NonogramDeduce
  NonogramGrid NonogramProofs.

Lemma filter_none (i : nat) (l : list nat) : Forall (fun s => i < s) l -> filter (fun s => s <= i) l = [].
Proof. induction 1 as [|s l Hs _ IH]; [done|]. rewrite filter_cons_False by lia. done. Qed.
Lemma starts_from_lower b : forall i prev, Forall (fun s => i <= s) (starts_from i prev b).
Proof.
  induction b as [|x b IH]; intros i prev; cbn [starts_from]; [constructor|].
  assert (Forall (fun s => i <= s) (starts_from (S i) x b)) as H.
  { eapply Forall_impl; [apply IH|]. cbn. lia. }
  destruct (x && negb prev); [constructor; [lia|done]|done].
Qed.
Lemma levels_count (b : list bool) : forall (prev : bool) k o i (v : bool) l, b !! i = Some v -> levels prev k b !! i = Some l ->
  l + (if v then 1 else 0) =
  k + 2 * length (filter (fun s => s <= o + i) (starts_from o prev b)) + (if prev then 1 else 0).
Proof.
  induction b as [|x b IH]; intros prev k o i v l; [done|]. cbn [levels starts_from].
  set (k' := if Bool.eqb x prev then k else S k). destruct i as [|i]; cbn [lookup list_lookup].
  - intros [= ->] [= <-]. rewrite Nat.add_0_r.
    pose proof (filter_none o (starts_from (S o) v b)) as Hf.
    destruct (v && negb prev) eqn:E.
    + rewrite filter_cons_True by lia. rewrite Hf.
      2:{ eapply Forall_impl; [apply starts_from_lower|]. cbn. lia. }
      unfold k'. destruct v, prev; try done; cbn; lia.
    + rewrite Hf. 2:{ eapply Forall_impl; [apply starts_from_lower|]. cbn. lia. }
      unfold k'. destruct v, prev; try done; cbn; lia.
  - intros H1 H2. specialize (IH x k' (S o) i v l H1 H2). replace (S o + i) with (o + S i) in IH by lia.
    destruct (x && negb prev) eqn:E.
    + rewrite filter_cons_True by lia. cbn [length]. unfold k' in IH. destruct x, prev; try done; cbn [Bool.eqb] in IH; lia.
    + unfold k' in IH. destruct x, prev; try done; cbn [Bool.eqb] in IH; lia.
Qed.
Lemma lv_count (b : list bool) i (v : bool) l : b !! i = Some v -> lv b !! i = Some l -> l + (if v then 1 else 0) = 2 * block_no b i.
Proof. intros H1 H2. pose proof (levels_count b false 0 0 i v l H1 H2). unfold block_no, starts. cbn [Nat.add] in *. lia. Qed.

(** What the deduction leaves in one square. *)
Lemma refine_forced rule g L R i sq : extremes rule g L R -> g !! i = Some sq ->
  exists sq', refine g (lv L) (lv R) !! i = Some sq' /\
    (sq <> Blank -> sq' = sq) /\
    (sq = Blank -> forall v, sq' = (if v : bool then Filled else Blocked) <-> forced rule g i v).
Proof.
  intros (HL&HR&Hb) Hsq.
  pose proof (fits_length _ _ _ HL) as HlL. pose proof (fits_length _ _ _ HR) as HlR.
  assert (i < length g) as Hi by (by apply lookup_lt_Some in Hsq).
  destruct (lookup_lt_is_Some_2 (lv L) i) as [a Ha]; [rewrite lv_length; lia|].
  destruct (lookup_lt_is_Some_2 (lv R) i) as [c Hc]; [rewrite lv_length; lia|].
  destruct (lookup_lt_is_Some_2 L i) as [x Hx]; [lia|].
  destruct (lookup_lt_is_Some_2 R i) as [y Hy]; [lia|].
  exists (refine_cell sq a c). split; [by apply refine_lookup|]. split; [by destruct sq|].
  intros -> v. cbn [refine_cell].
  pose proof (lv_parity _ _ _ _ Hx Ha) as Pa. pose proof (lv_parity _ _ _ _ Hy Hc) as Pc.
  pose proof (lv_count _ _ _ _ Hx Ha) as Ca. pose proof (lv_count _ _ _ _ Hy Hc) as Cc. split.
  - case_decide as He; [|by destruct v]. intros Hv. assert (Nat.odd a = v) as Hav by (by destruct (Nat.odd a), v).
    exists (block_no L i). intros b Hf. destruct (Hb b Hf) as [H1 H2].
    assert (i < length b) as Hib by (by rewrite (fits_length _ _ _ Hf)).
    destruct (lookup_lt_is_Some_2 (lv b) i) as [d Hd]; [by rewrite lv_length|].
    destruct (lookup_lt_is_Some_2 b i Hib) as [z Hz].
    pose proof (Forall2_lookup_lr _ _ _ _ _ _ H1 Hc Hd) as Hle1.
    pose proof (Forall2_lookup_lr _ _ _ _ _ _ H2 Hd Ha) as Hle2.
    pose proof (lv_parity _ _ _ _ Hz Hd) as Pd. pose proof (lv_count _ _ _ _ Hz Hd) as Cd.
    assert (d = a) as -> by lia. assert (z = x) as -> by congruence. split; [congruence|lia].
  - intros [k Hk]. destruct (Hk L HL) as [E1 E2]. destruct (Hk R HR) as [E3 E4].
    rewrite Hx in E1. rewrite Hy in E3. injection E1 as ->. injection E3 as ->.
    rewrite decide_True by (destruct v; lia). rewrite Pa. done.
Qed.

(** C44. *)
Lemma line_exact rule g : proper rule ->
  exists r, line_right_left (machine_new rule) g = Ret r /\
    (r = Err NoSolution <-> ~ exists b, fits rule g b) /\
    (forall e, r = Err e -> e = NoSolution) /\
    forall changed g', r = Ok (changed, g') ->
      length g' = length g /\ changed = bool_decide (g' <> g) /\
      (forall i sq, g !! i = Some sq -> sq <> Blank -> g' !! i = Some sq) /\
      (forall i v, g !! i = Some Blank ->
         (g' !! i = Some (if v : bool then Filled else Blocked) <-> forced rule g i v)).
Proof.
  intros Hp. destruct (line_spec rule g Hp) as [(L&R&Hx&->)|[-> Hno]].
  - eexists. split; [done|]. split_and!.
    + split; [done|]. intros Hn. exfalso. apply Hn. exists L. apply Hx.
    + done.
    + intros changed g' [= <- <-]. split_and!; [by apply refine_length|done|..].
      * intros i sq Hi Hsq. destruct (refine_forced rule g L R i sq Hx Hi) as (sq'&->&H1&_). by rewrite H1.
      * intros i v Hi. destruct (refine_forced rule g L R i Blank Hx Hi) as (sq'&->&_&H2). rewrite <-H2 by done.
        split; [by intros [= ->]|by intros ->].
  - eexists. split; [done|]. split_and!; [|by intros e [= <-]|done]. split; [|done]. intros _ [b Hb]. by apply (Hno b).
Qed.

Lemma stable_closed rule k : proper rule -> line_stable rule k <-> closed rule k.
Proof.
  intros Hp. unfold line_stable. destruct (line_exact rule k Hp) as (r&E&H1&H2&H3). rewrite E. split.
  - intros [= ->]. split.
    + destruct (line_spec rule k Hp) as [(L&R&Hx&_)|[E' _]]; [exists L; apply Hx|congruence].
    + intros i v Hi Hf. destruct (H3 _ _ eq_refl) as (_&_&_&H4). apply (H4 i v Hi) in Hf. rewrite Hi in Hf. by destruct v.
  - intros [Hb Hc]. destruct r as [[ch g']|e]. 2:{ pose proof (H2 e eq_refl) as ->. exfalso. by apply (proj1 H1 eq_refl). }
    destruct (H3 _ _ eq_refl) as (Hl&Hch&Hk&Hf). assert (g' = k) as ->.
    { apply list_eq. intros i. destruct (k !! i) as [sq|] eqn:Hi.
      - destruct (decide (sq = Blank)) as [->|Hn]; [|by apply Hk].
        destruct (lookup_lt_is_Some_2 g' i) as [s Hs]; [rewrite Hl; by apply lookup_lt_Some in Hi|]. rewrite Hs.
        destruct s; [done|..]; exfalso.
        + apply (Hc i true Hi). by apply Hf.
        + apply (Hc i false Hi). by apply Hf.
      - apply lookup_ge_None_2. rewrite Hl. by apply lookup_ge_None_1. }
    rewrite Hch, bool_decide_eq_false_2 by (intros H; by apply H). done.
Qed.

Lemma stable_closed_grid col row k : Forall proper col -> Forall proper row ->
  length k = length col * length row ->
  Forall (stable k) (all_lines col row) <-> closed_grid col row k.
Proof.
  intros Hpc Hpr Hl. rewrite stable_lines by done. unfold closed_grid. split.
  - intros [H1 H2]. split_and!; [done|..].
    + intros x rule Hx. apply stable_closed; [first [exact (Forall_lookup_1 _ _ _ _ Hpc Hx)|exact (Forall_lookup_1 _ _ _ _ Hpr Hy)]|]. by apply H1.
    + intros y rule Hy. apply stable_closed; [first [exact (Forall_lookup_1 _ _ _ _ Hpc Hx)|exact (Forall_lookup_1 _ _ _ _ Hpr Hy)]|]. by apply H2.
  - intros (_&H1&H2). split.
    + intros x rule Hx. apply stable_closed; [first [exact (Forall_lookup_1 _ _ _ _ Hpc Hx)|exact (Forall_lookup_1 _ _ _ _ Hpr Hy)]|]. by apply H1.
    + intros y rule Hy. apply stable_closed; [first [exact (Forall_lookup_1 _ _ _ _ Hpc Hx)|exact (Forall_lookup_1 _ _ _ _ Hpr Hy)]|]. by apply H2.
Qed.

(** C45. *)
Section grid.
  Context (m : mode) (col row : list (list nat)).
  Context (Hpc : Forall proper col) (Hpr : Forall proper row).
  Context (Hn : (N.of_nat (length col * length row) < usize_size m)%N).
  Context (Hd : 1 <= length row \/ length col <= 1).

  (** The deduction started from any grid of the right size. *)
  Lemma deduce_least k : length k = length col * length row ->
    (exists k', grid_right_left m k col row = Ret (Ok k') /\ refines k k' /\ closed_grid col row k' /\
       forall c, closed_grid col row c -> refines k c -> refines k' c) \/
    (grid_right_left m k col row = Ret (Err NoSolution) /\
       forall c, closed_grid col row c -> ~ refines k c).
  Proof.
    intros Hl. pose proof (blanks_bound k) as Hb. unfold grid_right_left.
    destruct (rounds_spec m col row Hn Hd (S (length k)) k Hl) as [(k'&E&Hle&_&Hleast&Hst)|[[E [_ Herr]]|[_ Hex]]]; [lia|..].
    - left. exists k'. assert (length k' = length col * length row) as Hl'.
      { rewrite <-Hl. symmetry. by eapply Forall2_length. }
      split_and!; [done|done|by apply stable_closed_grid|]. intros c Hc Hkc.
      assert (length c = length col * length row) as Hlc by (by destruct Hc).
      apply Hleast; [done|]. by apply stable_closed_grid.
    - right. split; [done|]. intros c Hc Hkc.
      assert (length c = length col * length row) as Hlc by (by destruct Hc).
      apply (Herr c); [done|]. by apply stable_closed_grid.
    - exfalso. by apply (proper_lines col row) in Hex.
  Qed.
End grid.

Lemma refines_antisym k k' : refines k k' -> refines k' k -> k = k'.
Proof. apply gle_antisym. Qed.
Lemma refines_refl k : refines k k.
Proof. apply gle_refl. Qed.

Lemma deduce_stop (m : mode) col row k : Forall proper col -> Forall proper row ->
  (N.of_nat (length col * length row) < usize_size m)%N -> 1 <= length row \/ length col <= 1 ->
  closed_grid col row k -> grid_right_left m k col row = Ret (Ok k).
Proof.
  intros Hpc Hpr Hn Hd Hk. assert (length k = length col * length row) as Hl by (by destruct Hk).
  destruct (deduce_least m col row Hpc Hpr Hn Hd k Hl) as [(k'&E&H1&_&H2)|[_ H]].
  - rewrite E. assert (k = k') as <-; [|done]. apply refines_antisym; [done|]. apply H2; [done|]. apply refines_refl.
  - exfalso. apply (H k Hk). apply refines_refl.
Qed.

Lemma solve_least (m : mode) col row : Forall proper col -> Forall proper row ->
  (N.of_nat (length col * length row) < usize_size m)%N -> 1 <= length row \/ length col <= 1 ->
  (exists k, closed_grid col row k /\ (forall c, closed_grid col row c -> refines k c) /\
     solve_nonogram m col row = Ret (Ok (map (fun s => match s with Filled => true | _ => false end) k))) \/
  ((forall c, ~ closed_grid col row c) /\ solve_nonogram m col row = Ret (Err NoSolution)).
Proof.
  intros Hpc Hpr Hn Hd. unfold solve_nonogram. rewrite n_mul_small by done. cbn [bind].
  assert (forall c, closed_grid col row c -> refines (replicate (length col * length row) Blank) c) as Hs.
  { intros c [Hl _]. by apply (start_least col row). }
  destruct (deduce_least m col row Hpc Hpr Hn Hd (replicate (length col * length row) Blank))
    as [(k&E&_&H1&H2)|[E H]]; [apply replicate_length|..]; rewrite E; cbn [bind].
  - left. exists k. split_and!; [done| |done]. intros c Hc. apply H2; [done|]. by apply Hs.
  - right. split; [|done]. intros c Hc. apply (H c Hc). by apply Hs.
Qed.

(** A solution is a closed grid. *)
Lemma solution_closed col row b : solution col row b ->
  closed_grid col row (map (fun x : bool => if x then Filled else Blocked) b).
Proof.
  intros (Hl&Hc&Hr). set (f := fun x : bool => if x then Filled else Blocked).
  assert (forall l : list bool, Forall2 agrees (map f l) l) as Hag.
  { intros l. induction l as [|[] l IH]; constructor; done. }
  assert (forall rule (l : list bool), spells rule l -> closed rule (map f l)) as Hcl.
  { intros rule l Hrule. split; [exists l; split; [done|apply Hag]|].
    intros i v Hi. exfalso. change (map f l) with (f <$> l) in Hi. rewrite list_lookup_fmap in Hi.
    destruct (l !! i) as [[]|]; done. }
  assert (forall (h : nat -> option bool) ys, omap (fun y => f <$> h y) ys = map f (omap h ys)) as Hom.
  { intros h ys. induction ys as [|y ys IH]; [done|]. cbn. destruct (h y); cbn; by rewrite ?IH. }
  split_and!.
  - by rewrite map_length.
  - intros x rule Hx. unfold grid_col.
    rewrite (list_omap_ext _ (fun y => f <$> b !! (length col * y + x)) _ (seq 0 (length row))).
    + rewrite Hom. apply Hcl. by apply Hc.
    + apply Forall2_same_length_lookup. split; [done|]. intros i y y' H1 H2. rewrite H1 in H2. injection H2 as <-.
      change (map f b) with (f <$> b). by rewrite list_lookup_fmap.
  - intros y rule Hy. unfold grid_row. rewrite skipn_map, firstn_map. apply Hcl. by apply Hr.
Qed.

(** C46: squares with a constant value that are not decided. *)
Lemma constant_refuted : forall v : bool, exists (rule : list nat) (line : list square) (i : nat), positive rule /\
  line !! i = Some Blank /\ (exists b, fits rule line b) /\
  (forall b, fits rule line b -> b !! i = Some v) /\
  line_right_left (machine_new rule) line = Ret (Ok (false, line)).
Proof.
  intros [].
  - exists [2; 2], [Blank; Blank; Blocked; Filled; Blank; Blocked; Blank; Blank], 4. split_and!.
    + repeat constructor.
    + done.
    + exists [true; true; false; true; true; false; false; false]. split; [apply (clue_spells [true; true; false; true; true; false; false; false])|]. repeat constructor.
    + intros b [Hc%spells_clue Hf]. 
      repeat match goal with H : Forall2 agrees (_ :: _) _ |- _ => inversion H; subst; clear H
             | H : Forall2 agrees [] _ |- _ => inversion H; subst; clear H end.
      cbn [agrees] in *. subst. 
      match goal with |- [?a; ?b; _; _; ?c; _; ?d; ?e] !! _ = _ => destruct c; [done|exfalso; destruct a, b, d, e; done] end.
    + vm_compute. reflexivity.
  - exists [1; 1], [Blank; Blank; Filled; Blank; Blank], 1. split_and!.
    + repeat constructor.
    + done.
    + exists [true; false; true; false; false]. split; [apply (clue_spells [true; false; true; false; false])|]. repeat constructor.
    + intros b [Hc%spells_clue Hf]. 
      repeat match goal with H : Forall2 agrees (_ :: _) _ |- _ => inversion H; subst; clear H
             | H : Forall2 agrees [] _ |- _ => inversion H; subst; clear H end.
      cbn [agrees] in *. subst. 
      match goal with |- [?a; ?c; _; ?d; ?e] !! _ = _ => destruct c; [exfalso; destruct a, d, e; done|done] end.
    + vm_compute. reflexivity.
Qed.
