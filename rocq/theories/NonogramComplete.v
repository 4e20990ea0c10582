(** Proofs for C46: where the line deduction decides every square with a
    constant value. *)
From Verif Require Import Base Nonogram SpecNonogram SpecNonogramDeduce SpecNonogramOverlap.
From Verif Require Import NonogramStates NonogramLine NonogramDeduce NonogramForced NonogramOverlap.

Lemma spells_app r1 : forall r2 b1 b2, r1 <> [] -> r2 <> [] -> spells r1 b1 -> spells r2 b2 -> spells (r1 ++ r2) (b1 ++ false :: b2).
Proof.
  induction r1 as [|v r1 IH]; intros r2 b1 b2 H1 H2 Hs1 Hs2; [done|]. destruct r1 as [|w r1].
  - cbn [app]. destruct r2 as [|u r2]; [done|]. by exists b1, b2.
  - destruct Hs1 as (c1&c2&->&Hc1&Hc2). exists c1, (c2 ++ false :: b2). split_and!; [by rewrite <-app_assoc|done|].
    by apply (IH r2 c2 b2).
Qed.

Section blank.
  Context (rule : list nat) (s n : nat) (Hpos : positive rule) (Hne : rule <> []) (Hn : n = room rule + s).
  Notation blank := (replicate n Blank).

  Lemma pushed_fits t : t <= s -> fits rule blank (replicate t false ++ pack rule ++ replicate (s - t) false).
  Proof.
    intros Ht. apply (fits_blank rule s n Hn). split.
    - eapply placed_spells; [done|]. by apply (placed_pack t (s - t) rule 0).
    - rewrite !app_length, !replicate_length, pack_length. lia.
  Qed.
  Lemma pushed_true t i k : t <= s -> in_block rule t k i ->
    (replicate t false ++ pack rule ++ replicate (s - t) false) !! i = Some true.
  Proof.
    intros Ht Hk. apply (pushed_cell rule s n Hn t); [by apply (placed_pack t (s - t) rule 0)| |by exists k].
    rewrite !app_length, !replicate_length, pack_length. destruct Hk as (v&Hv&Hi).
    pose proof (room_first rule k v Hv) as Hr.
    assert (drop k rule = v :: drop (S k) rule) as Hd by (by apply drop_S).
    rewrite Hd, room_cons in Hr. lia.
  Qed.

  Lemma constant_filled i : i < n -> (forall b, fits rule blank b -> b !! i = Some true) ->
    exists k, in_block rule 0 k i /\ in_block rule s k i.
  Proof.
    intros Hi Hall. pose proof (Hall _ (pushed_fits 0 ltac:(lia))) as H0.
    apply (pushed_cell rule s n Hn 0) in H0 as [k Hk]; [|by apply (placed_pack 0 (s - 0) rule 0)|by eapply lookup_lt_Some].
    exists k. split; [done|]. destruct Hk as (v&Hv&Hin). exists v. split; [done|].
    destruct (decide (first rule k + s <= i)) as [Hs|Hs]; [lia|]. exfalso.
    destruct k as [|k].
    - rewrite first_0 in *. pose proof (Hall _ (pushed_fits (S i) ltac:(lia))) as H1.
      rewrite lookup_app_l in H1 by (rewrite replicate_length; lia). apply lookup_replicate in H1 as [? _]. done.
    - set (t := i - first rule (S k) + 1). pose proof (lookup_lt_Some _ _ _ Hv) as Hlt.
      assert (take (S k) rule <> []) as Hne1 by (destruct rule; [done|by cbn]).
      assert (drop (S k) rule <> []) as Hne2.
      { intros E. apply (f_equal length) in E. rewrite drop_length in E. cbn in E. lia. }
      assert (positive (take (S k) rule)) as Hp1 by (by apply Forall_take).
      assert (positive (drop (S k) rule)) as Hp2 by (by apply Forall_drop).
      assert (S (room (take (S k) rule)) = first rule (S k)) as Hroom.
      { unfold room, first. rewrite take_length, Nat.min_l by lia. lia. }
      pose proof (room_first rule (S k) v Hv) as Hrf.
      assert (fits rule blank (pack (take (S k) rule) ++ false :: replicate t false ++ pack (drop (S k) rule) ++ replicate (s - t) false)) as Hf.
      { apply (fits_blank rule s n Hn). split.
        - rewrite <-(take_drop (S k) rule) at 1. apply spells_app; [done|done|..].
          + pose proof (placed_pack 0 0 _ 0 Hp1 Hne1) as Hpl. apply placed_spells in Hpl; [|done].
            cbn [replicate app] in Hpl. by rewrite app_nil_r in Hpl.
          + eapply placed_spells; [done|]. by apply (placed_pack t (s - t) _ 0).
        - rewrite !app_length. cbn [length]. rewrite !app_length, !replicate_length, !pack_length. unfold t. lia. }
      apply Hall in Hf. rewrite lookup_app_r in Hf by (rewrite pack_length; lia). rewrite pack_length in Hf.
      replace (i - room (take (S k) rule)) with t in Hf by (unfold t; lia). destruct t as [|t'] eqn:Et; [done|].
      rewrite lookup_cons in Hf. rewrite lookup_app_l in Hf by (rewrite replicate_length; lia).
      apply lookup_replicate in Hf as [? _]. done.
  Qed.

  Lemma constant_blocked i : i < n -> (forall b, fits rule blank b -> b !! i = Some false) ->
    s = 0 /\ forall k, ~ in_block rule 0 k i.
  Proof.
    intros Hi Hall. assert (forall t k, t <= s -> ~ in_block rule t k i) as Hno.
    { intros t k Ht Hk. pose proof (pushed_true t i k Ht Hk) as H1. rewrite (Hall _ (pushed_fits t Ht)) in H1. done. }
    split; [|intros k; apply Hno; lia]. destruct (decide (s = 0)) as [|Hs]; [done|]. exfalso.
    pose proof (placed_pack 0 s rule 0 Hpos Hne) as Hpl.
    destruct (pushed_last rule s n Hpos Hne Hn 0 _ i Hpl) as (k&v&Hv&H1&H2&_); [lia|]. cbn [plus] in H1, H2.
    destruct (decide (i < first rule k + v)) as [Hin|Hin]; [apply (Hno 0 k); [lia|]; exists v; split; [done|lia]|].
    pose proof (proj1 (Forall_lookup _ _) Hpos _ _ Hv) as Hv0. cbn in Hv0.
    destruct (decide (S k < length rule)) as [Hl|Hl].
    - specialize (H2 Hl). rewrite (first_next rule k v Hv) in H2. apply (Hno 1 k); [lia|]. exists v. split; [done|lia].
    - pose proof (room_first rule k v Hv) as Hr. pose proof (lookup_lt_Some _ _ _ Hv) as Hlt.
      rewrite (drop_S _ _ _ Hv), room_cons, (drop_ge rule (S k)), decide_True in Hr by (done || lia).
      apply (Hno (i + 1 - room rule) k); [lia|]. exists v. split; [done|lia].
  Qed.
End blank.

Lemma blank_complete rule n i (v : bool) : positive rule -> i < n ->
  (forall b, fits rule (replicate n Blank) b -> b !! i = Some v) ->
  forall changed line', line_right_left (machine_new rule) (replicate n Blank) = Ret (Ok (changed, line')) ->
  line' !! i = Some (if v then Filled else Blocked).
Proof.
  intros Hpos Hi Hall changed line' E. pose proof (positive_proper rule Hpos) as Hp.
  destruct (deduced rule Hp _ _ _ E) as ([b Hb]&_&_&_&Hf). apply Hf; [by apply lookup_replicate_2|].
  destruct (decide (rule = [])) as [->|Hne].
  - assert (forall b, fits [] (replicate n Blank) b -> b !! i = Some false /\ block_no b i = 0) as H0.
    { intros b' [(p&q&->) Hl]. apply Forall2_length in Hl. rewrite !app_length, !replicate_length in Hl. cbn [length] in Hl.
      cbn [replicate app]. rewrite <-replicate_add. split; [apply lookup_replicate_2; lia|].
      unfold block_no, starts. rewrite <-(app_nil_r (replicate _ _)), starts_false. done. }
    pose proof (proj1 (H0 b Hb)) as H1. rewrite (Hall b Hb) in H1. injection H1 as ->. exists 0. exact H0.
  - assert (room rule <= n) as Hr.
    { destruct (decide (n < room rule)) as [Hlt|]; [|lia]. rewrite (overlap_too_long rule n Hpos Hne Hlt) in E. done. }
    assert (n = room rule + (n - room rule)) as Hn by lia. destruct v.
    + apply (forced_filled rule (n - room rule) n Hpos Hne Hn); [done|]. by apply (constant_filled rule (n - room rule) n).
    + apply (forced_blocked rule (n - room rule) n Hpos Hne Hn); [done|]. by apply (constant_blocked rule (n - room rule) n).
Qed.

Lemma single_filled k line i changed line' : 0 < k -> line !! i = Some Blank ->
  (forall b, fits [k] line b -> b !! i = Some true) ->
  line_right_left (machine_new [k]) line = Ret (Ok (changed, line')) -> line' !! i = Some Filled.
Proof.
  intros Hk Hi Hall E. assert (positive [k]) as Hpos by (by repeat constructor).
  destruct (deduced [k] (positive_proper _ Hpos) _ _ _ E) as (_&_&_&_&Hf). apply (Hf i true Hi). exists 1.
  intros b Hb. split; [by apply Hall|]. destruct (spells_placed [k] 0 b Hpos) as [st Hst]; [done|apply Hb|].
  pose proof (placed_length _ _ _ _ Hst) as Hl. destruct st as [|p [|q st]]; [done| |done].
  apply (placed_block_no [k] [p] b i 0 p k); [done|done|done| |done].
  pose proof (proj1 (placed_cell _ _ _ _ _ _ Hst (Hall b Hb)) eq_refl) as (j&p'&v&Hj&_&Hin).
  destruct j; [|done]. injection Hj as <-. lia.
Qed.
