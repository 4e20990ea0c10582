(** Proofs of C70 (the line deduction is a closure operator) and C71 (the
    overlap rule). *)
From Verif Require Import Base Nonogram SpecNonogram SpecNonogramDeduce SpecNonogramOverlap.
From Verif Require Import NonogramStates NonogramLine NonogramDeduce NonogramForced.

Section closure.
  Context (rule : list nat) (Hp : proper rule).

  Lemma deduced line changed line' : line_right_left (machine_new rule) line = Ret (Ok (changed, line')) ->
    (exists b, fits rule line b) /\ length line' = length line /\ changed = bool_decide (line' <> line) /\
    (forall i sq, line !! i = Some sq -> sq <> Blank -> line' !! i = Some sq) /\
    (forall i v, line !! i = Some Blank ->
         (line' !! i = Some (if v : bool then Filled else Blocked) <-> forced rule line i v)).
  Proof.
    intros E. destruct (line_exact rule line Hp) as (r&E'&_&_&H). rewrite E in E'. injection E' as <-.
    destruct (H _ _ eq_refl) as (H1&H2&H3&H4). split_and!; try done.
    destruct (line_spec rule line Hp) as [(L&R&Hx&_)|[E' _]]; [exists L; apply Hx|congruence].
  Qed.

  Lemma deduced_refines line changed line' : line_right_left (machine_new rule) line = Ret (Ok (changed, line')) ->
    refines line line'.
  Proof.
    intros (_&Hl&_&Hk&_)%deduced. apply Forall2_same_length_lookup. split; [done|]. intros i x y Hx Hy.
    destruct (decide (x = Blank)) as [->|Hn]; [by left|]. right. rewrite (Hk i x Hx Hn) in Hy. congruence.
  Qed.

  Lemma deduced_fits line changed line' b : line_right_left (machine_new rule) line = Ret (Ok (changed, line')) ->
    fits rule line b <-> fits rule line' b.
  Proof.
    intros E. pose proof (deduced _ _ _ E) as (_&Hl&_&Hk&Hf). split; intros Hb; pose proof Hb as [Hs Ha]; (split; [done|]);
      apply Forall2_same_length_lookup; (split; [rewrite <-(Forall2_length _ _ _ Ha); congruence|]); intros i x y Hx Hy.
    - destruct (lookup_lt_is_Some_2 line i) as [sq Hsq]; [rewrite <-Hl; by eapply lookup_lt_Some|].
      pose proof (Forall2_lookup_lr _ _ _ _ _ _ Ha Hsq Hy) as Hag.
      destruct (decide (sq = Blank)) as [->|Hn]; [|rewrite (Hk i sq Hsq Hn) in Hx; congruence].
      destruct x; [done|..].
      + apply (Hf i true Hsq) in Hx as [k Hx]. destruct (Hx b Hb) as [Hx' _]. cbn. congruence.
      + apply (Hf i false Hsq) in Hx as [k Hx]. destruct (Hx b Hb) as [Hx' _]. cbn. congruence.
    - destruct (decide (x = Blank)) as [->|Hn]; [done|]. pose proof (Hk i x Hx Hn) as Hx'.
      apply (Forall2_lookup_lr _ _ _ _ _ _ Ha Hx' Hy).
  Qed.

  Lemma deduced_idempotent line changed line' : line_right_left (machine_new rule) line = Ret (Ok (changed, line')) ->
    line_right_left (machine_new rule) line' = Ret (Ok (false, line')).
  Proof.
    intros E. pose proof (deduced _ _ _ E) as ([b Hb]&Hl&_&Hk&Hf).
    apply (proj2 (stable_closed rule line' Hp)). split; [exists b; by apply (deduced_fits _ _ _ _ E)|].
    intros i v Hi [k Hv]. destruct (lookup_lt_is_Some_2 line i) as [sq Hsq]; [rewrite <-Hl; by eapply lookup_lt_Some|].
    destruct (decide (sq = Blank)) as [->|Hn]; [|rewrite (Hk i sq Hsq Hn) in Hi; congruence].
    assert (forced rule line i v) as H%(Hf i v Hsq).
    { exists k. intros b' Hb'. apply Hv. by apply (deduced_fits _ _ _ _ E). }
    rewrite Hi in H. by destruct v.
  Qed.

  Lemma fits_refines line more b : refines line more -> fits rule more b -> fits rule line b.
  Proof.
    intros Hr [Hs Ha]. split; [done|]. apply Forall2_same_length_lookup.
    split; [by rewrite (Forall2_length _ _ _ Hr), (Forall2_length _ _ _ Ha)|]. intros i x y Hx Hy.
    destruct (lookup_lt_is_Some_2 more i) as [z Hz].
    { rewrite <-(Forall2_length _ _ _ Hr). by eapply lookup_lt_Some. }
    destruct (Forall2_lookup_lr _ _ _ _ _ _ Hr Hx Hz) as [-> | ->]; [done|].
    apply (Forall2_lookup_lr _ _ _ _ _ _ Ha Hz Hy).
  Qed.
  Lemma deduced_monotone line more c1 c2 line' more' : refines line more ->
    line_right_left (machine_new rule) line = Ret (Ok (c1, line')) ->
    line_right_left (machine_new rule) more = Ret (Ok (c2, more')) -> refines line' more'.
  Proof.
    intros Hr (_&Hl&_&Hk&Hf)%deduced E2. pose proof (deduced _ _ _ E2) as ([b Hb]&Hl2&_&Hk2&Hf2).
    pose proof (Forall2_length _ _ _ Hr) as Hlr.
    apply Forall2_same_length_lookup. split; [congruence|]. intros i x y Hx Hy.
    destruct (lookup_lt_is_Some_2 line i) as [sq Hsq]; [rewrite <-Hl; by eapply lookup_lt_Some|].
    destruct (lookup_lt_is_Some_2 more i) as [sq2 Hsq2]; [rewrite <-Hl2; by eapply lookup_lt_Some|].
    assert (forall v : bool, forced rule line i v -> more' !! i = Some (if v then Filled else Blocked)) as HF.
    { intros v [k Hv]. destruct (decide (sq2 = Blank)) as [->|Hn].
      - apply (Hf2 i v Hsq2). exists k. intros b' Hb'. apply Hv. by eapply fits_refines.
      - rewrite (Hk2 i sq2 Hsq2 Hn). f_equal. destruct (Hv b (fits_refines _ _ _ Hr Hb)) as [Hbi _].
        pose proof (Forall2_lookup_lr _ _ _ _ _ _ (proj2 Hb) Hsq2 Hbi) as Hag. destruct sq2, v; done. }
    destruct (decide (sq = Blank)) as [->|Hn].
    - destruct x; [by left|..]; right.
      + apply (Hf i true Hsq), HF in Hx. congruence.
      + apply (Hf i false Hsq), HF in Hx. congruence.
    - right. rewrite (Hk i sq Hsq Hn) in Hx. injection Hx as <-.
      destruct (Forall2_lookup_lr _ _ _ _ _ _ Hr Hsq Hsq2) as [?|<-]; [done|].
      rewrite (Hk2 i sq Hsq2 Hn) in Hy. congruence.
  Qed.
  Lemma deduced_no_solution line more : refines line more ->
    line_right_left (machine_new rule) line = Ret (Err NoSolution) ->
    line_right_left (machine_new rule) more = Ret (Err NoSolution).
  Proof.
    intros Hr E. destruct (line_spec rule more Hp) as [(L&R&Hx&_)|[E' _]]; [|done]. exfalso.
    destruct (line_spec rule line Hp) as [(L'&R'&_&E')|[_ Hno]]; [congruence|].
    apply (Hno L). apply (fits_refines _ _ _ Hr). apply Hx.
  Qed.
End closure.

(** The overlap rule: lines with the positions where the blocks begin. *)
Fixpoint placed (o : nat) (rule st : list nat) (b : list bool) : Prop :=
  match rule, st with
  | [], [] => b = replicate (length b) false
  | v :: rule, p :: st => o <= p /\ 0 < v /\ exists b', b = replicate (p - o) false ++ replicate v true ++ b' /\
      ((rule = [] /\ st = [] /\ b' = []) \/ exists b'', b' = false :: b'' /\ placed (S (p + v)) rule st b'')
  | _, _ => False
  end.

Lemma placed_pad o b k : placed o [] [] b -> placed o [] [] (b ++ replicate k false).
Proof. cbn. intros ->. rewrite app_length, !replicate_length, replicate_add. done. Qed.

Lemma spells_placed rule : forall o b, positive rule -> rule <> [] -> spells rule b -> exists st, placed o rule st b.
Proof.
  induction rule as [|v rule IH]; intros o b Hpos Hne Hs; [done|]. apply Forall_cons in Hpos as [Hv Hpos].
  destruct rule as [|w rule].
  - destruct Hs as (i&j&->). exists [o + i]. cbn [placed]. split_and!; [lia|done|]. exists (replicate j false).
    split; [do 2 f_equal; lia|]. destruct j as [|j]; [by left|]. right. exists (replicate j false). split; [done|].
    by rewrite replicate_length.
  - destruct Hs as (b1&b2&->&(i&j&->)&Hs). destruct j as [|j].
    + destruct (IH (S (o + i + v)) b2) as [st Hst]; [done..|]. exists (o + i :: st). cbn [placed]. split_and!; [lia|done|].
      exists (false :: b2). split; [rewrite <-!app_assoc; f_equal; f_equal; lia|]. right. by exists b2.
    + destruct (IH (S (o + i + v) + S j) b2) as [st Hst]; [done..|]. exists (o + i :: st). split_and!; [lia|done|].
      exists (false :: replicate j false ++ false :: b2). split; [cbn; rewrite <-!app_assoc; do 2 f_equal; lia|].
      right. exists (replicate j false ++ false :: b2). split; [done|].
      destruct st as [|p st]; [done|]. destruct Hst as (H1&H2&b'&->&H3). cbn [placed]. split_and!; [lia|done|].
      exists b'. split; [|done]. change (false :: ?l) with (replicate 1 false ++ l). rewrite !app_assoc. f_equal. f_equal.
      rewrite <-!replicate_add. f_equal. lia.
Qed.

Lemma starts_false k b : forall o prev, starts_from o prev (replicate k false ++ b) =
  starts_from (o + k) (if decide (k = 0) then prev else false) b.
Proof.
  induction k as [|k IH]; intros o prev; cbn [replicate app starts_from andb]; [by rewrite Nat.add_0_r|].
  rewrite IH. rewrite Nat.add_succ_comm. rewrite (decide_False (P := S k = 0)) by done. by destruct (decide _).
Qed.
Lemma starts_true k b : forall o, starts_from o true (replicate k true ++ b) = starts_from (o + k) true b.
Proof.
  induction k as [|k IH]; intros o; cbn [replicate app starts_from andb negb]; [by rewrite Nat.add_0_r|].
  by rewrite IH, Nat.add_succ_comm.
Qed.
Lemma placed_starts rule : forall o st b, placed o rule st b -> starts_from o false b = st.
Proof.
  induction rule as [|v rule IH]; intros o [|p st] b H; try done.
  - cbn in H. rewrite H. rewrite <-(app_nil_r (replicate _ _)), starts_false. done.
  - destruct H as (H1&H2&b'&->&H3). rewrite starts_false. destruct v as [|v]; [lia|].
    assert (forall x : bool, x = false -> starts_from (o + (p - o)) x (replicate (S v) true ++ b') = p :: st) as H; [|by apply H; case_decide].
    intros x ->. cbn [replicate app starts_from andb negb]. f_equal; [lia|]. rewrite starts_true.
    destruct H3 as [(->&->&->)|(b''&->&Hpl)]; [done|]. cbn [starts_from andb].
    rewrite <-(IH _ _ _ Hpl). f_equal. lia.
Qed.

Lemma placed_length rule : forall o st b, placed o rule st b -> length st = length rule.
Proof.
  induction rule as [|v rule IH]; intros o [|p st] b H; try done.
  destruct H as (H1&H2&b'&->&[(->&->&->)|(b''&->&Hpl)]); [done|]. cbn. f_equal. by eapply IH.
Qed.

Lemma placed_ge rule : forall o st b k q, placed o rule st b -> st !! k = Some q -> o <= q.
Proof.
  induction rule as [|v rule IH]; intros o [|p st] b k q H Hk; try done.
  destruct H as (H1&H2&b'&->&H3). destruct k as [|k]; [by injection Hk as <-|].
  destruct H3 as [(->&->&->)|(b''&->&Hpl)]; [done|]. specialize (IH _ _ _ _ _ Hpl Hk). lia.
Qed.
(** Which squares are filled. *)
Lemma placed_cell rule : forall o st b i x, placed o rule st b -> b !! i = Some x ->
  x = true <-> exists k p v, st !! k = Some p /\ rule !! k = Some v /\ p <= o + i < p + v.
Proof.
  induction rule as [|v rule IH]; intros o [|p st] b i x H Hx; try done.
  - cbn in H. rewrite H in Hx. apply lookup_replicate in Hx as [-> _]. split; [done|]. by intros (k&p&v&Hk&_).
  - destruct H as (H1&H2&b'&->&H3).
    assert (i < p - o \/ p - o <= i < p - o + v \/ p - o + v <= i) as [Hi|[Hi|Hi]] by lia.
    + rewrite lookup_app_l, lookup_replicate_2 in Hx by (rewrite ?replicate_length; lia). injection Hx as <-.
      split; [done|]. intros ([|k]&q&w&Hk&Hw&Hin).
      * injection Hk as <-. lia.
      * exfalso. cbn in Hk, Hw. destruct H3 as [(->&->&->)|(b''&->&Hpl)]; [done|].
        pose proof (placed_ge _ _ _ _ _ _ Hpl Hk). lia.
    + rewrite lookup_app_r, lookup_app_l, lookup_replicate_2 in Hx by (rewrite ?replicate_length; lia). injection Hx as <-.
      split; [|done]. intros _. exists 0, p, v. split_and!; [done|done|lia..].
    + rewrite !lookup_app_r, !replicate_length in Hx by (rewrite ?replicate_length; lia).
      destruct H3 as [(->&->&->)|(b''&->&Hpl)]; [done|].
      destruct (i - (p - o) - v) as [|j] eqn:Ej.
      * injection Hx as <-. split; [done|]. intros ([|k]&q&w&Hk&Hw&Hin).
        -- injection Hk as <-. injection Hw as <-. lia.
        -- cbn in Hk, Hw. exfalso.
           pose proof (placed_ge _ _ _ _ _ _ Hpl Hk). lia.
      * cbn in Hx. rewrite (IH _ _ _ _ _ Hpl Hx). split.
        -- intros (k&q&w&Hk&Hw&Hin). exists (S k), q, w. split_and!; [done|done|lia..].
        -- intros ([|k]&q&w&Hk&Hw&Hin); [injection Hk as <-; injection Hw as <-; lia|]. exists k, q, w. split_and!; [done|done|lia..].
Qed.

Lemma room_cons v rule : room (v :: rule) = v + if decide (rule = []) then 0 else S (room rule).
Proof. unfold room. destruct rule; [rewrite decide_True by done; cbn; lia|rewrite decide_False by done; cbn; lia]. Qed.
Lemma first_S v rule k : first (v :: rule) (S k) = S (v + first rule k).
Proof. unfold first. cbn. lia. Qed.
Lemma first_0 rule : first rule 0 = 0.
Proof. unfold first. by rewrite take_0. Qed.
Lemma first_next rule k v : rule !! k = Some v -> first rule (S k) = S (first rule k + v).
Proof.
  revert k. induction rule as [|w rule IH]; intros [|k] Hk; try done.
  - injection Hk as <-. by rewrite first_S, !first_0, Nat.add_0_r.
  - rewrite !first_S, (IH k Hk). lia.
Qed.
Lemma room_first rule k v : rule !! k = Some v -> first rule k + room (drop k rule) = room rule.
Proof.
  revert k. induction rule as [|w rule IH]; intros [|k] Hk; try done.
  cbn [lookup list_lookup] in Hk. rewrite first_S, room_cons, decide_False by (by destruct rule). cbn [drop].
  rewrite <-(IH k Hk). lia.
Qed.
Lemma placed_bounds rule : forall o st b k p, placed o rule st b -> st !! k = Some p ->
  o + first rule k <= p /\ p + room (drop k rule) <= o + length b.
Proof.
  induction rule as [|v rule IH]; intros o [|p st] b k q H Hk; try done.
  destruct H as (H1&H2&b'&->&H3). rewrite !app_length, !replicate_length. destruct k as [|k].
  - injection Hk as <-. rewrite first_0. cbn [drop]. rewrite room_cons. split; [lia|].
    destruct H3 as [(->&->&->)|(b''&->&Hpl)]; [rewrite decide_True by done; cbn; lia|]. destruct rule as [|w rule]; [rewrite decide_True by done; cbn; lia|].
    destruct st as [|p' st]; [done|]. destruct (IH _ _ _ 0 p' Hpl eq_refl) as [Ha Hb]. cbn [drop] in Hb.
    pose proof (placed_ge _ _ _ _ 0 _ Hpl eq_refl). rewrite decide_False by done. cbn [length]. lia.
  - cbn in Hk. destruct H3 as [(->&->&->)|(b''&->&Hpl)]; [done|]. rewrite first_S. cbn [drop length].
    destruct (IH _ _ _ _ _ Hpl Hk) as [Ha Hb]. lia.
Qed.
Lemma placed_sorted rule : forall o st b k p v j q, placed o rule st b -> st !! k = Some p -> rule !! k = Some v ->
  st !! j = Some q -> k < j -> p + v < q.
Proof.
  induction rule as [|w rule IH]; intros o [|p' st] b k p v j q H Hk Hv Hj Hlt; try done.
  destruct H as (H1&H2&b'&->&H3). destruct j as [|j]; [lia|]. cbn in Hj.
  destruct H3 as [(->&->&->)|(b''&->&Hpl)]; [done|]. destruct k as [|k].
  - injection Hk as <-. injection Hv as <-. pose proof (placed_ge _ _ _ _ _ _ Hpl Hj). lia.
  - cbn in Hk, Hv. by apply (IH _ _ _ k p v j q Hpl); try done; lia.
Qed.
(** Counting the blocks begun so far. *)
Lemma count_begun (st : list nat) i n : n <= length st -> (forall j q, st !! j = Some q -> q <= i <-> j < n) ->
  length (filter (fun s => s <= i) st) = n.
Proof.
  revert n. induction st as [|q st IH]; intros n Hn H; [cbn in *; lia|]. rewrite filter_cons.
  pose proof (H 0 q eq_refl) as H0. destruct n as [|n].
  - rewrite decide_False by lia. apply IH; [lia|]. intros j q' Hj. specialize (H (S j) q' Hj). lia.
  - rewrite decide_True by lia. cbn. f_equal. apply IH; [cbn in Hn; lia|]. intros j q' Hj. specialize (H (S j) q' Hj). lia.
Qed.
Lemma placed_block_no rule st b i k p v : placed 0 rule st b -> st !! k = Some p -> rule !! k = Some v -> p <= i ->
  (forall q, st !! S k = Some q -> i < q) -> block_no b i = S k.
Proof.
  intros Hpl Hk Hv Hp Hq. unfold block_no, starts. rewrite (placed_starts _ _ _ _ Hpl).
  apply count_begun; [by apply lookup_lt_Some in Hk|]. intros j q Hj.
  pose proof (placed_length _ _ _ _ Hpl) as Hlen.
  assert (forall j q k p, st !! j = Some q -> st !! k = Some p -> j < k -> q < p) as Hsort.
  { intros j' q' k' p' Hj' Hk' Hlt. destruct (lookup_lt_is_Some_2 rule j') as [v' Hv']; [rewrite <-Hlen; by eapply lookup_lt_Some|].
    pose proof (placed_sorted _ _ _ _ _ _ _ _ _ Hpl Hj' Hv' Hk' Hlt). lia. }
  destruct (decide (j < k)) as [H1|H1]; [pose proof (Hsort _ _ _ _ Hj Hk H1); lia|].
  destruct (decide (j = k)) as [->|H2]; [assert (q = p) as -> by congruence; lia|].
  destruct (lookup_lt_is_Some_2 st (S k)) as [q' Hq']; [apply lookup_lt_Some in Hj; lia|]. specialize (Hq q' Hq').
  destruct (decide (j = S k)) as [->|H3]; [assert (q = q') as -> by congruence; lia|].
  pose proof (Hsort _ _ _ _ Hq' Hj). lia.
Qed.

Lemma placed_spells rule : forall o st b, rule <> [] -> placed o rule st b -> spells rule b.
Proof.
  induction rule as [|v rule IH]; intros o [|p st] b Hne H; try done.
  destruct H as (H1&H2&b'&->&H3). destruct rule as [|w rule].
  - destruct H3 as [(_&_&->)|(b''&->&Hpl)]; exists (p - o); [by exists 0|].
    destruct st; [|done]. cbn in Hpl. exists (S (length b'')). by rewrite Hpl at 1.
  - destruct H3 as [(?&_)|(b''&->&Hpl)]; [done|]. exists (replicate (p - o) false ++ replicate v true), b''.
    split_and!; [by rewrite <-app_assoc|exists (p - o), 0; by rewrite app_nil_r|]. by apply (IH _ _ _ ltac:(done) Hpl).
Qed.

(** All blocks pushed to one side. *)
Fixpoint pack (rule : list nat) : list bool :=
  match rule with
  | [] => []
  | [v] => replicate v true
  | v :: rule => replicate v true ++ false :: pack rule
  end.
Lemma pack_length rule : length (pack rule) = room rule.
Proof.
  induction rule as [|v [|w rule] IH]; [done|cbn; rewrite replicate_length; unfold room; cbn; lia|].
  change (pack (v :: w :: rule)) with (replicate v true ++ false :: pack (w :: rule)).
  rewrite app_length, replicate_length, room_cons, decide_False by done. cbn [length]. by rewrite IH.
Qed.
Definition firsts (o : nat) (rule : list nat) : list nat := (fun k => o + first rule k) <$> seq 0 (length rule).
Lemma firsts_cons o v rule : firsts o (v :: rule) = o :: firsts (S (o + v)) rule.
Proof.
  unfold firsts. cbn [length seq]. rewrite fmap_cons, first_0, Nat.add_0_r. f_equal.
  rewrite <-fmap_S_seq, <-list_fmap_compose. apply list_fmap_ext. intros i k _. unfold compose. rewrite first_S. lia.
Qed.
Lemma firsts_lookup o rule k v : rule !! k = Some v -> firsts o rule !! k = Some (o + first rule k).
Proof. intros Hk. unfold firsts. by rewrite list_lookup_fmap, lookup_seq_lt by (by eapply lookup_lt_Some). Qed.
Lemma firsts_length o rule : length (firsts o rule) = length rule.
Proof. unfold firsts. by rewrite fmap_length, seq_length. Qed.
Lemma placed_pack a s rule : forall o, positive rule -> rule <> [] ->
  placed o rule (firsts (o + a) rule) (replicate a false ++ pack rule ++ replicate s false).
Proof.
  revert a. induction rule as [|v rule IH]; intros a o Hpos Hne; [done|]. apply Forall_cons in Hpos as [Hv Hpos].
  rewrite firsts_cons. cbn [placed]. split_and!; [lia|done|]. replace (o + a - o) with a by lia.
  destruct rule as [|w rule].
  - exists (replicate s false). split; [done|]. destruct s as [|s]; [by left|]. right. exists (replicate s false).
    split; [done|]. cbn. by rewrite replicate_length.
  - exists (false :: pack (w :: rule) ++ replicate s false). split; [by cbn [pack]; rewrite <-app_assoc|]. right.
    eexists. split; [done|]. specialize (IH 0 (S (o + a + v)) Hpos ltac:(done)). rewrite Nat.add_0_r in IH. done.
Qed.

Lemma last_begun (st : list nat) i p : st !! 0 = Some p -> p <= i ->
  exists k q, st !! k = Some q /\ q <= i /\ forall q', st !! S k = Some q' -> i < q'.
Proof.
  revert p. induction st as [|x st IH]; intros p Hp Hi; [done|]. injection Hp as <-. destruct st as [|y st].
  - by exists 0, x.
  - destruct (decide (y <= i)) as [Hy|Hy].
    + destruct (IH y eq_refl Hy) as (k&q&Hk&Hq&Hn). by exists (S k), q.
    + exists 0, x. split_and!; [done|done|]. intros q' [= <-]. lia.
Qed.

Section overlap.
  Context (rule : list nat) (s n : nat) (Hpos : positive rule) (Hne : rule <> []) (Hn : n = room rule + s).
  Notation blank := (replicate n Blank).
  Let L := replicate 0 false ++ pack rule ++ replicate s false.
  Let R := replicate s false ++ pack rule ++ replicate 0 false.

  Lemma fits_blank b : fits rule blank b <-> spells rule b /\ length b = n.
  Proof.
    split.
    - intros [Hs Ha]. split; [done|]. apply Forall2_length in Ha. by rewrite replicate_length in Ha.
    - intros [Hs <-]. split; [done|]. apply Forall2_same_length_lookup. split; [by rewrite replicate_length|].
      by intros i x y [-> _]%lookup_replicate _.
  Qed.
  Lemma placed_L : placed 0 rule (firsts 0 rule) L.
  Proof. by apply (placed_pack 0 s rule 0). Qed.
  Lemma placed_R : placed 0 rule (firsts s rule) R.
  Proof. by apply (placed_pack s 0 rule 0). Qed.
  Lemma fits_L : fits rule blank L.
  Proof.
    apply fits_blank. split; [by apply (placed_spells _ _ _ _ Hne placed_L)|].
    unfold L. rewrite !app_length, pack_length, !replicate_length. lia.
  Qed.
  Lemma fits_R : fits rule blank R.
  Proof.
    apply fits_blank. split; [by apply (placed_spells _ _ _ _ Hne placed_R)|].
    unfold R. rewrite !app_length, pack_length, !replicate_length. lia.
  Qed.

  (** A block inside the line cannot leave the range between its extreme
      positions. *)
  Lemma placed_range st b k p v : placed 0 rule st b -> length b = n -> st !! k = Some p -> rule !! k = Some v ->
    first rule k <= p <= first rule k + s.
  Proof.
    intros Hpl Hl Hk Hv. pose proof (placed_bounds _ _ _ _ _ _ Hpl Hk). pose proof (room_first rule k v Hv). lia.
  Qed.
  Lemma pushed_cell t b i : placed 0 rule (firsts t rule) b -> i < length b ->
    b !! i = Some true <-> exists k, in_block rule t k i.
  Proof.
    intros Hpl Hi. destruct (lookup_lt_is_Some_2 b i Hi) as [x Hx]. rewrite Hx.
    pose proof (placed_cell _ _ _ _ _ _ Hpl Hx) as Hc. split.
    - intros [= ->]. destruct (proj1 Hc eq_refl) as (k&p&v&Hk&Hv&Hin). exists k, v.
      rewrite (firsts_lookup t rule k v Hv) in Hk. injection Hk as <-. split; [done|lia].
    - intros (k&v&Hv&Hin). f_equal. apply Hc. exists k, (t + first rule k), v.
      split_and!; [by eapply firsts_lookup|done|lia..].
  Qed.
  Lemma pushed_block_no t b i k v : placed 0 rule (firsts t rule) b -> rule !! k = Some v -> t + first rule k <= i ->
    (S k < length rule -> i < t + first rule (S k)) -> block_no b i = S k.
  Proof.
    intros Hpl Hv H1 H2. eapply placed_block_no; [done|by eapply firsts_lookup|done|done|]. intros q Hq.
    pose proof (lookup_lt_Some _ _ _ Hq) as Hlt. rewrite firsts_length in Hlt.
    destruct (lookup_lt_is_Some_2 rule (S k) Hlt) as [w Hw]. rewrite (firsts_lookup _ _ _ _ Hw) in Hq.
    injection Hq as <-. by apply H2.
  Qed.
  Lemma pushed_in_block t b i k : placed 0 rule (firsts t rule) b -> in_block rule t k i -> block_no b i = S k.
  Proof.
    intros Hpl (v&Hv&Hin). apply (pushed_block_no t b i k v); [done|done|lia|]. rewrite (first_next rule k v Hv). lia.
  Qed.
  Lemma pushed_none t b i : placed 0 rule (firsts t rule) b -> i < t -> block_no b i = 0.
  Proof.
    intros Hpl Hi. unfold block_no, starts. rewrite (placed_starts _ _ _ _ Hpl). apply count_begun; [lia|].
    intros j q (k&->&_)%list_lookup_fmap_inv. lia.
  Qed.
  Lemma pushed_last t b i : placed 0 rule (firsts t rule) b -> t <= i ->
    exists k v, rule !! k = Some v /\ t + first rule k <= i /\ (S k < length rule -> i < t + first rule (S k)) /\
      block_no b i = S k.
  Proof.
    intros Hpl Hi. destruct rule as [|v0 rule'] eqn:Er; [done|]. rewrite <-Er in *.
    destruct (last_begun (firsts t rule) i t) as (k&q&Hk&Hq&Hnx); [|done|].
    { rewrite (firsts_lookup t rule 0 v0), first_0, Nat.add_0_r; [done|by rewrite Er]. }
    destruct (lookup_lt_is_Some_2 rule k) as [v Hv]; [rewrite <-(firsts_length t); by eapply lookup_lt_Some|].
    rewrite (firsts_lookup t rule k v Hv) in Hk. injection Hk as <-.
    assert (S k < length rule -> i < t + first rule (S k)) as H2.
    { intros Hlt. destruct (lookup_lt_is_Some_2 rule (S k) Hlt) as [w Hw]. apply Hnx. by eapply firsts_lookup. }
    exists k, v. split_and!; [done|done|done|]. by eapply pushed_block_no.
  Qed.

  Lemma forced_filled i : i < n -> forced rule blank i true <-> exists k, in_block rule 0 k i /\ in_block rule s k i.
  Proof.
    intros Hi. split.
    - intros [k Hk]. destruct (Hk L fits_L) as [HL1 HL2]. destruct (Hk R fits_R) as [HR1 HR2].
      apply (pushed_cell 0 L i placed_L) in HL1 as [k1 H1]; [|by eapply lookup_lt_Some].
      apply (pushed_cell s R i placed_R) in HR1 as [k2 H2]; [|by eapply lookup_lt_Some].
      rewrite (pushed_in_block 0 L i k1 placed_L H1) in HL2. rewrite (pushed_in_block s R i k2 placed_R H2) in HR2.
      assert (k1 = k2) as <- by lia. by exists k1.
    - intros (k&(v&Hv&H1)&(v'&Hv'&H2)). rewrite Hv in Hv'. injection Hv' as <-. exists (S k).
      intros b [Hs Hl]%fits_blank. destruct (spells_placed rule 0 b Hpos Hne Hs) as [st Hst].
      destruct (lookup_lt_is_Some_2 st k) as [p Hp].
      { rewrite (placed_length _ _ _ _ Hst). by eapply lookup_lt_Some. }
      pose proof (placed_range st b k p v Hst Hl Hp Hv) as Hr. split.
      + destruct (lookup_lt_is_Some_2 b i) as [x Hx]; [lia|]. rewrite Hx. f_equal.
        apply (placed_cell _ _ _ _ _ _ Hst Hx). exists k, p, v. split_and!; [done|done|lia..].
      + apply (placed_block_no rule st b i k p v); [done|done|done|lia|]. intros q Hq.
        pose proof (placed_sorted _ _ _ _ _ _ _ _ _ Hst Hp Hv Hq). lia.
  Qed.

  Lemma forced_blocked i : i < n -> forced rule blank i false <-> s = 0 /\ forall k, ~ in_block rule 0 k i.
  Proof.
    intros Hi. split.
    - intros [m Hm]. destruct (Hm L fits_L) as [HL1 HL2]. destruct (Hm R fits_R) as [HR1 HR2].
      assert (forall k, ~ in_block rule 0 k i) as HnL.
      { intros k Hk. assert (L !! i = Some true) as E; [|congruence].
        apply (pushed_cell 0 L i placed_L); [by eapply lookup_lt_Some|by exists k]. }
      assert (forall k, ~ in_block rule s k i) as HnR.
      { intros k Hk. assert (R !! i = Some true) as E; [|congruence].
        apply (pushed_cell s R i placed_R); [by eapply lookup_lt_Some|by exists k]. }
      split; [|done]. destruct (pushed_last 0 L i placed_L) as (k&v&Hv&H1&H2&H3); [lia|].
      destruct (decide (s <= i)) as [Hsi|Hsi].
      2:{ rewrite (pushed_none s R i placed_R) in HR2 by lia. lia. }
      destruct (pushed_last s R i placed_R Hsi) as (k'&v'&Hv'&H1'&H2'&H3'). assert (k' = k) as -> by lia.
      rewrite Hv in Hv'. injection Hv' as <-.
      assert (first rule k + s + v <= i) as Hge.
      { destruct (decide (first rule k + s + v <= i)); [done|]. exfalso. apply (HnR k). exists v. split; [done|lia]. }
      destruct (decide (S k < length rule)) as [Hlt|Hlt].
      + specialize (H2 Hlt). rewrite (first_next rule k v Hv) in H2. lia.
      + pose proof (room_first rule k v Hv) as Hroom. rewrite (drop_S rule v k Hv), (drop_ge rule (S k)) in Hroom by lia.
        unfold room at 1 in Hroom. cbn in Hroom. lia.
    - intros [Hs0 Hnb]. exists (block_no L i). intros b Hb. pose proof Hb as [Hs Hl]%fits_blank.
      destruct (spells_placed rule 0 b Hpos Hne Hs) as [st Hst]. assert (st = firsts 0 rule) as ->.
      { apply list_eq_same_length with (n := length rule); [by apply firsts_length|by eapply placed_length|].
        intros k p q Hk Hp Hq. destruct (lookup_lt_is_Some_2 rule k Hk) as [v Hv].
        pose proof (placed_range st b k p v Hst Hl Hp Hv). rewrite (firsts_lookup 0 rule k v Hv) in Hq.
        injection Hq as <-. lia. }
      split.
      + destruct (lookup_lt_is_Some_2 b i) as [[|] Hx]; [lia| |done]. exfalso.
        apply (pushed_cell 0 b i Hst) in Hx as [k Hk]; [|lia]. by apply (Hnb k).
      + unfold block_no, starts. rewrite (placed_starts _ _ _ _ Hst), (placed_starts _ _ _ _ placed_L). done.
  Qed.

  Lemma overlap : exists changed line', line_right_left (machine_new rule) blank = Ret (Ok (changed, line')) /\
    (changed = true <-> exists v, v ∈ rule /\ s < v) /\ length line' = n /\ forall i, i < n ->
      (line' !! i = Some Filled <-> exists k, in_block rule 0 k i /\ in_block rule s k i) /\
      (line' !! i = Some Blocked <-> s = 0 /\ forall k, ~ in_block rule 0 k i).
  Proof.
    destruct (line_exact rule blank (positive_proper _ Hpos)) as (r&->&H1&H2&H3). destruct r as [[c line']|e].
    - exists c, line'. split; [done|]. destruct (H3 _ _ eq_refl) as (Hl&Hc&_&Hf). rewrite replicate_length in Hl.
      enough (forall i, i < n -> (line' !! i = Some Filled <-> exists k, in_block rule 0 k i /\ in_block rule s k i) /\
        (line' !! i = Some Blocked <-> s = 0 /\ forall k, ~ in_block rule 0 k i)) as Hcells.
      { split_and!; [|done|done]. rewrite Hc, bool_decide_eq_true. split.
        - intros Hd. destruct (decide (Exists (fun v => s < v) rule)) as [?|Hno]; [by apply Exists_exists|]. exfalso. apply Hd.
          apply list_eq_same_length with (n := n); [by rewrite replicate_length|done|]. intros i x y Hi Hx [-> _]%lookup_replicate.
          destruct (Hcells i Hi) as [Hfi Hbl]. destruct x; [done|..]; exfalso; apply Hno, Exists_exists.
          + apply Hfi in Hx as (k&(v&Hv&Hk)&(v'&Hv'&Hk')). rewrite Hv in Hv'. injection Hv' as <-. exists v.
            split; [by eapply elem_of_list_lookup_2|lia].
          + apply Hbl in Hx as [-> _]. destruct rule as [|v rule']; [done|]. exists v. split; [apply elem_of_list_here|].
            by apply Forall_inv in Hpos.
        - intros (v&[k Hk]%elem_of_list_lookup&Hsv) ->. destruct (Hcells (first rule k + s)) as [[_ Hfi] _].
          { pose proof (room_first rule k v Hk) as Hr. rewrite (drop_S rule v k Hk), room_cons in Hr. lia. }
          assert (replicate n Blank !! (first rule k + s) = Some Filled) as E%lookup_replicate; [|by destruct E].
          apply Hfi. exists k. split; exists v; (split; [done|lia]). }
      intros i Hi. assert (blank !! i = Some Blank) as Hb by (by apply lookup_replicate_2).
      rewrite <-forced_filled, <-forced_blocked by done. split; [apply (Hf i true Hb)|apply (Hf i false Hb)].
    - exfalso. pose proof (H2 e eq_refl) as ->. apply (proj1 H1 eq_refl). exists L. apply fits_L.
  Qed.
End overlap.

Lemma overlap_too_long rule n : positive rule -> rule <> [] -> n < room rule ->
  line_right_left (machine_new rule) (replicate n Blank) = Ret (Err NoSolution).
Proof.
  intros Hpos Hne Hn. destruct (line_spec rule (replicate n Blank) (positive_proper _ Hpos)) as [(L&R&Hx&_)|[E _]]; [|done].
  exfalso. destruct Hx as ([Hs Ha]&_). apply Forall2_length in Ha. rewrite replicate_length in Ha.
  destruct (spells_placed rule 0 L Hpos Hne Hs) as [st Hst]. destruct rule as [|v rule]; [done|]. destruct st as [|p st]; [done|].
  pose proof (placed_bounds _ _ _ _ 0 p Hst eq_refl) as [_ H]. cbn [drop] in H. lia.
Qed.
