(** Proofs for C77: shape and length of the solutions. *)
From Verif Require Import Base Maze SpecMaze SpecMazeExit SpecMazeSolution.
From Verif Require MazeGen MazeProofs MazeOrder.

Section walks.
  Context (w : nat) (mz : list maze_node) (Hw : 1 <= w).
  Notation R := (joined w mz).

  Lemma times_same d ds : times d (d :: ds) = S (times d ds).
  Proof. unfold times. by rewrite filter_cons_True. Qed.
  Lemma times_other d x ds : x <> d -> times d (x :: ds) = times d ds.
  Proof. intros H. unfold times. by rewrite filter_cons_False. Qed.
  Lemma leads_moves d i j : leads w d i j ->
    match d with
    | Right => j mod w = S (i mod w) /\ j / w = i / w
    | Left => i mod w = S (j mod w) /\ j / w = i / w
    | Down => j mod w = i mod w /\ j / w = S (i / w)
    | Up => j mod w = i mod w /\ i / w = S (j / w)
    end.
  Proof.
    assert (forall i j, beside w i j -> j mod w = S (i mod w) /\ j / w = i / w) as Hb.
    { intros a b [-> E]. split; [|done]. pose proof (Nat.div_mod a w ltac:(lia)). pose proof (Nat.div_mod (a + 1) w ltac:(lia)).
      rewrite <-E in H0. lia. }
    assert (forall i j, below w i j -> j mod w = i mod w /\ j / w = S (i / w)) as Hd.
    { intros a b ->. replace (a + w) with (a + 1 * w) by lia. rewrite Nat.mod_add, Nat.div_add by lia. lia. }
    destruct d; cbn; intros H; (apply Hb in H || apply Hd in H); lia.
  Qed.
  Lemma follows_moves ds : forall i j, follows w mz ds i j ->
    i / w + times Down ds = j / w + times Up ds /\ i mod w + times Right ds = j mod w + times Left ds.
  Proof.
    induction ds as [|d ds IH]; intros i j Hf.
    - cbn in Hf. subst. done.
    - destruct Hf as (k&Hl&_&Hf). apply IH in Hf as [H1 H2]. apply leads_moves in Hl. 
      destruct d; rewrite times_same, !times_other by done; lia.
  Qed.
  Lemma follows_app ds es : forall i j, follows w mz (ds ++ es) i j <-> exists k, follows w mz ds i k /\ follows w mz es k j.
  Proof.
    induction ds as [|d ds IH]; intros i j; cbn.
    - split; [intros H; by exists i|]. by intros (k&->&H).
    - split.
      + intros (k&Hl&Hj&(x&H1&H2)%IH). exists x. split; [|done]. by exists k.
      + intros (x&(k&Hl&Hj&H1)&H2). exists k. split_and!; [done|done|]. apply IH. by exists x.
  Qed.
  Lemma leads_back d i j k : leads w d i j -> leads w (opposite d) j k -> k = i.
  Proof. destruct d; cbn; unfold beside, below; lia. Qed.
  Lemma shortest_no_return ds i j k d d' : shortest_walk w mz ds i j -> ds !! k = Some d -> ds !! S k = Some d' ->
    d' <> opposite d.
  Proof.
    intros [Hf Hs] H1 H2 ->. rewrite <-(take_drop k ds), (drop_S _ _ _ H1), (drop_S _ _ _ H2) in Hf.
    apply follows_app in Hf as (x&Hx&y&Hl&_&z&Hl'&_&Hf). pose proof (leads_back _ _ _ _ Hl Hl') as ->.
    assert (follows w mz (take k ds ++ drop (S (S k)) ds) i j) as Hf'%Hs by (apply follows_app; by exists x).
    rewrite app_length, take_length, drop_length in Hf'. apply lookup_lt_Some in H2. lia.
  Qed.

  Lemma joined_leads i j : R i j -> exists d, leads w d i j.
  Proof.
    intros [(_&nd&_&[[_ H]|[_ H]])|(_&nd&_&[[_ H]|[_ H]])]; [by exists Right|by exists Down|by exists Left|by exists Up].
  Qed.
  (** The sum of row and column grows by at most one with each step. *)
  Lemma path_far l : forall i j, path R i l j -> j mod w + j / w + 1 <= i mod w + i / w + length l.
  Proof.
    induction l as [|a l IH]; intros i j (H1&H2&H3); [done|]. injection H1 as ->. destruct l as [|b l].
    - injection H2 as ->. cbn. lia.
    - assert (path R b (b :: l) j) as Hp by (split_and!; [done|done|]; intros k; apply (H3 (S k))).
      apply IH in Hp. pose proof (H3 0 i b eq_refl eq_refl) as [d Hd]%joined_leads. apply leads_moves in Hd.
      cbn [length] in *. destruct d; lia.
  Qed.
  Lemma path_inside l i j : path R i l j -> i < length mz -> Forall (fun a => a < length mz) l.
  Proof.
    intros (H1&H2&H3) Hi. apply Forall_lookup. intros [|k] a Ha.
    - destruct l; [done|]. injection H1 as ->. by injection Ha as <-.
    - destruct (l !! k) as [b|] eqn:Hb; [|apply lookup_ge_None in Hb; apply lookup_lt_Some in Ha; lia].
      destruct (H3 _ _ _ Hb Ha) as [[? _]|(_&nd&Hnd&_)]; [done|by eapply lookup_lt_Some].
  Qed.
End walks.

Lemma solution_length (m : mode) rng w h g sol : storable m w h -> create_maze m rng w h = Ret (g, sol) ->
  w + h - 2 <= length sol < w * h.
Proof.
  intros Hst E. destruct (decide (w = 0 \/ h = 0)) as [Hz|Hz]; [by rewrite MazeProofs.create_zero in E|].
  destruct (MazeProofs.create_total m rng w h) as (g'&sol'&E'&Hg); [lia|lia|done|]. rewrite E in E'. injection E' as <- <-.
  destruct (MazeProofs.create_shortest _ _ _ _ _ _ Hst E) as (e&He&_&Hmin&Hfar). split.
  - assert (w * h - 1 = (w - 1) + (h - 1) * w) as Hc by nia.
    assert ((w * h - 1) mod w = w - 1) as Hm by (rewrite Hc, Nat.mod_add, Nat.mod_small; lia).
    assert ((w * h - 1) / w = h - 1) as Hd by (rewrite Hc, Nat.div_add, Nat.div_small; lia).
    destruct (Hfar (w * h - 1)) as (l&Hl&Hlen); [split; [nia|done]|].
    apply path_far in Hl; [|lia]. rewrite Hm, Hd, Nat.mod_0_l, Nat.div_0_l in Hl by lia. lia.
  - destruct (MazeProofs.create_perfect _ _ _ _ _ _ Hst E 0 e) as (l&[Hl Hnd]&_); [nia|apply He|].
    pose proof (Hmin _ Hl) as Hle. apply path_inside in Hl; [|nia..].
    assert (length l <= length (seq 0 (w * h))) as H; [|rewrite seq_length in H; lia].
    apply submseteq_length, NoDup_submseteq; [done|]. intros a Ha. apply elem_of_seq.
    rewrite Forall_forall in Hl. specialize (Hl a Ha). lia.
Qed.

Lemma times_rev d ds : times d (rev ds) = times d ds.
Proof. unfold times. by rewrite <-(Permutation_rev ds). Qed.

Lemma solution_moves (m : mode) rng w h g sol e : storable m w h -> create_maze m rng w h = Ret (g, sol) -> 2 <= w -> is_exit w h g e ->
  times Down sol = times Up sol + (h - 1) /\ times Right sol = times Left sol + e mod w.
Proof.
  intros Hst E Hw He. destruct (MazeProofs.create_solution _ _ _ _ _ _ Hst E Hw) as (e'&He'&Hf).
  assert (e' = e) as ->.
  { destruct He' as [Hr' He'], He as [Hr He]. destruct (MazeProofs.create_total m rng w h) as (g'&sol'&E'&Hg); [lia|destruct Hr; nia|done|].
    rewrite E in E'. injection E' as <- <-. destruct (lookup_lt_is_Some_2 g e') as [nd Hn]; [rewrite Hg; apply Hr'|].
    apply (He e' nd Hr' Hn). by apply (He' e' nd Hr' Hn). }
  apply follows_moves in Hf; [|lia]. rewrite Nat.mod_0_l, Nat.div_0_l, !times_rev in Hf by lia.
  destruct He as [[_ Hr] _]. rewrite Hr in Hf. lia.
Qed.

Lemma solution_no_return (m : mode) rng w h g sol k d d' : storable m w h -> create_maze m rng w h = Ret (g, sol) ->
  sol !! k = Some d -> sol !! S k = Some d' -> d' <> opposite d.
Proof.
  intros Hst E H1 H2. destruct (decide (w = 0 \/ h = 0)) as [Hz|Hz]; [by rewrite MazeProofs.create_zero in E|].
  destruct (decide (w = 1)) as [->|Hw].
  - rewrite (MazeProofs.create_width_one _ _ _ _ _ _ Hst E eq_refl) in H1, H2.
    apply lookup_replicate in H1 as [-> _]. apply lookup_replicate in H2 as [-> _]. done.
  - destruct (MazeOrder.create_exit _ _ _ _ _ _ Hst E) as (e&_&Hs&_); [lia|].
    intros Hd. assert (d = opposite d') as Hd' by (rewrite Hd; by destruct d). revert Hd'.
    pose proof (lookup_lt_Some _ _ _ H2) as Hl.
    apply (shortest_no_return w g ltac:(lia) (rev sol) 0 e (length sol - S (S k)) d' d); [done|..]; rewrite rev_alt; change (rev_append sol []) with (reverse sol); rewrite reverse_lookup by lia.
    + by replace (length sol - S (length sol - S (S k))) with (S k) by lia.
    + by replace (length sol - S (S (length sol - S (S k)))) with k by lia.
Qed.
