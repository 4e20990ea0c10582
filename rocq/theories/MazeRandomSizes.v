(** Proofs for C75 and C85: the sizes for which all mazes are equally likely. *)
From Coq Require Import QArith Qcanon.
From Verif Require Import Base Util UtilProofs DisjointSet Maze SpecMaze SpecMazeDfs MazeTree MazeGen MazeDfs MazeDfsProofs MazeDraws.
From Verif Require Import SpecMazeRandom MazeRandom MazeRandomSym MazeRandomFirst MazeRandomBound MazeRandomTwo.
From Verif Require Import SpecMazeTour SpecMazeRandomTour MazeRandomTour.
From Verif Require MazeTour.
Import MazeTour.
Local Open Scope nat_scope.

Lemma qc_inj a b : qc a = qc b -> a = b.
Proof.
  intros H. apply Q2Qc_eq_iff in H. unfold Qeq, inject_Z in H. cbn [Qnum Qden] in H. lia.
Qed.
Lemma qc_inv_inj a b : a <> 0 -> (/ qc a = / qc b)%Qc -> a = b.
Proof.
  intros Ha H. apply qc_nonzero in Ha. apply qc_inj.
  destruct (decide (qc b = 0%Qc)) as [E|Hb].
  - exfalso. rewrite E in H. change (/ 0)%Qc with 0%Qc in H. apply (f_equal (fun x => (x * qc a)%Qc)) in H.
    rewrite (Qcmult_comm (/ _)), Qcmult_inv_r in H by done. rewrite Qcmult_0_l in H. done.
  - transitivity (qc a * (qc b * / qc b))%Qc; [rewrite Qcmult_inv_r by done; ring|]. rewrite <-H.
    transitivity (qc b * (qc a * / qc a))%Qc; [ring|]. rewrite Qcmult_inv_r by done. ring.
Qed.
Lemma two_three a q : 2 ^ a <> 3 * q.
Proof.
  revert q. induction a as [|a IH]; intros q; cbn [Nat.pow]; [lia|]. intros H. apply (IH (2 ^ a - q)). lia.
Qed.

Lemma choices_pow w h : forall l seen, (forall l1 c l2, l = l1 ++ c :: l2 -> l2 <> [] ->
    exists a, length (fresh w h (c :: reverse l1 ++ seen) c) = 2 ^ a) ->
  exists a, tour_choices w h seen l = 2 ^ a.
Proof.
  induction l as [|c l IH]; intros seen H; [by exists 0|]. destruct l as [|x l]; [by exists 0|].
  destruct (H [] c (x :: l) eq_refl) as [a Ha]; [done|]. destruct (IH (c :: seen)) as [b Hb].
  { intros l1 c' l2 E Hl2. destruct (H (c :: l1) c' l2) as [a' Ha']; [by rewrite E|done|]. exists a'.
    rewrite reverse_cons, <-app_assoc in Ha'. done. }
  exists (a + b). cbn [tour_choices] in Hb |- *. rewrite Nat.pow_add_r. cbn [reverse app] in Ha. unfold reverse in Ha. cbn in Ha.
  rewrite Ha. f_equal. exact Hb.
Qed.
Lemma choices_three w h c1 c2 c3 c4 l : length (fresh w h [c3; c2; c1] c3) = 3 ->
  exists q, tour_choices w h [] (c1 :: c2 :: c3 :: c4 :: l) = 3 * q.
Proof.
  intros H. cbn [tour_choices]. rewrite H.
  match goal with |- exists q, ?a * (?b * (3 * ?c)) = _ => exists (a * (b * c)) end. lia.
Qed.

(** * Tours given by coordinates *)

Record good (w h : nat) (c : nat -> nat * nat) : Prop := MkGood {
  g_in k : k < w * h -> fst (c k) < w /\ snd (c k) < h;
  g_0 : c 0 = (0, 0);
  g_inj k k' : k < w * h -> k' < w * h -> c k = c k' -> k = k';
  g_adj k : S k < w * h ->
    (snd (c (S k)) = snd (c k) /\ (fst (c (S k)) = S (fst (c k)) \/ fst (c k) = S (fst (c (S k))))) \/
    (fst (c (S k)) = fst (c k) /\ (snd (c (S k)) = S (snd (c k)) \/ snd (c k) = S (snd (c (S k)))));
}.

Lemma good_tour w h c : 1 <= w -> 1 <= h -> good w h c -> tour w h (coords_tour w h c).
Proof. intros Hw Hh [H1 H2 H3 H4]. by apply coords_ok. Qed.
Lemma good_swap w h c : good w h c -> good h w (fun k => (snd (c k), fst (c k))).
Proof.
  intros [H1 H2 H3 H4]. split; cbn [fst snd]; try (intros k; rewrite (Nat.mul_comm h w); revert k).
  - intros k Hk. destruct (H1 k Hk). done.
  - by rewrite H2.
  - intros k k' Hk Hk' [= E1 E2]. apply H3; [done|done|]. by apply injective_projections.
  - intros k Hk. destruct (H4 k Hk) as [[? ?]|[? ?]]; [right|left]; done.
Qed.

(** Another column, upwards. *)
Definition with_column (w h : nat) (c : nat -> nat * nat) (k : nat) : nat * nat :=
  if decide (k < w * h) then c k else (w, h - 1 - (k - w * h)).
Lemma good_column w h c : 1 <= w -> 1 <= h -> good w h c -> c (w * h - 1) = (w - 1, h - 1) -> good (S w) h (with_column w h c).
Proof.
  intros Hw Hh [H1 H2 H3 H4] Hlast. assert (1 <= w * h) as Hn by nia. unfold with_column. split.
  - intros k Hk. case_decide as E; [destruct (H1 k E); lia|]. cbn [fst snd]. lia.
  - by rewrite decide_True by lia.
  - intros k k' Hk Hk'. case_decide as E; case_decide as E'; intros Heq.
    + by apply H3.
    + destruct (H1 k E). rewrite Heq in *. cbn in *. lia.
    + destruct (H1 k' E'). rewrite <-Heq in *. cbn in *. lia.
    + injection Heq as Heq. cbn in Hk, Hk'. lia.
  - intros k Hk. cbn in Hk. destruct (decide (S k < w * h)) as [E|E].
    + rewrite decide_True by lia. by apply H4.
    + destruct (decide (k < w * h)) as [E'|E'].
      * replace k with (w * h - 1) by lia. rewrite Hlast. cbn [fst snd]. left. split; [lia|]. lia.
      * cbn [fst snd]. right. split; [done|]. lia.
Qed.

(** Two rows column by column, then row by row starting from the right. *)
Definition odd_tour (w k : nat) : nat * nat :=
  if decide (k < 2 * w) then (k / 2, if Nat.even (k / 2) then k mod 2 else 1 - k mod 2)
  else let k' := k - 2 * w in (if Nat.even (k' / w) then w - 1 - k' mod w else k' mod w, 2 + k' / w).

Lemma good_odd w h : 1 <= w -> Nat.even w = false -> 2 <= h -> good w h (odd_tour w).
Proof.
  intros Hw Hodd Hh.
  assert (forall k, k < w * h -> 2 * w <= k -> (k - 2 * w) / w < h - 2) as Hrow.
  { intros k Hk Hge. apply Nat.div_lt_upper_bound; [lia|]. assert (w * (h - 2) + 2 * w = w * h); [|lia].
    replace h with (h - 2 + 2) at 2 by lia. lia. }
  assert (forall k, k < 2 * w -> k / 2 < w) as Hcol by (intros k Hk; apply Nat.div_lt_upper_bound; lia).
  split.
  - intros k Hk. unfold odd_tour. case_decide as E; cbn [fst snd].
    + split; [by apply Hcol|]. pose proof (Nat.mod_upper_bound k 2 ltac:(lia)). destruct (Nat.even (_ / _)); lia.
    + pose proof (Hrow k Hk ltac:(lia)). pose proof (Nat.mod_upper_bound (k - 2 * w) w ltac:(lia)). split; [destruct (Nat.even (_ / _)); lia|lia].
  - unfold odd_tour. by rewrite decide_True by lia.
  - intros k k' Hk Hk'. unfold odd_tour. case_decide as E; case_decide as E'; intros Heq;
      pose proof (f_equal fst Heq) as Heq1; pose proof (f_equal snd Heq) as Heq2; cbn [fst snd] in Heq1, Heq2; clear Heq.
    + apply (same_pos 2); [lia| |done]. rewrite Heq1 in Heq2. pose proof (Nat.mod_upper_bound k 2 ltac:(lia)).
      pose proof (Nat.mod_upper_bound k' 2 ltac:(lia)). destruct (Nat.even (_ / _)); lia.
    + exfalso. pose proof (Nat.mod_upper_bound k 2 ltac:(lia)). clear Heq1. revert Heq2. generalize ((k' - 2 * w) / w). intros q Heq2.
      destruct (Nat.even (k / 2)); lia.
    + exfalso. pose proof (Nat.mod_upper_bound k' 2 ltac:(lia)). clear Heq1. revert Heq2. generalize ((k - 2 * w) / w). intros q Heq2.
      destruct (Nat.even (k' / 2)); lia.
    + assert (k - 2 * w = k' - 2 * w); [|lia]. apply (same_pos w); [done| |lia].
      assert ((k - 2 * w) / w = (k' - 2 * w) / w) as Heq by lia. rewrite Heq in Heq1.
      pose proof (Nat.mod_upper_bound (k - 2 * w) w ltac:(lia)). pose proof (Nat.mod_upper_bound (k' - 2 * w) w ltac:(lia)).
      destruct (Nat.even (_ / _)); lia.
  - intros k Hk. unfold odd_tour. destruct (decide (S k < 2 * w)) as [E|E].
    + rewrite decide_True by lia. cbn [fst snd]. destruct (next_pos 2 k ltac:(lia)) as [(H1&->&->)|(H1&->&->)].
      * right. split; [done|]. destruct (Nat.even (_ / _)); lia.
      * left. rewrite even_S'. split; [|by left]. destruct (Nat.even (_ / _)); cbn [negb]; lia.
    + destruct (decide (k < 2 * w)) as [E'|E'].
      * assert (k = (w - 1) * 2 + 1) as -> by lia. cbn [fst snd]. replace (S ((w - 1) * 2 + 1) - 2 * w) with 0 by lia.
        rewrite Nat.div_0_l, Nat.mod_0_l, (Nat.add_comm ((w - 1) * 2)), Nat.div_add, Nat.mod_add by lia. cbn [Nat.div Nat.divmod fst Nat.modulo Nat.sub snd Nat.even Nat.add].
        replace (Nat.even (w - 1)) with true; [right; lia|]. destruct w as [|w']; [lia|]. cbn [Nat.sub]. rewrite Nat.sub_0_r.
        rewrite even_S' in Hodd. by destruct (Nat.even w').
      * cbn [fst snd]. replace (S k - 2 * w) with (S (k - 2 * w)) by lia.
        destruct (next_pos w (k - 2 * w) Hw) as [(H1&->&->)|(H1&->&->)].
        -- left. split; [done|]. destruct (Nat.even (_ / _)); lia.
        -- right. rewrite even_S'. destruct (Nat.even (_ / _)); cbn [negb]; lia.
Qed.
Lemma odd_last w h : 1 <= w -> 3 <= h -> Nat.even h = true -> odd_tour w (w * h - 1) = (w - 1, h - 1).
Proof.
  intros Hw Hh He. unfold odd_tour. assert (w * h = w * (h - 3) + 3 * w) as E.
  { replace h with (h - 3 + 3) at 1 by lia. lia. }
  rewrite decide_False by lia. assert (w * h - 1 - 2 * w = (w - 1) + (h - 3) * w) as ->.
  { rewrite E, (Nat.mul_comm (h - 3) w). generalize (w * (h - 3)). clear E. intros q. lia. }
  rewrite Nat.div_add, Nat.mod_add, Nat.div_small, Nat.mod_small by lia. cbn [Nat.add]. f_equal; [|lia].
  replace (Nat.even (h - 3)) with false; [done|]. destruct h as [|[|[|h']]]; [lia..|]. cbn [Nat.sub]. rewrite Nat.sub_0_r.
  rewrite !even_S' in He. by destruct (Nat.even h').
Qed.
Lemma odd_start w : 2 <= w -> odd_tour w 1 = (0, 1) /\ odd_tour w 2 = (1, 1).
Proof. intros Hw. unfold odd_tour. rewrite !decide_True by lia. done. Qed.

Lemma third_cell w h : 3 <= w -> 3 <= h -> exists c, good w h c /\ (c 1 = (0, 1) \/ c 1 = (1, 0)) /\ c 2 = (1, 1).
Proof.
  intros Hw Hh. destruct (odd_start w ltac:(lia)) as [S1 S2].
  destruct (Nat.even w) eqn:Ew.
  2:{ exists (odd_tour w). split; [apply good_odd; [lia|done|lia]|]. rewrite S1, S2. tauto. }
  destruct (Nat.even h) eqn:Eh.
  2:{ destruct (odd_start h ltac:(lia)) as [T1 T2].
      exists (fun k => (snd (odd_tour h k), fst (odd_tour h k))). split; [apply good_swap, good_odd; [lia|done|lia]|].
      rewrite T1, T2. tauto. }
  destruct w as [|w]; [lia|]. rewrite even_S' in Ew. destruct (odd_start w ltac:(lia)) as [T1 T2].
  exists (with_column w h (odd_tour w)). split.
  - apply good_column; [lia|lia| |apply odd_last; [lia|lia|done]]. apply good_odd; [lia|by destruct (Nat.even w)|lia].
  - unfold with_column. rewrite !decide_True by nia. rewrite T1, T2. tauto.
Qed.

Lemma good_snake w h : 1 <= w -> 1 <= h -> good w h (snake w).
Proof.
  intros Hw Hh. split.
  - intros k Hk. pose proof (Nat.mod_upper_bound k w ltac:(lia)). cbn. split; [destruct (Nat.even (_ / _)); lia|].
    apply Nat.div_lt_upper_bound; lia.
  - unfold snake. by rewrite Nat.div_0_l, Nat.mod_0_l by lia.
  - intros k k' _ _ [= E1 E2]. rewrite E2 in E1. apply (same_pos w); [done| |done].
    pose proof (Nat.mod_upper_bound k w ltac:(lia)). pose proof (Nat.mod_upper_bound k' w ltac:(lia)).
    destruct (Nat.even (k' / w)); lia.
  - intros k Hk. unfold snake. cbn [fst snd]. destruct (next_pos w k Hw) as [(H1&->&->)|(H1&->&->)].
    + left. split; [done|]. destruct (Nat.even (_ / _)); lia.
    + right. rewrite even_S'. destruct (Nat.even (_ / _)); cbn [negb]; lia.
Qed.

(** * Choices along the two tours *)

Lemma below_coord w i j : 1 <= w -> below w i j -> j / w = S (i / w) /\ j mod w = i mod w.
Proof.
  intros Hw ->. replace (i + w) with (i + 1 * w) by lia. rewrite Nat.div_add, Nat.mod_add by lia. lia.
Qed.
Lemma beside_coord w i j : 1 <= w -> beside w i j -> j / w = i / w /\ j mod w = S (i mod w).
Proof.
  intros Hw [-> E]. split; [done|]. pose proof (Nat.div_mod i w ltac:(lia)) as E1.
  pose proof (Nat.div_mod (i + 1) w ltac:(lia)) as E2. rewrite <-E in E2. lia.
Qed.

Lemma snake_choices w h : 1 <= w -> 1 <= h -> exists a, tour_choices w h [] (coords_tour w h (snake w)) = 2 ^ a.
Proof.
  intros Hw Hh. pose proof (good_snake w h Hw Hh) as HG. pose proof (good_tour w h _ Hw Hh HG) as Ht.
  pose proof (tour_nodup w h _ Ht) as Hnd. pose proof (tour_elem w h _ Hw Hh Ht) as Hel.
  apply choices_pow. intros l1 c l2 Hl Hl2. rewrite app_nil_r.
  assert (coords_tour w h (snake w) !! length l1 = Some c) as Hc by (by rewrite Hl, list_lookup_middle).
  assert (c < w * h) as Hcn by (apply Hel; by eapply elem_of_list_lookup_2).
  set (k := length l1) in *. pose proof Hc as Hc'. apply coords_lookup in Hc' as [Hk Ec].
  set (side := if Nat.even (k / w) then c + 1 else c - 1).
  assert (c / w = k / w /\ c mod w = if Nat.even (k / w) then k mod w else w - 1 - k mod w) as [Hrow Hcol].
  { destruct (g_in _ _ _ HG k Hk) as [Hf _]. rewrite Ec. rewrite cell_row, cell_col by done. done. }
  assert (forall j, j ∈ fresh w h (c :: reverse l1) c -> j ∈ [c + w; side]) as Hsub.
  { intros j Hj. apply elem_of_list_filter in Hj as [[Hj Hv] Hjn%elem_of_seq]. destruct Hjn as [_ Hjn]. cbn in Hjn.
    apply Hel in Hjn as [k' Hk']%elem_of_list_lookup. assert (k < k') as Hlt.
    { destruct (decide (k < k')) as [|Hge]; [done|]. exfalso. apply Hv. destruct (decide (k' = k)) as [->|Hne].
      - apply elem_of_cons. left. congruence.
      - apply elem_of_cons. right. apply elem_of_reverse. rewrite Hl, lookup_app_l in Hk' by lia. by eapply elem_of_list_lookup_2. }
    apply coords_lookup in Hk' as [Hkn Ej].
    assert (j / w = k' / w /\ j mod w = if Nat.even (k' / w) then k' mod w else w - 1 - k' mod w) as [Hjr Hjc].
    { destruct (g_in _ _ _ HG k' Hkn) as [Hf _]. rewrite Ej. rewrite cell_row, cell_col by done. done. }
    assert (k / w <= k' / w) as Hle by (apply Nat.div_le_mono; lia).
    assert (k / w = k' / w -> k mod w < k' mod w) as Hmod.
    { intros He. pose proof (Nat.div_mod k w ltac:(lia)). pose proof (Nat.div_mod k' w ltac:(lia)). rewrite <-He in *. lia. }
    pose proof (Nat.mod_upper_bound k w ltac:(lia)) as Hu. pose proof (Nat.mod_upper_bound k' w ltac:(lia)) as Hu'.
    rewrite !elem_of_cons, elem_of_nil. unfold side. destruct Hj as [Hj|[Hj|[Hj|Hj]]].
    - pose proof Hj as [Hj1 _]. apply beside_coord in Hj as [Hr Hm]; [|done]. right. left.
      rewrite Hjr, Hrow in Hr. rewrite Hr in *. specialize (Hmod eq_refl). destruct (Nat.even (k / w)); lia.
    - left. exact Hj.
    - pose proof Hj as [Hj1 _]. apply beside_coord in Hj as [Hr Hm]; [|done]. right. left.
      rewrite Hjr, Hrow in Hr. rewrite <-Hr in *. specialize (Hmod eq_refl). destruct (Nat.even (k / w)); lia.
    - apply below_coord in Hj as [Hr Hm]; [|done]. lia. }
  assert (1 <= length (fresh w h (c :: reverse l1) c)) as Hge.
  { destruct l2 as [|x l2]; [done|]. assert (x ∈ fresh w h (c :: reverse l1) c) as Hx.
    { apply elem_of_list_filter. assert (x ∈ coords_tour w h (snake w)) as Hxl.
      { rewrite Hl. apply elem_of_app. right. right. left. }
      split; [|apply elem_of_seq; apply Hel in Hxl; lia]. split.
      - destruct (proj2 (proj2 Ht) c x) as [(_&_&H)|(_&_&H)]; [|tauto|tauto]. exists k. split; [done|].
        rewrite Hl, lookup_app_r by (unfold k; lia). by replace (S k - length l1) with 1 by (unfold k; lia).
      - rewrite Hl in Hnd. apply NoDup_app in Hnd as (_&H1&H2). apply NoDup_cons in H2 as [H2 _]. rewrite elem_of_cons, elem_of_reverse.
        intros [->|Hin]; [apply H2; by left|]. apply (H1 x Hin). right. by left. }
    destruct (fresh w h (c :: reverse l1) c); [by apply elem_of_nil in Hx|cbn; lia]. }
  assert (length (fresh w h (c :: reverse l1) c) <= 2) as Hle.
  { change 2 with (length [c + w; side]). apply submseteq_length, NoDup_submseteq; [apply fresh_nodup|exact Hsub]. }
  destruct (decide (length (fresh w h (c :: reverse l1) c) = 1)); [exists 0|exists 1]; cbn [Nat.pow]; lia.
Qed.

Lemma third_choices w h c : 3 <= w -> 3 <= h -> good w h c -> c 1 = (0, 1) \/ c 1 = (1, 0) -> c 2 = (1, 1) ->
  exists q, tour_choices w h [] (coords_tour w h c) = 3 * q.
Proof.
  intros Hw Hh HG H1 H2. assert (9 <= w * h) as Hn by nia. unfold coords_tour.
  replace (w * h) with (4 + (w * h - 4)) by lia. rewrite seq_app, map_app. cbn [seq map app Nat.add]. apply choices_three.
  rewrite (g_0 _ _ _ HG), H2.
  assert (forall x y, x < w -> y < h -> cell w (x, y) < w * h) as Hlt by (intros x y Hx Hy; unfold cell; cbn [fst snd]; nia).
  assert (forall x y, x < w -> cell w (x, y) / w = y /\ cell w (x, y) mod w = x) as Hco.
  { intros x y Hx. rewrite cell_row, cell_col by (cbn; lia). done. }
  assert (forall x y x' y', x < w -> x' < w -> cell w (x, y) = cell w (x', y') -> x = x' /\ y = y') as Hci.
  { intros x y x' y' Hx Hx' E. destruct (Hco x y Hx), (Hco x' y' Hx'). rewrite E in *. lia. }
  assert (exists l, fresh w h [cell w (1, 1); cell w (c 1); cell w (0, 0)] (cell w (1, 1)) ≡ₚ l /\ length l = 3) as (l&->&->); [|done].
  set (nbs := [(0, 1); (1, 0); (2, 1); (1, 2)]).
  exists (map (cell w) (filter (fun p => p <> c 1) nbs)). split.
  - apply NoDup_Permutation; [apply fresh_nodup|..].
    + apply NoDup_fmap_2_strong; [|apply NoDup_filter, (bool_decide_unpack _); vm_compute; exact I].
      intros [x y] [x' y'] [_ Hx]%elem_of_list_filter [_ Hx']%elem_of_list_filter E.
      assert (forall x y, (x, y) ∈ nbs -> x < w) as Hb.
      { intros a b Hab. unfold nbs in Hab. rewrite !elem_of_cons, elem_of_nil in Hab. destruct Hab as [[= -> ->]|[[= -> ->]|[[= -> ->]|[[= -> ->]|[]]]]]; lia. }
      apply Hci in E as [-> ->]; [done|by eapply Hb|by eapply Hb].
    + intros j. unfold fresh. rewrite elem_of_list_filter, elem_of_seq, elem_of_list_fmap. split.
      * intros [[Hj Hv] [_ Hjn]].
        assert (exists p, j = cell w p /\ p ∈ nbs) as (p&->&Hp).
        { destruct Hj as [Hj|[Hj|[Hj|Hj]]].
          - exists (2, 1). split; [destruct Hj as [-> _]; unfold cell; cbn [fst snd]; lia|]. unfold nbs. rewrite !elem_of_cons. tauto.
          - exists (1, 2). split; [rewrite Hj; unfold cell; cbn [fst snd]; lia|]. unfold nbs. rewrite !elem_of_cons. tauto.
          - exists (0, 1). split; [destruct Hj as [Hj _]; unfold cell in *; cbn [fst snd] in *; lia|]. unfold nbs. rewrite !elem_of_cons. tauto.
          - exists (1, 0). split; [unfold below, cell in *; cbn [fst snd] in *; lia|]. unfold nbs. rewrite !elem_of_cons. tauto. }
        exists p. split; [done|]. apply elem_of_list_filter. split; [|done]. intros ->. apply Hv. right. left.
      * intros ([x y]&->&[Hne Hp]%elem_of_list_filter).
        assert (x < w /\ y < h /\ (x, y) <> (1, 1) /\ (x, y) <> (0, 0)) as (Hx&Hy&Hn1&Hn0).
        { unfold nbs in Hp. rewrite !elem_of_cons, elem_of_nil in Hp. destruct Hp as [[= -> ->]|[[= -> ->]|[[= -> ->]|[[= -> ->]|[]]]]]; (split_and!; [lia|lia|done|done]). }
        split; [|pose proof (Hlt x y Hx Hy); lia]. split.
        -- assert (forall a b, a + 1 < w -> beside w (cell w (a, b)) (cell w (a + 1, b))) as Hbs.
           { intros a b Hab. split; [unfold cell; cbn [fst snd]; lia|]. destruct (Hco a b), (Hco (a + 1) b); lia. }
           unfold nbs in Hp. rewrite !elem_of_cons, elem_of_nil in Hp. destruct Hp as [[= -> ->]|[[= -> ->]|[[= -> ->]|[[= -> ->]|[]]]]].
           ++ right. right. left. by apply (Hbs 0 1); lia.
           ++ right. right. right. unfold below, cell. cbn [fst snd]. lia.
           ++ left. apply (Hbs 1 1). lia.
           ++ right. left. unfold below, cell. cbn [fst snd]. lia.
        -- assert (exists a b, c 1 = (a, b) /\ a < w) as (a&b&Eab&Ha) by (destruct H1 as [-> | ->]; eexists _, _; (split; [done|lia])).
           rewrite Eab in *. rewrite !elem_of_cons, elem_of_nil. intros [E|[E|[E|[]]]]; apply Hci in E as [-> ->]; (done || lia).
  - rewrite map_length. destruct H1 as [-> | ->]; vm_compute; reflexivity.
Qed.

Lemma sizes (m : mode) w h k : 1 <= w -> 1 <= h -> storable m w h ->
  let P g := mean_draws (12 * S k) (4 * (w * h)) (fun ds => value (exactly g) (recursive_backtrack m (rng_of ds) w h)) in
  (forall g1 g2, (0 < P g1)%Qc -> (0 < P g2)%Qc -> P g1 = P g2) <-> w <= 2 \/ h <= 2.
Proof.
  intros Hw Hh Hst P. split.
  - intros H. destruct (decide (w <= 2 \/ h <= 2)) as [|Hbig]; [done|]. exfalso.
    destruct (third_cell w h ltac:(lia) ltac:(lia)) as (c&HG&H1&H2).
    assert (forall l, tour w h l -> exists g, P g = (/ qc (tour_choices w h [] l))%Qc /\ (0 < P g)%Qc) as Htour.
    { intros l Ht. exists (tour_maze w h l Hw Hh). split.
      - apply tour_probability; try done; [by apply tour_length|by apply tour_walled|by apply tour_joined].
      - apply positive_maze; [done..|]. split_and!; [by apply tour_length|by apply tour_walled|by apply tour_perfect|by apply tour_dfs]. }
    destruct (Htour _ (good_tour w h _ Hw Hh (good_snake w h Hw Hh))) as (g1&E1&P1).
    destruct (Htour _ (good_tour w h _ Hw Hh HG)) as (g2&E2&P2). pose proof (H g1 g2 P1 P2) as E. rewrite E1, E2 in E.
    destruct (snake_choices w h Hw Hh) as [a Ea]. destruct (third_choices w h c ltac:(lia) ltac:(lia) HG H1 H2) as [q Eq].
    rewrite Ea, Eq in E. apply qc_inv_inj in E; [by apply two_three in E|]. by apply Nat.pow_nonzero.
  - intros Hthin g1 g2 (L1&W1&P1&D1)%positive_maze (L2&W2&P2&D2)%positive_maze; [|done..]. unfold P. by rewrite !thin.
Qed.
