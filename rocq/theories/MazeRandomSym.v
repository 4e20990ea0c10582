(** Proofs for C74 and C75: symmetry of the distribution. *)
From Coq Require Import QArith Qcanon.
From Verif Require Import Base Maze SpecMaze SpecMazeDfs SpecMazeRandom MazeRandom.
Local Open Scope nat_scope.

Lemma coord w q r : r < w -> (w * q + r) / w = q /\ (w * q + r) mod w = r.
Proof. intros Hr. split; symmetry; [by apply (Nat.div_unique _ _ _ r)|by apply (Nat.mod_unique _ _ q)]. Qed.
Lemma beside_coord w i j : 1 <= w -> beside w i j <-> j / w = i / w /\ j mod w = S (i mod w).
Proof.
  intros Hw. pose proof (Nat.div_mod i w) as Hi. pose proof (Nat.div_mod j w) as Hj. unfold beside. split.
  - intros [-> He]. split; [done|]. rewrite <-He in Hj. lia.
  - intros [H1 H2]. split; [|done]. rewrite H1, H2 in Hj. lia.
Qed.
Lemma below_coord w i j : 1 <= w -> below w i j <-> j mod w = i mod w /\ j / w = S (i / w).
Proof.
  intros Hw. pose proof (Nat.div_mod i w) as Hi. pose proof (Nat.div_mod j w) as Hj. unfold below. split.
  - intros ->. split.
    + replace (i + w) with (i + 1 * w) by lia. apply Nat.mod_add. lia.
    + replace (i + w) with (i + 1 * w) by lia. rewrite Nat.div_add by lia. lia.
  - intros [H1 H2]. rewrite H1, H2 in Hj. lia.
Qed.

Lemma remove_lookup w a b g i : remove_wall w a b g !! i = (fun nd => if decide (i = a)
    then MazeNode (m_right nd && negb (bool_decide (beside w a b))) (m_down nd && negb (bool_decide (below w a b)))
    else nd) <$> g !! i.
Proof. unfold remove_wall. by rewrite list_lookup_imap. Qed.

Section swap.
  Context (w h : nat) (Hw : 1 <= w) (Hh : 1 <= h).
  Local Notation σ := (swap w h).

  Lemma swap_coord i : i < w * h -> σ i / h = i mod w /\ σ i mod h = i / w /\ σ i < h * w.
  Proof using Hw Hh.
    intros Hi. assert (i / w < h) as Hq by (apply Nat.div_lt_upper_bound; lia).
    assert (i mod w < w) as Hr by (apply Nat.mod_upper_bound; lia).
    unfold swap. rewrite (Nat.mul_comm _ h). destruct (coord h (i mod w) (i / w) Hq) as [-> ->]. split_and!; [done|done|nia].
  Qed.
  Lemma swap_swap i : i < w * h -> swap h w (σ i) = i.
  Proof using Hw Hh.
    intros Hi. destruct (swap_coord i Hi) as (H1&H2&_). unfold swap at 1. rewrite H1, H2. rewrite (Nat.div_mod i w) at 3 by lia. lia.
  Qed.
  Lemma swap_beside i j : i < w * h -> j < w * h -> beside h (σ i) (σ j) <-> below w i j.
  Proof using Hw Hh.
    intros Hi Hj. rewrite beside_coord, below_coord by done.
    destruct (swap_coord i Hi) as (->&->&_). destruct (swap_coord j Hj) as (->&->&_). tauto.
  Qed.
  Lemma swap_below i j : i < w * h -> j < w * h -> below h (σ i) (σ j) <-> beside w i j.
  Proof using Hw Hh.
    intros Hi Hj. rewrite beside_coord, below_coord by done.
    destruct (swap_coord i Hi) as (->&->&_). destruct (swap_coord j Hj) as (->&->&_). tauto.
  Qed.
  Lemma swap_inj i j : i < w * h -> j < w * h -> σ i = σ j -> i = j.
  Proof using Hw Hh. intros Hi Hj E. rewrite <-(swap_swap i Hi), <-(swap_swap j Hj). by rewrite E. Qed.
End swap.

Section sym.
  Context (w h : nat) (Hw : 1 <= w) (Hh : 1 <= h).
  Local Notation σ := (swap w h).
  Local Notation n := (w * h).

  Lemma swap_fresh vs c : (forall i, i ∈ vs -> i < n) -> c < n -> σ <$> fresh w h vs c ≡ₚ fresh h w (σ <$> vs) (σ c).
  Proof using Hw Hh.
    intros Hvs Hc. apply NoDup_Permutation.
    - apply NoDup_fmap_2_strong; [|apply NoDup_filter, NoDup_seq]. unfold fresh.
      intros a b (_&Ha%elem_of_seq)%elem_of_list_filter (_&Hb%elem_of_seq)%elem_of_list_filter. apply swap_inj; lia.
    - apply NoDup_filter, NoDup_seq.
    - intros k. unfold fresh. rewrite elem_of_list_fmap, elem_of_list_filter, elem_of_seq. split.
      + intros (j&->&((Hb&Hj)&Hjn%elem_of_seq)%elem_of_list_filter). assert (j < n) as Hjn' by lia.
        split; [|split; [lia|]; by destruct (swap_coord w h Hw Hh j Hjn') as (_&_&?)]. split.
        * rewrite !swap_beside, !swap_below by done. tauto.
        * intros (j'&Hj'&Hin)%elem_of_list_fmap. apply swap_inj in Hj'; [by subst|done..|by apply Hvs].
      + intros ((Hb&Hk)&_&Hkn). assert (k < h * w) as Hkn' by lia. destruct (swap_coord h w Hh Hw k Hkn') as (_&_&Hlt).
        exists (swap h w k). rewrite (swap_swap h w Hh Hw k Hkn'). split; [done|]. apply elem_of_list_filter.
        rewrite elem_of_seq. split; [|lia]. split.
        * rewrite <-(swap_swap h w Hh Hw k Hkn') in Hb. rewrite !swap_beside, !swap_below in Hb by done. tauto.
        * intros Hin. apply Hk. apply elem_of_list_fmap. exists (swap h w k). split; [by rewrite (swap_swap h w Hh Hw k Hkn')|done].
  Qed.

  Lemma exchanged_length g : length (exchanged w h g) = n.
  Proof using. unfold exchanged. by rewrite fmap_length, seq_length. Qed.
  Lemma exchanged_lookup g i : i < n -> exchanged w h g !! i =
    Some (let nd := default (MazeNode true true) (g !! σ i) in MazeNode (m_down nd) (m_right nd)).
  Proof using. intros Hi. unfold exchanged. by rewrite list_lookup_fmap, lookup_seq_lt. Qed.
  Lemma exchanged_remove g a b : length g = h * w -> a < n -> b < n -> beside w a b \/ below w a b ->
    exchanged w h (remove_wall h (σ a) (σ b) g) = remove_wall w a b (exchanged w h g).
  Proof using Hw Hh.
    intros Hg Ha Hb Hab. apply list_eq. intros i. rewrite remove_lookup. destruct (decide (i < n)) as [Hi|Hi].
    2:{ rewrite !(lookup_ge_None_2 (exchanged w h _)); [done|rewrite exchanged_length; lia..]. }
    rewrite !exchanged_lookup by done. cbn [fmap option_fmap option_map]. f_equal.
    destruct (swap_coord w h Hw Hh i Hi) as (_&_&Hs). destruct (lookup_lt_is_Some_2 g (σ i)) as [nd Hnd]; [lia|].
    rewrite remove_lookup, Hnd. cbn [fmap option_fmap option_map default]. destruct (decide (σ i = σ a)) as [Hd|Hd].
    - apply swap_inj in Hd as ->; [|done..]. rewrite decide_True by done. cbn.
      rewrite (bool_decide_ext (beside h _ _) (below w a b)), (bool_decide_ext (below h _ _) (beside w a b)); [done|..].
      + by apply swap_below.
      + by apply swap_beside.
    - rewrite decide_False by congruence. done.
  Qed.
  Lemma remove_length a b g : length (remove_wall w a b g) = length g.
  Proof using. unfold remove_wall. apply imap_length. Qed.

  Lemma swap_order a b : a < n -> b < n -> beside w a b \/ below w a b -> a < b /\ σ a < σ b.
  Proof using Hw Hh.
    intros Ha Hb H. rewrite <-(swap_below w h Hw Hh), <-(swap_beside w h Hw Hh) in H by done.
    unfold beside, below in H. split; [|lia].
    assert (forall a b, a < n -> b < n -> (beside w a b \/ below w a b) -> a < b) as Hl.
    { intros ? ? ? ? [[-> _]| ->]; lia. }
    apply Hl; [done..|]. rewrite <-(swap_below w h Hw Hh), <-(swap_beside w h Hw Hh) by done. unfold beside, below. done.
  Qed.

  Lemma fresh_elem vs c j : j ∈ fresh w h vs c ->
    j < n /\ (beside w c j \/ below w c j \/ beside w j c \/ below w j c) /\ j ∉ vs.
  Proof using Hw Hh. unfold fresh. rewrite elem_of_list_filter, elem_of_seq. intros ((?&?)&?). split_and!; [lia|done|done]. Qed.

  Lemma walk_swap f : forall fuel path vs g, (forall i, i ∈ path -> i < n) -> (forall i, i ∈ vs -> i < n) -> length g = h * w ->
    walk fuel w h f path vs (exchanged w h g) = walk fuel h w (fun g => f (exchanged w h g)) (σ <$> path) (σ <$> vs) g.
  Proof using Hw Hh.
    induction fuel as [|fuel IH]; intros [|c rest] vs g Hp Hv Hg; [done..|]. rewrite fmap_cons. cbn [walk].
    assert (c < n) as Hc by (apply Hp; apply elem_of_cons; by left).
    pose proof (swap_fresh vs c Hv Hc) as Hf. pose proof (fresh_elem vs c) as He.
    assert (forall l, (forall j, j ∈ l -> j ∈ fresh w h vs c) ->
      mean (fun j => walk fuel w h f (j :: c :: rest) (j :: vs) (remove_wall w (c `min` j) (c `max` j) (exchanged w h g))) l =
      mean (fun j => walk fuel h w (fun g => f (exchanged w h g)) (j :: σ c :: (σ <$> rest)) (j :: (σ <$> vs))
        (remove_wall h (σ c `min` j) (σ c `max` j) g)) (σ <$> l)) as Hm.
    { intros l Hl. rewrite mean_fmap. apply mean_ext. intros j Hj. apply Hl, He in Hj as (Hjn&Hb&_).
      assert (remove_wall w (c `min` j) (c `max` j) (exchanged w h g) =
        exchanged w h (remove_wall h (σ c `min` σ j) (σ c `max` σ j) g)) as ->.
      { assert ((beside w c j \/ below w c j) \/ (beside w j c \/ below w j c)) as [H|H] by tauto.
        - destruct (swap_order c j Hc Hjn H) as [H1 H2]. rewrite !Nat.min_l, !Nat.max_r by lia. symmetry. by apply exchanged_remove.
        - destruct (swap_order j c Hjn Hc H) as [H1 H2]. rewrite !Nat.min_r, !Nat.max_l by lia. symmetry. by apply exchanged_remove. }
      rewrite <-!fmap_cons. apply IH.
      - intros i. rewrite elem_of_cons. intros [->|Hi]; [done|by apply Hp].
      - intros i. rewrite elem_of_cons. intros [->|Hi]; [done|by apply Hv].
      - unfold remove_wall. by rewrite imap_length. }
    specialize (Hm (fresh w h vs c) (fun j H => H)). rewrite (mean_perm _ _ _ Hf) in Hm.
    destruct (fresh w h vs c) as [|j l].
    - apply Permutation_nil in Hf. rewrite Hf. apply IH; [|done|done]. intros i Hi. apply Hp. apply elem_of_cons. by right.
    - destruct (fresh h w (σ <$> vs) (σ c)) as [|j' l']; [by apply Permutation_sym, Permutation_nil_cons in Hf|]. exact Hm.
  Qed.

  Lemma expected_swap f : expected w h f = expected h w (fun g => f (exchanged w h g)).
  Proof using Hw Hh.
    unfold expected. assert (exchanged w h (replicate (h * w) (MazeNode true true)) = replicate n (MazeNode true true)) as E.
    { apply list_eq. intros i. unfold exchanged. rewrite list_lookup_fmap. destruct (decide (i < n)) as [Hi|Hi].
      - rewrite lookup_seq_lt by done. cbn [fmap option_fmap option_map plus]. destruct (swap_coord w h Hw Hh i Hi) as (_&_&Hs).
        rewrite !lookup_replicate_2 by lia. done.
      - rewrite lookup_seq_ge by lia. symmetry. apply lookup_ge_None. rewrite replicate_length. lia. }
    rewrite <-E. rewrite walk_swap.
    - replace (2 * (h * w)) with (2 * n) by lia. unfold swap. cbn [fmap list_fmap]. rewrite Nat.mod_0_l, Nat.div_0_l by lia. done.
    - intros i Hi. apply elem_of_list_singleton in Hi as ->. nia.
    - intros i Hi. apply elem_of_list_singleton in Hi as ->. nia.
    - apply replicate_length.
  Qed.
End sym.
