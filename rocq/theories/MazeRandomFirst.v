(** Proofs for C75 and C76: unequal probabilities, the first passage. *)
From Coq Require Import QArith Qcanon.
From Verif Require Import Base Util UtilProofs DisjointSet Maze SpecMaze SpecMazeDfs MazeTree MazeGen MazeDfs MazeDfsProofs MazeDraws.
From Verif Require Import SpecMazeRandom MazeRandom.
Local Open Scope nat_scope.

Lemma mean_two {A} (f : A -> Qc) x y : mean f [x; y] = ((f x + f y) / qc 2)%Qc.
Proof. unfold mean. cbn [fmap list_fmap length]. rewrite !total_cons, total_nil. f_equal. ring. Qed.

Section first.
Context (m : mode) (w h : nat).
Context (Hw : 2 <= w) (Hh : 2 <= h) (Hst : storable m w h).
Local Notation n := (w * h).
Local Notation geo := (geo w h).
Local Notation GI := (GI w h).
Local Notation LI := (LI w h).
Local Notation W1 := (Nat.le_trans 1 2 w (le_S _ _ (le_n 1)) Hw).
Local Notation H1 := (Nat.le_trans 1 2 h (le_S _ _ (le_n 1)) Hh).

Lemma backtrack_keeps rng : forall fuel stack vs mz d E visit k mz' a b,
  GI vs mz d E -> LI stack vs visit -> joined w mz a b ->
  backtrack_loop m rng fuel w h stack (GState mz d visit k) = Ret mz' -> joined w mz' a b.
Proof.
  induction fuel as [|fuel IH]; intros stack vs mz d E visit k mz' a b HI HL Hj Hrun.
  - destruct stack; cbn in Hrun; [by injection Hrun as <-|done].
  - destruct stack as [|c rest]; [cbn in Hrun; by injection Hrun as <-|].
    destruct (step_cases m w h W1 H1 Hst rng fuel c rest vs mz d E visit k HI HL)
      as [(d'&k'&Hall&Hs&HI'&HL')|(dir&x&d'&vis'&k'&Hg&Hx&Hs&HI'&HL')]; rewrite Hs in Hrun.
    + by eapply IH.
    + eapply IH; [exact HI'|exact HL'| |exact Hrun]. apply (opened_joined w h W1 H1); [by apply HI|done|]. by left.
Qed.

Lemma start_fresh : fresh w h [0] 0 ≡ₚ [1; w].
Proof.
  apply NoDup_Permutation.
  - apply NoDup_filter, NoDup_seq.
  - apply NoDup_cons. split; [|apply NoDup_singleton]. intros H%elem_of_list_singleton. lia.
  - intros j. unfold fresh. rewrite elem_of_list_filter, elem_of_seq, !elem_of_cons, elem_of_nil.
    assert (beside w 0 1) as Hb.
    { split; [done|]. by rewrite Nat.div_0_l, Nat.div_small by lia. }
    assert (w < n) as Hwn by nia.
    unfold beside, below in *. split.
    + intros (([[H _]|[H|[[H _]|H]]]&_)&_); lia.
    + intros [->|[->|[]]]; (split; [|lia]); (split; [|intros [?|[]]; lia]); tauto.
Qed.

Lemma after_first dir x : geo dir 0 x -> x <> 0 -> (dir = Right \/ dir = Down) ->
  walk (2 * n - 1) w h right_open [x; 0] [x; 0] (opened dir 0 x (replicate n maze_node_new)) =
  if decide (dir = Right) then 1%Qc else 0%Qc.
Proof.
  intros Hg Hx Hdir. pose proof (n_pos w h W1 H1) as Hn.
  pose proof (gi_start w h W1 H1) as HI0. pose proof (start_li w h) as HL0.
  assert (0 ∈ [0]) as H00 by (by apply elem_of_list_singleton).
  destruct (visit_dir_spec m (fun _ => 0) w h W1 H1 Hst _ _ _ _ dir 0 HI0 H00) as [(d'&E1&HI'&Hg')|(x'&d'&E1&Hg'&Hx'&HI')].
  { exfalso. apply Hx. apply elem_of_list_singleton. by apply Hg'. }
  assert (x' = x) as ->.
  { apply (target_spec w h W1 H1) in Hg; [|lia]. apply (target_spec w h W1 H1) in Hg'; [|lia]. congruence. }
  set (vis' := filter (fun d => d <> dir) [Right; Down; Left; Up]).
  assert (LI [x; 0] [x; 0] (<[0 := vis']> (replicate n [Right; Down; Left; Up]))) as HL'.
  { eapply li_push; [exact HL0|by apply lookup_replicate_2|]. intros dir' Hd1 Hd2 j Hj. apply elem_of_cons. left.
    assert (dir' = dir) as ->.
    { destruct (decide (dir' = dir)) as [|Hne]; [done|]. exfalso. apply Hd2. by apply elem_of_list_filter. }
    apply (target_spec w h W1 H1) in Hj; [|lia]. apply (target_spec w h W1 H1) in Hg; [|lia]. congruence. }
  rewrite <-(backtrack_mean m w h W1 H1 Hst 12 (ex_intro _ 0 eq_refl) right_open (2 * n + 1) _ _ _ _ d' [(0, x)]
    (<[0 := vis']> (replicate n [Right; Down; Left; Up])) [] (pending (<[0 := vis']> (replicate n [Right; Down; Left; Up])))); [|done|done|..].
  - rewrite (mean_draws_ext _ _ _ (fun _ => if decide (dir = Right) then 1%Qc else 0%Qc)); [by apply mean_draws_const|].
    intros ds. cbn [app].
    destruct (backtrack_dfs m w h W1 H1 Hst (rng_of ds) (2 * n + 1) [x; 0] [x; 0] (opened dir 0 x (replicate n maze_node_new)) d' [(0, x)]
      (<[0 := vis']> (replicate n [Right; Down; Left; Up])) 0) as (mz&vs&d&E&visit&E2&HI&HL&HD).
    + done.
    + done.
    + eapply (di_push w h W1 H1); [exact HI0|exact HL0|apply start_di; lia|exact Hg|exact Hx'].
    + cbn [length]. assert (2 <= n) by nia. lia.
    + cbn [length]. rewrite E2. cbn [value].
      assert (joined w mz 0 x) as Hj.
      { eapply backtrack_keeps; [exact HI'|exact HL'| |exact E2]. apply (opened_joined w h W1 H1); [apply replicate_length|done|]. tauto. }
      pose proof (all_reached w h W1 H1 _ _ _ _ _ HI HL) as Hall.
      destruct (dead_end w h mz) as [j Hd]; [lia|lia|nia|by apply HI|..].
      { intros a b Ha Hb. apply (gi_tree _ _ _ _ _ _ HI); by apply Hall. }
      { intros a b Hab. apply (di_anc _ _ _ _ _ HD); [apply Hall; apply Hab|apply Hall; apply Hab|by apply neighbours_nb]. }
      assert (j = x) as -> by (symmetry; by apply Hd).
      unfold right_open. pose proof (gi_len _ _ _ _ _ _ HI) as Hlen.
      destruct (lookup_lt_is_Some_2 mz 0) as [nd Hnd]; [lia|]. rewrite Hnd.
      assert (beside w 0 1) as Hb.
      { split; [done|]. by rewrite Nat.div_0_l, Nat.div_small by lia. }
      assert (m_right nd = false <-> x = 1) as Hr.
      { split.
        - intros H. symmetry. apply Hd. left. split; [lia|]. exists nd. split; [done|]. by left.
        - intros ->. destruct Hj as [(_&nd'&Hnd'&H)|(_&nd'&_&H)].
          + rewrite Hnd in Hnd'. injection Hnd' as <-. destruct H as [[? _]|[_ H]]; [done|]. unfold below in H. lia.
          + unfold beside, below in H. lia. }
      destruct Hg as (_&_&Hl). destruct Hdir as [-> | ->]; cbn in Hl.
      * rewrite decide_True by done. destruct Hl as [-> _]. destruct (m_right nd); [|done]. assert (true = false) by (by apply Hr). done.
      * rewrite decide_False by done. unfold below in Hl. destruct (m_right nd); [done|]. assert (x = 1) by (by apply Hr). lia.
  - apply Forall_insert; [|].
    + apply Forall_replicate. split; [by apply (bool_decide_unpack _)|cbn; lia].
    + destruct Hdir as [-> | ->]; by apply (bool_decide_unpack _).
  - done.
  - cbn [length]. assert (2 <= n) by nia. lia.
  - cbn [length]. assert (2 <= n) by nia. lia.
Qed.

Lemma first_right : expected w h right_open = (1 / qc 2)%Qc.
Proof.
  unfold expected. change (MazeNode true true) with maze_node_new. assert (2 <= n) as Hn by nia.
  destruct (2 * n) as [|k] eqn:Hk; [lia|]. cbn [walk]. pose proof start_fresh as Hp.
  assert (forall dir x, geo dir 0 x -> x <> 0 -> (dir = Right \/ dir = Down) ->
    walk k w h right_open [x; 0] [x; 0] (remove_wall w (0 `min` x) (0 `max` x) (replicate n maze_node_new)) =
    if decide (dir = Right) then 1%Qc else 0%Qc) as Ha.
  { intros dir x Hg Hx Hd. rewrite <-(opened_remove m w h W1 H1 Hst dir) by done. replace k with (2 * n - 1) by lia. by apply after_first. }
  destruct (fresh w h [0] 0) as [|j l]; [by apply Permutation_nil_cons in Hp|]. rewrite (mean_perm _ _ _ Hp), mean_two.
  assert (w < n) as Hwn by nia.
  rewrite (Ha Right 1), (Ha Down w); [|split_and!; [lia|lia|done]|lia|by right|split_and!; [lia|lia|]|lia|by left].
  - rewrite decide_True, decide_False by done. f_equal. 
  - split; [done|]. by rewrite Nat.div_0_l, Nat.div_small by lia.
Qed.
End first.

Lemma first_half (m : mode) w h k : 2 <= w -> 2 <= h -> storable m w h ->
  mean_draws (12 * S k) (4 * (w * h)) (fun ds => value right_open (recursive_backtrack m (rng_of ds) w h)) = Q2Qc (1 # 2).
Proof.
  intros Hw Hh Hst. rewrite (generator_mean m w h) by (lia || done || eauto). rewrite (first_right m w h) by done.
  by apply Qc_is_canon.
Qed.

(** * Unequal probabilities *)

Definition likely : list maze_node :=
  [MazeNode false true; MazeNode true false; MazeNode true false; MazeNode true false; MazeNode false true;
   MazeNode true false; MazeNode false true; MazeNode false true; MazeNode true true].
Definition unlikely : list maze_node :=
  [MazeNode false true; MazeNode false true; MazeNode true false; MazeNode false false; MazeNode true true;
   MazeNode true false; MazeNode false true; MazeNode false true; MazeNode true true].
Lemma not_uniform : exists w h g1 g2, 1 <= w /\ 1 <= h /\ forall (m : mode) k, storable m w h /\
  mean_draws (12 * S k) (4 * (w * h)) (fun ds => value (exactly g1) (recursive_backtrack m (rng_of ds) w h)) = Q2Qc (1 # 16) /\
  mean_draws (12 * S k) (4 * (w * h)) (fun ds => value (exactly g2) (recursive_backtrack m (rng_of ds) w h)) = Q2Qc (1 # 12).
Proof.
  exists 3, 3, unlikely, likely. split; [lia|]. split; [lia|]. intros m k.
  assert (storable m 3 3) as Hst by (unfold storable; by destruct (word_of m)). split; [done|].
  rewrite !(generator_mean m 3 3) by (lia || done || eauto). split; vm_compute; by apply Qc_is_canon.
Qed.
