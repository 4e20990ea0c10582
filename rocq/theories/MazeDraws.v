(** Proofs for C66: how many random numbers are drawn. *)
From Verif Require Import Base Util DisjointSet Maze SpecMaze UtilProofs MazeGen.

Lemma choose_random_length {A} n (l : list A) x rest : choose_random n l = Some (x, rest) -> length l = S (length rest).
Proof. intros E. destruct (choose_random_perm n l) as [_ H]. by rewrite <- (H _ _ E). Qed.

Section agree.
  Context (m : mode) (rng rng' : nat -> nat).

  Lemma visit_loop_draws fuel c w h : forall mz d vis k r mz' d' vis' k',
    visit_loop m rng fuel c w h mz d vis k = Ret (r, mz', d', vis', k') -> k' + length vis' = k + length vis.
  Proof using.
    induction fuel as [|fuel IH]; intros mz d vis k r mz' d' vis' k' E.
    - destruct vis; cbn in E; [|done]. by injection E as <- <- <- <- <-.
    - destruct vis as [|v vis]; cbn [visit_loop] in E; [by injection E as <- <- <- <- <-|].
      destruct (choose_random (rng k) (v :: vis)) as [[dir rest]|] eqn:Ec; cbn [expect bind] in E; [|done].
      apply choose_random_length in Ec. rewrite Ec.
      destruct (visit_dir m c w h dir mz d) as [[[[nx mz1]|] d1]|f]; cbn [bind] in E; [|apply IH in E; lia|done].
      injection E as <- <- <- <- <-. lia.
  Qed.

  Lemma visit_loop_agree fuel c w h : forall mz d vis k,
    (forall j, k <= j < k + length vis -> rng j = rng' j) ->
    visit_loop m rng fuel c w h mz d vis k = visit_loop m rng' fuel c w h mz d vis k.
  Proof using.
    induction fuel as [|fuel IH]; intros mz d vis k Ha; destruct vis as [|v vis]; cbn [visit_loop]; [done..|].
    rewrite <- (Ha k) by (cbn; lia).
    destruct (choose_random (rng k) (v :: vis)) as [[dir rest]|] eqn:Ec; cbn [expect bind]; [|done].
    apply choose_random_length in Ec.
    destruct (visit_dir m c w h dir mz d) as [[[[nx mz1]|] d1]|f]; cbn [bind]; [done| |done].
    apply IH. intros j Hj. apply Ha. lia.
  Qed.

  Definition pending (l : list (list direction)) : nat := sum_list (length <$> l).
  Lemma pending_insert l i old new : l !! i = Some old -> pending (<[i := new]> l) + length old = pending l + length new.
  Proof using.
    unfold pending. revert i. induction l as [|a l IH]; intros [|i] Hi; [done..| |].
    - injection Hi as ->. cbn. lia.
    - cbn in Hi. change (<[S i := new]> (a :: l)) with (a :: <[i := new]> l). rewrite !fmap_cons.
      cbn [sum_list foldr]. specialize (IH _ Hi). cbn in *. lia.
  Qed.

  Lemma backtrack_agree fuel w h n : (forall j, j < n -> rng j = rng' j) -> forall path s,
    g_draws s + pending (g_visit s) = n ->
    backtrack_loop m rng fuel w h path s = backtrack_loop m rng' fuel w h path s.
  Proof using.
    intros Ha. induction fuel as [|fuel IH]; intros [|c rest] s Hs; cbn [backtrack_loop]; [done..|].
    unfold vec_get. destruct (g_visit s !! c) as [vis|] eqn:Ev; cbn [expect bind]; [|done].
    unfold visit_next. rewrite <- visit_loop_agree.
    2:{ intros j Hj. apply Ha. pose proof (pending_insert _ _ _ [] Ev). cbn in H. lia. }
    destruct (visit_loop m rng _ c w h _ _ vis (g_draws s)) as [[[[[r mz] d] vis'] k]|f] eqn:El; cbn [bind]; [|done].
    apply visit_loop_draws in El. unfold vec_set. destruct (decide (c < length (g_visit s))); cbn [bind expect]; [|done].
    pose proof (pending_insert _ _ _ vis' Ev).
    destruct r; apply IH; cbn [g_draws g_visit]; lia.
  Qed.
End agree.

Lemma draws_enough (m : mode) rng rng' w h : storable m w h -> (forall k, k < 4 * (w * h) -> rng k = rng' k) ->
  create_maze m rng w h = create_maze m rng' w h.
Proof.
  intros Hs Ha. unfold create_maze. f_equal. unfold recursive_backtrack.
  rewrite MazeGen.n_mul_small by (unfold storable in Hs; lia).
  cbn [bind]. apply (backtrack_agree m rng rng' _ _ _ (4 * (w * h))); [done|]. cbn.
  unfold pending. rewrite fmap_replicate. generalize (w * h). induction n as [|n IH]; [done|]. cbn in IH |- *. lia.
Qed.
