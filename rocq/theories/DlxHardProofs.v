(** Exponential work, as a bound and for an example of every size. *)
From Verif Require Import Base Dlx DlxCost SpecDlx SpecDlxSearch SpecDlxCost SpecDlxHard DlxCover.
From Verif Require DlxCostProofs.

Lemma sum_until_le {A} (stop : A -> bool) f l b : (forall x, x ∈ l -> f x <= b) -> sum_until stop f l <= length l * b.
Proof.
  induction l as [|x l IH]; intros H; cbn [sum_until length]; [lia|].
  pose proof (H x (elem_of_list_here _ _)). assert (sum_until stop f l <= length l * b).
  { apply IH. intros y Hy. apply H. by right. }
  destruct (stop x); lia.
Qed.
Lemma shortest_in {A} (k : list A) ks : shortest k ks ∈ k :: ks.
Proof.
  revert k. induction ks as [|k' ks IH]; intros k; cbn [shortest]; [by left|].
  destruct (decide _); [right; apply IH|]. pose proof (IH k) as H. apply elem_of_cons in H as [->|H]; [by left|by do 2 right].
Qed.
Lemma shortest_first {A} (k : list A) ks : Forall (fun k' => length k <= length k') ks -> shortest k ks = k.
Proof. induction 1 as [|k' ks H _ IH]; cbn [shortest]; [done|]. rewrite decide_False by lia. exact IH. Qed.
Lemma choose_length cs r k : k ∈ cs -> r ∈ k -> length (choose cs r) < length cs.
Proof. intros Hk Hr. unfold choose. rewrite fmap_length. eapply filter_length_lt; [exact Hk|tauto]. Qed.
Lemma choose_widths cs r m : Forall (fun k => length k <= m) cs -> Forall (fun k => length k <= m) (choose cs r).
Proof.
  intros H. unfold choose. apply Forall_fmap. apply Forall_forall. intros k [_ Hk]%elem_of_list_filter.
  cbn. etrans; [apply filter_length|]. by eapply Forall_forall in H.
Qed.
Lemma tree_mono m a b : a <= b -> tree_size m a <= tree_size m b.
Proof.
  revert b. induction a as [|a IH]; intros [|b] H; cbn [tree_size]; try lia. 
  assert (tree_size m a <= tree_size m b) by (apply IH; lia). nia.
Qed.
Lemma branches_bound m levels : forall cs, length cs <= levels -> Forall (fun k => length k <= m) cs ->
  branches levels cs <= tree_size m (length cs).
Proof.
  induction levels as [|levels IH]; intros [|k ks] Hl H; cbn [branches length tree_size]; try (cbn in Hl; lia).
  pose proof (shortest_in k ks) as Hs. set (q := shortest k ks) in *.
  assert (length q <= m) as Hq by (by eapply Forall_forall in H).
  etrans; [apply le_n_S, (sum_until_le _ _ q (tree_size m (length ks)))|nia].
  intros r Hr. pose proof (choose_length _ _ _ Hs Hr) as Hc. cbn [length] in Hc, Hl.
  etrans; [apply IH; [lia|by apply choose_widths]|]. apply tree_mono. lia.
Qed.

(** A choice that concerns nothing else. *)
Lemma choose_apart p rest r : r ∈ p -> (forall k s, k ∈ rest -> s ∈ k -> s ∉ p) -> choose (p :: rest) r = rest.
Proof.
  intros Hr Ha. unfold choose. rewrite filter_cons_False by tauto.
  assert (filter (fun k => r ∉ k) rest = rest) as ->.
  { apply filter_id. intros k Hk Hrk. exact (Ha k r Hk Hrk Hr). }
  set (f := filter _). assert (forall l : list (list nat), (forall k, k ∈ l -> f k = k) -> f <$> l = l) as Hid.
  { clearbody f. clear. induction l as [|k l IH]; intros H; [done|]. rewrite fmap_cons. f_equal; [apply H; by left|]. apply IH. intros. apply H. by right. }
  apply Hid. intros k Hk. apply filter_id.
  intros s Hs [[_ Hp]|(k'&Hk'&Hr'&_)%Exists_exists]%Exists_cons.
  - exact (Ha k s Hk Hs Hp).
  - exact (Ha k' r Hk' Hr' Hr).
Qed.
Definition hard_from (j n : nat) : list (list nat) :=
  ((fun i => [3 + 2 * i; 4 + 2 * i]) <$> seq j n) ++ [[0; 1]; [1; 2]; [0; 2]].
Lemma hard_elem j n k : k ∈ hard_from j n -> (exists i, j <= i /\ k = [3 + 2 * i; 4 + 2 * i]) \/ k ∈ [[0; 1]; [1; 2]; [0; 2]].
Proof.
  unfold hard_from. rewrite elem_of_app, elem_of_list_fmap. intros [(i&->&[Hi _]%elem_of_seq)|H]; eauto.
Qed.
Lemma hard_apart j n k s : k ∈ hard_from (S j) n -> s ∈ k -> s ∉ [3 + 2 * j; 4 + 2 * j].
Proof.
  intros [(i&Hi&->)|Hk]%hard_elem Hs Hp; rewrite !elem_of_cons, elem_of_nil in Hp.
  - rewrite !elem_of_cons, elem_of_nil in Hs. lia.
  - rewrite !elem_of_cons, elem_of_nil in Hk.
    destruct Hk as [-> |[-> |[-> | []]]]; rewrite !elem_of_cons, elem_of_nil in Hs; lia.
Qed.
Lemma hard_work n : forall levels j, n + 3 <= levels ->
  algorithm_x levels (hard_from j n) = None /\ branches levels (hard_from j n) = 2 ^ (n + 2) - 1.
Proof.
  induction n as [|n IH]; intros levels j Hl.
  - destruct levels as [|[|[|l]]]; try lia. split; reflexivity.
  - destruct levels as [|levels]; [lia|]. destruct (IH levels (S j)) as [I1 I2]; [lia|].
    change (hard_from j (S n)) with ([3 + 2 * j; 4 + 2 * j] :: hard_from (S j) n).
    assert (shortest [3 + 2 * j; 4 + 2 * j] (hard_from (S j) n) = [3 + 2 * j; 4 + 2 * j]) as Es.
    { apply shortest_first, Forall_forall. intros k [(i&_&->)|Hk]%hard_elem; [done|].
      rewrite !elem_of_cons, elem_of_nil in Hk. destruct Hk as [-> |[-> |[-> | []]]]; done. }
    cbn [algorithm_x branches]. rewrite Es. cbn [first_some sum_until].
    rewrite !choose_apart by (first [by apply hard_apart|rewrite !elem_of_cons; auto]).
    rewrite I1, I2. rewrite bool_decide_false by (intros [? ?]; done). split; [done|].
    cbn [Nat.add Nat.pow]. pose proof (Nat.pow_nonzero 2 (n + 2)). lia.
Qed.

Lemma hard_calls n fuel : 3 * n + 9 < fuel ->
  exists mx, matrix_new (hard n) = Ret mx /\ size (d_heap mx) = 3 * n + 10 /\
    solve_calls fuel mx = Ret (Err DlxNoSolution, ∅, 2 ^ (n + 2) - 1).
Proof.
  intros Hf. change (hard n) with (hard_from 0 n).
  assert (Forall NoDup (hard_from 0 n)) as Hnd.
  { apply Forall_forall. intros k [(i&_&->)|Hk]%hard_elem.
    - repeat constructor; rewrite ?elem_of_cons, ?elem_of_nil; lia.
    - rewrite !elem_of_cons, elem_of_nil in Hk.
      destruct Hk as [-> |[-> |[-> | []]]]; repeat constructor; rewrite ?elem_of_cons, ?elem_of_nil; lia. }
  assert (forall j, matrix_size (hard_from j n) = 3 * n + 9) as Hsz.
  { clear. induction n as [|n IH]; intros j; [reflexivity|].
    change (hard_from j (S n)) with ([3 + 2 * j; 4 + 2 * j] :: hard_from (S j) n).
    unfold matrix_size in *. cbn [fmap list_fmap sum_list sum_list_with]. rewrite ?IH. cbn. lia. }
  assert (compatible (hard_from 0 n) []) as Hc by (intros [|] ? ? [=]).
  assert (matrix_size (hard_from 0 n) < fuel) as Hf' by (rewrite Hsz; lia).
  destruct (DlxCostProofs.search_calls _ [] fuel Hnd Hc Hf') as (mx&mx1&E&E1&E2).
  destruct (DlxCostProofs.matrix_nodes _ [] fuel Hnd Hc Hf') as (mx2&mx3&E3&E4&E5).
  cbn [foldl add_all] in *. assert (mx2 = mx) as -> by congruence. assert (mx3 = mx) as -> by congruence. assert (mx1 = mx) as -> by congruence.
  exists mx. split; [done|]. split; [rewrite E5, Hsz; lia|]. rewrite E2.
  assert (length (hard_from 0 n) = n + 3) as Hlen.
  { unfold hard_from. by rewrite app_length, fmap_length, seq_length. }
  destruct (hard_work n (n + 3) 0) as [W1 W2]; [lia|].
  unfold knuth, knuth_branches. rewrite Hlen, W1, W2. done.
Qed.
Lemma calls_bound cs added fuel m : Forall NoDup cs -> compatible cs added -> matrix_size cs < fuel ->
  Forall (fun k => length k <= m) cs ->
  exists mx0 mx r calls, matrix_new cs = Ret mx0 /\ add_all fuel added mx0 = Ret (Ok mx) /\
    solve_calls fuel mx = Ret (r, ∅, calls) /\ calls <= tree_size m (length (foldl choose cs added)).
Proof.
  intros Hnd Hc Hf Hm. destruct (DlxCostProofs.search_calls cs added fuel Hnd Hc Hf) as (mx0&mx&E1&E2&E3).
  do 4 eexists. split_and!; [exact E1|exact E2|exact E3|]. unfold knuth_branches. apply branches_bound; [done|].
  clear -Hm. revert cs Hm. induction added as [|r added IH]; intros cs Hm; cbn [foldl]; [done|]. by apply IH, choose_widths.
Qed.
Lemma hard_bound n : Forall (fun k => length k = 2) (hard n) /\ tree_size 2 (length (hard n)) = 2 ^ (n + 4) - 1.
Proof.
  split.
  - unfold hard. apply Forall_app. split; [|by repeat constructor]. apply Forall_fmap, Forall_forall. done.
  - unfold hard. rewrite app_length, fmap_length, seq_length. cbn [length].
    assert (forall k, tree_size 2 k = 2 ^ (k + 1) - 1) as ->; [|f_equal; f_equal; lia].
    induction k as [|k IH]; [done|]. cbn [tree_size]. rewrite IH. cbn [Nat.add Nat.pow].
    pose proof (Nat.pow_nonzero 2 (k + 1)). lia.
Qed.
