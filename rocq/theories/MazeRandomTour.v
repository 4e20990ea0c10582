(** Proofs for C85: the probability of a maze that is a single walk; sizes for
    which all mazes are equally likely. *)
From Coq Require Import QArith Qcanon.
From Verif Require Import Base Util UtilProofs DisjointSet Maze SpecMaze SpecMazeDfs MazeTree MazeGen MazeDfs MazeDfsProofs MazeDraws.
From Verif Require Import SpecMazeRandom MazeRandom MazeRandomSym MazeRandomFirst MazeRandomBound MazeRandomTwo.
From Verif Require Import SpecMazeTour SpecMazeRandomTour.
From Verif Require MazeTour.
Local Open Scope nat_scope.

Lemma total_zero {A} (f : A -> Qc) l : (forall y, y ∈ l -> f y = 0%Qc) -> total (f <$> l) = 0%Qc.
Proof.
  induction l as [|a l IH]; intros H; [done|]. cbn [fmap list_fmap]. rewrite total_cons, H, IH; [ring| |by left].
  intros y Hy. apply H. by right.
Qed.
Lemma mean_only {A} (f : A -> Qc) l x : NoDup l -> x ∈ l -> (forall y, y ∈ l -> y <> x -> f y = 0%Qc) ->
  mean f l = (f x / qc (length l))%Qc.
Proof.
  intros Hnd Hx H. unfold mean. f_equal. apply elem_of_list_split in Hx as (l1&l2&->).
  apply NoDup_app in Hnd as (_&H1&H2). apply NoDup_cons in H2 as [H2 _].
  change (@fmap list list_fmap A Qc f (l1 ++ x :: l2)) with (f <$> l1 ++ x :: l2).
  rewrite fmap_app, total_app. cbn [fmap list_fmap]. rewrite total_cons.
  change (list_fmap A Qc f l2) with (f <$> l2). rewrite !total_zero; [ring| |].
  - intros y Hy. apply H; [|by intros ->]. apply elem_of_app. right. by right.
  - intros y Hy. apply H; [apply elem_of_app; by left|]. intros ->. by apply (H1 x Hy); left.
Qed.

Lemma fresh_nodup w h vs c : NoDup (fresh w h vs c).
Proof. apply NoDup_filter, NoDup_seq. Qed.
Lemma fresh_ext w h vs vs' c : (forall i, i ∈ vs <-> i ∈ vs') -> fresh w h vs c = fresh w h vs' c.
Proof. intros H. unfold fresh. apply list_filter_iff. intros j. by rewrite H. Qed.

Section tour.
Context (m : mode) (w h : nat).
Context (Hw : 1 <= w) (Hh : 1 <= h) (Hst : storable m w h).
Local Notation n := (w * h).
Local Notation geo := (geo w h).
Local Notation GI := (GI w h).
Local Notation LI := (LI w h).
Context (l : list nat) (Ht : tour w h l).
Context (g : list maze_node) (Hlen : length g = n) (Hwall : walled w h g) (Hperf : perfect w h g) (Hdf : depth_first w h g).
Context (Hg : forall i j, joined w g i j <-> MazeTour.linked l i j).
Local Notation TI := (TI w g).

Lemma walk_full : forall fuel path vs mz d E visit, GI vs mz d E -> LI path vs visit -> TI path vs mz ->
  (forall i, i < n -> i ∈ vs) -> length path < fuel + 1 -> walk fuel w h (exactly g) path vs mz = 1%Qc.
Proof.
  induction fuel as [|fuel IH]; intros path vs mz d E visit HI HL HT Hall Hf; (destruct path as [|c rest]; cbn [walk]).
  - destruct (ti_end m w h Hw Hh Hst g Hlen Hwall Hperf Hdf vs mz d E visit HI HL HT) as [-> _]. unfold exactly. by rewrite decide_True.
  - cbn in Hf. lia.
  - destruct (ti_end m w h Hw Hh Hst g Hlen Hwall Hperf Hdf vs mz d E visit HI HL HT) as [-> _]. unfold exactly. by rewrite decide_True.
  - assert (c ∈ vs) as Hc by (apply HL; apply elem_of_cons; by left). assert (c < n) as Hcn by (by apply HI).
    assert (forall x, joined w g c x -> x ∈ vs) as Hchild.
    { intros x Hj. apply Hall. destruct (joined_nb w h Hw Hh g c x Hlen Hj) as (dir&_&?&_). done. }
    destruct (ti_children w h Hw Hh g Hlen Hperf Hdf c rest vs mz d E visit HI HL HT Hchild) as [-> HT'].
    eapply (IH rest vs mz d E); [done| |done|done|cbn in Hf; lia]. apply li_pop; [done| |done].
    intros dir j (_&Hj&_). by apply Hall.
Qed.

Lemma walk_tour : forall suf c rest fuel mz d E visit, l = reverse rest ++ c :: suf -> GI (c :: rest) mz d E ->
  LI (c :: rest) (c :: rest) visit -> TI (c :: rest) (c :: rest) mz -> length suf + n < fuel + 1 ->
  walk fuel w h (exactly g) (c :: rest) (c :: rest) mz = (/ qc (tour_choices w h rest (c :: suf)))%Qc.
Proof.
  pose proof (MazeTour.tour_nodup w h l Ht) as Hnd. pose proof (MazeTour.tour_elem w h l Hw Hh Ht) as Hel.
  assert (length l = n) as Hln by (rewrite (proj1 (proj2 Ht)); apply seq_length).
  induction suf as [|x suf IH]; intros c rest fuel mz d E visit Hl HI HL HT Hf.
  - cbn [tour_choices]. change (/ qc 1)%Qc with 1%Qc. apply (walk_full _ _ _ _ d E visit); [done|done|done| |].
    + intros i Hi%Hel. rewrite Hl in Hi. rewrite elem_of_app, elem_of_reverse, elem_of_list_singleton in Hi. rewrite elem_of_cons. tauto.
    + rewrite Hl, app_length, reverse_length in Hln. cbn in Hln |- *. cbn in Hf. lia.
  - destruct fuel as [|fuel]; [cbn in Hf; lia|]. cbn [walk].
    assert (c ∈ l) as Hc by (rewrite Hl, elem_of_app; right; by left). assert (c < n) as Hcn by (by apply Hel).
    assert (x ∉ c :: rest) as Hx.
    { rewrite Hl in Hnd. apply NoDup_app in Hnd as (_&H1&H2). apply NoDup_cons in H2 as [H2 _]. rewrite elem_of_cons.
      intros [->|Hin]; [apply H2; by left|]. apply (H1 x); [by apply elem_of_reverse|]. right. by left. }
    assert (joined w g c x) as Hj.
    { apply Hg. left. exists (length rest). rewrite Hl. split; rewrite lookup_app_r; rewrite reverse_length; try lia.
      - by rewrite Nat.sub_diag.
      - by replace (S (length rest) - length rest) with 1 by lia. }
    destruct (joined_nb w h Hw Hh g c x Hlen Hj) as (dir&Hgeo).
    assert (x ∈ fresh w h (c :: rest) c) as Hxf by (apply (elem_fresh w h Hw Hh); [done|]; split; [by exists dir|done]).
    destruct (fresh w h (c :: rest) c) as [|x0 l0] eqn:Hfr; [by apply elem_of_nil in Hxf|]. rewrite <-Hfr in *.
    rewrite (mean_only _ _ x (fresh_nodup w h _ c) Hxf).
    + cbn [tour_choices]. rewrite qc_mult. rewrite <-(opened_remove m w h Hw Hh Hst dir) by done.
      destruct (enter m w h Hw Hh Hst c rest (c :: rest) mz d E visit dir x HI HL Hgeo Hx) as (d'&visit'&HI'&HL').
      erewrite IH; [|by rewrite reverse_cons, <-app_assoc|exact HI'|exact HL'|by eapply (ti_push w h Hw Hh g)|cbn in Hf; lia].
      unfold Qcdiv. rewrite Qcmult_comm. symmetry. apply Qcinv_mult_distr.
    + intros y Hy Hne. apply (elem_fresh w h Hw Hh) in Hy as [(dir'&Hgy) Hy]; [|done].
      rewrite <-(opened_remove m w h Hw Hh Hst dir') by done. pose proof (gi_len _ _ _ _ _ _ HI) as Hml.
      apply (walk_zero m w h Hw Hh Hst g c y).
      * rewrite Hg. assert (l !! length rest = Some c) as Hlc.
        { rewrite Hl, lookup_app_r; rewrite reverse_length; [|lia]. by rewrite Nat.sub_diag. }
        intros [(k&H1&H2)|(k&H1&H2)].
        -- pose proof (NoDup_lookup _ _ _ _ Hnd H1 Hlc) as ->. apply Hne. rewrite Hl, lookup_app_r in H2; rewrite reverse_length in *; [|lia].
           replace (S (length rest) - length rest) with 1 in H2 by lia. by injection H2.
        -- pose proof (NoDup_lookup _ _ _ _ Hnd H2 Hlc) as E'. apply Hy. right. apply elem_of_reverse.
           apply elem_of_list_lookup. exists k. rewrite Hl, lookup_app_l in H1; [done|]. rewrite reverse_length. lia.
      * intros i Hi. apply elem_of_cons in Hi as [->|Hi]; [by destruct Hgy as (_&?&_)|]. by apply HI, HL.
      * rewrite (opened_remove m w h Hw Hh Hst dir') by done. unfold remove_wall. by rewrite imap_length.
      * apply (opened_joined w h Hw Hh); [done|done|]. tauto.
Qed.

Lemma expected_tour : expected w h (exactly g) = (/ qc (tour_choices w h [] l))%Qc.
Proof.
  pose proof (n_pos w h Hw Hh) as Hn. assert (length l = n) as Hln by (rewrite (proj1 (proj2 Ht)); apply seq_length).
  assert (exists suf, l = 0 :: suf) as [suf Hl].
  { pose proof (proj1 Ht) as H0. clear -H0. destruct l as [|a suf]; [done|]. cbn in H0. injection H0 as ->. by exists suf. }
  rewrite Hl at 1. apply (walk_tour suf 0 [] (2 * n) (replicate n maze_node_new) (with_size n) [] (replicate n [Right; Down; Left; Up])).
  - done.
  - by apply gi_start.
  - by apply start_li.
  - apply ti_start.
  - rewrite Hl in Hln. cbn in Hln. lia.
Qed.
End tour.

Lemma tour_probability (m : mode) w h k l g : 1 <= w -> 1 <= h -> storable m w h -> tour w h l ->
  length g = w * h -> walled w h g -> (forall i j, joined w g i j <-> next_in l i j \/ next_in l j i) ->
  mean_draws (12 * S k) (4 * (w * h)) (fun ds => value (exactly g) (recursive_backtrack m (rng_of ds) w h)) =
  (/ qc (tour_choices w h [] l))%Qc.
Proof.
  intros Hw Hh Hst Ht Hlen Hwall Hg. rewrite (generator_mean m w h Hw Hh Hst) by eauto.
  assert (g = MazeTour.tour_maze w h l Hw Hh) as ->.
  { apply (same_walls m w h Hw Hh Hst); [apply MazeTour.tour_length|by apply MazeTour.tour_perfect|by apply MazeTour.tour_dfs|done|..].
    - by apply (closed_walled w h Hw Hh).
    - apply (closed_walled w h Hw Hh); [apply MazeTour.tour_length|]. by apply MazeTour.tour_walled.
    - intros a b. rewrite Hg. symmetry. by apply MazeTour.tour_joined. }
  apply (expected_tour m); try done; first [by apply MazeTour.tour_perfect|by apply MazeTour.tour_dfs|by apply MazeTour.tour_joined|by apply MazeTour.tour_walled].
Qed.
