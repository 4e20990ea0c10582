(** Which mazes [create_maze] can return. *)
From Verif Require Import WordProofs.
From Verif Require Import Base Util DisjointSet Maze SpecMaze SpecMazeDfs MazeTree MazeGen MazeBfs MazeProofs MazeDfs.

Lemma support (m : mode) w h : 1 <= w -> 1 <= h -> storable m w h -> forall g,
  (exists rng, recursive_backtrack m rng w h = Ret g) <->
  length g = w * h /\ walled w h g /\ perfect w h g /\ depth_first w h g.
Proof.
  intros Hw Hh Hst g. split.
  - intros [rng Hr]. destruct (gen_dfs m w h Hw Hh Hst rng) as (mz&E&H). rewrite E in Hr. injection Hr as <-. done.
  - intros (H1&H2&H3&H4). by apply reach_tree.
Qed.

Lemma create_from (m : mode) rng w h mz : 1 <= w -> 1 <= h -> storable m w h -> recursive_backtrack m rng w h = Ret mz ->
  exists e sol, in_last_row w h e /\ create_maze m rng w h = Ret (open_d e mz, sol).
Proof.
  intros Hw Hh Hst E. pose proof (n_pos w h Hw Hh) as Hn. unfold create_maze.
  destruct (gen_spec m rng w h Hw Hh Hst) as (mz'&E'&Hlen&Hcl&Htree&Hps). rewrite E in E'. injection E' as <-.
  rewrite E. cbn [bind].
  rewrite n_mul_small by (apply (n_small m w h Hw Hh Hst); lia). cbn [bind].
  destruct (bi_start w h Hw Hh mz Hlen) as (t&E2&HB). rewrite E2. cbn [bind].
  assert (forall i, i < w * h -> exists l, path (joined w mz) 0 l i) as Hconn.
  { intros i Hi. destruct (Htree 0 i) as (l&[Hp _]&_); [lia|done|]. eauto. }
  destruct (bfs_loop_spec m w h Hw Hh Hst mz Hlen Hcl Hconn (S (w * h)) [] [0] t _ 0 HB eq_refl) as (e&sol'&E3&He&_);
    [lia|cbn; lia|].
  rewrite E3. eauto.
Qed.

Lemma ancestor_ext w g g' a b : (forall i j, joined w g i j <-> joined w g' i j) -> ancestor w g a b -> ancestor w g' a b.
Proof.
  intros H (l&H1&H2&H3). exists l. split_and!; [|done|done]. eapply path_sub; [|done]. intros x y. apply H.
Qed.

Lemma create_dfs (m : mode) rng w h g sol : storable m w h -> create_maze m rng w h = Ret (g, sol) -> depth_first w h g.
Proof.
  intros Hst Hrun. destruct (create_dims m rng w h g sol Hrun) as [Hw Hh].
  destruct (gen_dfs m w h Hw Hh Hst rng) as (mz&E&Hlen&_&_&Hd).
  destruct (create_from m rng w h mz Hw Hh Hst E) as (e&sol'&He&E'). rewrite E' in Hrun. injection Hrun as <- <-.
  intros i j Hij. pose proof (exit_joined m rng w h _ _ E' mz e Hlen He) as Hj.
  destruct (Hd i j Hij) as [H|H]; [left|right]; (eapply ancestor_ext; [|exact H]); intros a b; by rewrite Hj.
Qed.

Lemma with_exit_open e g : with_exit e g = open_d e g.
Proof.
  unfold with_exit, open_d. apply list_eq. intros i. rewrite list_lookup_imap. destruct (decide (i = e)) as [->|Hne].
  - rewrite list_lookup_alter. rewrite Nat.eqb_refl. done.
  - rewrite list_lookup_alter_ne by done. destruct (Nat.eqb_spec i e); [done|]. by destruct (g !! i).
Qed.
Lemma create_every (m : mode) w h g : 1 <= w -> 1 <= h -> storable m w h -> length g = w * h -> walled w h g -> perfect w h g ->
  depth_first w h g -> exists rng e sol, in_last_row w h e /\ create_maze m rng w h = Ret (with_exit e g, sol).
Proof.
  intros Hw Hh Hst H1 H2 H3 H4. destruct (reach_tree m w h Hw Hh Hst g H1 H3 H4 H2) as [rng E].
  destruct (create_from m rng w h g Hw Hh Hst E) as (e&sol&He&E'). exists rng, e, sol. rewrite with_exit_open. done.
Qed.

(** * The start is a dead end *)

Lemma dead_end w h g : 1 <= w -> 1 <= h -> 2 <= w * h -> length g = w * h -> perfect w h g -> depth_first w h g ->
  exists j, forall k, joined w g 0 k <-> k = j.
Proof.
  intros Hw Hh Hn Hlen Hp Hd.
  assert (exists j, joined w g 0 j) as [j Hj].
  { destruct (Hp 0 1) as (l&[Hl _]&_); [lia|lia|]. destruct l as [|a [|b l]].
    - by destruct Hl.
    - destruct Hl as ([= ->]&[=]&_).
    - pose proof Hl as ([= ->]&_&_). apply path_tail in Hl as [Hl _]. eauto. }
  exists j. intros k. split; [|by intros ->].
  intros Hk. destruct (decide (k = j)) as [|Hne]; [done|]. exfalso.
  assert (forall x, joined w g 0 x -> (x = 1 /\ beside w 0 1) \/ x = w) as Hside.
  { intros x [(_&nd&_&H)|(_&nd&_&H)].
    - destruct H as [[_ [-> H]]|[_ H]]; [by left|]. right. unfold below in H. lia.
    - unfold beside, below in H. lia. }
  assert (joined w g 0 1 /\ joined w g 0 w /\ 1 <> w /\ beside w 0 1) as (H1&H2&H3&Hb).
  { destruct (Hside _ Hj) as [[-> Hb]| ->], (Hside _ Hk) as [[-> Hb']| ->]; try done; split_and!; auto. }
  assert (w + 1 < w * h) as Hlt.
  { destruct (joined_nb w h Hw Hh g 0 w Hlen H2) as (dir&_&Hwn&_). destruct h as [|[|h']]; lia. }
  assert (forall x, joined w g 0 x -> x < w * h -> x <> 0 -> forall l, path (joined w g) 0 l x -> NoDup l -> l = [0; x]) as Hu.
  { intros x Hx Hxn Hx0 l Hl Hnd. destruct (Hp 0 x) as (l0&_&Hu0); [lia|lia|]. rewrite (Hu0 l) by done. symmetry. apply Hu0.
    split; [apply (path_cons _ 0 x); [done|apply path_single]|]. apply NoDup_cons. split; [|apply NoDup_singleton].
    intros Hin. apply elem_of_list_singleton in Hin. done. }
  assert (forall x, joined w g 0 x -> x < w * h -> x <> 0 -> forall l t, path (joined w g) 0 l t -> NoDup l -> x ∈ l ->
    l !! 1 = Some x) as Hsnd.
  { intros x Hx Hxn Hx0 l t Hl Hnd Hin. apply elem_of_list_split in Hin as (l1&l2&->).
    destruct (path_split _ _ _ _ _ _ Hl) as [Hl1 _].
    assert (l1 ++ [x] = [0; x]) as He.
    { apply Hu; [done|done|done|done|]. replace (l1 ++ x :: l2) with ((l1 ++ [x]) ++ l2) in Hnd by (by rewrite <-app_assoc).
      by apply NoDup_app in Hnd as [? _]. }
    replace (l1 ++ x :: l2) with ((l1 ++ [x]) ++ l2) by (by rewrite <-app_assoc). by rewrite He. }
  assert (forall x, joined w g 0 x -> x < w * h -> x <> 0 -> x <> w + 1 -> neighbours w h x (w + 1) ->
    exists l, path (joined w g) 0 l (w + 1) /\ NoDup l /\ x ∈ l) as Hanc.
  { intros x Hx Hxn Hx0 Hxw Hnb. destruct (Hd x (w + 1) Hnb) as [H|(l&Hl&Hnd&Hin)]; [done|]. exfalso.
    rewrite (Hu x Hx Hxn Hx0 l Hl Hnd) in Hin. rewrite !elem_of_cons in Hin.
    destruct Hin as [H|[H|H]]; [lia|done|by apply elem_of_nil in H]. }
  destruct (Hanc 1) as (l&Hl&Hnd&Hin); [done|lia|lia|lia| |].
  { split_and!; [lia|lia|]. right. unfold below. lia. }
  destruct (Hanc w) as (l'&Hl'&Hnd'&Hin'); [done|lia|lia|lia| |].
  { split_and!; [lia|lia|]. left. split; [lia|]. rewrite Nat.div_same by lia.
    apply (Nat.div_unique _ _ 1 1); lia. }
  pose proof (Hsnd 1 H1 ltac:(lia) ltac:(lia) l _ Hl Hnd Hin) as E1.
  destruct (Hp 0 (w + 1)) as (l0&_&Hu0); [lia|lia|]. assert (l = l') as ->.
  { rewrite (Hu0 l), (Hu0 l') by done. done. }
  pose proof (Hsnd w H2 ltac:(lia) ltac:(lia) l' _ Hl' Hnd' Hin') as E2. congruence.
Qed.

Lemma create_dead_end (m : mode) rng w h g sol : storable m w h -> create_maze m rng w h = Ret (g, sol) -> 2 <= w * h ->
  exists j, forall k, joined w g 0 k <-> k = j.
Proof.
  intros Hst Hrun Hn. destruct (create_dims m rng w h g sol Hrun) as [Hw Hh]. apply (dead_end w h); [done|done|done|..].
  - by eapply create_length.
  - intros i j. by eapply create_perfect.
  - by eapply create_dfs.
Qed.

(** * A perfect maze that is never generated *)

Definition corner_maze : list maze_node :=
  [MazeNode false false; MazeNode true true; MazeNode false true; MazeNode true true].
Definition edges (es : list (nat * nat)) (a b : nat) : Prop := (a, b) ∈ es \/ (b, a) ∈ es.
Lemma edges_nil a b : ~ edges [] a b.
Proof. intros [H|H]; by apply elem_of_nil in H. Qed.
Lemma edges_cons c x es a b : edges ((c, x) :: es) a b <-> edges es a b \/ (a = c /\ b = x) \/ (a = x /\ b = c).
Proof. unfold edges. rewrite !elem_of_cons, !pair_eq. tauto. Qed.
Lemma edges_sym es a b : edges es a b -> edges es b a.
Proof. unfold edges. tauto. Qed.

Lemma corner_joined a b : joined 2 corner_maze a b <-> edges [(2, 3); (0, 2); (0, 1)] a b.
Proof.
  rewrite !edges_cons. split.
  - assert (forall i j, opening 2 corner_maze i j -> (i, j) = (2, 3) \/ (i, j) = (0, 2) \/ (i, j) = (0, 1)) as Ho.
    { intros i j (Hj&nd&Hi&H). unfold beside, below in H.
      destruct i as [|[|[|[|i]]]]; [injection Hi as <-..|done]; destruct H as [[H1 H2]|[H1 H2]]; try done.
      - destruct H2 as [-> _]. tauto.
      - subst j. tauto.
      - destruct H2 as [-> _]. tauto. }
    intros [H|H]; apply Ho in H; rewrite !pair_eq in H; lia.
  - assert (opening 2 corner_maze 2 3) by (split; [cbn; lia|]; eexists; split; [done|]; left; done).
    assert (opening 2 corner_maze 0 1) by (split; [cbn; lia|]; eexists; split; [done|]; left; done).
    assert (opening 2 corner_maze 0 2) by (split; [cbn; lia|]; eexists; split; [done|]; right; done).
    intros [[[H'|[[-> ->]|[-> ->]]]|[[-> ->]|[-> ->]]]|[[-> ->]|[-> ->]]];
      [by apply edges_nil in H'|by left|by right|by left|by right|by left|by right].
Qed.
Lemma corner_perfect : perfect 2 2 corner_maze.
Proof.
  assert (forall i j, i ∈ [3; 2; 1; 0] -> j ∈ [3; 2; 1; 0] -> unique_simple_path (edges [(2, 3); (0, 2); (0, 1)]) i j) as H.
  { apply (leaf_tree (edges [(0, 2); (0, 1)]) _ _ 2 3).
    - apply edges_sym.
    - intros a b. rewrite !edges_cons. intros [[H|H]|H]; [by apply edges_nil in H|..]; rewrite !elem_of_cons; lia.
    - rewrite !elem_of_cons. lia.
    - rewrite !elem_of_cons. intros [H|[H|[H|H]]]; [lia..|by apply elem_of_nil in H].
    - intros a b. apply edges_cons.
    - apply (leaf_tree (edges [(0, 1)]) _ _ 0 2).
      + apply edges_sym.
      + intros a b. rewrite !edges_cons. intros [H|H]; [by apply edges_nil in H|..]; rewrite !elem_of_cons; lia.
      + rewrite !elem_of_cons. lia.
      + rewrite !elem_of_cons. intros [H|[H|H]]; [lia..|by apply elem_of_nil in H].
      + intros a b. apply edges_cons.
      + apply (leaf_tree (edges []) _ _ 0 1).
        * apply edges_sym.
        * intros a b H. by apply edges_nil in H.
        * rewrite !elem_of_cons. lia.
        * rewrite !elem_of_cons. intros [H|H]; [lia..|by apply elem_of_nil in H].
        * intros a b. apply edges_cons.
        * intros i j Hi Hj. apply elem_of_list_singleton in Hi as ->. apply elem_of_list_singleton in Hj as ->.
          exists [0]. split; [split; [apply path_single|apply NoDup_singleton]|]. intros l' [Hp Hnd].
          by eapply path_loop. }
  intros i j Hi Hj. eapply unique_ext; [|apply H].
  - intros a b. by rewrite corner_joined.
  - rewrite !elem_of_cons. cbn in Hi. lia.
  - rewrite !elem_of_cons. cbn in Hj. lia.
Qed.
Lemma corner_walled : walled 2 2 corner_maze.
Proof.
  split; intros i nd [H1 H2]; destruct i as [|[|[|[|i]]]]; cbn in H1; try lia; try done; intros [= <-]; done.
Qed.
Lemma never_generated : exists w h g, 1 <= w /\ 1 <= h /\ (forall m : mode, storable m w h) /\ length g = w * h /\ walled w h g /\ perfect w h g /\
  forall (m : mode) rng g' sol, create_maze m rng w h = Ret (g', sol) -> exists i j, joined w g i j /\ ~ joined w g' i j.
Proof.
  exists 2, 2, corner_maze. assert (forall m : mode, storable m 2 2) as Hst by (intros m; unfold storable; words (word_of m); done).
  split_and!; [lia|lia|done|done|apply corner_walled|apply corner_perfect|].
  intros m rng g' sol Hrun. destruct (create_dead_end m rng 2 2 g' sol) as [j Hj]; [done|done|cbn; lia|].
  destruct (decide (j = 1)) as [->|Hne].
  - exists 0, 2. split; [apply corner_joined; rewrite !edges_cons; tauto|]. intros H. apply Hj in H. done.
  - exists 0, 1. split; [apply corner_joined; rewrite !edges_cons; tauto|]. intros H. apply Hj in H. congruence.
Qed.
