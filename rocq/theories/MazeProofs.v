(** Correctness of [create_maze]. *)
From Verif Require Import Base Util DisjointSet Image Maze MazePrint SpecMaze SpecMazePrint MazeTree MazeGen MazeBfs.
From Verif Require Import WordProofs.
From Verif Require MazePrintProofs.

Lemma create_zero m rng w h : w = 0 \/ h = 0 -> create_maze m rng w h = Fault Panic.
Proof.
  intros H0. unfold create_maze, recursive_backtrack.
  assert (w * h = 0) as Hn by (destruct H0; nia).
  rewrite n_mul_small by (rewrite Hn; apply usize_pos). rewrite Hn. done.
Qed.

Section create.
Context (m : mode) (rng : nat -> nat) (w h : nat) (g : list maze_node) (sol : list direction).
Context (Hst : storable m w h) (Hrun : create_maze m rng w h = Ret (g, sol)).
Local Notation n := (w * h).

Lemma create_dims : 1 <= w /\ 1 <= h.
Proof.
  destruct (decide (w = 0 \/ h = 0)) as [H|H]; [|lia]. rewrite create_zero in Hrun by done. done.
Qed.

Lemma create_spec : exists mz e, g = open_d e mz /\ length mz = n /\ closed w h mz /\
  (forall i j, i < n -> j < n -> unique_simple_path (joined w mz) i j) /\
  (exists ps, NoDup ps /\ length ps = n - 1 /\ forall i j, (i, j) ∈ ps <-> opening w mz i j) /\
  in_last_row w h e /\
  (2 <= w -> follows w mz (rev sol) 0 e) /\ (w = 1 -> sol = replicate e Right) /\
  (exists l, path (joined w mz) 0 l e /\ length l = S (length sol)) /\
  (forall l, path (joined w mz) 0 l e -> S (length sol) <= length l) /\
  (forall b, in_last_row w h b -> exists l, path (joined w mz) 0 l b /\ length l <= S (length sol)).
Proof.
  destruct create_dims as [Hw Hh]. pose proof (n_pos w h Hw Hh) as Hn. revert Hrun. unfold create_maze.
  destruct (gen_spec m rng w h Hw Hh Hst) as (mz&E&Hlen&Hcl&Htree&Hps). rewrite E. cbn [bind].
  rewrite n_mul_small by (apply (n_small m w h Hw Hh Hst); lia). cbn [bind].
  destruct (bi_start w h Hw Hh mz Hlen) as (t&E2&HB). rewrite E2. cbn [bind].
  assert (forall i, i < n -> exists l, path (joined w mz) 0 l i) as Hconn.
  { intros i Hi. destruct (Htree 0 i) as (l&[Hp _]&_); [lia|done|]. eauto. }
  destruct (bfs_loop_spec m w h Hw Hh Hst mz Hlen Hcl Hconn (S n) [] [0] t _ 0 HB eq_refl) as (e&sol'&E3&He&H1&H2&H3&H4&H5);
    [lia|cbn; lia|].
  rewrite E3. intros [= <- <-]. exists mz, e. split_and!; done.
Qed.

Lemma exit_opening mz e : length mz = n -> in_last_row w h e -> forall i j,
  opening w (open_d e mz) i j <-> opening w mz i j.
Proof.
  destruct create_dims as [Hw Hh]. intros Hl [Hen He] i j. unfold opening, open_d. rewrite alter_length.
  assert (n <= e + w) as Hout.
  { destruct (divmod w h Hw Hh e) as [E1 E2]. rewrite He in E1. nia. }
  destruct (decide (i = e)) as [->|Hne]; [|by rewrite list_lookup_alter_ne].
  rewrite list_lookup_alter. destruct (lookup_lt_is_Some_2 mz e) as [nd Hnd]; [lia|]. rewrite Hnd. cbn. split.
  - intros (Hj&nd'&[= <-]&[[Hr Hb]|[_ Hb]]); [|unfold below in Hb; lia]. split; [done|]. exists nd. eauto.
  - intros (Hj&nd'&[= <-]&[[Hr Hb]|[_ Hb]]); [|unfold below in Hb; lia]. split; [done|]. eexists. split; [done|]. by left.
Qed.
Lemma exit_joined mz e : length mz = n -> in_last_row w h e -> forall i j,
  joined w (open_d e mz) i j <-> joined w mz i j.
Proof. intros Hl He i j. unfold joined. by rewrite !exit_opening. Qed.

Lemma path_ext (R R' : nat -> nat -> Prop) i l j : (forall a b, R a b -> R' a b) -> path R i l j -> path R' i l j.
Proof. intros H (Hhd&Hl&Hk). split_and!; [done|done|]. intros k a b Ha Hb. apply H. by apply (Hk k). Qed.
Lemma unique_ext (R R' : nat -> nat -> Prop) i j : (forall a b, R a b <-> R' a b) ->
  unique_simple_path R i j -> unique_simple_path R' i j.
Proof.
  intros H (l&[Hp Hn]&Hu). exists l. split; [split; [|done]; eapply path_ext; [|done]; by intros; apply H|].
  intros l' [Hp' Hn']. apply Hu. split; [|done]. eapply path_ext; [|done]. by intros; apply H.
Qed.
Lemma follows_ext g1 g2 ds : (forall a b, joined w g1 a b -> joined w g2 a b) -> forall i j,
  follows w g1 ds i j -> follows w g2 ds i j.
Proof.
  intros H. induction ds as [|d ds IH]; intros i j; cbn; [done|]. intros (k&H1&H2&H3). exists k. split_and!; auto.
Qed.

Lemma create_length : length g = n.
Proof. destruct create_spec as (mz&e&Hg&Hl&_). rewrite Hg. unfold open_d. by rewrite alter_length. Qed.

Lemma create_perfect : forall i j, i < n -> j < n -> unique_simple_path (joined w g) i j.
Proof.
  destruct create_spec as (mz&e&Hg&Hl&_&Ht&_&He&_). rewrite Hg. intros i j Hi Hj. eapply unique_ext; [|by apply Ht].
  intros a b. by rewrite exit_joined.
Qed.
Lemma create_count : exists ps, NoDup ps /\ length ps = n - 1 /\ forall i j, (i, j) ∈ ps <-> opening w g i j.
Proof.
  destruct create_spec as (mz&e&Hg&Hl&_&_&(ps&H1&H2&H3)&He&_). rewrite Hg. exists ps. split_and!; [done|done|].
  intros i j. rewrite H3. by rewrite exit_opening.
Qed.

Lemma closed_col mz i nd : closed w h mz -> in_last_col w h i -> mz !! i = Some nd -> m_right nd = true.
Proof.
  destruct create_dims as [Hw Hh]. intros Hcl [_ Hc] Hi. destruct (Hcl _ _ Hi) as [Hr _].
  destruct (m_right nd); [done|]. specialize (Hr eq_refl). by apply (beside_iff w h Hw Hh) in Hr.
Qed.
Lemma closed_row mz i nd : length mz = n -> closed w h mz -> in_last_row w h i -> mz !! i = Some nd -> m_down nd = true.
Proof.
  destruct create_dims as [Hw Hh]. intros Hl Hcl [_ Hc] Hi. destruct (Hcl _ _ Hi) as [_ Hr].
  destruct (m_down nd); [done|]. specialize (Hr eq_refl). destruct (divmod w h Hw Hh i) as [E1 E2]. rewrite Hc in E1. nia.
Qed.

Lemma exit_of mz e : g = open_d e mz -> length mz = n -> closed w h mz -> in_last_row w h e -> is_exit w h g e.
Proof.
  intros Hg Hl Hcl He. rewrite Hg. split; [done|]. intros i nd Hi Hnd. unfold open_d in Hnd.
  destruct (decide (i = e)) as [->|Hne].
  - rewrite list_lookup_alter in Hnd. destruct (mz !! e); [|done]. injection Hnd as <-. done.
  - rewrite list_lookup_alter_ne in Hnd by done. rewrite (closed_row mz i nd) by done. done.
Qed.

Lemma create_walls :
  (forall i nd, in_last_col w h i -> g !! i = Some nd -> m_right nd = true) /\ exists e, is_exit w h g e.
Proof.
  destruct create_spec as (mz&e&Hg&Hl&Hcl&_&_&He&_). split; [|exists e; by eapply exit_of].
  rewrite Hg. intros i nd Hi Hnd. unfold open_d in Hnd. destruct (decide (i = e)) as [->|Hne].
  - rewrite list_lookup_alter in Hnd. destruct (mz !! e) as [nd'|] eqn:Hm; [|done]. injection Hnd as <-. cbn.
    by eapply closed_col.
  - rewrite list_lookup_alter_ne in Hnd by done. by eapply closed_col.
Qed.

Lemma create_solution : 2 <= w -> exists e, is_exit w h g e /\ follows w g (rev sol) 0 e.
Proof.
  intros Hw2. destruct create_spec as (mz&e&Hg&Hl&Hcl&_&_&He&Hf&_). exists e. split; [by eapply exit_of|].
  rewrite Hg. eapply follows_ext; [|by apply Hf]. intros a b. by rewrite exit_joined.
Qed.
Lemma last_row_one i : w = 1 -> in_last_row w h i -> i = h - 1.
Proof. intros -> [_ H]. by rewrite Nat.div_1_r in H. Qed.
Lemma create_width_one : w = 1 -> sol = replicate (h - 1) Right.
Proof.
  intros Hw1. destruct create_spec as (mz&e&Hg&Hl&Hcl&_&_&He&_&Hf&_). rewrite <-(last_row_one e) by done. by apply Hf.
Qed.

Lemma create_shortest : exists e, is_exit w h g e /\
  (exists l, path (joined w g) 0 l e /\ length l = S (length sol)) /\
  (forall l, path (joined w g) 0 l e -> S (length sol) <= length l) /\
  (forall b, in_last_row w h b -> exists l, path (joined w g) 0 l b /\ length l <= S (length sol)).
Proof.
  destruct create_spec as (mz&e&Hg&Hl&Hcl&_&_&He&_&_&(l&Hp&Hll)&H2&H3). exists e. split; [by eapply exit_of|].
  rewrite Hg. pose proof (exit_joined mz e Hl He) as Hj. split_and!.
  - exists l. split; [|done]. eapply path_ext; [|done]. intros a b. by rewrite Hj.
  - intros l' Hp'. apply H2. eapply path_ext; [|done]. intros a b. by rewrite Hj.
  - intros b Hb. destruct (H3 b Hb) as (l'&Hp'&Hl'). exists l'. split; [|done]. eapply path_ext; [|done]. intros x y. by rewrite Hj.
Qed.
End create.

Lemma create_total (m : mode) rng w h : 1 <= w -> 1 <= h -> storable m w h ->
  exists g sol, create_maze m rng w h = Ret (g, sol) /\ length g = w * h.
Proof.
  intros Hw Hh Hst. assert (exists g sol, create_maze m rng w h = Ret (g, sol)) as (g&sol&E).
  { pose proof (n_pos w h Hw Hh) as Hn. unfold create_maze.
    destruct (gen_spec m rng w h Hw Hh Hst) as (mz&E&Hlen&Hcl&Htree&Hps). rewrite E. cbn [bind].
    rewrite n_mul_small by (apply (n_small m w h Hw Hh Hst); lia). cbn [bind].
    destruct (bi_start w h Hw Hh mz Hlen) as (t&E2&HB). rewrite E2. cbn [bind].
    assert (forall i, i < w * h -> exists l, path (joined w mz) 0 l i) as Hconn.
    { intros i Hi. destruct (Htree 0 i) as (l&[Hp _]&_); [lia|done|]. eauto. }
    destruct (bfs_loop_spec m w h Hw Hh Hst mz Hlen Hcl Hconn (S (w * h)) [] [0] t _ 0 HB eq_refl) as (e&sol'&E3&_);
      [lia|cbn; lia|]. eauto. }
  exists g, sol. split; [done|]. by eapply create_length.
Qed.

(** * Width one *)

Lemma width_one_refuted : exists (m : mode) rng w h g sol, 1 <= w /\ 1 <= h /\ storable m w h /\
  create_maze m rng w h = Ret (g, sol) /\ ~ exists e, is_exit w h g e /\ follows w g (rev sol) 0 e.
Proof.
  exists (Mode Debug W64), (fun _ => 0), 1, 2, [MazeNode true false; MazeNode true false], [Right]. split_and!; [lia|lia|done|vm_compute; reflexivity|].
  intros (e&_&k&[-> Hk]&_). cbn in Hk. done.
Qed.

(** * Drawing the solution *)

Local Open Scope N_scope.

Definition pos (w i : nat) : N * N := (N.of_nat (i mod w), N.of_nat (i / w)).

Lemma leads_move w d i k : (1 <= w)%nat -> leads w d i k -> move d (pos w i).1 (pos w i).2 = pos w k.
Proof.
  intros Hw Hl. unfold pos. cbn [fst snd].
  assert (forall a, a = w * (a / w) + a mod w /\ a mod w < w)%nat as Hdm.
  { intros a. split; [apply Nat.div_mod; lia|apply Nat.mod_upper_bound; lia]. }
  assert (forall a b, beside w a b -> (b mod w = a mod w + 1 /\ b / w = a / w)%nat) as Hbs.
  { intros a b [-> Hb]. destruct (Hdm a) as [A1 A2]. destruct (Hdm (a + 1)%nat) as [B1 B2]. rewrite <-Hb in B1 |- *. lia. }
  assert (forall a b, below w a b -> (b mod w = a mod w /\ b / w = a / w + 1)%nat) as Hbl.
  { intros a b ->. destruct (Hdm a) as [A1 A2].
    destruct (div_mod_unique w (a + w) (a / w + 1) (a mod w)) as [E1 E2]; [done|nia|]. lia. }
  destruct d; cbn [move leads] in *.
  - apply Hbs in Hl as [-> ->]. generalize (i mod w)%nat, (i / w)%nat; intros; apply (f_equal2 pair); lia.
  - apply Hbl in Hl as [-> ->]. generalize (i mod w)%nat, (i / w)%nat; intros; apply (f_equal2 pair); lia.
  - apply Hbs in Hl as [-> ->]. generalize (k mod w)%nat, (k / w)%nat; intros; apply (f_equal2 pair); lia.
  - apply Hbl in Hl as [-> ->]. generalize (k mod w)%nat, (k / w)%nat; intros; apply (f_equal2 pair); lia.
Qed.
Lemma follows_destination w g : (1 <= w)%nat -> forall ds i j, follows w g ds i j ->
  destination ds (pos w i).1 (pos w i).2 = pos w j.
Proof.
  intros Hw. induction ds as [|d ds IH]; intros i j; cbn [follows destination].
  - intros ->. done.
  - intros (k&Hl&_&Hf). rewrite (leads_move _ _ _ _ Hw Hl). specialize (IH _ _ Hf).
    by destruct (pos w k).
Qed.

Lemma draw_fails (m m' m'' : mode) rng w h g sol im : storable m w h -> create_maze m rng w h = Ret (g, sol) ->
  printable m' (N.of_nat w) (N.of_nat h) -> 10 * N.of_nat w + 1 < 2 ^ 32 - 10 -> 10 * N.of_nat h + 1 < 2 ^ 32 - 10 ->
  print_maze m' (N.of_nat w) (N.of_nat h) g = Ret (Ok im) ->
  print_maze_solution m'' im sol = Ret (Err InvalidSolution).
Proof.
  intros Hst Hrun Hpr Hbw Hbh Him. destruct (create_dims _ _ _ _ _ _ Hrun) as [Hw Hh].
  pose proof (create_length _ _ _ _ _ _ Hst Hrun) as Hlen.
  destruct (MazePrintProofs.print_maze_total m' (N.of_nat w) (N.of_nat h) g) as (_&Hok&_).
  destruct Hok as (im'&E&Hiw&Hih); [rewrite Hlen; lia|done|]. rewrite Him in E. injection E as <-.
  destruct (MazePrintProofs.print_solution_spec m'' im sol) as (_&Herr&_); [rewrite Hiw; lia|rewrite Hih; lia|].
  apply Herr. split_and!; [rewrite Hiw; lia|rewrite Hih; lia|]. intros [Hsteps Hdest].
  rewrite Hih in Hdest. destruct (decide (w = 1%nat)) as [Hw1|Hw1].
  - rewrite (create_width_one _ _ _ _ _ _ Hst Hrun Hw1) in Hsteps, Hdest.
    destruct (h - 1)%nat as [|k] eqn:Hk.
    + cbn [replicate rev app destination snd] in Hdest. lia.
    + change (replicate (S k) Right) with (Right :: replicate k Right) in Hsteps.
      assert (rev (Right :: replicate k Right) = Right :: replicate k Right) as Hrev.
      { clear. change (Right :: replicate k Right) with (replicate (S k) Right). generalize (S k). intros j.
        induction j as [|j IH]; [done|]. cbn [replicate rev]. rewrite IH. symmetry. apply (replicate_cons_app j Right). }
      rewrite Hrev in Hsteps. cbn [steps_allowed move] in Hsteps. destruct Hsteps as [_ [Hin _]].
      unfold centre_inside in Hin. rewrite Hiw, Hw1 in Hin. change (N.of_nat 1) with 1 in Hin. lia.
  - destruct (create_solution _ _ _ _ _ _ Hst Hrun) as (e&He&Hf); [lia|].
    apply (follows_destination _ _ Hw) in Hf. unfold pos in Hf at 1 2. rewrite Nat.mod_0_l, Nat.div_0_l in Hf by lia.
    cbn [fst snd] in Hf. change (N.of_nat 0) with 0 in Hf. rewrite Hf in Hdest. unfold pos in Hdest. cbn [snd] in Hdest.
    destruct He as [[_ He] _]. rewrite He in Hdest. lia.
Qed.

Lemma draw_refuted : exists (m : mode) rng w h g sol im, (1 <= w)%nat /\ (1 <= h)%nat /\ storable m w h /\
  create_maze m rng w h = Ret (g, sol) /\ print_maze m (N.of_nat w) (N.of_nat h) g = Ret (Ok im) /\
  print_maze_solution m im sol = Ret (Err InvalidSolution).
Proof.
  destruct (create_total (Mode Debug W64) (fun _ => 0%nat) 3 2) as (g&sol&E&Hl); [lia|lia|by vm_compute|].
  destruct (MazePrintProofs.print_maze_total (Mode Debug W64) 3 2 g) as (_&(im&Ei&_)&_); [rewrite Hl; reflexivity|split_and!; reflexivity|].
  exists (Mode Debug W64), (fun _ => 0%nat), 3%nat, 2%nat, g, sol, im. split; [lia|]. split; [lia|]. split; [reflexivity|]. split; [exact E|]. split; [exact Ei|].
  refine (draw_fails (Mode Debug W64) (Mode Debug W64) (Mode Debug W64) (fun _ => 0%nat) 3 2 g sol im _ E _ _ _ Ei);
    [reflexivity|split_and!; reflexivity|reflexivity|reflexivity].
Qed.
