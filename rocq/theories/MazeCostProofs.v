(** Proofs for C86: the work done for a maze. *)
From Verif Require Import Base Util UtilProofs DisjointSet Maze MazeCost SpecMaze SpecMazeDfs MazeTree MazeGen MazeBfs MazeDfs MazeDraws.
From Verif Require MazeProofs.

(** * The counters change nothing *)

Definition forget {A B} (r : res (A * B)) : res A := let! (a, _) := r in Ret a.

Section same.
Context (m : mode) (rng : nat -> nat).
Lemma backtrack_same w h : forall fuel path s k,
  forget (forget (backtrack_cost m rng fuel w h path s k)) = backtrack_loop m rng fuel w h path s.
Proof.
  induction fuel as [|fuel IH]; intros [|c rest] s k; cbn [backtrack_cost backtrack_loop]; [done..|].
  destruct (vec_get (g_visit s) c) as [vis|f]; cbn [bind]; [|done].
  destruct (visit_next m rng c w h (g_maze s) (g_conn s) vis (g_draws s)) as [[[[[r mz] d] vis'] k']|f]; cbn [bind]; [|done].
  destruct (vec_set (g_visit s) c vis') as [visit|f]; cbn [bind]; [|done]. destruct r; apply IH.
Qed.
Lemma bfs_same w h grid : forall fuel tree q found k,
  forget (bfs_cost m fuel w h grid tree q found k) = bfs_loop m fuel w h grid tree q found.
Proof.
  induction fuel as [|fuel IH]; intros tree q found k; cbn [bfs_cost bfs_loop]; [done|]. destruct q as [|c q]; [done|].
  destruct (n_div c w) as [row|f]; cbn [bind]; [|done]. destruct (n_sub m h 1) as [h1|f]; cbn [bind]; [|done]. cbv zeta.
  destruct (_ && _).
  - destruct (open_down grid c) as [g|f]; cbn [bind]; [|done]. by destruct (read_path m _ w tree c) as [sol|f].
  - destruct (bfs_expand m w grid c tree q) as [[tree' q']|f]; cbn [bind]; [|done]. apply IH.
Qed.
Lemma create_same w h : forget (create_cost m rng w h) = create_maze m rng w h.
Proof.
  unfold create_cost, create_maze, recursive_backtrack. destruct (n_mul m w h) as [n|f]; cbn [bind]; [|done].
  rewrite <-(backtrack_same w h _ _ _ 0). destruct (backtrack_cost _ _ _ _ _ _ _ _) as [[[grid k] dr]|f]; cbn [bind forget]; [|done].
  destruct (vec_set _ 0 PStart) as [tree|f]; cbn [bind]; [|done].
  rewrite <-(bfs_same w h grid _ _ _ _ 0). by destruct (bfs_cost _ _ _ _ _ _ _ _ _) as [[[g sol] dq]|f].
Qed.
End same.

(** * The counts *)

Section count.
Context (m : mode) (w h : nat).
Context (Hw : 1 <= w) (Hh : 1 <= h) (Hst : storable m w h).
Local Notation n := (w * h).
Local Notation GI := (GI w h).
Local Notation LI := (LI w h).

Lemma pending_done visit : (forall i l, visit !! i = Some l -> l = []) -> pending visit = 0.
Proof.
  unfold pending. induction visit as [|a visit IH]; intros H; [done|]. rewrite fmap_cons. cbn [sum_list foldr].
  rewrite (H 0 a eq_refl). cbn. apply IH. intros i l Hi. by apply (H (S i)).
Qed.

Lemma backtrack_count rng : forall fuel path vs mz d E visit k loops,
  GI vs mz d E -> LI path vs visit -> 2 * (n - length vs) + length path < fuel + 1 ->
  exists mz', backtrack_cost m rng fuel w h path (GState mz d visit k) loops =
    Ret (mz', loops + 2 * (n - length vs) + length path, k + pending visit).
Proof.
  assert (forall vs mz d E visit, GI vs mz d E -> LI [] vs visit -> n - length vs = 0 /\ pending visit = 0) as Hend.
  { intros vs mz d E visit HI HL. pose proof (all_reached w h Hw Hh _ _ _ _ _ HI HL) as Hall. split.
    - assert (n <= length vs); [|lia]. rewrite <-(seq_length n 0). apply submseteq_length, NoDup_submseteq; [apply NoDup_seq|].
      intros i Hi%elem_of_seq. apply Hall. lia.
    - apply pending_done. intros i l Hi. destruct (li_done _ _ _ _ _ HL i) as [Hn|Hd]; [|by apply elem_of_nil in Hn|congruence].
      apply Hall. apply lookup_lt_Some in Hi. by rewrite (li_len _ _ _ _ _ HL) in Hi. }
  induction fuel as [|fuel IH]; intros path vs mz d E visit k loops HI HL Hf.
  - assert (path = []) as -> by (destruct path; [done|cbn in Hf; lia]). cbn [backtrack_cost g_maze g_draws].
    destruct (Hend _ _ _ _ _ HI HL) as [-> ->]. exists mz. by rewrite !Nat.add_0_r.
  - destruct path as [|c rest].
    { cbn [backtrack_cost g_maze g_draws]. destruct (Hend _ _ _ _ _ HI HL) as [-> ->]. exists mz. by rewrite !Nat.add_0_r. }
    cbn [backtrack_cost g_visit g_maze g_conn g_draws].
    assert (c ∈ vs) as Hc by (apply HL; apply elem_of_cons; by left). assert (c < n) as Hcn by (by apply HI).
    destruct (lookup_lt_is_Some_2 visit c) as [l Hl]; [rewrite (li_len _ _ _ _ _ HL); done|].
    unfold vec_get at 1. rewrite Hl. cbn [expect bind]. unfold visit_next.
    pose proof (vs_le w h Hw Hh _ _ _ _ HI) as Hvn.
    destruct (visit_cases m w h Hw Hh Hst rng vs mz E c Hc (length l) l d k HI) as [(d'&k'&E1&HI'&Hd)|(dir&x&d'&vis'&k'&E1&Hg&Hx&HI'&Hd)];
      [done|..]; rewrite E1; cbn [bind]; unfold vec_set; rewrite decide_True by (rewrite (li_len _ _ _ _ _ HL); done);
      cbn [bind]; apply visit_loop_draws in E1.
    + assert (forall dir j, geo w h dir c j -> j ∈ vs) as Hall.
      { intros dir j Hj. destruct (decide (dir ∈ l)) as [Hin|Hin]; [by eapply Hd|]. by eapply (li_dirs _ _ _ _ _ HL). }
      destruct (IH rest vs mz d' E (<[c := []]> visit) k' (S loops) HI') as [mz' ->]; [by apply li_pop|cbn in Hf; lia|].
      exists mz'. pose proof (pending_insert _ _ _ [] Hl). cbn [length] in *. f_equal. f_equal; [f_equal|]; lia.
    + pose proof (vs_le w h Hw Hh _ _ _ _ HI') as Hvn'. cbn [length] in Hvn'.
      destruct (IH (x :: c :: rest) (x :: vs) (opened dir c x mz) d' _ (<[c := vis']> visit) k' (S loops) HI') as [mz' ->];
        [by eapply li_push|cbn in Hf |- *; lia|].
      exists mz'. pose proof (pending_insert _ _ _ vis' Hl). cbn [length] in *. f_equal. f_equal; [f_equal|]; lia.
Qed.

Lemma bfs_level mz pr q t lv : BI w h mz pr q t lv -> forall k i, (pr ++ q) !! k = Some i -> lv i <= k.
Proof.
  intros HB. induction k as [k IH] using (well_founded_induction lt_wf). intros i Hi.
  assert (i ∈ pr ++ q) as Hin by (by eapply elem_of_list_lookup_2).
  assert (i < n) as Hn by (by apply HB). destruct (lookup_lt_is_Some_2 t i) as [p Hp]; [rewrite (b_len _ _ _ _ _ _ _ HB); done|].
  destruct p as [|p|].
  - apply (b_start _ _ _ _ _ _ _ HB) in Hp as ->. rewrite (b_lv0 _ _ _ _ _ _ _ HB). lia.
  - destruct (b_parent _ _ _ _ _ _ _ HB i p Hp) as (_&Hpin&Hlv). apply elem_of_list_lookup in Hpin as [kp Hkp].
    assert (kp < k) as Hlt.
    { destruct (decide (kp < k)) as [|Hge]; [done|]. pose proof (b_sorted _ _ _ _ _ _ _ HB k kp i p). assert (lv i <= lv p); [|lia].
      apply H; [lia|done|done]. }
    specialize (IH kp Hlt p Hkp). lia.
  - exfalso. by apply (b_vis _ _ _ _ _ _ _ HB) in Hp.
Qed.

Section bfs.
Context (mz : list maze_node) (Hlen : length mz = n) (Hcl : closed w h mz).

Lemma bfs_count : forall fuel pr q t lv found g sol dq,
  BI w h mz pr q t lv -> bfs_cost m fuel w h mz t q found (length pr) = Ret (g, sol, dq) -> length sol < dq <= n.
Proof.
  induction fuel as [|fuel IH]; intros pr q t lv found g sol dq HB; cbn [bfs_cost]; [done|].
  destruct q as [|c q]; [done|]. cbv zeta.
  assert (c ∈ pr ++ c :: q) as Hcin by (apply elem_of_app; right; apply elem_of_cons; by left).
  unfold n_div. rewrite decide_False by lia. cbn [bind]. rewrite n_sub_ok by done. cbn [bind].
  destruct (_ && _).
  - assert (length (pr ++ c :: q) <= n) as Hpn.
    { rewrite <-(seq_length n 0). apply submseteq_length, NoDup_submseteq; [by apply HB|].
      intros i Hi. apply elem_of_seq. assert (i < n); [|lia]. by apply HB. }
    assert (c < n) as Hc by (by apply HB).
    rewrite open_down_eq by lia. cbn [bind].
    destruct (read_path_spec m w h Hw Hh Hst mz Hlen _ _ _ _ HB (S (length t)) c Hcin) as (sol'&E&Hl&_).
    { rewrite (b_len _ _ _ _ _ _ _ HB). pose proof (b_small _ _ _ _ _ _ _ HB _ Hcin) as Hs. lia. }
    rewrite E. cbn [bind]. intros [= _ <- <-]. rewrite Hl.
    pose proof (bfs_level mz _ _ _ _ HB (length pr) c) as Hlv. rewrite list_lookup_middle in Hlv by done. specialize (Hlv eq_refl).
    rewrite app_length in Hpn. cbn in Hpn. lia.
  - destruct (bi_step m w h Hw Hh Hst mz Hlen Hcl _ _ _ _ _ HB) as (t'&q'&lv'&E&HB'). rewrite E. cbn [bind].
    replace (S (length pr)) with (length (pr ++ [c])) by (rewrite app_length; cbn; lia). by apply IH with (lv := lv').
Qed.
End bfs.
End count.

Lemma create_count (m : mode) rng w h g sol c : storable m w h -> create_cost m rng w h = Ret (g, sol, c) ->
  loops c = 2 * (w * h) - 1 /\ draws c = 4 * (w * h) /\ length sol < dequeued c <= w * h.
Proof.
  intros Hst Hc. assert (create_maze m rng w h = Ret (g, sol)) as Hrun by (by rewrite <-create_same, Hc).
  destruct (MazeProofs.create_dims m rng w h g sol Hrun) as [Hw Hh]. pose proof (n_pos w h Hw Hh) as Hn.
  revert Hc. unfold create_cost. rewrite n_mul_small by (apply (n_small m w h Hw Hh Hst); lia). cbn [bind].
  pose proof (gi_start w h Hw Hh) as HI. pose proof (start_li w h) as HL.
  destruct (backtrack_count m w h Hw Hh Hst rng (2 * (w * h) + 1) _ _ _ _ _ _ 0 0 HI HL) as [mz E]; [cbn; lia|].
  pose proof (backtrack_same m rng w h (2 * (w * h) + 1) [0] (GState (replicate (w * h) maze_node_new) (with_size (w * h)) (replicate (w * h) [Right; Down; Left; Up]) 0) 0) as Es.
  rewrite E in Es. cbn [forget bind] in Es. rewrite E. cbn [bind].
  destruct (gen_spec m rng w h Hw Hh Hst) as (mz'&Eg&Hlen&Hcl&_). unfold recursive_backtrack in Eg.
  rewrite n_mul_small in Eg by (apply (n_small m w h Hw Hh Hst); lia). cbn [bind] in Eg. rewrite Eg in Es. injection Es as <-.
  destruct (bi_start w h Hw Hh mz Hlen) as (t&E2&HB). rewrite E2. cbn [bind].
  destruct (bfs_cost m (S (w * h)) w h mz t [0] 0 0) as [[[g' sol'] dq]|f] eqn:Eb; cbn [bind]; [|done].
  intros [= <- <- <-]. cbn [loops draws dequeued]. split; [cbn [length]; lia|]. split.
  - unfold pending. rewrite fmap_replicate. clear. generalize (w * h). induction n as [|n IH]; [done|]. cbn in IH |- *. lia.
  - by eapply (bfs_count m w h Hw Hh Hst mz Hlen Hcl _ [] [0] t _ 0).
Qed.
Lemma create_counted (m : mode) rng w h : 1 <= w -> 1 <= h -> storable m w h -> exists r c, create_cost m rng w h = Ret (r, c).
Proof.
  intros Hw Hh Hst. destruct (MazeProofs.create_total m rng w h Hw Hh Hst) as (g&sol&E&_). rewrite <-create_same in E.
  destruct (create_cost m rng w h) as [[r' c]|f]; [|done]. eauto.
Qed.
