(** The generated maze is a spanning tree of the grid. *)
From Verif Require Import Base Util UtilProofs DisjointSet DisjointSetProofs Maze SpecMaze MazeTree.

Lemma n_add_small (m : mode) x y : (N.of_nat (x + y) < usize_size m)%N -> n_add m x y = Ret (x + y).
Proof.
  intros H. unfold n_add, usize_add, arith. replace (N.of_nat x + N.of_nat y)%N with (N.of_nat (x + y)) by lia.
  apply N.ltb_lt in H as ->. cbn [bind]. by rewrite Nat2N.id.
Qed.
Lemma n_mul_small (m : mode) x y : (N.of_nat (x * y) < usize_size m)%N -> n_mul m x y = Ret (x * y).
Proof.
  intros H. unfold n_mul, usize_mul, arith. replace (N.of_nat x * N.of_nat y)%N with (N.of_nat (x * y)) by lia.
  apply N.ltb_lt in H as ->. cbn [bind]. by rewrite Nat2N.id.
Qed.
Lemma n_sub_ok m x y : y <= x -> n_sub m x y = Ret (x - y).
Proof. intros H. unfold n_sub. by rewrite decide_True. Qed.

Lemma pair_eq (a b c d : nat) : (a, b) = (c, d) <-> a = c /\ b = d.
Proof. split; [by intros [= -> ->]|by intros [-> ->]]. Qed.
Global Instance direction_eq_dec : EqDecision direction.
Proof. solve_decision. Defined.

Section gen.
Context (m : mode) (rng : nat -> nat) (w h : nat).
Context (Hw : 1 <= w) (Hh : 1 <= h) (Hst : storable m w h).
Local Notation n := (w * h).

Lemma n_small k : k < 2 * n -> (N.of_nat k < usize_size m)%N.
Proof. unfold storable in Hst. lia. Qed.
Lemma n_pos : 1 <= n.
Proof. nia. Qed.
Lemma w_le_n : w <= n.
Proof. nia. Qed.

(** * Geometry *)

Lemma divmod i : i = w * (i / w) + i mod w /\ i mod w < w.
Proof. split; [apply Nat.div_mod; lia|apply Nat.mod_upper_bound; lia]. Qed.
Lemma div_mod_unique i q r : r < w -> i = w * q + r -> i / w = q /\ i mod w = r.
Proof.
  intros Hr He. split; symmetry; [by apply (Nat.div_unique _ _ _ r)|by apply (Nat.mod_unique _ _ q)].
Qed.
Lemma row_lt i : i < n -> i / w < h.
Proof. intros Hi. apply Nat.div_lt_upper_bound; lia. Qed.
Lemma beside_iff i : beside w i (i + 1) <-> i mod w <> w - 1.
Proof.
  destruct (divmod i) as [Hi Hm]. unfold beside. split.
  - intros [_ He] Hl. destruct (div_mod_unique (i + 1) (S (i / w)) 0) as [E _]; [lia|nia|lia].
  - intros Hl. split; [done|]. destruct (div_mod_unique (i + 1) (i / w) (S (i mod w))) as [E _]; [lia|lia|lia].
Qed.
Lemma beside_bound i j : i < n -> beside w i j -> j < n.
Proof.
  intros Hi [-> He]. apply row_lt in Hi. destruct (divmod (i + 1)) as [E1 E2]. rewrite <-He in E1. nia.
Qed.
Lemma beside_iff_left i : 1 <= i -> beside w (i - 1) i <-> i mod w <> 0.
Proof.
  intros Hi. replace (beside w (i - 1) i) with (beside w (i - 1) (i - 1 + 1)) by (f_equal; lia). rewrite beside_iff.
  destruct (divmod (i - 1)) as [E1 E2]. split.
  - intros H Hz. destruct (div_mod_unique i ((i - 1) / w) (S ((i - 1) mod w))) as [_ E]; [lia|lia|lia].
  - intros H Hz. apply H. destruct (div_mod_unique i (S ((i - 1) / w)) 0) as [_ E]; [lia|nia|done].
Qed.

Definition geo (dir : direction) (i j : nat) : Prop := i < n /\ j < n /\ leads w dir i j.
Definition target (dir : direction) (i : nat) : option nat :=
  match dir with
  | Right => if Nat.eqb (i mod w) (w - 1) then None else Some (i + 1)
  | Down => if Nat.leb (w * (h - 1)) i then None else Some (i + w)
  | Left => if Nat.eqb (i mod w) 0 then None else Some (i - 1)
  | Up => if Nat.ltb i w then None else Some (i - w)
  end.
Lemma target_spec dir i j : i < n -> target dir i = Some j <-> geo dir i j.
Proof.
  intros Hi. unfold geo. destruct dir; cbn [target leads].
  - destruct (Nat.eqb_spec (i mod w) (w - 1)) as [He|He].
    + split; [done|]. intros (_&_&Hb). pose proof Hb as [-> _]. by apply beside_iff in Hb.
    + apply beside_iff in He. split.
      * intros [= <-]. split_and!; [done|by eapply beside_bound|done].
      * intros (_&_&[-> _]). done.
  - unfold below. destruct (Nat.leb_spec (w * (h - 1)) i) as [He|He].
    + split; [done|]. intros (_&Hj&->). nia.
    + split; [intros [= <-]; split_and!; [done|nia|done]|]. by intros (_&_&->).
  - destruct (Nat.eqb_spec (i mod w) 0) as [He|He].
    + split; [done|]. intros (_&_&Hb). pose proof Hb as [Hj _]. assert (j = i - 1) as -> by lia.
      apply beside_iff_left in Hb; [done|lia].
    + assert (1 <= i) as H1 by (destruct i; [rewrite Nat.mod_0_l in He by lia; done|lia]).
      apply beside_iff_left in He; [|done]. split.
      * intros [= <-]. split_and!; [done|lia|done].
      * intros (_&_&[Hj _]). f_equal. lia.
  - unfold below. destruct (Nat.ltb_spec i w) as [He|He].
    + split; [done|]. intros (_&_&->). lia.
    + split; [intros [= <-]; split_and!; [done|lia|lia]|]. intros (_&_&->). f_equal. lia.
Qed.

(** * Opening walls *)

Definition open_r (a : nat) (mz : list maze_node) := alter (fun nd => MazeNode false (m_down nd)) a mz.
Definition open_d (a : nat) (mz : list maze_node) := alter (fun nd => MazeNode (m_right nd) false) a mz.
Lemma alter_insert {A} (f : A -> A) (l : list A) (i : nat) x : l !! i = Some x -> alter f i l = <[i := f x]> l.
Proof. revert i. induction l as [|y l IH]; intros [|i] H; try done. - by injection H as ->. - cbn. f_equal. by apply IH. Qed.
Lemma open_right_eq mz a : a < length mz -> open_right mz a = Ret (open_r a mz).
Proof.
  intros Ha. destruct (lookup_lt_is_Some_2 mz a Ha) as [nd Hn]. unfold open_right, vec_get. rewrite Hn. cbn [expect bind].
  unfold vec_set. rewrite decide_True by done. unfold open_r. by rewrite (alter_insert _ _ _ _ Hn).
Qed.
Lemma open_down_eq mz a : a < length mz -> open_down mz a = Ret (open_d a mz).
Proof.
  intros Ha. destruct (lookup_lt_is_Some_2 mz a Ha) as [nd Hn]. unfold open_down, vec_get. rewrite Hn. cbn [expect bind].
  unfold vec_set. rewrite decide_True by done. unfold open_d. by rewrite (alter_insert _ _ _ _ Hn).
Qed.
Lemma open_r_opening mz a : a < length mz -> a + 1 < length mz -> beside w a (a + 1) -> forall i j,
  opening w (open_r a mz) i j <-> opening w mz i j \/ (i = a /\ j = a + 1).
Proof.
  intros Ha Hb Hbs i j. unfold opening, open_r. rewrite alter_length. destruct (decide (i = a)) as [->|Hne].
  - rewrite list_lookup_alter. destruct (lookup_lt_is_Some_2 mz a Ha) as [nd Hn]. rewrite Hn. cbn. split.
    + intros (Hj&nd'&[= <-]&[[_ [-> _]]|[Hd Hbe]]); [by right|]. left. split; [done|]. exists nd. eauto.
    + intros [(Hj&nd'&[= <-]&H)|[_ ->]].
      * split; [done|]. eexists. split; [done|]. cbn. tauto.
      * split; [done|]. eexists. split; [done|]. cbn. left. done.
  - rewrite list_lookup_alter_ne by done. split; [by left|]. intros [H|[H _]]; done.
Qed.
Lemma open_d_opening mz a : a < length mz -> a + w < length mz -> forall i j,
  opening w (open_d a mz) i j <-> opening w mz i j \/ (i = a /\ j = a + w).
Proof.
  intros Ha Hb i j. unfold opening, open_d. rewrite alter_length. destruct (decide (i = a)) as [->|Hne].
  - rewrite list_lookup_alter. destruct (lookup_lt_is_Some_2 mz a Ha) as [nd Hn]. rewrite Hn. cbn. split.
    + intros (Hj&nd'&[= <-]&[[Hd Hbe]|[_ Hbe]]); [|by right]. left. split; [done|]. exists nd. eauto.
    + intros [(Hj&nd'&[= <-]&H)|[_ ->]].
      * split; [done|]. eexists. split; [done|]. cbn. tauto.
      * split; [done|]. eexists. split; [done|]. cbn. right. done.
  - rewrite list_lookup_alter_ne by done. split; [by left|]. intros [H|[H _]]; done.
Qed.

Definition opened (dir : direction) (c x : nat) (mz : list maze_node) : list maze_node :=
  match dir with
  | Right => open_r c mz
  | Down => open_d c mz
  | Left => open_r x mz
  | Up => open_d x mz
  end.
Definition oriented (dir : direction) (c x : nat) : nat * nat :=
  match dir with Right | Down => (c, x) | Left | Up => (x, c) end.
Lemma opened_opening dir c x mz : length mz = n -> geo dir c x -> forall i j,
  opening w (opened dir c x mz) i j <-> opening w mz i j \/ (i, j) = oriented dir c x.
Proof.
  intros Hl (Hc&Hx&Hd) i j. destruct dir; cbn in *.
  - pose proof Hd as [-> _]. rewrite open_r_opening by (try lia; done). by rewrite pair_eq.
  - unfold below in Hd. subst x. rewrite open_d_opening by lia. by rewrite pair_eq.
  - pose proof Hd as [-> _]. rewrite open_r_opening by (try lia; done). by rewrite pair_eq.
  - unfold below in Hd. subst c. rewrite open_d_opening by lia. by rewrite pair_eq.
Qed.

(** * The invariant of the generation *)

Definition closed (mz : list maze_node) : Prop := forall i nd, mz !! i = Some nd ->
  (m_right nd = false -> beside w i (i + 1)) /\ (m_down nd = false -> i + w < n).

Record GI (vs : list nat) (mz : list maze_node) (d : dset) (E : list (nat * nat)) : Prop := MkGI {
  gi_len : length mz = n;
  gi_ds : Inv d n E;
  gi_closed : closed mz;
  gi_edges i j : (i, j) ∈ E -> joined w mz i j;
  gi_joined i j : joined w mz i j -> (i, j) ∈ E \/ (j, i) ∈ E;
  gi_count : exists ps, NoDup ps /\ S (length ps) = length vs /\ forall i j, (i, j) ∈ ps <-> opening w mz i j;
  gi_nodup : NoDup vs;
  gi_bound i : i ∈ vs -> i < n;
  gi_zero : 0 ∈ vs;
  gi_vs i j : joined w mz i j -> i ∈ vs /\ j ∈ vs;
  gi_tree i j : i ∈ vs -> j ∈ vs -> unique_simple_path (joined w mz) i j
}.

Lemma joined_sym mz i j : joined w mz i j -> joined w mz j i.
Proof. unfold joined. tauto. Qed.

Lemma gi_refines vs mz d E d' : GI vs mz d E -> refines d d' -> GI vs mz d' E.
Proof. intros [] Hr. split; try done. by eapply refines_inv. Qed.

Lemma path_rtsc (R : nat -> nat -> Prop) : forall l i j, path R i l j -> rtsc R i j.
Proof.
  induction l as [|x l IH]; intros i j Hp; [by destruct Hp|].
  pose proof Hp as (Hhd&Hl&_). injection Hhd as ->. destruct l as [|y l].
  - injection Hl as ->. apply rtc_refl.
  - apply path_tail in Hp as [HR Hp]. eapply rtc_l; [by left|]. by apply IH.
Qed.

Lemma gi_same_root vs mz d E c x : GI vs mz d E -> c ∈ vs -> x < n -> same_root d c x <-> x ∈ vs.
Proof.
  intros HI Hc Hx. rewrite (inv_conn _ _ _ (gi_ds _ _ _ _ HI)); [|by apply HI|done]. split.
  - intros Hr. revert Hc. induction Hr as [|a b c' Hab _ IH]; [done|]. intros Ha. apply IH; [done|].
    destruct Hab as [Hab|Hab]; apply (gi_edges _ _ _ _ HI), (gi_vs _ _ _ _ HI) in Hab; tauto.
  - intros Hin. destruct (gi_tree _ _ _ _ HI c x Hc Hin) as (l&[Hp _]&_). apply path_rtsc in Hp.
    eapply rtc_subrel; [|exact Hp]. intros a b Hab.
    assert (joined w mz a b) as Hj by (destruct Hab; [done|by apply joined_sym]).
    apply (gi_joined _ _ _ _ HI) in Hj as [Hj|Hj]; [by left|by right].
Qed.

Lemma closed_opened dir c x mz : length mz = n -> geo dir c x -> closed mz -> closed (opened dir c x mz).
Proof.
  intros Hl (Hc&Hx&Hd) Hcl.
  assert (forall a, beside w a (a + 1) -> closed (open_r a mz)) as Hr.
  { intros a Ha i nd Hi. unfold open_r in Hi. destruct (decide (i = a)) as [->|Hne].
    - rewrite list_lookup_alter in Hi. destruct (mz !! a) as [nd'|] eqn:Hm; [|done]. injection Hi as <-. cbn.
      split; [done|]. by apply (Hcl _ _ Hm).
    - rewrite list_lookup_alter_ne in Hi by done. by apply Hcl. }
  assert (forall a, a + w < n -> closed (open_d a mz)) as Hdn.
  { intros a Ha i nd Hi. unfold open_d in Hi. destruct (decide (i = a)) as [->|Hne].
    - rewrite list_lookup_alter in Hi. destruct (mz !! a) as [nd'|] eqn:Hm; [|done]. injection Hi as <-. cbn.
      split; [|done]. by apply (Hcl _ _ Hm).
    - rewrite list_lookup_alter_ne in Hi by done. by apply Hcl. }
  destruct dir; cbn in *.
  - apply Hr. pose proof Hd as [-> _]. done.
  - apply Hdn. unfold below in Hd. lia.
  - apply Hr. pose proof Hd as [-> _]. done.
  - apply Hdn. unfold below in Hd. lia.
Qed.

Lemma gi_open vs mz d E dir c x d' : GI vs mz d E -> c ∈ vs -> geo dir c x -> x ∉ vs ->
  Inv d' n ((c, x) :: E) -> GI (x :: vs) (opened dir c x mz) d' ((c, x) :: E).
Proof.
  intros HI Hc Hg Hx Hd'. pose proof (opened_opening dir c x mz (gi_len _ _ _ _ HI) Hg) as Hop.
  assert (forall a b, joined w (opened dir c x mz) a b <->
    joined w mz a b \/ (a = c /\ b = x) \/ (a = x /\ b = c)) as Hj.
  { intros a b. unfold joined. rewrite !Hop. destruct dir; cbn; rewrite !pair_eq; tauto. }
  split.
  - rewrite <-(gi_len _ _ _ _ HI). destruct dir; cbn; apply alter_length.
  - done.
  - apply closed_opened; [by apply HI|done|by apply HI].
  - intros i j Hij. rewrite Hj. apply elem_of_cons in Hij as [[= -> ->]|Hij]; [tauto|].
    left. by apply (gi_edges _ _ _ _ HI).
  - intros i j. rewrite Hj. rewrite !elem_of_cons. intros [H|[[-> ->]|[-> ->]]]; [|tauto|tauto].
    apply (gi_joined _ _ _ _ HI) in H. tauto.
  - destruct (gi_count _ _ _ _ HI) as (ps&Hnd&Hlen&Hps). exists (oriented dir c x :: ps). split_and!.
    + apply NoDup_cons. split; [|done]. intros Hin. destruct (oriented dir c x) as [a b] eqn:Ho.
      apply Hps in Hin. assert (joined w mz a b) as Hjab by (by left). apply (gi_vs _ _ _ _ HI) in Hjab as [Ha Hb].
      destruct dir; cbn in Ho; injection Ho as <- <-; done.
    + cbn. by rewrite Hlen.
    + intros i j. rewrite elem_of_cons, Hop, Hps. tauto.
  - apply NoDup_cons. split; [done|by apply HI].
  - intros i Hi. apply elem_of_cons in Hi as [->|Hi]; [by destruct Hg as (_&?&_)|by apply HI].
  - apply elem_of_cons. right. by apply HI.
  - intros i j. rewrite Hj, !elem_of_cons. intros [H|[[-> ->]|[-> ->]]]; [|tauto|tauto].
    apply (gi_vs _ _ _ _ HI) in H. tauto.
  - apply (leaf_tree (joined w mz) _ vs c x); [apply joined_sym|by apply HI|done|done|done|by apply HI].
Qed.

Lemma gi_start : GI [0] (replicate n maze_node_new) (with_size n) [].
Proof.
  pose proof n_pos as Hn.
  assert (forall i j, ~ opening w (replicate n maze_node_new) i j) as Hno.
  { intros i j (_&nd&Hi&H). apply lookup_replicate in Hi as [-> _]. destruct H as [[H _]|[H _]]; done. }
  split.
  - apply replicate_length.
  - apply inv_with_size.
  - intros i nd Hi. apply lookup_replicate in Hi as [-> _]. done.
  - intros i j Hij. by apply elem_of_nil in Hij.
  - intros i j [H|H]; by apply Hno in H.
  - exists []. split_and!; [constructor|done|]. intros i j. split; [intros H; by apply elem_of_nil in H|].
    intros H. by apply Hno in H.
  - apply NoDup_singleton.
  - intros i Hi. apply elem_of_list_singleton in Hi as ->. lia.
  - apply elem_of_list_singleton. done.
  - intros i j [H|H]; by apply Hno in H.
  - intros i j Hi Hj. apply elem_of_list_singleton in Hi as ->. apply elem_of_list_singleton in Hj as ->.
    exists [0]. split; [split; [apply path_single|apply NoDup_singleton]|]. intros l' [Hp Hnd].
    by eapply path_loop.
Qed.

(** * One visit *)

Definition wall_of (dir : direction) (c next : nat) (mz : list maze_node) : res (list maze_node) :=
  match dir with
  | Right => open_right mz c
  | Down => open_down mz c
  | Left => open_right mz next
  | Up => open_down mz next
  end.
Lemma visit_dir_eq dir c mz d : c < n ->
  visit_dir m c w h dir mz d =
  match target dir c with
  | None => Ret (None, d)
  | Some next =>
      let! r := try_open c next (wall_of dir c next) mz d in
      match r with
      | (Some mz, d) => Ret (Some (next, mz), d)
      | (None, d) => Ret (None, d)
      end
  end.
Proof.
  intros Hc. pose proof w_le_n. unfold visit_dir, n_rem. destruct dir; cbn [target].
  - rewrite decide_False by lia. cbn [bind]. rewrite n_sub_ok by done. cbn [bind].
    destruct (Nat.eqb _ _); [done|]. rewrite n_add_small by (apply n_small; lia). done.
  - rewrite n_sub_ok by done. cbn [bind]. rewrite n_mul_small by (apply n_small; nia). cbn [bind].
    destruct (Nat.leb _ _); [done|]. rewrite n_add_small by (apply n_small; lia). done.
  - rewrite decide_False by lia. cbn [bind]. destruct (Nat.eqb_spec (c mod w) 0) as [He|He]; [done|].
    rewrite n_sub_ok; [done|]. destruct c; [rewrite Nat.mod_0_l in He by lia; done|lia].
  - destruct (Nat.ltb_spec c w) as [He|He]; [done|]. rewrite n_sub_ok by done. done.
Qed.

Lemma wall_of_eq dir c x mz : length mz = n -> c < n -> x < n -> wall_of dir c x mz = Ret (opened dir c x mz).
Proof.
  intros Hl Hc Hx. destruct dir; cbn; [apply open_right_eq|apply open_down_eq|apply open_right_eq|apply open_down_eq]; lia.
Qed.

Lemma visit_dir_spec vs mz d E dir c : GI vs mz d E -> c ∈ vs ->
  (exists d', visit_dir m c w h dir mz d = Ret (None, d') /\ GI vs mz d' E /\ forall j, geo dir c j -> j ∈ vs) \/
  (exists x d', visit_dir m c w h dir mz d = Ret (Some (x, opened dir c x mz), d') /\ geo dir c x /\ x ∉ vs /\
     GI (x :: vs) (opened dir c x mz) d' ((c, x) :: E)).
Proof.
  intros HI Hc. assert (c < n) as Hcn by (by apply HI). rewrite visit_dir_eq by done.
  destruct (target dir c) as [x|] eqn:Ht.
  - apply target_spec in Ht; [|done]. pose proof Ht as (_&Hxn&_). unfold try_open.
    destruct (common_set_spec d n E c x (gi_ds _ _ _ _ HI) Hcn Hxn) as (b&d1&E1&Hr1&Hb). rewrite E1. cbn [bind expect].
    rewrite (gi_same_root _ _ _ _ _ _ HI Hc Hxn) in Hb. pose proof (gi_refines _ _ _ _ _ HI Hr1) as HI1. destruct b.
    + left. exists d1. cbn [bind]. split_and!; [done|done|]. intros j Hj.
      apply target_spec in Hj; [|done]. apply target_spec in Ht; [|done]. assert (j = x) as -> by congruence. by apply Hb.
    + right. exists x. rewrite wall_of_eq by (done || by apply HI). cbn [bind].
      destruct (ds_union_spec d1 n E c x (gi_ds _ _ _ _ HI1) Hcn Hxn) as (a&d2&E2&HI2). rewrite E2. cbn [bind expect].
      assert (x ∉ vs) as Hx by (intros Hx; by apply Hb in Hx).
      exists d2. split_and!; [done|done|done|]. by eapply gi_open.
  - left. exists d. split_and!; [done|done|]. intros j Hj. apply target_spec in Hj; [|done]. congruence.
Qed.

Lemma visit_loop_spec vs mz E c : c ∈ vs -> forall fuel visitable d k, GI vs mz d E -> length visitable <= fuel ->
  exists r mz' d' vis' k' E' vs', visit_loop m rng fuel c w h mz d visitable k = Ret (r, mz', d', vis', k') /\
    GI vs' mz' d' E' /\ (forall dir, dir ∈ visitable -> dir ∉ vis' -> forall j, geo dir c j -> j ∈ vs') /\
    ((r = None /\ vis' = [] /\ vs' = vs) \/ (exists x, r = Some x /\ x ∉ vs /\ vs' = x :: vs)).
Proof.
  intros Hc. induction fuel as [|fuel IH]; intros visitable d k HI Hf.
  - destruct visitable; [|cbn in Hf; lia]. do 7 eexists. split; [done|]. split; [done|].
    split; [intros dir H; by apply elem_of_nil in H|]. by left.
  - destruct visitable as [|v0 vs0] eqn:Hv.
    { do 7 eexists. split; [done|]. split; [done|]. split; [intros dir H; by apply elem_of_nil in H|]. by left. }
    rewrite <-Hv in *.
    assert (exists dir rest, choose_random (rng k) visitable = Some (dir, rest)) as (dir&rest&Hch).
    { destruct (choose_random_perm (rng k) visitable) as [Hn _].
      destruct (choose_random (rng k) visitable) as [[dir rest]|] eqn:Hch; [eauto|].
      exfalso. assert (visitable = []) as He by (by apply Hn). congruence. }
    destruct (choose_random_perm (rng k) visitable) as [_ Hperm]. specialize (Hperm _ _ Hch).
    assert (visit_loop m rng (S fuel) c w h mz d visitable k =
      let! (r, d) := visit_dir m c w h dir mz d in
      match r with
      | Some (next, mz) => Ret (Some next, mz, d, rest, S k)
      | None => visit_loop m rng fuel c w h mz d rest (S k)
      end) as ->.
    { rewrite Hv in *. cbn [visit_loop]. rewrite Hch. done. }
    pose proof (Permutation_length Hperm) as Hlen. cbn in Hlen.
    assert (forall dir', dir' ∈ visitable -> dir' = dir \/ dir' ∈ rest) as Hin.
    { intros dir' H. rewrite <-Hperm in H. by apply elem_of_cons in H. }
    destruct (visit_dir_spec vs mz d E dir c HI Hc) as [(d'&E1&HI'&Hg)|(x&d'&E1&Hg&Hx&HI')]; rewrite E1; cbn [bind].
    + destruct (IH rest d' (S k) HI') as (r&mz'&d2&vis'&k'&E'&vs'&E2&HI2&Hd&Hr); [lia|].
      exists r, mz', d2, vis', k', E', vs'. split_and!; [done|done| |done].
      intros dir' Hd1 Hd2 j Hj. destruct (Hin _ Hd1) as [->|Hd3]; [|by eapply Hd].
      apply Hg in Hj. destruct Hr as [(_&_&->)|(x&_&_&->)]; [done|]. apply elem_of_cons. by right.
    + exists (Some x), (opened dir c x mz), d', rest, (S k), ((c, x) :: E), (x :: vs).
      split_and!; [done|done| |right; eauto].
      intros dir' Hd1 Hd2 j Hj. destruct (Hin _ Hd1) as [->|Hd3]; [|done].
      apply elem_of_cons. left. apply target_spec in Hj; [|by apply HI]. apply target_spec in Hg; [|by apply HI].
      congruence.
Qed.

(** * The main loop *)

Record LI (path vs : list nat) (visit : list (list direction)) : Prop := MkLI {
  li_len : length visit = n;
  li_path i : i ∈ path -> i ∈ vs;
  li_done i : i ∈ vs -> i ∈ path \/ visit !! i = Some [];
  li_dirs i l : visit !! i = Some l -> forall dir, dir ∉ l -> forall j, geo dir i j -> j ∈ vs
}.

Lemma backtrack_loop_spec : forall fuel path vs mz d E visit k,
  GI vs mz d E -> LI path vs visit -> 2 * (n - length vs) + length path < fuel + 1 -> 
  exists mz' vs' d' E' visit', backtrack_loop m rng fuel w h path (GState mz d visit k) = Ret mz' /\
    GI vs' mz' d' E' /\ LI [] vs' visit'.
Proof.
  induction fuel as [|fuel IH]; intros path vs mz d E visit k HI HL Hf.
  - assert (path = []) as -> by (destruct path; [done|cbn in Hf; lia]). cbn. do 5 eexists. done.
  - destruct path as [|c rest]; [cbn; do 5 eexists; done|]. cbn [backtrack_loop g_visit g_maze g_conn g_draws].
    assert (c ∈ vs) as Hc by (apply HL; apply elem_of_cons; by left). assert (c < n) as Hcn by (by apply HI).
    destruct (lookup_lt_is_Some_2 visit c) as [l Hl]; [rewrite (li_len _ _ _ HL); done|].
    unfold vec_get at 1. rewrite Hl. cbn [expect bind]. unfold visit_next.
    destruct (visit_loop_spec vs mz E c Hc (length l) l d k HI) as (r&mz'&d'&vis'&k'&E'&vs'&E1&HI'&Hd&Hr); [done|].
    rewrite E1. cbn [bind]. unfold vec_set. rewrite decide_True by (rewrite (li_len _ _ _ HL); done). cbn [bind].
    assert (forall i l', <[c:=vis']> visit !! i = Some l' -> forall dir, dir ∉ l' -> forall j, geo dir i j -> j ∈ vs') as Hdirs.
    { intros i l' Hi dir Hdir j Hj.
      assert (forall y, y ∈ vs -> y ∈ vs') as Hmono.
      { intros y Hy. destruct Hr as [(_&_&->)|(x&_&_&->)]; [done|]. apply elem_of_cons. by right. }
      destruct (decide (i = c)) as [->|Hne].
      - rewrite list_lookup_insert in Hi by (rewrite (li_len _ _ _ HL); done). injection Hi as <-.
        destruct (decide (dir ∈ l)) as [Hin|Hin]; [by eapply Hd|]. apply Hmono. by eapply (li_dirs _ _ _ HL).
      - rewrite list_lookup_insert_ne in Hi by done. apply Hmono. by eapply (li_dirs _ _ _ HL). }
    assert (length vs <= n) as Hvn.
    { rewrite <-(seq_length n 0). apply submseteq_length, NoDup_submseteq; [by apply HI|].
      intros i Hi. apply elem_of_seq. apply HI in Hi. lia. }
    assert (length vs' <= n) as Hvn'.
    { rewrite <-(seq_length n 0). apply submseteq_length, NoDup_submseteq; [by apply HI'|].
      intros i Hi. apply elem_of_seq. apply HI' in Hi. lia. }
    destruct Hr as [(->&->&->)|(x&->&Hx&->)].
    + apply (IH _ vs _ _ E'); [done| |cbn in Hf; lia]. split.
      * rewrite insert_length. apply HL.
      * intros i Hi. apply HL. apply elem_of_cons. by right.
      * intros i Hi. destruct (decide (i = c)) as [->|Hne].
        -- right. rewrite list_lookup_insert; [done|]. rewrite (li_len _ _ _ HL). done.
        -- destruct (li_done _ _ _ HL _ Hi) as [Hp|Hv].
           ++ apply elem_of_cons in Hp as [->|Hp]; [done|by left].
           ++ right. by rewrite list_lookup_insert_ne.
      * done.
    + apply (IH _ (x :: vs) _ _ E'); [done| |cbn in *; lia]. split.
      * rewrite insert_length. apply HL.
      * intros i Hi. apply elem_of_cons in Hi as [->|Hi]; apply elem_of_cons; [by left|right]. by apply HL.
      * intros i Hi. apply elem_of_cons in Hi as [->|Hi]; [left; apply elem_of_cons; by left|].
        destruct (li_done _ _ _ HL _ Hi) as [Hp|Hv]; [left; apply elem_of_cons; by right|].
        destruct (decide (i = c)) as [->|Hne].
        -- left. apply elem_of_cons. right. apply elem_of_cons. by left.
        -- right. by rewrite list_lookup_insert_ne.
      * done.
Qed.

(** Every cell is reached. *)
Lemma all_reached vs mz d E visit : GI vs mz d E -> LI [] vs visit -> forall i, i < n -> i ∈ vs.
Proof.
  intros HI HL.
  assert (forall i j dir, i ∈ vs -> geo dir i j -> j ∈ vs) as Hstep.
  { intros i j dir Hi Hg. destruct (li_done _ _ _ HL i Hi) as [Hn|Hv]; [by apply elem_of_nil in Hn|].
    eapply (li_dirs _ _ _ HL); [exact Hv| |exact Hg]. apply not_elem_of_nil. }
  assert (forall q, q < h -> w * q ∈ vs) as Hfirst.
  { induction q as [|q IH]; intros Hq; [rewrite Nat.mul_0_r; by apply HI|].
    apply (Hstep (w * q) _ Down); [apply IH; lia|]. unfold geo. cbn. unfold below. split_and!; nia. }
  assert (forall r q, r < w -> q < h -> w * q + r ∈ vs) as Hall.
  { induction r as [|r IH]; intros q Hr Hq; [rewrite Nat.add_0_r; by apply Hfirst|].
    apply (Hstep (w * q + r) _ Right); [apply IH; lia|]. unfold geo. cbn. split_and!; [nia|nia|].
    split; [lia|]. destruct (div_mod_unique (w * q + r) q r) as [-> _]; [lia|done|].
    destruct (div_mod_unique (w * q + S r) q (S r)) as [-> _]; [lia|done|done]. }
  intros i Hi. destruct (divmod i) as [E1 E2]. rewrite E1. apply Hall; [done|by apply row_lt].
Qed.

Lemma gen_spec : exists mz, recursive_backtrack m rng w h = Ret mz /\ length mz = n /\ closed mz /\
  (forall i j, i < n -> j < n -> unique_simple_path (joined w mz) i j) /\
  (exists ps, NoDup ps /\ length ps = n - 1 /\ forall i j, (i, j) ∈ ps <-> opening w mz i j).
Proof.
  pose proof n_pos as Hn. unfold recursive_backtrack. rewrite n_mul_small by (apply n_small; lia). cbn [bind].
  destruct (backtrack_loop_spec (2 * n + 1) [0] [0] (replicate n maze_node_new) (with_size n) []
    (replicate n [Right; Down; Left; Up]) 0) as (mz&vs&d&E&visit&E1&HI&HL).
  - apply gi_start.
  - split.
    + apply replicate_length.
    + done.
    + by left.
    + intros i l Hl. apply lookup_replicate in Hl as [-> _]. intros dir Hdir. exfalso. apply Hdir.
      destruct dir; rewrite !elem_of_cons; tauto.
  - cbn [length]. lia.
  - exists mz. pose proof (all_reached _ _ _ _ _ HI HL) as Hall.
    split_and!; [done|by apply HI|by apply HI|..].
    + intros i j Hi Hj. apply (gi_tree _ _ _ _ HI); by apply Hall.
    + destruct (gi_count _ _ _ _ HI) as (ps&Hnd&Hlen&Hps). exists ps. split_and!; [done| |done].
      assert (length vs = n) as Hv; [|lia]. rewrite <-(seq_length n 0). apply Permutation_length, NoDup_Permutation.
      * by apply HI.
      * apply NoDup_seq.
      * intros i. rewrite elem_of_seq. split; [intros Hi; apply HI in Hi; lia|]. intros Hi. apply Hall. lia.
Qed.
End gen.
