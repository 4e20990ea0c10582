(** The order in which the breadth-first traversal visits the cells. *)
From Coq Require Import Sorted.
From stdpp Require Import gmap.
From Verif Require Import Base Util DisjointSet Maze SpecMaze SpecMazeExit MazeTree MazeGen MazeBfs MazeDfs MazeProofs.

Lemma lex_before_snoc x y : forall a b, length a = length b -> lex_before a b -> lex_before (a ++ [x]) (b ++ [y]).
Proof.
  induction a as [|d a IH]; intros [|e b] Hl H; try done. cbn [lex_before app] in *. injection Hl as Hl.
  destruct H as [H|[-> H]]; [by left|]. right. split; [done|]. by apply IH.
Qed.
Lemma lex_before_last a x y : rank x < rank y -> lex_before (a ++ [x]) (a ++ [y]).
Proof. intros H. induction a as [|d a IH]; cbn [lex_before app]; [by left|by right]. Qed.
Lemma sooner_snoc x y a b : sooner a b -> sooner (a ++ [x]) (b ++ [y]).
Proof.
  unfold sooner. rewrite !app_length. cbn [length]. intros [H|[Hl H]]; [left; lia|]. right. split; [lia|]. by apply lex_before_snoc.
Qed.
Lemma sooner_last a x y : rank x < rank y -> sooner (a ++ [x]) (a ++ [y]).
Proof. intros H. right. rewrite !app_length. split; [done|]. by apply lex_before_last. Qed.
Lemma sooner_nil a x : sooner [] (a ++ [x]).
Proof. left. rewrite app_length. cbn. lia. Qed.
Lemma sooner_length a b : sooner a b -> length a <= length b.
Proof. intros [H|[H _]]; lia. Qed.

Lemma sorted_lookup {A} (R : A -> A -> Prop) l : StronglySorted R l -> forall a b x y,
  a < b -> l !! a = Some x -> l !! b = Some y -> R x y.
Proof.
  induction 1 as [|z l Hs IH Hz]; intros [|a] [|b] x y Hab Ha Hb; try done; try lia.
  - injection Ha as ->. rewrite Forall_forall in Hz. by eapply Hz, elem_of_list_lookup_2.
  - cbn in Ha, Hb. apply (IH a b); [lia|done|done].
Qed.

Lemma path_cut (R : nat -> nat -> Prop) i l1 c l2 j : path R i (l1 ++ c :: l2) j -> path R c (c :: l2) j.
Proof.
  intros (_&Hl&Hk). split_and!; [done| |].
  - rewrite last_app in Hl. by destruct (last (c :: l2)) eqn:E; [|by apply last_None in E].
  - intros k a b Ha Hb. apply (Hk (length l1 + k)).
    + rewrite lookup_app_r by lia. by replace (length l1 + k - length l1) with k by lia.
    + rewrite lookup_app_r by lia. by replace (S (length l1 + k) - length l1) with (S k) by lia.
Qed.

Lemma shortest_NoDup (R : nat -> nat -> Prop) i l j : path R i l j ->
  (forall l', path R i l' j -> length l <= length l') -> NoDup l.
Proof.
  intros Hp Hmin. apply NoDup_alt. intros a b x Ha Hb.
  assert (forall a b, a < b -> l !! a = Some x -> l !! b = Some x -> False) as Hno.
  { clear a b Ha Hb. intros a b Hab Ha Hb.
    pose proof (take_drop_middle l a x Ha) as E1. pose proof (take_drop_middle l b x Hb) as E2.
    assert (path R i (take a l ++ [x]) x) as P1.
    { rewrite <-E1 in Hp. by apply path_split in Hp as [? _]. }
    assert (path R x (x :: drop (S b) l) j) as P2.
    { rewrite <-E2 in Hp. by apply path_cut in Hp. }
    assert (path R i (take a l ++ x :: drop (S b) l) j) as P.
    { destruct P1 as (A1&A2&A3), P2 as (B1&B2&B3). split_and!.
      - destruct (take a l); done.
      - rewrite last_app. by rewrite B2.
      - intros k u v Hu Hv. destruct (decide (S k <= length (take a l))) as [Hk|Hk].
        + apply (A3 k); [rewrite lookup_app_l by lia; by rewrite lookup_app_l in Hu by lia|].
          destruct (decide (S k < length (take a l))) as [Hk'|Hk'].
          * rewrite lookup_app_l by lia. by rewrite lookup_app_l in Hv by lia.
          * rewrite lookup_app_r in Hv |- * by lia. replace (S k - length (take a l)) with 0 in * by lia. done.
        + rewrite lookup_app_r in Hu, Hv by lia. apply (B3 (k - length (take a l))); [done|].
          by replace (S (k - length (take a l))) with (S k - length (take a l)) by lia. }
    apply Hmin in P. rewrite app_length in P. cbn [length] in P. rewrite take_length, drop_length in P.
    apply lookup_lt_Some in Ha, Hb. lia. }
  destruct (decide (a < b)); [by exfalso; eapply (Hno a b)|]. destruct (decide (b < a)); [by exfalso; eapply (Hno b a)|]. lia.
Qed.

Section order.
Context (m : mode) (w h : nat).
Context (Hw : 1 <= w) (Hh : 1 <= h) (Hst : storable m w h).
Local Notation n := (w * h).
Context (mz : list maze_node) (Hlen : length mz = n) (Hcl : closed w h mz).
Local Notation adj := (joined w mz).
Local Notation BI := (BI w h mz).

(** * Walks and their directions *)

Lemma leads_det d d' a b : 2 <= w -> leads w d a b -> leads w d' a b -> d = d'.
Proof. intros Hw2. destruct d, d'; cbn; unfold beside, below; intros H H'; try done; exfalso; lia. Qed.

Lemma follows_path ds : forall i j, follows w mz ds i j -> exists l, path adj i l j /\ length l = S (length ds) /\
  forall k d a b, ds !! k = Some d -> l !! k = Some a -> l !! S k = Some b -> leads w d a b.
Proof.
  induction ds as [|d ds IH]; intros i j; cbn [follows].
  - intros ->. exists [j]. split_and!; [apply path_single|done|done].
  - intros (k&H1&H2&(l&Hp&Hl&Hd)%IH). exists (i :: l). split_and!; [by eapply path_cons|cbn; lia|].
    intros [|p] d' a b Hd' Ha Hb; cbn in Hd', Ha, Hb.
    + simplify_eq. destruct Hp as (Hhd&_). destruct l; [done|]. cbn in Hhd, Hb. by simplify_eq.
    + by eapply Hd.
Qed.
Lemma path_follows : 2 <= w -> forall l i j, path adj i l j -> exists ds, follows w mz ds i j /\ S (length ds) = length l.
Proof.
  intros Hw2. induction l as [|x l IH]; intros i j Hp; [by destruct Hp|].
  assert (x = i) as -> by (destruct Hp as (Hhd&_); by injection Hhd).
  destruct l as [|y l].
  - destruct Hp as (_&Hl&_). injection Hl as ->. by exists [].
  - apply path_tail in Hp as [HR Hp]. destruct (IH y j Hp) as (ds&Hf&Hl).
    exists (step_dir w y i :: ds). split; [|cbn in *; lia]. exists y. split_and!; [|done|done].
    by eapply step_dir_leads.
Qed.

Lemma shortest_unique ds es b : 2 <= w -> unique_simple_path adj 0 b ->
  shortest_walk w mz ds 0 b -> shortest_walk w mz es 0 b -> ds = es.
Proof.
  intros Hw2 (l&_&Hu) [F1 M1] [F2 M2].
  destruct (follows_path _ _ _ F1) as (l1&P1&L1&D1). destruct (follows_path _ _ _ F2) as (l2&P2&L2&D2).
  assert (forall l0 (xs : list direction), path adj 0 l0 b -> length l0 = S (length xs) ->
    (forall ys, follows w mz ys 0 b -> length xs <= length ys) -> l0 = l) as Hone.
  { intros l0 xs P L Hm. apply Hu. split; [done|]. eapply shortest_NoDup; [done|].
    intros l' (ys&Hf&Hl)%path_follows; [|done]. apply Hm in Hf. lia. }
  assert (l1 = l) as -> by (by apply (Hone l1 ds)). assert (l2 = l) as -> by (by apply (Hone l2 es)).
  apply list_eq_same_length with (n := length ds); [lia|done|].
  intros k d e Hk Hd He. destruct (lookup_lt_is_Some_2 l k) as [a Ha]; [lia|].
  destruct (lookup_lt_is_Some_2 l (S k)) as [c Hc]; [lia|].
  eapply leads_det; [done|by eapply D1|by eapply D2].
Qed.

(** * The order of the queue *)

Record Ord (pr q : list nat) (t : list path_node) (W : nat -> list direction) : Prop := MkOrd {
  o_zero : W 0 = [];
  o_parent i p : t !! i = Some (PPath p) -> p ∈ pr /\ exists d, leads w d p i /\ W i = W p ++ [d];
  o_sorted k k' i j : k < k' -> (pr ++ q) !! k = Some i -> (pr ++ q) !! k' = Some j -> sooner (W i) (W j)
}.

Lemma ord_step pr c q t lv W t' q' : BI pr (c :: q) t lv -> Ord pr (c :: q) t W ->
  bfs_expand m w mz c t q = Ret (t', q') -> exists W', Ord (pr ++ [c]) q' t' W'.
Proof.
  intros HB [O1 O2 O3] E.
  assert (c ∈ pr ++ c :: q) as Hcin by (apply elem_of_app; right; apply elem_of_cons; by left).
  destruct (bfs_expand_spec m w h Hw Hh Hst mz Hlen Hcl c t q) as (t1&q1&cand&E1&(new&->&Hnn&Hnew&Hl'&Ht'&ds&F1&F2&_)&Hcand);
    [by apply HB|apply HB|].
  rewrite E in E1. injection E1 as <- ->.
  assert (forall j, j ∈ new -> j ∉ pr ++ c :: q) as Hdis.
  { intros j Hj. apply Hnew in Hj as [Hj1 Hj2]. apply (b_vis _ _ _ _ _ _ _ HB); [|done].
    apply Hcand in Hj1. by eapply adj_bound in Hj1 as [_ ?]. }
  set (M := list_to_map (zip new ds) : gmap nat direction).
  assert (length new = length ds) as Hlds by (by eapply Forall2_length).
  assert ((zip new ds).*1 = new) as Hfst by (apply fst_zip; lia).
  assert (forall k j d, new !! k = Some j -> ds !! k = Some d -> M !! j = Some d) as Min.
  { intros k j d Hj Hd. apply elem_of_list_to_map_1; [by rewrite Hfst|].
    apply elem_of_list_lookup. exists k. apply lookup_zip_with_Some. eauto. }
  assert (forall j, j ∉ new -> M !! j = None) as Mout.
  { intros j Hj. apply not_elem_of_list_to_map_1. by rewrite Hfst. }
  exists (fun j => match M !! j with Some d => W c ++ [d] | None => W j end).
  assert (forall j, j ∈ pr ++ c :: q -> M !! j = None) as Mold.
  { intros j Hj. apply Mout. intros Hj'. by eapply Hdis. }
  assert (forall i k d, (pr ++ c :: q) !! k = Some i -> sooner (W i) (W c ++ [d])) as Hnext.
  { intros i k d Hi. assert (i ∈ pr ++ c :: q) as Hin by (by eapply elem_of_list_lookup_2).
    destruct (lookup_lt_is_Some_2 t i) as [v Hv]; [rewrite (b_len _ _ _ _ _ _ _ HB); by apply HB|].
    destruct v as [|p|].
    - apply (b_start _ _ _ _ _ _ _ HB) in Hv as ->. rewrite O1. apply sooner_nil.
    - destruct (O2 _ _ Hv) as (Hp&d'&_&->). apply sooner_snoc.
      apply elem_of_list_lookup in Hp as [kp Hkp]. apply (O3 kp (length pr)).
      + by eapply lookup_lt_Some.
      + by apply lookup_app_l_Some.
      + by rewrite list_lookup_middle.
    - exfalso. apply (b_vis _ _ _ _ _ _ _ HB) in Hv; [done|by apply HB]. }
  assert ((pr ++ [c]) ++ q ++ new = (pr ++ c :: q) ++ new) as Hord by (rewrite <-!app_assoc; done).
  split.
  - rewrite Mold; [done|]. apply HB.
  - intros i p. rewrite Ht'. case_decide as Hd.
    + intros [= <-]. split; [apply elem_of_app; right; by apply elem_of_list_singleton|].
      apply elem_of_list_lookup in Hd as [k Hk]. destruct (Forall2_lookup_l _ _ _ _ _ F1 Hk) as (d&Hd&Hle).
      exists d. split; [done|]. rewrite (Min k i d) by done. by rewrite (Mold c).
    + intros Hp. destruct (O2 _ _ Hp) as (H1&d&H2&H3). split; [apply elem_of_app; by left|]. exists d. split; [done|].
      rewrite (Mout i) by done. rewrite Mold; [done|]. apply elem_of_app. by left.
  - rewrite Hord. intros k k' i j Hk Hi Hj. destruct (decide (k' < length (pr ++ c :: q))) as [Hk'|Hk'].
    + rewrite lookup_app_l in Hj by lia. rewrite lookup_app_l in Hi by lia. rewrite !Mold by (by eapply elem_of_list_lookup_2). apply (O3 k k'); [lia|done|done].
    + rewrite lookup_app_r in Hj by lia.
      destruct (lookup_lt_is_Some_2 ds (k' - length (pr ++ c :: q))) as [d Hd]; [apply lookup_lt_Some in Hj; lia|].
      rewrite (Min _ j d) by done. destruct (decide (k < length (pr ++ c :: q))) as [Hk2|Hk2].
      * rewrite lookup_app_l in Hi by lia. rewrite Mold by (by eapply elem_of_list_lookup_2). by eapply Hnext.
      * rewrite lookup_app_r in Hi by lia.
        destruct (lookup_lt_is_Some_2 ds (k - length (pr ++ c :: q))) as [d' Hd']; [apply lookup_lt_Some in Hi; lia|].
        rewrite (Min _ i d') by done. apply sooner_last. eapply (sorted_lookup _ _ F2); [|done|done]. lia.
Qed.

Lemma ord_start t : vec_set (replicate n PUnvisited) 0 PStart = Ret t -> Ord [] [0] t (fun _ => []).
Proof.
  unfold vec_set. case_decide; [|done]. intros [= <-]. split; [done| |].
  - intros i p Hi. destruct (decide (i = 0)) as [->|Hne].
    + by rewrite list_lookup_insert in Hi.
    + rewrite list_lookup_insert_ne in Hi by done. by apply lookup_replicate_1 in Hi as [? _].
  - intros [|k] [|k'] i j Hk Hi Hj; try lia; done.
Qed.

Lemma ord_word pr q t lv W : BI pr q t lv -> Ord pr q t W -> forall k i, lv i = k -> i ∈ pr ++ q ->
  follows w mz (W i) 0 i /\ length (W i) = lv i.
Proof.
  intros HB HO. induction k as [k IH] using lt_wf_ind. intros i Hk Hi.
  destruct (lookup_lt_is_Some_2 t i) as [v Hv]; [rewrite (b_len _ _ _ _ _ _ _ HB); by apply HB|].
  destruct v as [|p|].
  - apply (b_start _ _ _ _ _ _ _ HB) in Hv as ->. rewrite (o_zero _ _ _ _ HO), (b_lv0 _ _ _ _ _ _ _ HB). done.
  - destruct (b_parent _ _ _ _ _ _ _ HB _ _ Hv) as (H1&H2&H3). destruct (o_parent _ _ _ _ HO _ _ Hv) as (_&d&Hd&->).
    destruct (IH (lv p)) with (i := p) as [Hf Hl]; [lia|done|done|]. rewrite app_length. cbn. split; [|lia].
    apply follows_app. exists p. split; [done|]. cbn. eauto.
  - exfalso. apply (b_vis _ _ _ _ _ _ _ HB) in Hv; [done|by apply HB].
Qed.

Local Notation bottom := (fun i => i / w = h - 1).
Lemma bfs_loop_order : forall fuel pr q t lv W found g sol,
  BI pr q t lv -> Ord pr q t W -> found = length (filter bottom pr) ->
  bfs_loop m fuel w h mz t q found = Ret (g, sol) ->
  exists e W', g = open_d e mz /\ in_last_row w h e /\
    (2 <= w -> follows w mz (rev sol) 0 e /\ length sol = length (W' e)) /\
    (forall b, in_last_row w h b -> shortest_walk w mz (W' b) 0 b /\ (b <> e -> sooner (W' b) (W' e))).
Proof.
  induction fuel as [|fuel IH]; intros pr q t lv W found g sol HB HO Hfd; [done|].
  cbn [bfs_loop]. destruct q as [|c q]; [done|].
  assert (c ∈ pr ++ c :: q) as Hcin by (apply elem_of_app; right; apply elem_of_cons; by left).
  assert (c < n) as Hc by (by apply HB).
  unfold n_div. rewrite decide_False by lia. cbn [bind]. rewrite n_sub_ok by done. cbn [bind].
  assert (length (filter bottom (pr ++ [c])) = if Nat.eqb (c / w) (h - 1) then S found else found) as Hcount.
  { rewrite filter_app, app_length, filter_cons. cbn. destruct (Nat.eqb_spec (c / w) (h - 1)) as [He|He].
    - rewrite decide_True by done. cbn. lia.
    - rewrite decide_False by done. cbn. lia. }
  rewrite <-Hcount. destruct (Nat.eqb (c / w) (h - 1) && Nat.eqb (length (filter bottom (pr ++ [c]))) w) eqn:Hstop.
  - apply andb_true_iff in Hstop as [Hrow Hfull]. apply Nat.eqb_eq in Hrow, Hfull.
    rewrite open_down_eq by lia. cbn [bind].
    destruct (read_path_spec m w h Hw Hh Hst mz Hlen _ _ _ _ HB (S (length t)) c Hcin) as (sol'&E&Hl&Hfo&_).
    { rewrite (b_len _ _ _ _ _ _ _ HB). pose proof (b_small _ _ _ _ _ _ _ HB _ Hcin) as Hs.
      assert (length (pr ++ c :: q) <= n); [|lia]. rewrite <-(seq_length n 0). apply submseteq_length, NoDup_submseteq; [by apply HB|].
      intros i Hi. apply elem_of_seq. assert (i < n); [|lia]. by apply HB. }
    rewrite E. cbn [bind]. intros [= <- <-].
    assert (forall b, in_last_row w h b -> b ∈ pr ++ [c]) as Hall.
    { intros b Hb. apply (count_bottom w h Hw Hh mz Hlen (pr ++ [c])); [|..|done|done].
      - pose proof (b_nd _ _ _ _ _ _ _ HB) as Hnd. rewrite (app_assoc pr [c] q : pr ++ c :: q = _) in Hnd. by apply NoDup_app in Hnd as [? _].
      - intros i Hi. apply HB. apply elem_of_app in Hi as [Hi|Hi]; [apply elem_of_app; by left|].
        apply elem_of_list_singleton in Hi as ->. done. }
    exists c, W. split; [done|]. split; [by split|]. split.
    + intros Hw2. split; [by apply Hfo|]. destruct (ord_word _ _ _ _ _ HB HO _ c eq_refl Hcin) as [_ E']. congruence.
    + intros b Hb. pose proof (Hall b Hb) as Hin. assert (b ∈ pr ++ c :: q) as Hin'.
      { apply elem_of_app in Hin as [Hi|Hi]; [apply elem_of_app; by left|]. apply elem_of_list_singleton in Hi as ->. done. }
      destruct (ord_word _ _ _ _ _ HB HO _ b eq_refl Hin') as [Hf Hlb]. apply elem_of_list_lookup in Hin as [k Hk].
      assert (k <= length pr) by (apply lookup_lt_Some in Hk; rewrite app_length in Hk; cbn in Hk; lia).
      assert ((pr ++ c :: q) !! k = Some b) as Hk'.
      { change (c :: q) with ([c] ++ q). rewrite app_assoc. by apply lookup_app_l_Some. }
      split; [split; [done|]|].
      * intros es (l&Hp&Hll&_)%follows_path. rewrite Hlb.
        destruct (bi_walk w h Hw Hh mz Hlen _ _ _ _ HB _ _ Hp) as [[_ Hle]|(x&Hx&Hmin&Hle)]; [lia|].
        assert (lv b <= lv x); [|lia]. apply elem_of_list_lookup in Hx as [kx Hkx].
        apply (b_sorted _ _ _ _ _ _ _ HB k (length pr + kx)); [lia|done|].
        rewrite lookup_app_r by lia. by replace (length pr + kx - length pr) with kx by lia.
      * intros Hne. apply (o_sorted _ _ _ _ HO k (length pr)); [|done|by rewrite list_lookup_middle].
        destruct (decide (k = length pr)) as [->|]; [|lia]. rewrite list_lookup_middle in Hk' by done. congruence.
  - destruct (bi_step m w h Hw Hh Hst mz Hlen Hcl _ _ _ _ _ HB) as (t'&q'&lv'&E&HB'). rewrite E. cbn [bind].
    destruct (ord_step _ _ _ _ _ _ _ _ HB HO E) as [W' HO']. by apply (IH (pr ++ [c]) q' t' lv' W').
Qed.
End order.

Lemma create_exit (m : mode) rng w h g sol : storable m w h -> create_maze m rng w h = Ret (g, sol) -> 2 <= w ->
  exists e, is_exit w h g e /\ shortest_walk w g (rev sol) 0 e /\
    forall b ds, in_last_row w h b -> b <> e -> shortest_walk w g ds 0 b -> sooner ds (rev sol).
Proof.
  intros Hst Hrun Hw2. pose proof Hrun as Hrun'. destruct (create_dims _ _ _ _ _ _ Hrun) as [Hw Hh].
  pose proof (n_pos w h Hw Hh) as Hn. revert Hrun'. unfold create_maze.
  destruct (gen_spec m rng w h Hw Hh Hst) as (mz&E&Hlen&Hcl&Htree&Hps). rewrite E. cbn [bind].
  rewrite n_mul_small by (apply (n_small m w h Hw Hh Hst); lia). cbn [bind].
  destruct (bi_start w h Hw Hh mz Hlen) as (t&E2&HB). rewrite E2. cbn [bind]. intros Hloop.
  destruct (bfs_loop_order m w h Hw Hh Hst mz Hlen Hcl _ _ _ _ _ _ _ _ _ HB (ord_start w h Hw Hh mz Hlen _ E2) eq_refl Hloop)
    as (e&W&Hg&He&Hsol&HW).
  destruct (Hsol Hw2) as [Hf Hls].
  assert (forall b, in_last_row w h b -> unique_simple_path (joined w mz) 0 b) as Huni.
  { intros b [Hb _]. apply Htree; [lia|done]. }
  assert (shortest_walk w mz (rev sol) 0 e) as Hshort.
  { split; [done|]. intros es Hes. rewrite rev_length, Hls. by apply (HW e He). }
  assert (rev sol = W e) as Hword.
  { eapply (shortest_unique w h Hw Hh mz Hlen); [done|by apply Huni|done|by apply HW]. }
  assert (forall a b, joined w g a b <-> joined w mz a b) as Hj.
  { rewrite Hg. intros a b. by eapply exit_joined. }
  assert (forall ds i j, shortest_walk w g ds i j <-> shortest_walk w mz ds i j) as Hsw.
  { intros ds i j. assert (forall es, follows w g es i j <-> follows w mz es i j) as Hfe.
    { intros es. split; apply follows_ext; intros; by apply Hj. }
    unfold shortest_walk. rewrite Hfe. split; intros [H1 H2]; (split; [done|]); intros es Hes; apply H2; by apply Hfe. }
  exists e. split; [by eapply exit_of|]. split; [by apply Hsw|].
  intros b ds Hb Hne Hds. apply Hsw in Hds.
  assert (ds = W b) as -> by (eapply (shortest_unique w h Hw Hh mz Hlen); [done|by apply Huni|done|by apply HW]).
  rewrite Hword. by apply HW.
Qed.

(** * The passages determine the maze *)

Lemma lex_before_asym : forall a b, lex_before a b -> lex_before b a -> False.
Proof.
  induction a as [|d a IH]; intros [|e b]; cbn [lex_before]; try done.
  intros [H|[-> H]] [H'|[H0 H']]; [lia|subst; lia|lia|by eapply IH].
Qed.
Lemma sooner_asym a b : sooner a b -> sooner b a -> False.
Proof. intros [H|[H1 H2]] [H'|[H1' H2']]; [lia|lia|lia|by eapply lex_before_asym]. Qed.

Lemma passage_right w g i nd : 2 <= w -> g !! i = Some nd -> i + 1 < length g -> beside w i (i + 1) ->
  joined w g i (i + 1) <-> m_right nd = false.
Proof.
  intros Hw Hnd Hi Hb. split.
  - intros [(_&nd'&Hnd'&[[H _]|[_ H]])|(_&nd'&Hnd'&[[_ [H _]]|[_ H]])]; unfold below in *; try lia. congruence.
  - intros H. left. split; [done|]. exists nd. split; [done|]. by left.
Qed.
Lemma passage_down w g i nd : 2 <= w -> g !! i = Some nd -> i + w < length g ->
  joined w g i (i + w) <-> m_down nd = false.
Proof.
  intros Hw Hnd Hi. split.
  - intros [(_&nd'&Hnd'&[[_ [H _]]|[H _]])|(_&nd'&Hnd'&[[_ [H _]]|[_ H]])]; unfold below in *; try lia. congruence.
  - intros H. left. split; [done|]. exists nd. split; [done|]. by right.
Qed.

Lemma create_determined (m : mode) rng (m' : mode) rng' w h g sol g' sol' : storable m w h -> storable m' w h -> 2 <= w ->
  create_maze m rng w h = Ret (g, sol) -> create_maze m' rng' w h = Ret (g', sol') ->
  (forall i j, joined w g i j <-> joined w g' i j) -> g = g' /\ sol = sol'.
Proof.
  intros Hst Hst' Hw2 Hr Hr' Hj. destruct (create_dims _ _ _ _ _ _ Hr) as [Hw Hh].
  pose proof (create_length _ _ _ _ _ _ Hst Hr) as Hl. pose proof (create_length _ _ _ _ _ _ Hst' Hr') as Hl'.
  destruct (create_exit _ _ _ _ _ _ Hst Hr Hw2) as (e&He&Hs&Hb). destruct (create_exit _ _ _ _ _ _ Hst' Hr' Hw2) as (e'&He'&Hs'&Hb').
  assert (forall ds i j, shortest_walk w g ds i j <-> shortest_walk w g' ds i j) as Hsw.
  { intros ds i j. assert (forall es, follows w g es i j <-> follows w g' es i j) as Hfe.
    { intros es. split; apply follows_ext; intros; by apply Hj. }
    unfold shortest_walk. rewrite Hfe. split; intros [H1 H2]; (split; [done|]); intros es Hes; apply H2; by apply Hfe. }
  assert (e = e') as <-.
  { destruct (decide (e = e')) as [|Hne]; [done|]. exfalso. eapply (sooner_asym (rev sol) (rev sol')).
    - apply (Hb' e); [apply He|done|by apply Hsw].
    - apply (Hb e'); [apply He'|done|by apply Hsw]. }
  assert (0 < w * h) as Hn by (pose proof (n_pos w h Hw Hh); lia).
  split.
  - apply list_eq_same_length with (n := w * h); [done|done|]. intros i nd nd' Hi Hnd Hnd'.
    destruct (create_walls _ _ _ _ _ _ Hst Hr) as [Hc _]. destruct (create_walls _ _ _ _ _ _ Hst' Hr') as [Hc' _].
    assert (forall b b', (b = false <-> b' = false) -> b = b') as Hbool by (intros [] [] [H1 H2]; naive_solver).
    assert (m_right nd = m_right nd') as E1.
    { destruct (decide (i mod w = w - 1)) as [Hcol|Hcol]; [by rewrite (Hc i nd), (Hc' i nd')|].
      assert (beside w i (i + 1)) as Hbs by (by apply (beside_iff w h Hw Hh)).
      assert (i + 1 < w * h) as Hi1.
      { destruct Hbs as [_ Hd]. destruct (divmod w h Hw Hh (i + 1)) as [D1 D2]. destruct (divmod w h Hw Hh i) as [D3 D4].
        assert (i / w < h) by (apply Nat.div_lt_upper_bound; lia). nia. }
      rewrite <-Hl in Hi1 at 1. apply Hbool. rewrite <-(passage_right w g i nd), <-(passage_right w g' i nd'); try done; lia. }
    assert (m_down nd = m_down nd') as E2.
    { destruct (decide (i / w = h - 1)) as [Hrow|Hrow].
      - apply Hbool. rewrite (proj2 He i nd), (proj2 He' i nd'); done.
      - assert (i + w < w * h) as Hi1.
        { assert (i / w < h) by (apply Nat.div_lt_upper_bound; lia). destruct (divmod w h Hw Hh i) as [D3 D4]. nia. }
        apply Hbool. rewrite <-(passage_down w g i nd), <-(passage_down w g' i nd'); try done; lia. }
    destruct nd, nd'. cbn in E1, E2. by subst.
  - rewrite <-(rev_involutive sol), <-(rev_involutive sol'). f_equal.
    eapply (shortest_unique w h Hw Hh g Hl); [done| |done|by apply Hsw]. eapply (create_perfect m); [done|done|done|]. apply He.
Qed.
