(** The generated mazes are exactly the depth-first spanning trees. *)
From Verif Require Import Base Util UtilProofs DisjointSet DisjointSetProofs Maze SpecMaze SpecMazeDfs MazeTree MazeGen.

Lemma path_split (R : nat -> nat -> Prop) i l1 c l2 j : path R i (l1 ++ c :: l2) j ->
  path R i (l1 ++ [c]) c /\ (forall x l3, l2 = x :: l3 -> R c x).
Proof.
  intros (Hh&Hl&Hk). split_and!.
  - split_and!.
    + by destruct l1.
    + by rewrite last_snoc.
    + intros k a b Ha Hb. apply (Hk k).
      * replace (l1 ++ c :: l2) with ((l1 ++ [c]) ++ l2) by (by rewrite <-app_assoc). by apply lookup_app_l_Some.
      * replace (l1 ++ c :: l2) with ((l1 ++ [c]) ++ l2) by (by rewrite <-app_assoc). by apply lookup_app_l_Some.
  - intros x l3 ->. apply (Hk (length l1)).
    + rewrite lookup_app_r by lia. by rewrite Nat.sub_diag.
    + rewrite lookup_app_r by lia. by replace (S (length l1) - length l1) with 1 by lia.
Qed.
Lemma path_sub (R R' : nat -> nat -> Prop) i l j : (forall a b, R a b -> R' a b) -> path R i l j -> path R' i l j.
Proof. intros H (Hhd&Hl&Hk). split_and!; [done|done|]. intros k a b Ha Hb. apply H. by apply (Hk k). Qed.

Global Instance opening_dec w mz i j : Decision (opening w mz i j).
Proof.
  unfold opening. destruct (decide (j < length mz)) as [Hj|Hj]; [|right; by intros [? _]].
  destruct (mz !! i) as [nd|] eqn:Hn; [|right; by intros (_&nd&?&_)].
  destruct (decide ((m_right nd = false /\ (j = i + 1 /\ i / w = j / w)) \/ (m_down nd = false /\ j = i + w))) as [H|H].
  - left. split; [done|]. exists nd. split; [done|]. exact H.
  - right. intros (_&nd'&[= <-]&H'). apply H. exact H'.
Defined.
Global Instance joined_dec w mz i j : Decision (joined w mz i j).
Proof. unfold joined. apply _. Defined.

Lemma jsym w mz i j : joined w mz i j -> joined w mz j i.
Proof. unfold joined. tauto. Qed.

Section dfs.
Context (m : mode) (w h : nat).
Context (Hw : 1 <= w) (Hh : 1 <= h) (Hst : storable m w h).
Local Notation n := (w * h).
Local Notation geo := (geo w h).
Local Notation GI := (GI w h).
Local Notation LI := (LI w h).

Lemma visit_cases rng vs mz E c : c ∈ vs -> forall fuel visitable d k, GI vs mz d E -> length visitable <= fuel ->
  (exists d' k', visit_loop m rng fuel c w h mz d visitable k = Ret (None, mz, d', [], k') /\
    GI vs mz d' E /\ (forall dir, dir ∈ visitable -> forall j, geo dir c j -> j ∈ vs)) \/
  (exists dir x d' vis' k', visit_loop m rng fuel c w h mz d visitable k = Ret (Some x, opened dir c x mz, d', vis', k') /\
    geo dir c x /\ x ∉ vs /\ GI (x :: vs) (opened dir c x mz) d' ((c, x) :: E) /\
    (forall dir', dir' ∈ visitable -> dir' ∉ vis' -> forall j, geo dir' c j -> j ∈ x :: vs)).
Proof.
  intros Hc. induction fuel as [|fuel IH]; intros visitable d k HI Hf.
  - destruct visitable; [|cbn in Hf; lia]. left. do 2 eexists. split; [done|]. split; [done|].
    intros dir H; by apply elem_of_nil in H.
  - destruct visitable as [|v0 vs0] eqn:Hv.
    { left. do 2 eexists. split; [done|]. split; [done|]. intros dir H; by apply elem_of_nil in H. }
    rewrite <-Hv in *.
    assert (exists dir rest, choose_random (rng k) visitable = Some (dir, rest)) as (dir&rest&Hch).
    { destruct (choose_random_perm (rng k) visitable) as [Hn _].
      destruct (choose_random (rng k) visitable) as [[dir rest]|] eqn:Hch; [eauto|].
      exfalso. assert (visitable = []) as He by (by apply Hn). congruence. }
    destruct (choose_random_perm (rng k) visitable) as [_ Hperm]. specialize (Hperm _ _ Hch).
    assert (visit_loop m rng (S fuel) c w h mz d visitable k =
      let! (r, d) := visit_dir m c w h dir mz d in
      match r with
      | Some (next, mz) => Ret (Some next, mz, d, rest, S k)
      | None => visit_loop m rng fuel c w h mz d rest (S k)
      end) as ->.
    { rewrite Hv in *. cbn [visit_loop]. rewrite Hch. done. }
    pose proof (Permutation_length Hperm) as Hlen. cbn in Hlen.
    assert (forall dir', dir' ∈ visitable -> dir' = dir \/ dir' ∈ rest) as Hin.
    { intros dir' H. rewrite <-Hperm in H. by apply elem_of_cons in H. }
    destruct (visit_dir_spec m (fun _ => 0) w h Hw Hh Hst vs mz d E dir c HI Hc) as [(d'&E1&HI'&Hg)|(x&d'&E1&Hg&Hx&HI')];
      rewrite E1; cbn [bind].
    + destruct (IH rest d' (S k) HI') as [(d2&k'&E2&HI2&Hd)|(dir2&x&d2&vis'&k'&E2&Hg2&Hx&HI2&Hd)]; [lia|left|right].
      * exists d2, k'. split_and!; [done|done|]. intros dir' Hd1 j Hj.
        destruct (Hin _ Hd1) as [->|Hd3]; [by apply Hg|by eapply Hd].
      * exists dir2, x, d2, vis', k'. split_and!; [done|done|done|done|]. intros dir' Hd1 Hd2 j Hj.
        destruct (Hin _ Hd1) as [->|Hd3]; [|by eapply Hd]. apply elem_of_cons. right. by apply Hg.
    + right. exists dir, x, d', rest, (S k). split_and!; [done|done|done|done|].
      intros dir' Hd1 Hd2 j Hj. destruct (Hin _ Hd1) as [->|Hd3]; [|done].
      apply elem_of_cons. left. apply (target_spec w h Hw Hh) in Hj; [|by apply HI].
      apply (target_spec w h Hw Hh) in Hg; [|by apply HI]. congruence.
Qed.

(** * One iteration *)

Lemma li_pop c rest vs visit : LI (c :: rest) vs visit -> (forall dir j, geo dir c j -> j ∈ vs) ->
  c < n -> LI rest vs (<[c := []]> visit).
Proof.
  intros HL Hall Hcn. split.
  - rewrite insert_length. apply HL.
  - intros i Hi. apply HL. apply elem_of_cons. by right.
  - intros i Hi. destruct (decide (i = c)) as [->|Hne].
    + right. rewrite list_lookup_insert; [done|]. rewrite (li_len _ _ _ _ _ HL). done.
    + destruct (li_done _ _ _ _ _ HL _ Hi) as [Hp|Hv].
      * apply elem_of_cons in Hp as [->|Hp]; [done|by left].
      * right. by rewrite list_lookup_insert_ne.
  - intros i l Hi dir Hdir j Hj. destruct (decide (i = c)) as [->|Hne]; [by eapply Hall|].
    rewrite list_lookup_insert_ne in Hi by done. by eapply (li_dirs _ _ _ _ _ HL).
Qed.
Lemma li_push c rest vs visit l vis' x : LI (c :: rest) vs visit -> visit !! c = Some l ->
  (forall dir, dir ∈ l -> dir ∉ vis' -> forall j, geo dir c j -> j ∈ x :: vs) ->
  LI (x :: c :: rest) (x :: vs) (<[c := vis']> visit).
Proof.
  intros HL Hl Hd. split.
  - rewrite insert_length. apply HL.
  - intros i Hi. apply elem_of_cons in Hi as [->|Hi]; apply elem_of_cons; [by left|right]. by apply HL.
  - intros i Hi. apply elem_of_cons in Hi as [->|Hi]; [left; apply elem_of_cons; by left|].
    destruct (li_done _ _ _ _ _ HL _ Hi) as [Hp|Hv]; [left; apply elem_of_cons; by right|].
    destruct (decide (i = c)) as [->|Hne].
    + left. apply elem_of_cons. right. apply elem_of_cons. by left.
    + right. by rewrite list_lookup_insert_ne.
  - intros i l' Hi dir Hdir j Hj. destruct (decide (i = c)) as [->|Hne].
    + rewrite list_lookup_insert in Hi by (by eapply lookup_lt_Some). injection Hi as <-.
      destruct (decide (dir ∈ l)) as [Hin|Hin]; [by eapply Hd|]. apply elem_of_cons. right.
      by eapply (li_dirs _ _ _ _ _ HL).
    + rewrite list_lookup_insert_ne in Hi by done. apply elem_of_cons. right. by eapply (li_dirs _ _ _ _ _ HL).
Qed.

Lemma step_cases rng fuel c rest vs mz d E visit k : GI vs mz d E -> LI (c :: rest) vs visit ->
  (exists d' k', (forall dir j, geo dir c j -> j ∈ vs) /\
    backtrack_loop m rng (S fuel) w h (c :: rest) (GState mz d visit k) =
    backtrack_loop m rng fuel w h rest (GState mz d' (<[c := []]> visit) k') /\
    GI vs mz d' E /\ LI rest vs (<[c := []]> visit)) \/
  (exists dir x d' vis' k', geo dir c x /\ x ∉ vs /\
    backtrack_loop m rng (S fuel) w h (c :: rest) (GState mz d visit k) =
    backtrack_loop m rng fuel w h (x :: c :: rest) (GState (opened dir c x mz) d' (<[c := vis']> visit) k') /\
    GI (x :: vs) (opened dir c x mz) d' ((c, x) :: E) /\ LI (x :: c :: rest) (x :: vs) (<[c := vis']> visit)).
Proof.
  intros HI HL. cbn [backtrack_loop g_visit g_maze g_conn g_draws].
  assert (c ∈ vs) as Hc by (apply HL; apply elem_of_cons; by left). assert (c < n) as Hcn by (by apply HI).
  destruct (lookup_lt_is_Some_2 visit c) as [l Hl]; [rewrite (li_len _ _ _ _ _ HL); done|].
  unfold vec_get at 1 2. rewrite Hl. cbn [expect bind]. unfold visit_next.
  destruct (visit_cases rng vs mz E c Hc (length l) l d k HI) as [(d'&k'&E1&HI'&Hd)|(dir&x&d'&vis'&k'&E1&Hg&Hx&HI'&Hd)];
    [done|left|right]; rewrite E1; cbn [bind]; unfold vec_set; rewrite decide_True by (rewrite (li_len _ _ _ _ _ HL); done);
    cbn [bind].
  - assert (forall dir j, geo dir c j -> j ∈ vs) as Hall.
    { intros dir j Hj. destruct (decide (dir ∈ l)) as [Hin|Hin]; [by eapply Hd|]. by eapply (li_dirs _ _ _ _ _ HL). }
    exists d', k'. split_and!; [done|done|done|]. by apply li_pop.
  - exists dir, x, d', vis', k'. split_and!; [done|done|done|done|]. by eapply li_push.
Qed.

Lemma vs_le vs mz d E : GI vs mz d E -> length vs <= n.
Proof.
  intros HI. rewrite <-(seq_length n 0). apply submseteq_length, NoDup_submseteq; [by apply HI|].
  intros i Hi. apply elem_of_seq. apply HI in Hi. lia.
Qed.

(** * Generated mazes are depth-first trees *)

Definition nb (i j : nat) : Prop := exists dir, geo dir i j.
Lemma nb_sym i j : nb i j -> nb j i.
Proof.
  intros (dir&H1&H2&H3). destruct dir; cbn in H3.
  - exists Left. split_and!; done.
  - exists Up. split_and!; done.
  - exists Right. split_and!; done.
  - exists Down. split_and!; done.
Qed.
Lemma joined_nb g i j : length g = n -> joined w g i j -> nb i j.
Proof.
  intros Hl. assert (forall i j, opening w g i j -> nb i j) as Ho.
  { intros a b (Hb&nd&Hnd&H). apply lookup_lt_Some in Hnd. destruct H as [[_ H]|[_ H]].
    - exists Right. split_and!; [lia|lia|done].
    - exists Down. split_and!; [lia|lia|done]. }
  intros [H|H]; [by apply Ho|by apply nb_sym, Ho].
Qed.
Lemma nb_neighbours i j : nb i j -> neighbours w h i j \/ neighbours w h j i.
Proof. intros (dir&H1&H2&H3). unfold neighbours. destruct dir; cbn in H3; tauto. Qed.
Lemma neighbours_nb i j : neighbours w h i j -> nb i j.
Proof. intros (H1&H2&[H|H]); [exists Right|exists Down]; split_and!; done. Qed.

Record DI (stack vs : list nat) (mz : list maze_node) : Prop := MkDI {
  di_path c rest : stack = c :: rest -> path (joined w mz) c stack 0;
  di_nodup : NoDup stack;
  di_anc i j : i ∈ vs -> j ∈ vs -> nb i j -> ancestor w mz i j \/ ancestor w mz j i
}.

Lemma stack_anc stack vs mz c rest i : DI stack vs mz -> stack = c :: rest -> i ∈ stack -> ancestor w mz i c.
Proof.
  intros HD Hs Hi. exists (reverse stack). split_and!.
  - apply path_reverse; [apply jsym|]. by eapply di_path.
  - apply NoDup_reverse. by apply HD.
  - by apply elem_of_reverse.
Qed.

Lemma di_pop c rest vs mz : DI (c :: rest) vs mz -> DI rest vs mz.
Proof.
  intros HD. split.
  - intros c' rest' ->. pose proof (di_path _ _ _ HD c (c' :: rest') eq_refl) as Hp. by apply path_tail in Hp as [_ ?].
  - pose proof (di_nodup _ _ _ HD) as Hn. by apply NoDup_cons in Hn as [_ ?].
  - apply HD.
Qed.

Lemma opened_joined dir c x mz : length mz = n -> geo dir c x -> forall a b,
  joined w (opened dir c x mz) a b <-> joined w mz a b \/ (a = c /\ b = x) \/ (a = x /\ b = c).
Proof.
  intros Hl Hg a b. pose proof (opened_opening (fun _ => 0) w h Hw Hh dir c x mz Hl Hg) as Hop. unfold joined. rewrite !Hop.
  destruct dir; cbn; rewrite !pair_eq; tauto.
Qed.

Lemma di_push c rest vs mz d E visit dir x : GI vs mz d E -> LI (c :: rest) vs visit -> DI (c :: rest) vs mz ->
  geo dir c x -> x ∉ vs -> DI (x :: c :: rest) (x :: vs) (opened dir c x mz).
Proof.
  intros HI HL HD Hg Hx. pose proof (opened_joined dir c x mz (gi_len _ _ _ _ _ _ HI) Hg) as Hj.
  assert (forall a b, joined w mz a b -> joined w (opened dir c x mz) a b) as Hsub by (intros a b H; apply Hj; tauto).
  assert (path (joined w (opened dir c x mz)) x (x :: c :: rest) 0) as Hp.
  { apply (path_cons _ x c); [apply Hj; tauto|]. eapply path_sub; [done|]. by eapply di_path. }
  assert (NoDup (x :: c :: rest)) as Hnd.
  { apply NoDup_cons. split; [|apply HD]. intros Hin. apply Hx. by apply HL. }
  assert (forall i, i ∈ x :: c :: rest -> ancestor w (opened dir c x mz) i x) as Hanc.
  { intros i Hi. exists (reverse (x :: c :: rest)). split_and!.
    - apply path_reverse; [apply jsym|done].
    - by apply NoDup_reverse.
    - by apply elem_of_reverse. }
  assert (forall i, i ∈ x :: vs -> nb i x -> ancestor w (opened dir c x mz) i x) as Hnew.
  { intros i Hi Hn. apply Hanc. apply elem_of_cons in Hi as [->|Hi]; [apply elem_of_cons; by left|].
    apply elem_of_cons. right. destruct (li_done _ _ _ _ _ HL _ Hi) as [?|Hv]; [done|]. exfalso. apply Hx.
    destruct Hn as [dir' Hn]. eapply (li_dirs _ _ _ _ _ HL); [exact Hv| |exact Hn]. apply not_elem_of_nil. }
  split.
  - intros c' rest' [= <- <-]. done.
  - done.
  - intros i j Hi Hj' Hn. destruct (decide (i = x)) as [->|Hix].
    { right. apply Hnew; [done|]. by apply nb_sym. }
    destruct (decide (j = x)) as [->|Hjx]; [left; by apply Hnew|].
    apply elem_of_cons in Hi as [->|Hi]; [done|]. apply elem_of_cons in Hj' as [->|Hj']; [done|].
    destruct (di_anc _ _ _ HD i j Hi Hj' Hn) as [(l&H1&H2&H3)|(l&H1&H2&H3)]; [left|right]; exists l;
      (split; [by eapply path_sub|done]).
Qed.

Lemma backtrack_dfs rng : forall fuel stack vs mz d E visit k,
  GI vs mz d E -> LI stack vs visit -> DI stack vs mz -> 2 * (n - length vs) + length stack < fuel + 1 ->
  exists mz' vs' d' E' visit', backtrack_loop m rng fuel w h stack (GState mz d visit k) = Ret mz' /\
    GI vs' mz' d' E' /\ LI [] vs' visit' /\ DI [] vs' mz'.
Proof.
  induction fuel as [|fuel IH]; intros stack vs mz d E visit k HI HL HD Hf.
  - assert (stack = []) as -> by (destruct stack; [done|cbn in Hf; lia]). cbn. do 5 eexists. done.
  - destruct stack as [|c rest]; [cbn; do 5 eexists; done|].
    pose proof (vs_le _ _ _ _ HI) as Hvn.
    destruct (step_cases rng fuel c rest vs mz d E visit k HI HL)
      as [(d'&k'&Hall&->&HI'&HL')|(dir&x&d'&vis'&k'&Hg&Hx&->&HI'&HL')].
    + apply (IH _ vs _ _ E); [done|done|by eapply di_pop|cbn in Hf; lia].
    + pose proof (vs_le _ _ _ _ HI') as Hvn'.
      apply (IH _ (x :: vs) _ _ ((c, x) :: E)); [done|done| |cbn in *; lia]. by eapply di_push.
Qed.

Lemma start_li : LI [0] [0] (replicate n [Right; Down; Left; Up]).
Proof.
  split.
  - apply replicate_length.
  - done.
  - by left.
  - intros i l Hl. apply lookup_replicate in Hl as [-> _]. intros dir Hdir. exfalso. apply Hdir.
    destruct dir; rewrite !elem_of_cons; tauto.
Qed.
Lemma nb_irrefl i : ~ nb i i.
Proof. intros (dir&_&_&H). destruct dir; cbn in H; unfold beside, below in H; lia. Qed.
Lemma start_di mz : DI [0] [0] mz.
Proof.
  split.
  - intros c rest [= <- <-]. apply path_single.
  - apply NoDup_singleton.
  - intros i j Hi Hj Hn. apply elem_of_list_singleton in Hi as ->. apply elem_of_list_singleton in Hj as ->.
    exfalso. by eapply nb_irrefl.
Qed.

Lemma closed_walled g : length g = n -> closed w h g <-> walled w h g.
Proof.
  intros Hl. unfold closed, walled. split.
  - intros Hc. split; intros i nd [Hi He] Hnd; destruct (Hc i nd Hnd) as [H1 H2].
    + destruct (m_right nd); [done|]. specialize (H1 eq_refl). by apply (beside_iff w h Hw Hh) in H1.
    + destruct (m_down nd); [done|]. specialize (H2 eq_refl). destruct (divmod w h Hw Hh i) as [E1 E2].
      rewrite He in E1. nia.
  - intros [Hr Hd] i nd Hnd. assert (i < n) as Hi by (apply lookup_lt_Some in Hnd; lia). split.
    + intros H. apply (beside_iff w h Hw Hh). intros He. rewrite (Hr i nd) in H; [done|by split|done].
    + intros H. destruct (decide (i / w = h - 1)) as [He|He]; [rewrite (Hd i nd) in H; [done|by split|done]|].
      destruct (divmod w h Hw Hh i) as [E1 E2]. pose proof (row_lt w h Hw Hh i Hi). nia.
Qed.

Lemma gen_dfs rng : exists mz, recursive_backtrack m rng w h = Ret mz /\ length mz = n /\ walled w h mz /\
  perfect w h mz /\ depth_first w h mz.
Proof.
  pose proof (n_pos w h Hw Hh) as Hn. unfold recursive_backtrack.
  rewrite n_mul_small by (apply (n_small m w h Hw Hh Hst); lia). cbn [bind].
  destruct (backtrack_dfs rng (2 * n + 1) [0] [0] (replicate n maze_node_new) (with_size n) []
    (replicate n [Right; Down; Left; Up]) 0) as (mz&vs&d&E&visit&E1&HI&HL&HD).
  - by apply gi_start.
  - apply start_li.
  - apply start_di.
  - cbn [length]. lia.
  - exists mz. pose proof (all_reached w h Hw Hh _ _ _ _ _ HI HL) as Hall.
    split_and!; [done|by apply HI|apply closed_walled; by apply HI|..].
    + intros i j Hi Hj. apply (gi_tree _ _ _ _ _ _ HI); by apply Hall.
    + intros i j Hij. apply (di_anc _ _ _ HD); [apply Hall; apply Hij|apply Hall; apply Hij|by apply neighbours_nb].
Qed.

(** * Every depth-first tree is generated *)

Lemma visit_loop_ext rng rng' c : forall fuel mz d vis k r mz' d' vis' k',
  visit_loop m rng fuel c w h mz d vis k = Ret (r, mz', d', vis', k') ->
  k <= k' /\ ((forall i, k <= i < k' -> rng i = rng' i) -> visit_loop m rng' fuel c w h mz d vis k = Ret (r, mz', d', vis', k')).
Proof.
  induction fuel as [|fuel IH]; intros mz d vis k r mz' d' vis' k' Hrun.
  - destruct vis; [|done]. cbn in Hrun. injection Hrun as <- <- <- <- <-. done.
  - destruct vis as [|v0 vs0] eqn:Hv; [cbn in Hrun; injection Hrun as <- <- <- <- <-; done|].
    cbn [visit_loop] in Hrun |- *.
    destruct (choose_random (rng k) (v0 :: vs0)) as [[dir rest]|] eqn:Hch; [|done]. cbn [expect bind] in Hrun.
    destruct (visit_dir m c w h dir mz d) as [[[[next mz1]|] d1]|] eqn:Hd; cbn [bind] in Hrun; [| |done].
    + injection Hrun as <- <- <- <- <-. split; [lia|]. intros He. rewrite <-(He k) by lia. rewrite Hch. cbn [expect bind].
      by rewrite Hd.
    + apply IH in Hrun as [Hk Hrun]. split; [lia|]. intros He. rewrite <-(He k) by lia. rewrite Hch. cbn [expect bind].
      rewrite Hd. cbn [bind]. apply Hrun. intros i Hi. apply He. lia.
Qed.

(** The numbers drawn before the current one do not matter. *)
Lemma backtrack_ext rng rng' : forall fuel stack mz d visit k, (forall i, k <= i -> rng i = rng' i) ->
  backtrack_loop m rng fuel w h stack (GState mz d visit k) = backtrack_loop m rng' fuel w h stack (GState mz d visit k).
Proof.
  induction fuel as [|fuel IH]; intros stack mz d visit k He; [by destruct stack|].
  destruct stack as [|c rest]; [done|]. cbn [backtrack_loop g_visit g_maze g_conn g_draws].
  destruct (vec_get visit c) as [l|]; [|done]. cbn [bind]. unfold visit_next.
  destruct (visit_loop m rng (length l) c w h mz d l k) as [[[[[r mz'] d'] vis'] k']|f] eqn:E1.
  - pose proof (visit_loop_ext rng rng' c _ _ _ _ _ _ _ _ _ _ E1) as [Hk E2]. rewrite E2 by (intros i Hi; apply He; lia).
    cbn [bind]. destruct (vec_set visit c vis'); [|done]. cbn [bind].
    destruct r; apply IH; intros i Hi; apply He; lia.
  - destruct (visit_loop m rng' (length l) c w h mz d l k) as [[[[[r mz'] d'] vis'] k']|f'] eqn:E2.
    + pose proof (visit_loop_ext rng' rng c _ _ _ _ _ _ _ _ _ _ E2) as [Hk E3].
      rewrite E3 in E1 by (intros i Hi; symmetry; apply He; lia). done.
    + cbn [bind]. f_equal. clear IH. revert d mz l k He E1 E2. intros d mz l. generalize (length l) as fl.
      intros fl. revert d l. induction fl as [|fl IHf]; intros d l k He E1 E2.
      * destruct l; [done|]. cbn in E1, E2. congruence.
      * destruct l as [|v0 vs0]; [done|]. cbn [visit_loop] in E1, E2. rewrite <-(He k) in E2 by lia.
        destruct (choose_random (rng k) (v0 :: vs0)) as [[dir rest']|]; [|cbn in E1, E2; congruence].
        cbn [expect bind] in E1, E2.
        destruct (visit_dir m c w h dir mz d) as [[[[next mz1]|] d1]|] eqn:Hd; cbn [bind] in E1, E2; [done| |congruence].
        eapply IHf; [|exact E1|exact E2]. intros i Hi. apply He. lia.
Qed.

Lemma choose_index {A} (l : list A) x : x ∈ l -> exists draw rest, choose_random draw l = Some (x, rest).
Proof.
  intros Hx. apply elem_of_list_lookup in Hx as [i Hi]. pose proof (lookup_lt_Some _ _ _ Hi) as Hlt.
  exists i. unfold choose_random. destruct l as [|y l]; [done|]. rewrite Nat.mod_small by done.
  unfold swap_remove. rewrite Hi. destruct (last (y :: l)) as [z|] eqn:Hz; [eauto|]. by apply last_None in Hz.
Qed.

(** Iteration in which the outcome is chosen. *)
Lemma step_open fuel c rest vs mz d E visit k dir x : GI vs mz d E -> LI (c :: rest) vs visit ->
  geo dir c x -> x ∉ vs -> exists draw d' vis',
    (forall rng, rng k = draw -> backtrack_loop m rng (S fuel) w h (c :: rest) (GState mz d visit k) =
      backtrack_loop m rng fuel w h (x :: c :: rest) (GState (opened dir c x mz) d' (<[c := vis']> visit) (S k))) /\
    GI (x :: vs) (opened dir c x mz) d' ((c, x) :: E) /\ LI (x :: c :: rest) (x :: vs) (<[c := vis']> visit).
Proof.
  intros HI HL Hg Hx. cbn [backtrack_loop g_visit g_maze g_conn g_draws].
  assert (c ∈ vs) as Hc by (apply HL; apply elem_of_cons; by left). assert (c < n) as Hcn by (by apply HI).
  destruct (lookup_lt_is_Some_2 visit c) as [l Hl]; [rewrite (li_len _ _ _ _ _ HL); done|].
  assert (dir ∈ l) as Hin.
  { destruct (decide (dir ∈ l)) as [|Hn]; [done|]. exfalso. apply Hx. by eapply (li_dirs _ _ _ _ _ HL). }
  destruct (choose_index l dir Hin) as (draw&vis'&Hch).
  destruct (visit_dir_spec m (fun _ => 0) w h Hw Hh Hst vs mz d E dir c HI Hc) as [(d'&E1&HI'&Hg')|(x'&d'&E1&Hg'&Hx'&HI')].
  { exfalso. apply Hx. by apply Hg'. }
  assert (x' = x) as ->.
  { apply (target_spec w h Hw Hh) in Hg; [|done]. apply (target_spec w h Hw Hh) in Hg'; [|done]. congruence. }
  exists draw, d', vis'. split_and!.
  - intros rng Hr. unfold vec_get at 1. rewrite Hl. cbn [expect bind]. unfold visit_next.
    destruct l as [|v0 l0]; [by apply elem_of_nil in Hin|]. cbn [length visit_loop]. rewrite Hr, Hch. cbn [expect bind].
    rewrite E1. cbn [bind]. unfold vec_set. rewrite decide_True by (rewrite (li_len _ _ _ _ _ HL); done). done.
  - done.
  - eapply li_push; [done|done|]. intros dir' Hd1 Hd2 j Hj. apply elem_of_cons. left.
    destruct (choose_random_perm draw l) as [_ Hperm]. specialize (Hperm _ _ Hch). rewrite <-Hperm in Hd1.
    apply elem_of_cons in Hd1 as [->|Hd1]; [|done].
    apply (target_spec w h Hw Hh) in Hg; [|done]. apply (target_spec w h Hw Hh) in Hj; [|done]. congruence.
Qed.

(** Iteration that leaves a cell. *)
Lemma step_close fuel c rest vs mz d E visit k : GI vs mz d E -> LI (c :: rest) vs visit ->
  (forall dir j, geo dir c j -> j ∈ vs) -> exists d' k', k <= k' /\
    (forall rng, (forall i, k <= i < k' -> rng i = 0) ->
      backtrack_loop m rng (S fuel) w h (c :: rest) (GState mz d visit k) =
      backtrack_loop m rng fuel w h rest (GState mz d' (<[c := []]> visit) k')) /\
    GI vs mz d' E /\ LI rest vs (<[c := []]> visit).
Proof.
  intros HI HL Hall. cbn [backtrack_loop g_visit g_maze g_conn g_draws].
  assert (c ∈ vs) as Hc by (apply HL; apply elem_of_cons; by left). assert (c < n) as Hcn by (by apply HI).
  destruct (lookup_lt_is_Some_2 visit c) as [l Hl]; [rewrite (li_len _ _ _ _ _ HL); done|].
  destruct (visit_cases (fun _ => 0) vs mz E c Hc (length l) l d k HI) as [(d'&k'&E1&HI'&Hd)|(dir&x&d'&vis'&k'&E1&Hg&Hx&HI'&Hd)];
    [done| |exfalso; apply Hx; by eapply Hall].
  exists d', k'. pose proof (visit_loop_ext (fun _ => 0) (fun _ => 0) c _ _ _ _ _ _ _ _ _ _ E1) as [Hk _].
  split_and!; [done| |done|by apply li_pop].
  intros rng Hr. unfold vec_get at 1. rewrite Hl. cbn [expect bind]. unfold visit_next.
  pose proof (visit_loop_ext (fun _ => 0) rng c _ _ _ _ _ _ _ _ _ _ E1) as [_ E2].
  rewrite E2 by (intros i Hi; symmetry; by apply Hr).
  cbn [bind]. unfold vec_set. rewrite decide_True by (rewrite (li_len _ _ _ _ _ HL); done). done.
Qed.

Section target.
Context (g : list maze_node) (Hlen : length g = n) (Hperf : perfect w h g) (Hdf : depth_first w h g).

Record TI (stack vs : list nat) (mz : list maze_node) : Prop := MkTI {
  ti_sub a b : joined w mz a b -> joined w g a b;
  ti_path c rest : stack = c :: rest -> path (joined w mz) c stack 0;
  ti_nodup : NoDup stack;
  ti_done i j : i ∈ vs -> i ∉ stack -> ancestor w g i j -> j ∈ vs
}.

Lemma ti_stack c rest vs mz : TI (c :: rest) vs mz -> c < n ->
  forall l, path (joined w g) 0 l c -> NoDup l -> l = reverse (c :: rest).
Proof.
  intros HT Hc l Hp Hnd. pose proof (n_pos w h Hw Hh) as Hn. destruct (Hperf 0 c) as (l0&_&Hu); [lia|done|].
  rewrite (Hu l) by done. symmetry. apply Hu. split.
  - apply path_reverse; [apply jsym|]. eapply path_sub; [apply HT|]. by eapply ti_path.
  - apply NoDup_reverse. apply HT.
Qed.

Lemma subtree c rest vs mz : TI (c :: rest) vs mz -> c ∈ vs -> c < n ->
  (forall x, joined w g c x -> x ∈ vs) -> forall j, ancestor w g c j -> j ∈ vs.
Proof.
  intros HT Hc Hcn Hx j (l&Hp&Hnd&Hin). apply elem_of_list_split in Hin as (l1&l2&->).
  destruct (path_split _ _ _ _ _ _ Hp) as [Hp1 Hnext].
  assert (l1 ++ [c] = reverse (c :: rest)) as Hstack.
  { eapply ti_stack; [done|done|done|]. replace (l1 ++ c :: l2) with ((l1 ++ [c]) ++ l2) in Hnd by (by rewrite <-app_assoc).
    by apply NoDup_app in Hnd as [? _]. }
  destruct l2 as [|x l3].
  - destruct Hp as (_&Hl&_). rewrite last_snoc in Hl. by injection Hl as ->.
  - specialize (Hnext x l3 eq_refl). apply (ti_done _ _ _ HT x j); [by apply Hx| |].
    + intros Hxs. rewrite <-elem_of_reverse, <-Hstack in Hxs.
      replace (l1 ++ c :: x :: l3) with ((l1 ++ [c]) ++ x :: l3) in Hnd by (by rewrite <-app_assoc).
      apply NoDup_app in Hnd as (_&Hnd&_). apply (Hnd x Hxs). apply elem_of_cons. by left.
    + exists (l1 ++ c :: x :: l3). split_and!; [done|done|]. rewrite elem_of_app, !elem_of_cons. tauto.
Qed.

Lemma choose_child (vs : list nat) (c : nat) : c < n ->
  (exists dir x, geo dir c x /\ joined w g c x /\ x ∉ vs) \/ (forall x, joined w g c x -> x ∈ vs).
Proof.
  intros Hc.
  assert (forall dir, (exists x, geo dir c x /\ joined w g c x /\ x ∉ vs) \/
    (forall x, geo dir c x -> joined w g c x -> x ∈ vs)) as Hd.
  { intros dir. destruct (target w h dir c) as [x|] eqn:Ht.
    - destruct (decide (joined w g c x)) as [Hj|Hj].
      + destruct (decide (x ∈ vs)) as [Hv|Hv].
        * right. intros x' Hg _. apply (target_spec w h Hw Hh) in Hg; [|done]. congruence.
        * left. exists x. split_and!; [|done|done]. by apply (target_spec w h Hw Hh).
      + right. intros x' Hg Hj'. apply (target_spec w h Hw Hh) in Hg; [|done]. congruence.
    - right. intros x' Hg Hj'. apply (target_spec w h Hw Hh) in Hg; [|done]. congruence. }
  destruct (Hd Right) as [(x&?)|H1]; [left; by exists Right, x|].
  destruct (Hd Down) as [(x&?)|H2]; [left; by exists Down, x|].
  destruct (Hd Left) as [(x&?)|H3]; [left; by exists Left, x|].
  destruct (Hd Up) as [(x&?)|H4]; [left; by exists Up, x|].
  right. intros x Hj. destruct (joined_nb g c x Hlen Hj) as [[] Hg]; auto.
Qed.

Lemma backtrack_reaches : forall fuel stack vs mz d E visit k,
  GI vs mz d E -> LI stack vs visit -> TI stack vs mz -> 2 * (n - length vs) + length stack < fuel + 1 ->
  exists rng mz' vs' d' E' visit', backtrack_loop m rng fuel w h stack (GState mz d visit k) = Ret mz' /\
    GI vs' mz' d' E' /\ LI [] vs' visit' /\ TI [] vs' mz'.
Proof.
  induction fuel as [|fuel IH]; intros stack vs mz d E visit k HI HL HT Hf.
  - assert (stack = []) as -> by (destruct stack; [done|cbn in Hf; lia]). exists (fun _ => 0). cbn. do 5 eexists. done.
  - destruct stack as [|c rest]; [exists (fun _ => 0); cbn; do 5 eexists; done|].
    pose proof (vs_le _ _ _ _ HI) as Hvn.
    assert (c ∈ vs) as Hc by (apply HL; apply elem_of_cons; by left). assert (c < n) as Hcn by (by apply HI).
    destruct (choose_child vs c Hcn) as [(dir&x&Hg&Hj&Hx)|Hchild].
    + destruct (step_open fuel c rest vs mz d E visit k dir x HI HL Hg Hx) as (draw&d'&vis'&Hstep&HI'&HL').
      pose proof (vs_le _ _ _ _ HI') as Hvn'.
      destruct (IH (x :: c :: rest) (x :: vs) _ _ _ _ (S k) HI' HL') as (rng&mz'&vs'&d2&E'&visit'&E1&Hfin).
      * pose proof (opened_joined dir c x mz (gi_len _ _ _ _ _ _ HI) Hg) as Hop. split.
        -- intros a b Hab. apply Hop in Hab as [Hab|[[-> ->]|[-> ->]]]; [by apply HT|done|by apply jsym].
        -- intros c' rest' [= <- <-]. apply (path_cons _ x c); [apply Hop; tauto|].
           eapply path_sub; [|by eapply ti_path]. intros a b Hab. apply Hop. by left.
        -- apply NoDup_cons. split; [|apply HT]. intros Hin. apply Hx. by apply HL.
        -- intros i j Hi Hni Ha. apply elem_of_cons. right. apply not_elem_of_cons in Hni as [Hne Hni].
           apply elem_of_cons in Hi as [->|Hi]; [done|]. by eapply (ti_done _ _ _ HT i j).
      * cbn in *. lia.
      * exists (fun i => if Nat.eqb i k then draw else rng i), mz', vs', d2, E', visit'. split; [|done].
        rewrite Hstep by (by rewrite Nat.eqb_refl). rewrite <-E1. apply backtrack_ext. intros i Hi.
        destruct (Nat.eqb_spec i k); [lia|done].
    + pose proof (subtree c rest vs mz HT Hc Hcn Hchild) as Hsub.
      destruct (step_close fuel c rest vs mz d E visit k HI HL) as (d'&k'&Hk&Hstep&HI'&HL').
      { intros dir j Hj. pose proof Hj as (_&Hjn&_).
        assert (ancestor w g c j \/ ancestor w g j c) as Ha.
        { destruct (nb_neighbours c j) as [Hn|Hn]; [by exists dir|by apply Hdf|]. apply Hdf in Hn. tauto. }
        destruct Ha as [Ha|(l&Hp&Hnd&Hin)]; [by apply Hsub|].
        rewrite (ti_stack c rest vs mz HT Hcn l Hp Hnd) in Hin. apply HL. by apply elem_of_reverse. }
      destruct (IH rest vs _ _ _ _ k' HI' HL') as (rng&mz'&vs'&d2&E'&visit'&E1&Hfin).
      * split.
        -- apply HT.
        -- intros c' rest' ->. pose proof (ti_path _ _ _ HT c (c' :: rest') eq_refl) as Hp. by apply path_tail in Hp as [_ ?].
        -- pose proof (ti_nodup _ _ _ HT) as Hnd. by apply NoDup_cons in Hnd as [_ ?].
        -- intros i j Hi Hni Ha. destruct (decide (i = c)) as [->|Hne]; [by apply Hsub|].
           apply (ti_done _ _ _ HT i j); [done| |done]. by apply not_elem_of_cons.
      * cbn in Hf. lia.
      * exists (fun i => if Nat.ltb i k' then 0 else rng i), mz', vs', d2, E', visit'. split; [|done].
        rewrite Hstep by (intros i Hi; destruct (Nat.ltb_spec i k'); [done|lia]). rewrite <-E1. apply backtrack_ext.
        intros i Hi. destruct (Nat.ltb_spec i k'); [lia|done].
Qed.

Lemma open_right_iff g' i nd : length g' = n -> closed w h g' -> g' !! i = Some nd ->
  m_right nd = false <-> (beside w i (i + 1) /\ joined w g' i (i + 1)).
Proof.
  intros Hl Hcl Hi. assert (i < n) as Hin by (apply lookup_lt_Some in Hi; lia). destruct (Hcl i nd Hi) as [Hr _]. split.
  - intros H. specialize (Hr H). split; [done|]. left. split; [rewrite Hl; by eapply (beside_bound w h Hw Hh)|].
    exists nd. split; [done|]. by left.
  - intros [Hb [(_&nd'&Hi'&H)|(_&nd'&_&H)]].
    + assert (nd' = nd) as -> by congruence. destruct H as [[H _]|[_ H]]; [done|]. unfold below in H.
      assert (w = 1) as -> by lia. destruct Hb as [_ Hb]. rewrite !Nat.div_1_r in Hb. lia.
    + destruct H as [[_ [H _]]|[_ H]]; [lia|]. unfold below in H. lia.
Qed.
Lemma open_down_iff g' i nd : length g' = n -> closed w h g' -> g' !! i = Some nd ->
  m_down nd = false <-> (~ beside w i (i + w) /\ joined w g' i (i + w)).
Proof.
  intros Hl Hcl Hi. assert (i < n) as Hin by (apply lookup_lt_Some in Hi; lia). destruct (Hcl i nd Hi) as [_ Hd]. split.
  - intros H. specialize (Hd H). split.
    + intros [H1 H2]. assert (w = 1) as -> by lia. rewrite !Nat.div_1_r in H2. lia.
    + left. split; [lia|]. exists nd. split; [done|]. by right.
  - intros [Hb [(_&nd'&Hi'&H)|(_&nd'&_&H)]].
    + assert (nd' = nd) as -> by congruence. destruct H as [[_ H]|[H _]]; [done|done].
    + destruct H as [[_ [H _]]|[_ H]]; [lia|]. unfold below in H. lia.
Qed.

Lemma same_walls g' : length g' = n -> closed w h g' -> closed w h g ->
  (forall a b, joined w g' a b <-> joined w g a b) -> g' = g.
Proof.
  intros Hl Hc' Hc Hj. apply list_eq. intros i. destruct (decide (i < n)) as [Hi|Hi].
  - destruct (lookup_lt_is_Some_2 g' i) as [a Ha]; [lia|]. destruct (lookup_lt_is_Some_2 g i) as [b Hb]; [lia|].
    rewrite Ha, Hb. f_equal.
    pose proof (open_right_iff g' i a Hl Hc' Ha) as R1. pose proof (open_right_iff g i b Hlen Hc Hb) as R2.
    pose proof (open_down_iff g' i a Hl Hc' Ha) as D1. pose proof (open_down_iff g i b Hlen Hc Hb) as D2.
    rewrite Hj in R1, D1. rewrite <-R2 in R1. rewrite <-D2 in D1. destruct a as [[] []], b as [[] []]; cbn in *; try done;
      exfalso; destruct R1, D1; intuition congruence.
  - rewrite !lookup_ge_None_2 by lia. done.
Qed.

Lemma reach_tree : walled w h g -> exists rng, recursive_backtrack m rng w h = Ret g.
Proof.
  intros Hwall. pose proof (n_pos w h Hw Hh) as Hn. unfold recursive_backtrack.
  destruct (backtrack_reaches (2 * n + 1) [0] [0] (replicate n maze_node_new) (with_size n) []
    (replicate n [Right; Down; Left; Up]) 0) as (rng&mz&vs&d&E&visit&E1&HI&HL&HT).
  - by apply gi_start.
  - apply start_li.
  - split.
    + intros a b [(_&nd&Hi&H)|(_&nd&Hi&H)]; apply lookup_replicate in Hi as [-> _]; destruct H as [[H _]|[H _]]; done.
    + intros c rest [= <- <-]. apply path_single.
    + apply NoDup_singleton.
    + intros i j Hi Hni. done.
  - cbn [length]. lia.
  - exists rng. rewrite n_mul_small by (apply (n_small m w h Hw Hh Hst); lia). cbn [bind]. rewrite E1. f_equal.
    pose proof (all_reached w h Hw Hh _ _ _ _ _ HI HL) as Hall.
    apply same_walls; [by apply HI|by apply HI|by apply closed_walled|]. intros a b. split; [apply HT|]. intros Hj.
    destruct (joined_nb g a b Hlen Hj) as (dir&Ha&Hb&Hgeo).
    destruct (gi_tree _ _ _ _ _ _ HI a b) as (l&[Hp Hnd]&_); [by apply Hall|by apply Hall|].
    destruct (Hperf a b Ha Hb) as (l0&_&Hu).
    assert (l = [a; b]) as ->.
    { rewrite (Hu l) by (split; [eapply path_sub; [apply HT|done]|done]). symmetry. apply Hu. split.
      - apply (path_cons _ a b); [done|]. apply path_single.
      - apply NoDup_cons. split; [|apply NoDup_singleton]. intros Hin. apply elem_of_list_singleton in Hin as ->.
        eapply nb_irrefl. by exists dir. }
    by apply path_tail in Hp as [? _].
Qed.
End target.
End dfs.
