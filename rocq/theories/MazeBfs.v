(** The breadth-first traversal that finds the exit and the solution. *)
From Verif Require Import Base Util DisjointSet Maze SpecMaze SpecMazeExit MazeTree MazeGen.
From Coq Require Import Sorted.

Section bfs.
Context (m : mode) (w h : nat).
Context (Hw : 1 <= w) (Hh : 1 <= h) (Hst : storable m w h).
Local Notation n := (w * h).
Context (mz : list maze_node) (Hlen : length mz = n) (Hcl : closed w h mz).
Local Notation adj := (joined w mz).
Context (Hconn : forall i, i < n -> exists l, path adj 0 l i).

Lemma adj_bound i j : adj i j -> i < n /\ j < n.
Proof.
  intros [(Hj&nd&Hi&_)|(Hi&nd&Hj&_)]; rewrite Hlen in *.
  - apply lookup_lt_Some in Hi. lia.
  - apply lookup_lt_Some in Hj. lia.
Qed.

(** * Expanding one cell *)

(** The cells [new] were appended to the queue, in the order of their
    directions, all of rank less than [k]. *)
Definition in_order (c k : nat) (new : list nat) : Prop :=
  exists ds, Forall2 (fun j d => leads w d c j) new ds /\ StronglySorted (fun a b => rank a < rank b) ds /\
    Forall (fun d => rank d < k) ds.
Definition Exp (c k : nat) (t : list path_node) (q : list nat) (cand : list nat) (t' : list path_node) (q' : list nat) : Prop :=
  exists new, q' = q ++ new /\ NoDup new /\ (forall j, j ∈ new <-> j ∈ cand /\ t !! j = Some PUnvisited) /\
    length t' = length t /\ (forall j, t' !! j = if decide (j ∈ new) then Some (PPath c) else t !! j) /\
    in_order c k new.

Lemma in_order_mono c k k' new : k <= k' -> in_order c k new -> in_order c k' new.
Proof.
  intros Hk (ds&H1&H2&H3). exists ds. split_and!; [done|done|]. eapply Forall_impl; [exact H3|]. cbn. lia.
Qed.
Lemma in_order_snoc c d new j : in_order c (rank d) new -> leads w d c j -> in_order c (S (rank d)) (new ++ [j]).
Proof.
  intros (ds&H1&H2&H3) Hj. exists (ds ++ [d]). split_and!.
  - apply Forall2_app; [done|]. by constructor.
  - clear H1. induction H2 as [|x ds Hs IH Hx]; cbn [app]; [repeat constructor|].
    apply Forall_cons in H3 as [H3 H4]. constructor; [by apply IH|]. apply Forall_app. split; [done|]. by constructor.
  - apply Forall_app. split; [|constructor; [lia|done]]. eapply Forall_impl; [exact H3|]. cbn. lia.
Qed.

Lemma exp_mono c k k' t q cand t' q' : k <= k' -> Exp c k t q cand t' q' -> Exp c k' t q cand t' q'.
Proof.
  intros Hk (new&H1&H2&H3&H4&H5&H6). exists new. split_and!; try done. by eapply in_order_mono.
Qed.
Lemma exp_refl c t q : Exp c 0 t q [] t q.
Proof.
  exists []. rewrite app_nil_r. split_and!; [done|constructor| |done|done|].
  - intros j. split; [intros H|intros [H _]]; by apply elem_of_nil in H.
  - exists []. split_and!; constructor.
Qed.
Lemma exp_try d c t q cand t1 q1 wl next : length t = n -> Exp c (rank d) t q cand t1 q1 ->
  (wl = false -> next < n) -> (wl = false -> leads w d c next) ->
  exists t2 q2, bfs_try (Ret wl) c next t1 q1 = Ret (t2, q2) /\ Exp c (S (rank d)) t q (if wl then cand else next :: cand) t2 q2.
Proof.
  intros Hlt (new&->&Hnd&Hnew&Hl1&Ht1&Ho) Hb Hdir. unfold bfs_try. cbn [bind].
  assert (in_order c (S (rank d)) new) as Ho' by (eapply in_order_mono; [|exact Ho]; lia).
  destruct wl.
  { do 2 eexists. split; [done|]. exists new. done. }
  specialize (Hb eq_refl). specialize (Hdir eq_refl). unfold unvisited, vec_get.
  assert (next < length t1) as Hb1 by lia. destruct (lookup_lt_is_Some_2 t1 next Hb1) as [v Hv]. rewrite Hv. cbn [expect bind].
  destruct v as [|p|].
  - do 2 eexists. split; [done|]. exists new. split_and!; [done|done| |done|done|done]. intros j. rewrite Hnew. split.
    + intros [H1 H2]. split; [|done]. apply elem_of_cons. by right.
    + intros [H1 H2]. split; [|done]. apply elem_of_cons in H1 as [->|H1]; [|done].
      rewrite Ht1 in Hv. case_decide as Hd; congruence.
  - do 2 eexists. split; [done|]. exists new. split_and!; [done|done| |done|done|done]. intros j. rewrite Hnew. split.
    + intros [H1 H2]. split; [|done]. apply elem_of_cons. by right.
    + intros [H1 H2]. split; [|done]. apply elem_of_cons in H1 as [->|H1]; [|done].
      rewrite Ht1 in Hv. case_decide as Hd; [by apply Hnew in Hd as [? _]|congruence].
  - unfold vec_set. rewrite decide_True by done. cbn [bind]. do 2 eexists. split; [done|].
    rewrite Ht1 in Hv. case_decide as Hd; [done|].
    exists (new ++ [next]). split_and!.
    + by rewrite app_assoc.
    + apply NoDup_app. split_and!; [done| |apply NoDup_singleton]. intros x Hx Hx'.
      apply elem_of_list_singleton in Hx' as ->. done.
    + intros j. rewrite elem_of_app, elem_of_list_singleton, elem_of_cons, Hnew. split.
      * intros [[H1 H2]| ->]; split; auto.
      * intros [[->|H1] H2]; [by right|by left].
    + by rewrite insert_length.
    + intros j. destruct (decide (j = next)) as [->|Hne].
      * rewrite list_lookup_insert by done. rewrite decide_True; [done|]. apply elem_of_app. right. by apply elem_of_list_singleton.
      * rewrite list_lookup_insert_ne by done. rewrite Ht1.
        destruct (decide (j ∈ new)) as [Hj|Hj].
        -- rewrite decide_True; [done|]. apply elem_of_app. by left.
        -- rewrite decide_False; [done|]. rewrite elem_of_app, elem_of_list_singleton. tauto.
    + by apply in_order_snoc.
Qed.

Lemma bfs_expand_spec c t q : c < n -> length t = n ->
  exists t' q' cand, bfs_expand m w mz c t q = Ret (t', q') /\ Exp c 4 t q cand t' q' /\ forall j, j ∈ cand <-> adj c j.
Proof.
  intros Hc Ht. pose proof (w_le_n w h Hw Hh) as Hwn. unfold bfs_expand.
  destruct (lookup_lt_is_Some_2 mz c) as [nd Hnd]; [lia|].
  destruct (Hcl _ _ Hnd) as [Hr Hd].
  rewrite n_add_small by (apply (n_small m w h Hw Hh Hst); lia). cbn [bind].
  unfold wall_right at 1. unfold vec_get. rewrite Hnd. cbn [expect bind].
  destruct (exp_try Right c t q [] t q (m_right nd) (c + 1) Ht (exp_refl c t q)) as (t1&q1&E1&X1).
  { intros H. apply (beside_bound w h Hw Hh c); [done|by apply Hr]. }
  { intros H. by apply Hr. }
  rewrite E1. cbn [bind]. rewrite n_add_small by (apply (n_small m w h Hw Hh Hst); lia). cbn [bind].
  unfold wall_down at 1. unfold vec_get. rewrite Hnd. cbn [expect bind].
  destruct (exp_try Down c t q _ t1 q1 (m_down nd) (c + w) Ht X1 Hd) as (t2&q2&E2&X2); [done|]. rewrite E2. cbn [bind].
  set (c2 := if m_down nd then _ else _) in X2.
  assert (exists t3 q3 c3, (if decide (1 <= c) then bfs_try (wall_right mz (c - 1)) c (c - 1) t2 q2 else Ret (t2, q2)) = Ret (t3, q3) /\
    Exp c 3 t q c3 t3 q3 /\ forall j, j ∈ c3 <-> j ∈ c2 \/ (opening w mz j c /\ beside w j c)) as (t3&q3&c3&E3&X3&H3).
  { destruct (decide (1 <= c)) as [H1|H1].
    - destruct (lookup_lt_is_Some_2 mz (c - 1)) as [nl Hnl]; [lia|]. unfold wall_right, vec_get. rewrite Hnl. cbn [expect bind].
      destruct (exp_try Left c t q _ t2 q2 (m_right nl) (c - 1) Ht X2) as (t3&q3&E3&X3); [lia| |].
      { intros Hl. destruct (Hcl _ _ Hnl) as [Hbs _]. specialize (Hbs Hl). by replace (c - 1 + 1) with c in Hbs by lia. }
      do 3 eexists. split; [done|]. split; [done|]. intros j. destruct (m_right nl) eqn:Hl.
      + split; [by left|]. intros [H|[(_&nd'&Hj&H) [He Hb]]]; [done|]. exfalso. assert (j = c - 1) as -> by lia.
        assert (nd' = nl) as -> by congruence. destruct H as [[H _]|[_ Hbe]]; [congruence|].
        unfold below in Hbe. assert (w = 1) as Hw1 by lia. rewrite Hw1, !Nat.div_1_r in Hb. lia.
      + destruct (Hcl _ _ Hnl) as [Hbs _]. specialize (Hbs Hl). replace (c - 1 + 1) with c in Hbs by lia.
        rewrite elem_of_cons. split.
        * intros [->|H]; [|by left]. right. split; [|done]. split; [lia|]. exists nl. split; [done|]. by left.
        * intros [H|[_ [He _]]]; [by right|left; lia].
    - do 3 eexists. split; [done|]. split; [eapply exp_mono; [|exact X2]; cbn; lia|]. intros j. split; [by left|]. intros [H|[_ [He _]]]; [done|lia]. }
  rewrite E3. cbn [bind].
  assert (exists t4 q4 c4, (if decide (w <= c) then bfs_try (wall_down mz (c - w)) c (c - w) t3 q3 else Ret (t3, q3)) = Ret (t4, q4) /\
    Exp c 4 t q c4 t4 q4 /\ forall j, j ∈ c4 <-> j ∈ c3 \/ (opening w mz j c /\ below w j c)) as (t4&q4&c4&E4&X4&H4).
  { destruct (decide (w <= c)) as [H1|H1].
    - destruct (lookup_lt_is_Some_2 mz (c - w)) as [nl Hnl]; [lia|]. unfold wall_down, vec_get. rewrite Hnl. cbn [expect bind].
      destruct (exp_try Up c t q _ t3 q3 (m_down nl) (c - w) Ht X3) as (t4&q4&E4&X4); [lia|intros _; cbn; unfold below; lia|].
      do 3 eexists. split; [done|]. split; [done|]. intros j. destruct (m_down nl) eqn:Hl.
      + split; [by left|]. intros [H|[(_&nd'&Hj&H) He]]; [done|]. exfalso. unfold below in He. assert (j = c - w) as -> by lia.
        assert (nd' = nl) as -> by congruence. destruct H as [[H [Hs Hb]]|[H _]]; [|congruence].
        assert (w = 1) as Hw1 by lia. rewrite Hw1, !Nat.div_1_r in Hb. lia.
      + rewrite elem_of_cons. split.
        * intros [->|H]; [|by left]. right. unfold below. split; [|lia]. split; [lia|]. exists nl. split; [done|]. right.
          split; [done|]. unfold below. lia.
        * intros [H|[_ He]]; [by right|]. unfold below in He. left. lia.
    - do 3 eexists. split; [done|]. split; [eapply exp_mono; [|exact X3]; lia|]. intros j. split; [by left|]. intros [H|[_ He]]; [done|].
      unfold below in He. lia. }
  exists t4, q4, c4. split_and!; [done|done|]. intros j. rewrite H4, H3. unfold joined.
  assert (j ∈ c2 <-> opening w mz c j) as ->.
  { unfold c2. unfold opening. rewrite Hlen. split.
    - intros H. destruct (m_down nd) eqn:Hdn.
      + destruct (m_right nd) eqn:Hrt; [by apply elem_of_nil in H|]. apply elem_of_list_singleton in H as ->.
        split; [apply (beside_bound w h Hw Hh c); [done|by apply Hr]|]. exists nd. split; [done|]. left. split; [done|by apply Hr].
      + apply elem_of_cons in H as [->|H].
        * split; [by apply Hd|]. exists nd. split; [done|]. by right.
        * destruct (m_right nd) eqn:Hrt; [by apply elem_of_nil in H|]. apply elem_of_list_singleton in H as ->.
          split; [apply (beside_bound w h Hw Hh c); [done|by apply Hr]|]. exists nd. split; [done|]. left. split; [done|by apply Hr].
    - intros (_&nd'&Hn'&H). assert (nd' = nd) as -> by congruence. destruct H as [[-> [-> _]]|[-> ->]].
      + destruct (m_down nd); [by apply elem_of_list_singleton|]. apply elem_of_cons. right. by apply elem_of_list_singleton.
      + apply elem_of_cons. by left. }
  split; [tauto|]. intros [H|H]; [tauto|]. pose proof H as (_&nd'&_&[[_ Hb]|[_ Hb]]); tauto.
Qed.

(** * The invariant of the traversal *)

Record BI (pr q : list nat) (t : list path_node) (lv : nat -> nat) : Prop := MkBI {
  b_len : length t = n;
  b_nd : NoDup (pr ++ q);
  b_bound i : i ∈ pr ++ q -> i < n;
  b_vis i : i < n -> t !! i = Some PUnvisited <-> i ∉ pr ++ q;
  b_zero : 0 ∈ pr ++ q;
  b_start i : t !! i = Some PStart -> i = 0;
  b_root : t !! 0 = Some PStart;
  b_lv0 : lv 0 = 0;
  b_parent i p : t !! i = Some (PPath p) -> adj p i /\ p ∈ pr ++ q /\ lv i = S (lv p);
  b_small i : i ∈ pr ++ q -> lv i < length (pr ++ q);
  b_sorted k k' i j : k <= k' -> (pr ++ q) !! k = Some i -> (pr ++ q) !! k' = Some j -> lv i <= lv j;
  b_top i j : i ∈ pr ++ q -> j ∈ q -> lv i <= S (lv j);
  b_expanded i j : i ∈ pr -> adj i j -> j ∈ pr ++ q /\ lv j <= S (lv i);
  b_one : w = 1 -> forall i, i ∈ pr ++ q -> lv i = i /\ forall j, j < i -> j ∈ pr ++ q
}.

Lemma adj_one i j : w = 1 -> adj i j -> j = i + 1 \/ i = j + 1.
Proof.
  intros Hw1 [(_&nd&_&H)|(_&nd&_&H)]; destruct H as [[_ [H _]]|[_ H]]; unfold below in *; lia.
Qed.

Lemma bi_step pr c q t lv : BI pr (c :: q) t lv ->
  exists t' q' lv', bfs_expand m w mz c t q = Ret (t', q') /\ BI (pr ++ [c]) q' t' lv'.
Proof.
  intros HB. pose proof HB as [Hl Hnd Hbd Hvis Hz Hs Hr Hlv0 Hpar Hsm Hso Htop Hex Hone].
  assert (c ∈ pr ++ c :: q) as Hcin by (apply elem_of_app; right; apply elem_of_cons; by left).
  destruct (bfs_expand_spec c t q) as (t'&q'&cand&E&(new&->&Hnn&Hnew&Hl'&Ht'&_)&Hcand); [by apply Hbd|done|].
  set (lv' := fun j => if decide (j ∈ new) then S (lv c) else lv j).
  exists t', (q ++ new), lv'. split; [done|].
  assert ((pr ++ [c]) ++ q ++ new = (pr ++ c :: q) ++ new) as Hord by (rewrite <-!app_assoc; done).
  set (ord := pr ++ c :: q) in *.
  assert (forall j, j ∈ new <-> adj c j /\ j ∉ ord) as Hnew'.
  { intros j. rewrite Hnew, Hcand. split.
    - intros [H1 H2]. split; [done|]. apply Hvis; [|done]. apply adj_bound in H1; lia.
    - intros [H1 H2]. split; [done|]. apply Hvis; [|done]. apply adj_bound in H1; lia. }
  assert (forall j, j ∈ ord -> lv' j = lv j) as Hold.
  { intros j Hj. unfold lv'. rewrite decide_False; [done|]. intros H. by apply Hnew' in H as [_ H]. }
  assert (forall j, j ∈ new -> lv' j = S (lv c)) as Hnlv by (intros j Hj; unfold lv'; by rewrite decide_True).
  assert (forall j, j ∈ q -> lv c <= lv j) as Hq.
  { intros j Hj. apply elem_of_list_lookup in Hj as [k Hk]. apply (Hso (length pr) (length pr + S k)); [lia|..]; unfold ord.
    - by rewrite list_lookup_middle.
    - rewrite lookup_app_r by lia. by replace (length pr + S k - length pr) with (S k) by lia. }
  assert (forall i, i ∈ ord -> lv i <= S (lv c)) as Hup.
  { intros i Hi. apply Htop; [done|]. apply elem_of_cons. by left. }
  split; rewrite ?Hord.
  - lia.
  - apply NoDup_app. split_and!; [done| |done]. intros x Hx Hx'. by apply Hnew' in Hx' as [_ ?].
  - intros i Hi. apply elem_of_app in Hi as [Hi|Hi]; [by apply Hbd|]. apply Hnew' in Hi as [Hi _]. apply adj_bound in Hi; lia.
  - intros i Hi. rewrite elem_of_app, Ht'. case_decide as Hd.
    + split; [done|]. intros H. exfalso. apply H. by right.
    + rewrite Hvis by done. tauto.
  - apply elem_of_app. by left.
  - intros i. rewrite Ht'. case_decide; [done|]. apply Hs.
  - rewrite Ht'. rewrite decide_False; [done|]. intros H. by apply Hnew' in H as [_ ?].
  - by rewrite Hold.
  - intros i p. rewrite Ht'. case_decide as Hd.
    + intros [= <-]. rewrite (Hnlv i) by done. rewrite Hold by done.
      split_and!; [by apply Hnew' in Hd as [? _]|apply elem_of_app; by left|done].
    + intros Hp. destruct (Hpar _ _ Hp) as (H1&H2&H3). rewrite (Hold p) by done.
      assert (lv' i = lv i) as -> by (unfold lv'; by rewrite decide_False).
      split_and!; [done|apply elem_of_app; by left|done].
  - intros i Hi. apply elem_of_app in Hi as [Hi|Hi].
    + rewrite Hold by done. rewrite app_length. specialize (Hsm _ Hi). lia.
    + rewrite Hnlv by done. rewrite app_length. specialize (Hsm _ Hcin). destruct new; [by apply elem_of_nil in Hi|]. cbn. lia.
  - intros k k' i j Hk Hi Hj. destruct (decide (k' < length ord)) as [Hk'|Hk'].
    + rewrite lookup_app_l in Hi, Hj by lia. rewrite !Hold by (by eapply elem_of_list_lookup_2). exact (Hso _ _ _ _ Hk Hi Hj).
    + rewrite lookup_app_r in Hj by lia. rewrite (Hnlv j) by (by eapply elem_of_list_lookup_2).
      destruct (decide (k < length ord)) as [Hk2|Hk2].
      * rewrite lookup_app_l in Hi by lia. apply elem_of_list_lookup_2 in Hi. rewrite Hold by done. by apply Hup.
      * rewrite lookup_app_r in Hi by lia. apply elem_of_list_lookup_2 in Hi. by rewrite Hnlv.
  - intros i j Hi Hj. assert (lv c <= lv' j) as Hj'.
    { apply elem_of_app in Hj as [Hj|Hj].
      - rewrite Hold; [by apply Hq|]. apply elem_of_app. right. apply elem_of_cons. by right.
      - rewrite Hnlv by done. lia. }
    apply elem_of_app in Hi as [Hi|Hi].
    + rewrite Hold by done. specialize (Hup _ Hi). lia.
    + rewrite (Hnlv i) by done. lia.
  - intros i j Hi Hij. apply elem_of_app in Hi as [Hi|Hi].
    + destruct (Hex _ _ Hi Hij) as [H1 H2]. split; [apply elem_of_app; by left|].
      rewrite !Hold; [done| |done]. apply elem_of_app. by left.
    + apply elem_of_list_singleton in Hi as ->. rewrite (Hold c) by done. destruct (decide (j ∈ ord)) as [Hj|Hj].
      * split; [apply elem_of_app; by left|]. rewrite Hold by done. by apply Hup.
      * assert (j ∈ new) as Hjn by (by apply Hnew'). split; [apply elem_of_app; by right|]. by rewrite Hnlv.
  - intros Hw1 i Hi. specialize (Hone Hw1). apply elem_of_app in Hi as [Hi|Hi].
    + rewrite Hold by done. destruct (Hone _ Hi) as [H1 H2]. split; [done|]. intros j Hj. apply elem_of_app. left. by apply H2.
    + rewrite Hnlv by done. apply Hnew' in Hi as [Ha Hno]. destruct (Hone _ Hcin) as [H1 H2].
      destruct (adj_one _ _ Hw1 Ha) as [->| ->].
      * split; [lia|]. intros j Hj. apply elem_of_app. left. destruct (decide (j = c)) as [->|]; [done|]. apply H2. lia.
      * exfalso. apply Hno. apply H2. lia.
Qed.

Lemma bi_start : exists t, vec_set (replicate n PUnvisited) 0 PStart = Ret t /\ BI [] [0] t (fun _ => 0).
Proof.
  pose proof (n_pos w h Hw Hh) as Hn. unfold vec_set. rewrite decide_True by (rewrite replicate_length; lia).
  eexists. split; [done|].
  assert (forall i, <[0:=PStart]> (replicate n PUnvisited) !! i = if decide (i = 0) then Some PStart else if decide (i < n) then Some PUnvisited else None) as Hlk.
  { intros i. case_decide as H0.
    - subst. rewrite list_lookup_insert; [done|]. rewrite replicate_length. lia.
    - rewrite list_lookup_insert_ne by done. case_decide as H1; [by apply lookup_replicate|].
      apply lookup_ge_None. rewrite replicate_length. lia. }
  cbn [app].
  split; cbn [app].
  - by rewrite insert_length, replicate_length.
  - apply NoDup_singleton.
  - intros i Hi. apply elem_of_list_singleton in Hi as ->. lia.
  - intros i Hi. rewrite Hlk, elem_of_list_singleton. case_decide; [naive_solver|]. by rewrite decide_True.
  - by apply elem_of_list_singleton.
  - intros i. rewrite Hlk. case_decide; [done|]. case_decide; done.
  - by rewrite Hlk.
  - done.
  - intros i p. rewrite Hlk. case_decide; [done|]. case_decide; done.
  - intros i _. cbn. lia.
  - intros. lia.
  - intros. lia.
  - intros i j Hi. by apply elem_of_nil in Hi.
  - intros _ i Hi. apply elem_of_list_singleton in Hi as ->. split; [done|]. lia.
Qed.

(** * Distances *)

Lemma path_snoc_inv (R : nat -> nat -> Prop) i l y j : path R i (l ++ [y]) j -> j = y /\
  (l = [] \/ exists k, path R i l k /\ R k j).
Proof.
  intros (Hhd&Hla&Hk). rewrite last_snoc in Hla. injection Hla as ->. split; [done|].
  destruct (decide (l = [])) as [->|Hne]; [by left|]. right.
  destruct (last l) as [k|] eqn:Hl. 2:{ by apply last_None in Hl. }
  exists k. split; [split_and!|].
  - destruct l; [done|]. exact Hhd.
  - done.
  - intros p a b Ha Hb. apply (Hk p); apply lookup_app_l_Some; done.
  - rewrite last_lookup in Hl. assert (0 < length l) by (destruct l; [done|cbn; lia]).
    apply (Hk (pred (length l))).
    + by apply lookup_app_l_Some.
    + replace (S (pred (length l))) with (length l) by lia. by rewrite list_lookup_middle.
Qed.

Lemma bi_walk pr q t lv : BI pr q t lv -> forall l j, path adj 0 l j ->
  (j ∈ pr ++ q /\ S (lv j) <= length l) \/ (exists x, x ∈ q /\ (forall y, y ∈ q -> lv x <= lv y) /\ S (lv x) < length l).
Proof.
  intros HB. induction l as [|y l IH] using rev_ind; intros j Hp; [by destruct Hp|].
  pose proof Hp as Hp'. apply path_snoc_inv in Hp' as [-> [->|(k&Hk&HR)]].
  - destruct Hp as (Hhd&_). injection Hhd as ->. left. split; [apply HB|]. rewrite (b_lv0 _ _ _ _ HB). done.
  - rewrite app_length. cbn [length]. destruct (IH k Hk) as [[Hin Hle]|(x&Hx&Hmin&Hle)].
    2:{ right. exists x. split_and!; [done|done|lia]. }
    apply elem_of_app in Hin as [Hin|Hin].
    + destruct (b_expanded _ _ _ _ HB _ _ Hin HR) as [H1 H2]. left. split; [done|lia].
    + right. destruct q as [|x q]; [by apply elem_of_nil in Hin|].
      assert (forall y0, y0 ∈ x :: q -> lv x <= lv y0) as Hmin.
      { intros z Hz. apply elem_of_list_lookup in Hz as [p Hz]. apply (b_sorted _ _ _ _ HB (length pr) (length pr + p)); [lia|..].
        - by rewrite list_lookup_middle.
        - rewrite lookup_app_r by lia. by replace (length pr + p - length pr) with p by lia. }
      exists x. split_and!; [apply elem_of_cons; by left|done|]. specialize (Hmin _ Hin). lia.
Qed.

Lemma bi_tree_path pr q t lv : BI pr q t lv -> forall k i, lv i = k -> i ∈ pr ++ q ->
  exists l, path adj 0 l i /\ length l = S (lv i).
Proof.
  intros HB. induction k as [k IH] using lt_wf_ind. intros i Hk Hi.
  destruct (lookup_lt_is_Some_2 t i) as [v Hv]; [rewrite (b_len _ _ _ _ HB); by apply HB|].
  destruct v as [|p|].
  - apply (b_start _ _ _ _ HB) in Hv as ->. exists [0]. split; [apply path_single|]. by rewrite (b_lv0 _ _ _ _ HB).
  - destruct (b_parent _ _ _ _ HB _ _ Hv) as (H1&H2&H3). destruct (IH (lv p)) with (i := p) as (l&Hp&Hl); [lia|done|done|].
    exists (l ++ [i]). split; [by eapply path_snoc|]. rewrite app_length. cbn. lia.
  - exfalso. apply (b_vis _ _ _ _ HB) in Hv; [done|by apply HB].
Qed.

(** * Reading the solution *)

Lemma follows_app g ds1 : forall ds2 i j, follows w g (ds1 ++ ds2) i j <-> exists k, follows w g ds1 i k /\ follows w g ds2 k j.
Proof.
  induction ds1 as [|d ds1 IH]; intros ds2 i j; cbn [follows app].
  - split; [eauto|]. by intros (k&->&H).
  - split.
    + intros (k&H1&H2&H3). apply IH in H3 as (k'&H3&H4). exists k'. eauto.
    + intros (k'&(k&H1&H2&H3)&H4). exists k. split_and!; [done|done|]. apply IH. eauto.
Qed.

Definition step_dir (i p : nat) : direction :=
  if Nat.eqb p (i + 1) then Left else if Nat.eqb p (i + w) then Up else if Nat.eqb p (i - 1) then Right else Down.

Lemma step_dir_leads i p : 2 <= w -> adj p i -> leads w (step_dir i p) p i.
Proof.
  intros Hw2 Ha. unfold step_dir.
  assert (beside w p i \/ below w p i \/ beside w i p \/ below w i p) as Hc.
  { destruct Ha as [(_&nd&_&H)|(_&nd&_&H)]; destruct H as [[_ H]|[_ H]]; tauto. }
  unfold beside, below in *.
  destruct (Nat.eqb_spec p (i + 1)) as [H1|H1]; [cbn; unfold beside; lia|].
  destruct (Nat.eqb_spec p (i + w)) as [H2|H2]; [cbn; unfold below; lia|].
  destruct (Nat.eqb_spec p (i - 1)) as [H3|H3]; cbn; unfold below, beside; lia.
Qed.

Lemma read_path_spec pr q t lv : BI pr q t lv -> forall fuel i, i ∈ pr ++ q -> lv i < fuel ->
  exists sol, read_path m fuel w t i = Ret sol /\ length sol = lv i /\
    (2 <= w -> follows w mz (rev sol) 0 i) /\ (w = 1 -> sol = replicate i Right).
Proof.
  intros HB. induction fuel as [|fuel IH]; intros i Hi Hf; [lia|]. cbn [read_path].
  assert (i < n) as Hin by (by apply HB). pose proof (w_le_n w h Hw Hh) as Hwn.
  destruct (lookup_lt_is_Some_2 t i) as [v Hv]; [by rewrite (b_len _ _ _ _ HB)|]. unfold vec_get. rewrite Hv. cbn [expect bind].
  destruct v as [|p|].
  - apply (b_start _ _ _ _ HB) in Hv as ->. exists []. split_and!; [done|by rewrite (b_lv0 _ _ _ _ HB)|done|done].
  - destruct (b_parent _ _ _ _ HB _ _ Hv) as (H1&H2&H3). destruct (IH p H2) as (sol&E&Hl&Hfo&H1w); [lia|].
    rewrite n_add_small by (apply (n_small m w h Hw Hh Hst); lia). cbn [bind].
    assert ((if Nat.eqb p (i + 1) then Ret Left else
      let! dn := n_add m i w in if Nat.eqb p dn then Ret Up else let! l := n_sub m i 1 in if Nat.eqb p l then Ret Right else Ret Down)
      = Ret (step_dir i p)) as ->.
    { unfold step_dir. destruct (Nat.eqb_spec p (i + 1)) as [He|He]; [done|].
      rewrite n_add_small by (apply (n_small m w h Hw Hh Hst); lia). cbn [bind].
      destruct (Nat.eqb_spec p (i + w)) as [He2|He2]; [done|].
      rewrite n_sub_ok. { cbn [bind]. by destruct (Nat.eqb p (i - 1)). }
      destruct H1 as [(_&nd&_&H)|(_&nd&_&H)]; destruct H as [[_ [H _]]|[_ H]]; unfold below in *; lia. }
    cbn [bind]. rewrite E. cbn [bind]. eexists. split; [done|]. split_and!.
    + cbn. lia.
    + intros Hw2. cbn [rev]. apply follows_app. exists p. split; [by apply Hfo|]. cbn. exists i.
      split_and!; [by apply step_dir_leads|done|done].
    + intros Hw1. rewrite H1w by done. destruct (b_one _ _ _ _ HB Hw1 i Hi) as [Ei _].
      destruct (b_one _ _ _ _ HB Hw1 p H2) as [Ep _]. assert (i = S p) as -> by lia.
      unfold step_dir. destruct (Nat.eqb_spec p (S p + 1)); [lia|]. destruct (Nat.eqb_spec p (S p + w)); [lia|].
      destruct (Nat.eqb_spec p (S p - 1)); [done|lia].
  - exfalso. apply (b_vis _ _ _ _ HB) in Hv; done.
Qed.

(** * Counting the last row *)

Local Notation bottom := (fun i => i / w = h - 1).
Lemma last_row_seq i : in_last_row w h i <-> i ∈ seq (w * (h - 1)) w.
Proof.
  unfold in_last_row. rewrite elem_of_seq. split.
  - intros [Hi He]. destruct (divmod w h Hw Hh i) as [E1 E2]. rewrite He in E1. lia.
  - intros [H1 H2]. destruct (div_mod_unique w i (h - 1) (i - w * (h - 1))) as [E _]; [lia|lia|]. split; [nia|done].
Qed.
Lemma count_bottom l : NoDup l -> (forall i, i ∈ l -> i < n) ->
  length (filter bottom l) <= w /\ (length (filter bottom l) = w -> forall i, in_last_row w h i -> i ∈ l).
Proof.
  intros Hnd Hb.
  assert (filter bottom l ⊆+ seq (w * (h - 1)) w) as Hsub.
  { apply NoDup_submseteq; [by apply NoDup_filter|]. intros i Hi. apply elem_of_list_filter in Hi as [H1 H2].
    apply last_row_seq. split; [by apply Hb|done]. }
  split.
  - apply submseteq_length in Hsub. by rewrite seq_length in Hsub.
  - intros He i Hi. apply last_row_seq in Hi.
    assert (filter bottom l ≡ₚ seq (w * (h - 1)) w) as Hp.
    { apply submseteq_Permutation_length_eq; [|done]. by rewrite seq_length. }
    rewrite <-Hp in Hi. by apply elem_of_list_filter in Hi as [_ ?].
Qed.
Lemma count_all l : NoDup l -> (forall i, i < n -> i ∈ l) -> w <= length (filter bottom l).
Proof.
  intros Hnd Hall. rewrite <-(seq_length w (w * (h - 1))) at 1. apply submseteq_length, NoDup_submseteq; [apply NoDup_seq|].
  intros i Hi. apply last_row_seq in Hi as [H1 H2]. apply elem_of_list_filter. split; [done|by apply Hall].
Qed.

(** * The loop *)

Lemma bfs_loop_spec : forall fuel pr q t lv found,
  BI pr q t lv -> found = length (filter bottom pr) -> found < w -> n < length pr + fuel ->
  exists e sol, bfs_loop m fuel w h mz t q found = Ret (open_d e mz, sol) /\ in_last_row w h e /\
    (2 <= w -> follows w mz (rev sol) 0 e) /\ (w = 1 -> sol = replicate e Right) /\
    (exists l, path adj 0 l e /\ length l = S (length sol)) /\
    (forall l, path adj 0 l e -> S (length sol) <= length l) /\
    (forall b, in_last_row w h b -> exists l, path adj 0 l b /\ length l <= S (length sol)).
Proof.
  induction fuel as [|fuel IH]; intros pr q t lv found HB Hfd Hlt Hf.
  - exfalso. assert (length pr <= n); [|lia]. rewrite <-(seq_length n 0). apply submseteq_length, NoDup_submseteq.
    + pose proof (b_nd _ _ _ _ HB) as Hnd. by apply NoDup_app in Hnd as [? _].
    + intros i Hi. apply elem_of_seq. assert (i < n); [|lia]. apply HB. apply elem_of_app. by left.
  - cbn [bfs_loop]. destruct q as [|c q].
    { exfalso. assert (forall i, i < n -> i ∈ pr) as Hall.
      { intros i Hi. destruct (Hconn i Hi) as [l Hp]. destruct (bi_walk _ _ _ _ HB _ _ Hp) as [[H _]|(x&Hx&_)].
        - by rewrite app_nil_r in H.
        - by apply elem_of_nil in Hx. }
      pose proof (b_nd _ _ _ _ HB) as Hnd. rewrite app_nil_r in Hnd. pose proof (count_all _ Hnd Hall). lia. }
    assert (c ∈ pr ++ c :: q) as Hcin by (apply elem_of_app; right; apply elem_of_cons; by left).
    assert (c < n) as Hc by (by apply HB).
    unfold n_div. rewrite decide_False by lia. cbn [bind]. rewrite n_sub_ok by done. cbn [bind].
    assert (length (filter bottom (pr ++ [c])) = if Nat.eqb (c / w) (h - 1) then S found else found) as Hcount.
    { rewrite filter_app, app_length, filter_cons. cbn. destruct (Nat.eqb_spec (c / w) (h - 1)) as [He|He].
      - rewrite decide_True by done. cbn. lia.
      - rewrite decide_False by done. cbn. lia. }
    rewrite <-Hcount. destruct (Nat.eqb (c / w) (h - 1) && Nat.eqb (length (filter bottom (pr ++ [c]))) w) eqn:Hstop.
    + apply andb_true_iff in Hstop as [Hrow Hfull]. apply Nat.eqb_eq in Hrow, Hfull.
      rewrite open_down_eq by lia. cbn [bind].
      destruct (read_path_spec _ _ _ _ HB (S (length t)) c Hcin) as (sol&E&Hl&Hfo&Hone).
      { rewrite (b_len _ _ _ _ HB). pose proof (b_small _ _ _ _ HB _ Hcin) as Hs.
        assert (length (pr ++ c :: q) <= n); [|lia]. rewrite <-(seq_length n 0). apply submseteq_length, NoDup_submseteq; [by apply HB|].
        intros i Hi. apply elem_of_seq. assert (i < n); [|lia]. by apply HB. }
      rewrite E. cbn [bind]. exists c, sol. split_and!; [done|by split|done|done| | |].
      * destruct (bi_tree_path _ _ _ _ HB _ c eq_refl Hcin) as (l&Hp&Hll). exists l. split; [done|lia].
      * intros l Hp. rewrite Hl. destruct (bi_walk _ _ _ _ HB _ _ Hp) as [[_ H]|(x&Hx&Hmin&H)]; [lia|].
        assert (lv c <= lv x); [|lia]. apply elem_of_list_lookup in Hx as [k Hk].
        apply (b_sorted _ _ _ _ HB (length pr) (length pr + k)); [lia|by rewrite list_lookup_middle|].
        rewrite lookup_app_r by lia. by replace (length pr + k - length pr) with k by lia.
      * intros b Hb. assert (b ∈ pr ++ [c]) as Hin.
        { apply (count_bottom (pr ++ [c])); [|..|done|done].
          - pose proof (b_nd _ _ _ _ HB) as Hnd. rewrite (app_assoc pr [c] q : pr ++ c :: q = _) in Hnd. by apply NoDup_app in Hnd as [? _].
          - intros i Hi. apply HB. apply elem_of_app in Hi as [Hi|Hi]; [apply elem_of_app; by left|].
            apply elem_of_list_singleton in Hi as ->. done. }
        assert (b ∈ pr ++ c :: q) as Hin'.
        { apply elem_of_app in Hin as [Hi|Hi]; [apply elem_of_app; by left|]. apply elem_of_list_singleton in Hi as ->. done. }
        destruct (bi_tree_path _ _ _ _ HB _ b eq_refl Hin') as (l&Hp&Hll). exists l. split; [done|]. rewrite Hll, Hl.
        assert (lv b <= lv c); [|lia]. apply elem_of_list_lookup in Hin as [k Hk].
        assert (k <= length pr) by (apply lookup_lt_Some in Hk; rewrite app_length in Hk; cbn in Hk; lia).
        apply (b_sorted _ _ _ _ HB k (length pr)); [done| |by rewrite list_lookup_middle].
        change (c :: q) with ([c] ++ q). rewrite app_assoc. by apply lookup_app_l_Some.
    + destruct (bi_step _ _ _ _ _ HB) as (t'&q'&lv'&E&HB'). rewrite E. cbn [bind].
      apply (IH (pr ++ [c]) q' t' lv'); [done|done| |rewrite app_length; cbn; lia].
      pose proof (b_nd _ _ _ _ HB') as Hnd. apply NoDup_app in Hnd as [Hnd _].
      destruct (count_bottom (pr ++ [c]) Hnd) as [Hle _].
      { intros i Hi. apply HB'. apply elem_of_app. by left. }
      apply andb_false_iff in Hstop as [Hs|Hs].
      * rewrite Hs in Hcount. lia.
      * apply Nat.eqb_neq in Hs. lia.
Qed.
End bfs.
