(** On constraints without repeated rows the sizes stay small, so comparing them
    reduced makes no difference. *)
From Verif Require Import Base Dlx DlxSeg DlxCover DlxColumn SpecDlx SpecDlxSearch DlxSets DlxKnuth DlxSearch DlxBuild DlxNew DlxAdd DlxReady SudokuAny.
From Verif Require Import DlxReleaseSim.

Section width.
Context (ws : word).
Local Notation red n := (N.to_nat (reduced ws n)).

Lemma for_from_cong {S} (I : ptr -> S -> Prop) (heap_of : S -> heap) (dir : node -> ptr) (o : ptr) (b1 b2 : ptr -> S -> res (S * bool)) :
  (forall x s, I x s -> b1 x s = b2 x s) ->
  (forall x s n s', I x s -> load (heap_of s) x = Ret n -> b1 x s = Ret (s', false) -> dir n <> o -> I (dir n) s') ->
  forall fuel cur s, cur = null \/ I cur s ->
  for_from fuel heap_of dir o cur b1 s = for_from fuel heap_of dir o cur b2 s.
Proof.
  intros Hb Hn. induction fuel as [|fuel IH]; intros cur s Hcur; cbn [for_from];
    destruct (decide (cur = null)) as [Hd|Hd]; [done|done|done|].
  destruct Hcur as [?|Hcur]; [done|].
  destruct (load (heap_of s) cur) as [n|] eqn:En; cbn [bind]; [|done].
  rewrite <-(Hb _ _ Hcur). destruct (b1 cur s) as [[s' []]|] eqn:Es; cbn [bind]; [done| |done].
  apply IH. destruct (decide (dir n = o)) as [Ho|Ho]; [by left|right]. by eapply Hn.
Qed.
Lemma ring_cong {S} (P : S -> Prop) (heap_of : S -> heap) (dir : node -> ptr) (o : ptr) (b1 b2 : ptr -> S -> res (S * bool)) h l fuel s :
  fwd dir h o l o -> (forall s, P s -> heap_of s = h) ->
  (forall x s, x ∈ l -> P s -> b1 x s = b2 x s) ->
  (forall x s s', x ∈ l -> P s -> b1 x s = Ret (s', false) -> P s') ->
  P s -> for_skip1 fuel heap_of dir o b1 s = for_skip1 fuel heap_of dir o b2 s.
Proof.
  intros Hf Hh Hb Hk Hs. unfold for_skip1. destruct (load (heap_of s) o) as [n|] eqn:En; cbn [bind]; [|done].
  assert (forall l2 y, first_or l2 o = y -> y <> o -> y ∈ l2) as Hfirst.
  { intros [|z l2] y; cbn; [by intros ->|]. intros -> _. apply elem_of_list_here. }
  apply (for_from_cong (fun x s => x ∈ l /\ P s)).
  - intros x t [Hx Ht]. by apply Hb.
  - intros x t nx t' [Hx Ht] Hl Ht' Ho. rewrite (Hh _ Ht) in Hl. split; [|by eapply Hk].
    apply elem_of_list_split in Hx as (l1&l2&->). pose proof (fwd_at _ _ _ _ _ _ _ Hf) as (m&Hm&Hmd)%fld_Some.
    unfold load in Hl. rewrite Hm in Hl. injection Hl as ->. symmetry in Hmd. apply elem_of_app. right.
    apply elem_of_list_further. by apply Hfirst.
  - rewrite (Hh _ Hs) in En. pose proof (fwd_first _ _ _ _ _ Hf) as (m&Hm&Hmd)%fld_Some.
    unfold load in En. rewrite Hm in En. injection En as ->.
    destruct (decide (dir n = o)) as [Ho|Ho]; [by left|right]. split; [|done]. by apply Hfirst.
Qed.

Lemma red_small n : (N.of_nat (n_row n) < usize_size ws)%N -> red n = n_row n.
Proof. intros H. unfold reduced. destruct (decide _); [rewrite N.mod_small by done|]; apply Nat2N.id. Qed.
Lemma red_node n : n_header n <> null -> red n = n_row n.
Proof. intros H. unfold reduced. rewrite decide_False by done. apply Nat2N.id. Qed.

Section search.
  Context (G : rows_info) (HG : good_rows G) (root : ptr) (fuel : nat).

  Lemma choose_reduced_eq h st : Rep root h st -> (N.of_nat (length (fp st)) < usize_size ws)%N -> choose_reduced ws fuel root h = choose_column fuel root h.
  Proof.
    intros HR Hl. pose proof (rep_nd _ _ _ HR) as [Hroot Hnd]%NoDup_cons.
    pose proof (seg_fwd _ _ _ _ _ _ (rep_ring _ _ _ HR)) as Hfwd.
    unfold choose_reduced, choose_column. f_equal.
    apply (ring_cong (fun s => s.1 = h) fst n_right root _ _ h st.*1); [done|done| | |done].
    - intros x [g b] Hx Hg. cbn in Hg. subst g.
      apply elem_of_list_fmap in Hx as ([c ns]&->&Hc). cbn [fst].
      destruct (rep_col _ _ _ HR c ns Hc) as (_&(n&Hn&Hrow)%fld_Some&_&_).
      unfold load. rewrite Hn. cbn [bind]. rewrite red_small; [done|]. rewrite Hrow.
      pose proof (NoDup_key_split _ _ _ Hc Hnd) as Hcn.
      assert (length (c :: ns) <= length (fp st)) as Hle.
      { apply subset_length; [done|]. intros y Hy. apply elem_of_fp. exists c, ns. split; [done|]. by apply elem_of_cons. }
      cbn in Hle. lia.
    - intros x [g b] [g' b'] Hx Hg. cbn in Hg. subst g. destruct (load h x) as [n|]; cbn [bind]; [|done].
      destruct b as [[? k]|]; [|by intros [= <- _]]. destruct (decide _); by intros [= <- _].
  Qed.

  Lemma clear_reduced_eq h st c ns q rows : Live G root fuel h st -> (c, ns) ∈ st -> q ∈ ns ->
    clear_reduced ws fuel q h rows = clear_rows fuel q h rows.
  Proof.
    intros HL Hc Hq.
    pose proof (lv_rep _ _ _ _ _ HL) as HR. destruct (rep_col _ _ _ HR c ns Hc) as (Hseg&_&_&Hh).
    pose proof (seg_fwd _ _ _ _ _ _ Hseg) as Hfwd. unfold clear_reduced, clear_rows.
    pose proof (Hh q Hq) as (n&Hn&Hnh)%fld_Some. unfold load at 1. rewrite Hn. cbn [bind].
    unfold load at 2. rewrite Hn. cbn [bind]. rewrite Hnh. f_equal.
    assert (c <> null) as Hcz.
    { eapply (lv_null _ _ _ _ _ c HL). apply elem_of_fp. exists c, ns. auto. }
    apply (ring_cong (fun s => s.1 = h) fst n_down c _ _ h ns); [done|done| | |done].
    - intros x [g b] Hx Hg. cbn in Hg. subst g. pose proof (Hh x Hx) as (m&Hm&Hmh)%fld_Some.
      unfold load. rewrite Hm. cbn [bind]. by rewrite red_node by (by rewrite Hmh).
    - intros x [g b] [g' b'] Hx Hg. cbn in Hg. subst g. destruct (load h x) as [m|]; cbn [bind]; [|done].
      unfold vec_set. destruct (decide _); cbn [bind]; [|done]. by intros [= <- _].
  Qed.

  Lemma solve_reduced_eq depth : forall h st partial, within depth (cols G st) -> Live G root fuel h st -> (N.of_nat (length (fp st)) < usize_size ws)%N ->
    solve_reduced ws fuel depth root h partial = solve_helper fuel depth root h partial.
  Proof.
    induction depth as [|depth IH]; intros h st partial Hd HL Hsm; [done|]. cbn [solve_reduced solve_helper].
    pose proof (lv_rep _ _ _ _ _ HL) as HR. pose proof (lv_nd _ _ _ _ _ HL) as Hnd.
    pose proof (lv_wf _ _ _ _ _ HL) as HW.
    destruct (is_empty root h) as [[]|] eqn:Ee; cbn [bind]; [done| |done].
    assert (st <> []) as Hne.
    { intros ->. pose proof (seg_fwd _ _ _ _ _ _ (rep_ring _ _ _ HR)) as Hfwd.
      pose proof (fwd_first _ _ _ _ _ Hfwd) as (nr&Hnr&Hright)%fld_Some.
      unfold is_empty, load in Ee. rewrite Hnr in Ee. cbn [bind] in Ee. rewrite Hright in Ee. cbn in Ee.
      by rewrite bool_decide_eq_true_2 in Ee by done. }
    rewrite (choose_reduced_eq h st HR Hsm).
    destruct (choose_column_spec G root fuel h st HL Hne) as (s1&c&ns&s2&Ech&Hst&Hs1&Hs2).
    assert ((c, ns) ∈ st) as Hc by (rewrite Hst, elem_of_app; right; apply elem_of_list_here).
    assert (forall q, q ∈ ns -> within depth (choose (cols G st) (rw G q))) as Hdeep.
    { intros q Hq. apply (within_split _ _ (cols G s1) (rw G <$> ns) (cols G s2) Hd).
      - rewrite Hst. unfold cols. by rewrite fmap_app.
      - intros x (d&ms&Hdm&->)%elem_of_cols. rewrite !fmap_length. by eapply Hs1.
      - intros x (d&ms&Hdm&->)%elem_of_cols. rewrite !fmap_length. by eapply Hs2.
      - by apply elem_of_list_fmap_1. }
    clear s1 s2 Hst Hs1 Hs2. rewrite Ech. cbn [bind].
    assert (to_header h c = Ret c) as Hth.
    { apply to_header_fld. exists null. split; [by apply (rep_col _ _ _ HR c ns)|]. by rewrite decide_True. }
    destruct (live_cover G HG root fuel h st c ns c HL Hc Hth) as (h1&E1&HL1&U1&C1&F1).
    rewrite E1. cbn [bind].
    pose proof (seg_fwd _ _ _ _ _ _ (fz_col _ _ _ _ F1)) as Hfwd1.
    assert (forall q, q ∈ ns -> q ∈ nodes st) as Hnode by (intros q Hq; apply elem_of_nodes; eauto).
    assert (c <> null) as Hcz.
    { eapply (lv_null _ _ _ _ _ c HL). apply elem_of_fp. exists c, ns. auto. }
    set (body1 := fun row '(h, partial) =>
      let! n := load h row in
      let partial := partial ++ [red n] in
      let! h := heap_loop fuel n_right row (cover_column fuel) h in
      let! (h, partial, ok) := solve_reduced ws fuel depth root h partial in
      if ok : bool then
        let! h := heap_loop fuel n_right row (free_chain fuel) h in
        let! h := free_chain fuel c h in
        Ret ((h, partial), true)
      else
        let! h := heap_loop fuel n_left row (uncover_column fuel) h in
        Ret ((h, take (length partial - 1) partial), false)).
    set (body2 := fun row '(h, partial) =>
      let! n := load h row in
      let partial := partial ++ [n_row n] in
      let! h := heap_loop fuel n_right row (cover_column fuel) h in
      let! (h, partial, ok) := solve_helper fuel depth root h partial in
      if ok : bool then
        let! h := heap_loop fuel n_right row (free_chain fuel) h in
        let! h := free_chain fuel c h in
        Ret ((h, partial), true)
      else
        let! h := heap_loop fuel n_left row (uncover_column fuel) h in
        Ret ((h, take (length partial - 1) partial), false)).
    assert (forall q, q ∈ ns -> body1 q (h1, partial) = body2 q (h1, partial) /\
      forall s', body2 q (h1, partial) = Ret (s', false) -> s' = (h1, partial)) as Hbody.
    { intros q Hq. pose proof (Hnode q Hq) as Hqn. pose proof (wf_node _ _ _ HW q Hqn) as Hqi.
      pose proof (fz_row _ _ _ _ F1 q Hq) as Hqrow.
      pose proof (ro_row _ _ _ Hqrow) as (n&Hn&Hnrow)%fld_Some.
      assert (n_header n <> null) as Hnh.
      { pose proof (ro_hdr _ _ _ Hqrow) as (n'&Hn'&Hnh)%fld_Some. rewrite Hn in Hn'. injection Hn' as <-. rewrite Hnh.
        by rewrite (wf_hdr _ _ _ HW c ns q Hc Hq). }
      unfold body1, body2, load. rewrite Hn. cbn [bind]. cbv zeta. rewrite (red_node _ Hnh), Hnrow. clear n Hn Hnrow Hnh.
      assert (forall y, y ∈ rr G q -> y ∈ nodes st) as Hmates.
      { intros y Hy. eapply (wf_closed _ _ _ HW); [exact Hqn|].
        by apply (elem_of_rr G HG) in Hy as [? _]. }
      assert (forall y, y ∈ rr G q -> rowok G h1 y) as Hmrow.
      { intros y Hy. eapply rowok_calm; [done|exact C1|apply (wf_key _ _ _ HW)|..].
        - by apply (wf_node _ _ _ HW), Hmates.
        - by apply (lv_row _ _ _ _ _ HL), Hmates. }
      assert (forall y, y ∈ rr G q -> fld n_header h1 y = Some (hdr G y)) as Hmh.
      { intros y Hy. by apply (ro_hdr _ _ _ (Hmrow y Hy)). }
      assert (forall y, y ∈ rr G q -> hdr G y ∈ (coverset G [c] st).*1) as Hmk.
      { intros y Hy. rewrite coverset_keys. apply elem_of_list_filter. split.
        - rewrite elem_of_list_singleton, <-(wf_hdr _ _ _ HW c ns q Hc Hq). by apply (rr_hdr G HG).
        - pose proof (Hmates y Hy) as (d&ms&Hdm&Hym)%elem_of_nodes.
          rewrite (wf_hdr _ _ _ HW d ms y Hdm Hym). apply elem_of_list_fmap. by exists (d, ms). }
      assert (NoDup (hdr G <$> (q :: rr G q))) as Hmnd.
      { rewrite (gr_rr G HG _ _ Hqi). apply (gr_hdr G HG). }
      rewrite fmap_cons in Hmnd. apply NoDup_cons in Hmnd as [Hqh Hmnd].
      assert (null ∉ rr G q) as Hmnull.
      { intros Hin. eapply (lv_null _ _ _ _ _ null HL); [|done]. by apply nodes_fp, Hmates. }
      assert (q ∉ rr G q) as Hself by (intros Hin; by apply (elem_of_rr G HG) in Hin as [_ ?]).
      assert (length (rr G q) <= fuel) as Hmlen.
      { etrans; [|exact (lv_fuel _ _ _ _ _ HL)]. apply subset_length; [by apply (rr_NoDup G HG)|].
        intros x Hx. by apply nodes_fp, Hmates. }
      destruct (covers_loop G HG root fuel h1 (coverset G [c] st) q (rr G q)) as (h2&E2&EL2&UL2); try done.
      { intros y [->|Hy]%elem_of_cons; [done|]. by apply (wf_node _ _ _ HW), Hmates. }
      { apply (ro_ring _ _ _ Hqrow). }
      destruct (covers_spec G HG root fuel h1 (coverset G [c] st) (rr G q)) as (h2'&fz&E2'&HL2&_&_&_&_&_); try done.
      assert (h2' = h2) as -> by congruence. clear E2'.
      rewrite coverset_coverset in HL2. cbn [app] in HL2.
      rewrite EL2. cbn [bind].
      set (st2 := coverset G (c :: (hdr G <$> rr G q)) st) in *.
      assert (choose (cols G st) (rw G q) = cols G st2) as HecK.
      { rewrite <-(cols_choose G HG root st q HW Hnd Hqn). unfold st2.
        rewrite (coverset_ext G (hdr G <$> rl G (rw G q)) (c :: (hdr G <$> rr G q))); [done|].
        intros x. rewrite <-(wf_hdr _ _ _ HW c ns q Hc Hq), <-fmap_cons.
        by rewrite (gr_rr G HG _ _ Hqi). }
      assert (within depth (cols G st2)) as Hd2 by (rewrite <-HecK; by apply Hdeep).
      assert (N.of_nat (length (fp st2)) < usize_size ws)%N as Hsm2.
      { pose proof (sublist_length _ _ (fp_coverset_sub G (c :: (hdr G <$> rr G q)) st)) as Hle. unfold st2. lia. }
      rewrite (IH h2 st2 _ Hd2 HL2 Hsm2). split; [done|]. intros s'.
      destruct (solve_helper_spec G HG root fuel depth h2 st2 (partial ++ [rw G q]) Hd2 HL2) as [(sol&h3&E3&_)|(E3&_)]; rewrite E3; cbn [bind].
      - destruct (heap_loop _ _ _ (free_chain fuel) _) as [h4|]; cbn [bind]; [|done].
        destruct (free_chain _ _ _) as [h5|]; cbn [bind]; done.
      - rewrite UL2. cbn [bind]. intros [= <-]. f_equal. rewrite app_length. cbn. rewrite Nat.add_sub. by rewrite take_app. }
    assert (for_skip1 fuel fst n_down c body1 (h1, partial) = for_skip1 fuel fst n_down c body2 (h1, partial)) as ->; [|done].
    apply (ring_cong (fun s => s = (h1, partial)) fst n_down c _ _ h1 ns); [done|by intros s ->| | |done].
    - intros x s Hx ->. by apply Hbody.
    - intros x s s' Hx -> Hs. destruct (Hbody x Hx) as [Hb1 Hb2]. apply Hb2. by rewrite <-Hb1.
  Qed.
End search.

(** * Matrices with some rows fixed *)

Lemma occurs_dec cs r : occurs cs r \/ ~ occurs cs r.
Proof.
  destruct (decide (Exists (fun k => r ∈ k) cs)) as [H|H]; rewrite Exists_exists in H; [left|right]; done.
Qed.
Lemma ready_step fuel cs added mx r : Ready fuel cs added mx ->
  add_solution fuel mx r = Fault UB \/
  exists e mx' added', add_solution fuel mx r = Ret (e, mx') /\ Ready fuel cs added' mx'.
Proof.
  intros HR. pose proof HR as (_&_&G&st0&_&_&_&(T1&_&_)&_&_).
  destruct (decide (r < length (d_rows mx))) as [Hlt|Hlt].
  - apply T1 in Hlt as (r'&Hr&Ho).
    destruct (occurs_dec cs r) as [Hor|Hor]; [destruct (nulled_dec cs added r) as [Hn|Hn]|].
    + right. rewrite (ready_invalid fuel cs added mx r HR); [|by eauto|by right]. eexists _, _, _. split; [done|]. by apply ready_partial.
    + destruct (conflict_dec cs added r) as [Hc|Hc].
      * left. by eapply ready_ub.
      * right. destruct (ready_ok fuel cs added mx r HR Hor Hc) as (mx'&E&HR'&_). eauto.
    + right. rewrite (ready_invalid fuel cs added mx r HR); [|by eauto|by left]. eexists _, _, _. split; [done|]. by apply ready_partial.
  - right. rewrite (ready_index_error fuel cs added mx r HR); [by eauto|]. intros r' Ho.
    destruct (decide (r' < r)) as [|Hge]; [done|]. exfalso. apply Hlt, T1. exists r'. split; [lia|done].
Qed.

Lemma add_reduced_eq fuel cs added mx r : Ready fuel cs added mx -> add_reduced ws fuel mx r = add_solution fuel mx r.
Proof.
  intros (Hf&Hroot&G&st0&HS&HL&Hown&(T1&T2&T3)&_&_). unfold add_reduced, add_solution.
  destruct (decide (length (d_rows mx) <= r)) as [Hlt|Hlt]; [done|].
  destruct (vec_get (d_rows mx) r) as [p|] eqn:Hg; cbn [bind]; [|done].
  destruct (decide (p = null)) as [Hp|Hp]; [done|].
  assert (clear_reduced ws fuel p (d_heap mx) (d_rows mx) = clear_rows fuel p (d_heap mx) (d_rows mx)) as ->; [|done].
  assert (d_rows mx !! r = Some p) as Hrow.
  { unfold vec_get, expect in Hg. destruct (d_rows mx !! r); [by injection Hg as ->|done]. }
  assert (occurs cs r) as Ho.
  { destruct (occurs_dec cs r) as [|Ho]; [done|]. rewrite T2 in Hrow; [by injection Hrow as <-|lia|by left]. }
  assert (~ nulled cs added r) as Hn.
  { intros Hn. rewrite T2 in Hrow; [by injection Hrow as <-|lia|by right]. }
  destruct (d_heap mx !! p) as [n|] eqn:Hh.
  2:{ unfold clear_reduced, clear_rows, load. by rewrite Hh. }
  destruct (T3 r Ho Hn) as (p1&Hl&Hrow1). assert (p1 = p) as -> by congruence.
  destruct (last_exists cs G st0 HS r Ho) as (p'&c&ns&Hl'&Hcn&Hpn&Hpr). assert (p' = p) as -> by congruence.
  assert (is_Some (d_heap mx !! p)) as Hs by eauto.
  pose proof (wf_node _ _ _ (s_wf _ _ _ HS) p) as Hpi. rewrite elem_of_nodes in Hpi.
  pose proof (Hpi (ex_intro _ c (ex_intro _ ns (conj Hcn Hpn)))) as Hi.
  pose proof (lv_wf _ _ _ _ _ HL) as HW.
  apply Hown, elem_of_cons in Hs as [->|(d&ms&Hd&[->|Hm])%elem_of_fp].
  - apply (wf_key _ _ _ HW) in Hi; [done|apply elem_of_list_here].
  - apply (wf_key _ _ _ HW) in Hi; [done|]. apply elem_of_list_further, elem_of_list_fmap. by exists (d, ms).
  - by eapply clear_reduced_eq.
Qed.

Lemma solve_ready_eq fuel cs added mx : Ready fuel cs added mx -> (N.of_nat (matrix_size cs) < usize_size ws)%N ->
  solve_reduced ws fuel fuel (d_root mx) (d_heap mx) (d_partial mx) = solve_helper fuel fuel (d_root mx) (d_heap mx) (d_partial mx).
Proof.
  intros (Hf&->&G&st0&HS&HL&_&_&_&_) Hsm. eapply solve_reduced_eq; [apply (s_good _ _ _ HS)| |exact HL|].
  - apply within_live. eapply Nat.le_lt_trans; [|exact Hf]. rewrite <-(s_size _ _ _ HS).
    etrans; [apply coverset_length_le|]. clear. induction st0 as [|[c ns] st IH]; [done|].
    rewrite fp_cons. cbn [length]. rewrite app_length. lia.
  - pose proof (sublist_length _ _ (fp_coverset_sub G (fixed G added) st0)) as Hle. rewrite (s_size _ _ _ HS) in Hle. lia.
Qed.

End width.
