(** [add_solution], [solve] and [drop] on a matrix with rows already fixed. *)
From Verif Require Import Base Dlx SpecDlxSearch DlxSeg DlxCover DlxColumn SpecDlx DlxSets DlxSearch DlxBuild DlxNew.

Section add.
  Context (G : rows_info) (HG : good_rows G) (root : ptr) (fuel : nat).
  Notation Live := (Live G root fuel).

  Definition Owned (h : heap) (st : cstate) : Prop := forall x, is_Some (h !! x) <-> x ∈ root :: fp st.

  Lemma live_frame h h' st :
    (forall x, x ∈ root :: fp st -> h' !! x = h !! x) -> Live h st -> Live h' st.
  Proof.
    intros Hx [HR HW Hrow Hf]. pose proof HR as [R1 R2 R3 R4 R5].
    assert (forall x, x ∈ st.*1 -> h' !! x = h !! x) as Hk.
    { intros x H. by apply Hx, elem_of_list_further, keys_fp. }
    split; [split| |..]; try done.
    - eapply seg_frame_eq; [|exact R1]. intros y Hy.
      rewrite elem_of_cons, elem_of_app, elem_of_list_singleton in Hy.
      destruct Hy as [->|[Hy| ->]]; [apply Hx, elem_of_list_here|by apply Hk|apply Hx, elem_of_list_here].
    - intros c ns Hc. destruct (R2 c ns Hc) as (H1&H2&H3&H4).
      assert (forall y, y ∈ c :: ns -> h' !! y = h !! y) as Hy.
      { intros y Hy. apply Hx, elem_of_list_further, elem_of_fp. exists c, ns. split; [done|]. by apply elem_of_cons in Hy. }
      split_and!.
      + eapply seg_frame_eq; [|exact H1]. intros y Hin. apply Hy.
        rewrite elem_of_cons, elem_of_app, elem_of_list_singleton in Hin. rewrite elem_of_cons. tauto.
      + rewrite <-H2. apply fld_eq, Hy, elem_of_list_here.
      + rewrite <-H3. apply fld_eq, Hy, elem_of_list_here.
      + intros q Hq. rewrite <-(H4 q Hq). apply fld_eq, Hy. by apply elem_of_list_further.
    - rewrite <-R5. apply fld_eq, Hx, elem_of_list_here.
    - intros q Hq. destruct (Hrow q Hq) as [H1 H2 H3].
      assert (forall y, y ∈ q :: rr G q -> h' !! y = h !! y) as Hy.
      { intros y [->|Hy]%elem_of_cons; apply Hx, elem_of_list_further, nodes_fp; [done|].
        eapply (wf_closed _ _ _ HW); [exact Hq|]. by apply (elem_of_rr G HG) in Hy as [? _]; [|apply (wf_node _ _ _ HW)]. }
      split.
      + eapply seg_frame_eq; [|exact H1]. intros y Hin. apply Hy.
        rewrite elem_of_cons, elem_of_app, elem_of_list_singleton in Hin. rewrite elem_of_cons. tauto.
      + rewrite <-H2. apply fld_eq, Hy, elem_of_list_here.
      + rewrite <-H3. apply fld_eq, Hy, elem_of_list_here.
  Qed.

  (** Fixing the row of node [p]: mod.rs:73-80. *)
  Definition commit (p : ptr) (h : heap) : res heap :=
    let! n := load h p in
    let first_next := if decide (n_right n = p) then null else n_right n in
    let! h := cover_column fuel p h in
    let! (h, _) := for_from fuel id n_right p first_next
                     (fun x h => let! h := cover_column fuel x h in Ret (h, false)) h in
    let! h := heap_loop fuel n_right p (free_chain fuel) h in
    free_chain fuel p h.

  Lemma commit_spec h st c ns q :
    Live h st -> Owned h st -> (c, ns) ∈ st -> q ∈ ns ->
    exists h', commit q h = Ret h' /\
      Live h' (coverset G (hdr G <$> rl G (rw G q)) st) /\
      Owned h' (coverset G (hdr G <$> rl G (rw G q)) st).
  Proof.
    intros HL Hown Hc Hq.
    pose proof (lv_rep _ _ _ _ _ HL) as HR. pose proof (lv_nd _ _ _ _ _ HL) as Hnd.
    pose proof (lv_wf _ _ _ _ _ HL) as HW.
    assert (q ∈ nodes st) as Hqn by (apply elem_of_nodes; eauto).
    pose proof (wf_node _ _ _ HW q Hqn) as Hqi.
    pose proof (lv_row _ _ _ _ _ HL q Hqn) as Hqrow0.
    assert (to_header h q = Ret c) as Hth.
    { apply to_header_fld. exists c. split; [by apply (rep_col _ _ _ HR c ns)|]. rewrite decide_False; [done|].
      intros ->. eapply (lv_null _ _ _ _ _ null HL); [|done]. apply elem_of_fp. eauto. }
    destruct (live_cover G HG root fuel h st c ns q HL Hc Hth) as (h1&E1&HL1&U1&C1&F1).
    unfold commit. pose proof (seg_fwd _ _ _ _ _ _ (ro_ring _ _ _ Hqrow0)) as Hqfwd0.
    pose proof (fwd_first _ _ _ _ _ Hqfwd0) as (n&Hn&Hright)%fld_Some.
    unfold load at 1. rewrite Hn. cbn [bind]. rewrite E1. cbn [bind].
    pose proof (fz_row _ _ _ _ F1 q Hq) as Hqrow.
    assert (forall y, y ∈ rr G q -> y ∈ nodes st) as Hmates.
    { intros y Hy. eapply (wf_closed _ _ _ HW); [exact Hqn|].
      by apply (elem_of_rr G HG) in Hy as [? _]. }
    assert (forall y, y ∈ rr G q -> rowok G h1 y) as Hmrow.
    { intros y Hy. eapply rowok_calm; [done|exact C1|apply (wf_key _ _ _ HW)|..].
      - by apply (wf_node _ _ _ HW), Hmates.
      - by apply (lv_row _ _ _ _ _ HL), Hmates. }
    assert (forall y, y ∈ rr G q -> fld n_header h1 y = Some (hdr G y)) as Hmh.
    { intros y Hy. by apply (ro_hdr _ _ _ (Hmrow y Hy)). }
    assert (forall y, y ∈ rr G q -> hdr G y ∈ (coverset G [c] st).*1) as Hmk.
    { intros y Hy. rewrite coverset_keys. apply elem_of_list_filter. split.
      - rewrite elem_of_list_singleton, <-(wf_hdr _ _ _ HW c ns q Hc Hq). by apply (rr_hdr G HG).
      - pose proof (Hmates y Hy) as (d&ms&Hdm&Hym)%elem_of_nodes.
        rewrite (wf_hdr _ _ _ HW d ms y Hdm Hym). apply elem_of_list_fmap. by exists (d, ms). }
    assert (NoDup (hdr G <$> (q :: rr G q))) as Hmnd.
    { rewrite (gr_rr G HG _ _ Hqi). apply (gr_hdr G HG). }
    rewrite fmap_cons in Hmnd. apply NoDup_cons in Hmnd as [Hqh Hmnd].
    assert (null ∉ rr G q) as Hmnull.
    { intros Hin. eapply (lv_null _ _ _ _ _ null HL); [|done]. by apply nodes_fp, Hmates. }
    assert (q ∉ rr G q) as Hself by (intros Hin; by apply (elem_of_rr G HG) in Hin as [_ ?]).
    assert (length (rr G q) <= fuel) as Hmlen.
    { etrans; [|exact (lv_fuel _ _ _ _ _ HL)]. apply subset_length; [by apply (rr_NoDup G HG)|].
      intros x Hx. by apply nodes_fp, Hmates. }
    destruct (covers_loop G HG root fuel h1 (coverset G [c] st) q (rr G q)) as (h2&E2&EL2&_); try done.
    { intros y [->|Hy]%elem_of_cons; [done|]. by apply (wf_node _ _ _ HW), Hmates. }
    { apply (ro_ring _ _ _ Hqrow). }
    destruct (covers_spec G HG root fuel h1 (coverset G [c] st) (rr G q)) as (h2'&fz&E2'&HL2&C2&F2&Hbnd&Hsplit&Hdis); try done.
    assert (h2' = h2) as -> by congruence. clear E2'.
    rewrite coverset_coverset in HL2, Hsplit, Hdis. cbn [app] in HL2, Hsplit, Hdis.
    assert (exists b, for_from fuel id n_right q (if decide (n_right n = q) then null else n_right n)
      (fun x h => let! h := cover_column fuel x h in Ret (h, false)) h1 = Ret (h2, b)) as [b Ef].
    { unfold heap_loop, for_skip1 in EL2.
      assert (exists n1, h1 !! q = Some n1 /\ n_right n1 = n_right n) as (n1&Hn1&Hr1).
      { apply fld_Some. rewrite (c_right _ _ _ _ C1); [apply fld_Some; eauto|].
        intros Hin. by apply (wf_key _ _ _ HW) in Hin. }
      unfold load in EL2. change (id h1) with h1 in EL2. rewrite Hn1 in EL2. cbn [bind] in EL2. rewrite Hr1 in EL2.
      destruct (for_from _ _ _ _ _ _ _) as [[hh b]|]; [|done]. cbn [bind] in EL2. injection EL2 as ->. by exists b. }
    rewrite Ef. cbn [bind].
    assert (coverset G (hdr G <$> rl G (rw G q)) st = coverset G (c :: (hdr G <$> rr G q)) st) as ->.
    { apply coverset_ext. intros x. rewrite <-(wf_hdr _ _ _ HW c ns q Hc Hq), <-fmap_cons.
      by rewrite (gr_rr G HG _ _ Hqi). }
    set (st2 := coverset G (c :: (hdr G <$> rr G q)) st) in *.
    assert (forall x, x ∈ fp st <-> x ∈ blk G c ns \/ x ∈ blks G fz \/ x ∈ fp st2) as Hall.
    { intros x. rewrite (fp_split G HG root st c ns x HW Hnd Hc), Hsplit. done. }
    assert (forall x, x ∈ blk G c ns -> x ∉ blks G fz /\ x ∉ fp st2) as Hbc.
    { intros x Hx. split; intros Hx'; eapply (fp_split_disjoint G HG root st c ns x HW Hnd Hc Hx); apply Hsplit; auto. }
    assert (forall x, x ∈ blk G c ns -> h2 !! x = h1 !! x) as H21.
    { intros x Hx. apply (c_out _ _ _ _ C2). rewrite not_elem_of_cons. split.
      - intros ->. apply (lv_root _ _ _ _ _ HL). apply Hall. tauto.
      - intros Hx'. by eapply (fp_split_disjoint G HG root st c ns x HW Hnd Hc Hx). }
    assert (forall x, x ∈ q :: rr G q -> x ∈ blk G c ns) as Hqblk.
    { intros x Hx. apply elem_of_blk. right. exists q. split; [done|]. by apply elem_of_cons in Hx. }
    assert (forall y, y ∈ q :: rr G q -> h2 !! y = h1 !! y) as Hq21.
    { intros y Hy. apply H21. by apply Hqblk. }
    assert (NoDup (blk G c ns)) as Hbcnd.
    { eapply blk_NoDup; [done|exact HW|done|done|]. by apply (lv_root G root fuel h). }
    destruct (frees_loop G fuel h2 q (rr G q) fz) as (h4&E4&Her4); try done.
    { intros Hin. eapply (lv_null _ _ _ _ _ null HL); [|done]. apply Hall. tauto. }
    { etrans; [|exact (lv_fuel _ _ _ _ _ HL)]. apply subset_length; [done|]. intros x Hx. apply Hall. tauto. }
    { intros y Hy. by apply Hbc, Hqblk. }
    { intros y Hy. rewrite <-(Hmh y Hy). apply fld_eq, Hq21. by apply elem_of_list_further. }
    { eapply seg_frame_eq; [|exact (ro_ring _ _ _ Hqrow)]. intros y Hy. apply Hq21.
      rewrite elem_of_cons, elem_of_app, elem_of_list_singleton in Hy. rewrite elem_of_cons. tauto. }
    rewrite E4. cbn [bind].
    assert (forall x, x ∈ blk G c ns -> h4 !! x = h1 !! x) as H41.
    { intros x Hx. rewrite (erased_out _ _ _ _ Her4) by (by apply Hbc). by apply H21. }
    destruct (free_chain_spec G fuel h4 c ns q) as (h5&E5&Her5); try done.
    { eapply frozen_frame; [exact H41|done]. }
    { eapply to_header_frame; [|exact Hth]. rewrite <-(c_header _ _ _ _ C1).
      apply fld_eq, H41. apply Hqblk, elem_of_list_here. }
    { intros Hin. eapply (lv_null _ _ _ _ _ null HL); [|done]. apply Hall. tauto. }
    { etrans; [|exact (lv_fuel _ _ _ _ _ HL)]. apply subset_length; [done|]. intros x Hx. apply Hall. tauto. }
    exists h5. split_and!; [done| |].
    - eapply live_frame; [|exact HL2]. intros x Hx.
      assert (x ∉ blk G c ns /\ x ∉ blks G fz) as [N1 N2].
      { apply elem_of_cons in Hx as [->|Hx].
        - split; intros Hin; apply (lv_root _ _ _ _ _ HL), Hall; tauto.
        - split; intros Hin; [by apply Hbc in Hin as [_ ?]|by eapply Hdis]. }
      rewrite (erased_out _ _ _ _ Her5) by done. by apply (erased_out _ _ _ _ Her4).
    - intros x. rewrite Her5. destruct (decide (x ∈ blk G c ns)) as [Hb|Hb].
      { split; [by intros []|]. intros [->|Hx]%elem_of_cons.
        - exfalso. apply (lv_root _ _ _ _ _ HL), Hall. tauto.
        - by apply Hbc in Hb as [_ ?]. }
      rewrite Her4. destruct (decide (x ∈ blks G fz)) as [Hb2|Hb2].
      { split; [by intros []|]. intros [->|Hx]%elem_of_cons.
        - exfalso. apply (lv_root _ _ _ _ _ HL), Hall. tauto.
        - exfalso. by eapply Hdis. }
      rewrite (c_dom _ _ _ _ C2), (c_dom _ _ _ _ C1), (Hown x), !elem_of_cons, Hall. tauto.
  Qed.

  (** mod.rs:69-71 *)
  Lemma clear_rows_spec h st c ns q rows :
    Live h st -> (c, ns) ∈ st -> q ∈ ns -> (forall y, y ∈ ns -> rw G y < length rows) ->
    exists rows', clear_rows fuel q h rows = Ret rows' /\ length rows' = length rows /\
      forall r, rows' !! r = if decide (r ∈ rw G <$> ns) then Some null else rows !! r.
  Proof.
    intros HL Hc Hq Hlt.
    pose proof (lv_rep _ _ _ _ _ HL) as HR. pose proof (lv_nd _ _ _ _ _ HL) as Hnd.
    destruct (rep_col _ _ _ HR c ns Hc) as (Hseg&_&_&Hh).
    pose proof (seg_fwd _ _ _ _ _ _ Hseg) as Hfwd.
    pose proof (NoDup_key_split _ _ _ Hc Hnd) as [Hcns Hnsnd]%NoDup_cons.
    unfold clear_rows. pose proof (Hh q Hq) as (n&Hn&Hnh)%fld_Some.
    unfold load at 1. rewrite Hn. cbn [bind]. rewrite Hnh.
    destruct (for_skip1_J
      (fun l1 (s : heap * list ptr) => s.1 = h /\ length s.2 = length rows /\
         forall r, s.2 !! r = if decide (r ∈ rw G <$> l1) then Some null else rows !! r)
      (fun _ => False) fst n_down c
      (fun x '(h, rows) =>
         let! nx := load h x in
         let! rows := vec_set rows (n_row nx) null in
         Ret ((h, rows), false)) ns fuel (h, rows)) as ([g rows']&stop&E&Hpost).
    - etrans; [|exact (lv_fuel _ _ _ _ _ HL)]. apply subset_length; [done|]. intros x Hx. apply elem_of_fp. eauto.
    - intros Hin. eapply (lv_null _ _ _ _ _ null HL); [|done]. apply elem_of_fp. eauto.
    - done.
    - by apply fwd_first.
    - intros l1 x l2 [g rs] Hl (Hg&Hlen&Hrs). cbn [fst snd] in *. subst g.
      assert (x ∈ ns) as Hx by (rewrite Hl, elem_of_app; right; apply elem_of_list_here).
      split; [eapply fwd_at; by rewrite <-Hl|].
      assert (rowok G h x) as [_ _ Hrow] by (apply (lv_row _ _ _ _ _ HL), elem_of_nodes; eauto).
      apply fld_Some in Hrow as (nx&Hnx&Hnr). unfold load. rewrite Hnx. cbn [bind]. rewrite Hnr.
      unfold vec_set. rewrite decide_True by (rewrite Hlen; by apply Hlt). cbn [bind].
      eexists _, false. split; [done|]. cbn [fst snd]. split_and!; [done|by rewrite insert_length|].
      intros r. rewrite fmap_app. cbn [fmap list_fmap]. destruct (decide (r = rw G x)) as [->|Hr].
      + rewrite list_lookup_insert by (rewrite Hlen; by apply Hlt). rewrite decide_True; [done|].
        rewrite elem_of_app. right. apply elem_of_list_here.
      + rewrite list_lookup_insert_ne by done. rewrite Hrs.
        apply decide_ext. rewrite elem_of_app, elem_of_list_singleton. tauto.
    - cbn [fst snd]. split_and!; [done|done|]. intros r. rewrite decide_False; [done|]. apply not_elem_of_nil.
    - rewrite E. cbn [bind]. destruct stop; [done|]. cbn [fst snd] in Hpost. destruct Hpost as (_&H1&H2).
      exists rows'. done.
  Qed.

  Lemma solve_spec mx st :
    d_root mx = root -> Live (d_heap mx) st -> Owned (d_heap mx) st -> length st < fuel ->
    (exists sol, solve fuel mx = Ret (Ok (d_partial mx ++ sol), ∅) /\ exact_cover (cols G st) sol /\ knuth (cols G st) = Some sol) \/
    (solve fuel mx = Ret (Err DlxNoSolution, ∅) /\ (forall sel, ~ exact_cover (cols G st) sel) /\ knuth (cols G st) = None).
  Proof.
    intros Hroot HL Hown Hlen. unfold solve. rewrite Hroot.
    destruct (solve_helper_spec G HG root fuel fuel (d_heap mx) st (d_partial mx) (within_live G _ _ Hlen) HL) as [(sol&h'&E&Hsol&[F1 F2 F3]&Hk)|[E Hno]];
      rewrite E; cbn [bind].
    - left. exists sol. split; [|done].
      rewrite (matrix_drop_spec fuel root h' []); [done|done|cbn; lia|].
      intros x Hx. change (fp []) with (@nil ptr). rewrite elem_of_list_singleton.
      destruct (decide (x ∈ root :: fp st)) as [Hin|Hout].
      + apply elem_of_cons in Hin as [?|Hin]; [done|]. rewrite (F2 x Hin) in Hx. by destruct Hx.
      + rewrite (F3 x Hout) in Hx. by apply Hown in Hx.
    - right. split; [|done]. rewrite (matrix_drop_spec fuel root (d_heap mx) st); [done|by apply lv_rep in HL|by apply lv_fuel in HL|].
      intros x. apply Hown.
  Qed.
End add.
