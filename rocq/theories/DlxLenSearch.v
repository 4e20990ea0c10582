(** Whatever column a search branches on, it finds an exact cover if there is
    one. *)
From Verif Require Import Base Dlx DlxSeg DlxCover DlxColumn SpecDlx SpecDlxSearch DlxSets DlxKnuth DlxSearch DlxBuild DlxNew DlxAdd DlxReady.
From Verif Require Import DlxLook.

Lemma coverset_shorter G S st c ns : (c, ns) ∈ st -> c ∈ S -> length (coverset G S st) < length st.
Proof.
  intros Hc HS. unfold coverset. rewrite fmap_length. eapply filter_length_lt; [exact Hc|]. cbn. tauto.
Qed.

Section search.
  (** The numbers of rows are read correctly. *)
  Context (look : N -> node -> nat) (Hlook : forall p n, n_header n <> null -> look p n = n_row n).
  Context (G : rows_info) (HG : good_rows G) (root : ptr) (fuel : nat).
  (** Columns are covered. *)
  Context (cover : ptr -> heap -> res heap) (Hcover : forall h st c ns p,
    Live G root fuel h st -> (c, ns) ∈ st -> to_header h p = Ret c -> cover p h = cover_column fuel p h).

  (** Some column is chosen. *)
  Lemma choose_look_spec h st : Rep root h st -> length (fp st) <= fuel -> st <> [] ->
    exists c ns, choose_look look fuel root h = Ret c /\ (c, ns) ∈ st.
  Proof.
    intros HR Hfuel Hne. pose proof (rep_nd _ _ _ HR) as [Hroot Hnd]%NoDup_cons.
    pose proof (seg_fwd _ _ _ _ _ _ (rep_ring _ _ _ HR)) as Hfwd.
    unfold choose_look.
    match goal with |- context [for_skip1 _ _ _ _ ?b _] => set (body := b) end.
    destruct (for_skip1_J (fun l1 (s : heap * option (ptr * nat)) =>
        s.1 = h /\ match s.2 with None => l1 = [] | Some (c, _) => c ∈ st.*1 end) (fun _ => False)
      fst n_right root body st.*1 fuel (h, None)) as ([g b]&stop&E&Hpost).
    - etrans; [|exact Hfuel]. apply subset_length; [|intros x; apply (keys_fp x st)].
      clear -Hnd. induction st as [|[c ns] st IH]; [constructor|].
      rewrite fp_cons in Hnd. apply NoDup_cons in Hnd as [Hc Hnd]. apply NoDup_app in Hnd as (_&_&Hnd).
      rewrite fmap_cons. apply NoDup_cons. split; [|by apply IH]. intros Hin%keys_fp. apply Hc.
      rewrite elem_of_app. by right.
    - intros Hin%keys_fp. apply (rep_null _ _ _ HR). by apply elem_of_list_further.
    - by intros Hin%keys_fp.
    - by apply fwd_first.
    - intros l1 x l2 [g b] Hl (Hg&Hbest). cbn [fst snd] in *. subst g.
      split; [eapply fwd_at; by rewrite <-Hl|].
      assert (x ∈ st.*1) as Hx by (rewrite Hl, elem_of_app; right; apply elem_of_list_here).
      pose proof Hx as ([c ns]&->&Hc)%elem_of_list_fmap. cbn [fst] in *.
      destruct (rep_col _ _ _ HR c ns Hc) as (_&(n&Hn&Hrow)%fld_Some&_&_).
      unfold body, load. rewrite Hn. cbn [bind].
      destruct b as [[c0 k0]|]; [|by eexists _, false].
      destruct (decide _); by eexists _, false.
    - done.
    - rewrite E. cbn [bind snd]. destruct stop; [done|]. destruct Hpost as (_&Hbest). cbn [snd] in Hbest.
      destruct b as [[c k]|]; [|by destruct st].
      apply elem_of_list_fmap in Hbest as ([d ns]&->&Hc). cbn. by exists d, ns.
  Qed.

  Lemma solve_look_spec depth : forall h st partial,
    length st < depth -> Live G root fuel h st ->
    (exists sol h', solve_look look cover fuel depth root h partial = Ret (h', partial ++ sol, true) /\
       exact_cover (cols G st) sol /\ freed root h h' st) \/
    (solve_look look cover fuel depth root h partial = Ret (h, partial, false) /\
       (forall sel, ~ exact_cover (cols G st) sel)).
  Proof.
    induction depth as [|depth IH]; intros h st partial Hd HL; [lia|].
    cbn [solve_look]. cbv zeta. pose proof (lv_rep _ _ _ _ _ HL) as HR. pose proof (lv_nd _ _ _ _ _ HL) as Hnd.
    pose proof (lv_wf _ _ _ _ _ HL) as HW.
    pose proof (seg_fwd _ _ _ _ _ _ (rep_ring _ _ _ HR)) as Hfwd.
    pose proof (fwd_first _ _ _ _ _ Hfwd) as (nr&Hnr&Hright)%fld_Some.
    assert (is_empty root h = Ret (bool_decide (first_or st.*1 root = root))) as ->.
    { unfold is_empty, load. rewrite Hnr. cbn [bind]. by rewrite Hright. }
    cbn [bind].
    destruct (decide (st = [])) as [->|Hne].
    - left. exists [], h. rewrite bool_decide_eq_true_2 by done. split_and!.
      + by rewrite app_nil_r.
      + split_and!; [constructor|intros k Hk%elem_of_nil; done|intros r Hr%elem_of_nil; done].
      + split; [done|intros x Hx%elem_of_nil; done|done].
    - rewrite bool_decide_eq_false_2.
      2:{ destruct st as [|[c ns] st]; [done|]. cbn. intros ->.
          apply (lv_root _ _ _ _ _ HL). rewrite fp_cons. apply elem_of_list_here. }
      destruct (choose_look_spec h st (lv_rep _ _ _ _ _ HL) (lv_fuel _ _ _ _ _ HL) Hne) as (c&ns&Ech&Hc).
      rewrite Ech. cbn [bind].
      assert (to_header h c = Ret c) as Hth.
      { apply to_header_fld. exists null. split; [by apply (rep_col _ _ _ HR c ns)|]. by rewrite decide_True. }
      destruct (live_cover G HG root fuel h st c ns c HL Hc Hth) as (h1&E1&HL1&U1&C1&F1).
      rewrite (Hcover _ _ _ _ _ HL Hc Hth), E1. cbn [bind].
      pose proof (seg_fwd _ _ _ _ _ _ (fz_col _ _ _ _ F1)) as Hfwd1.
      assert (NoDup (c :: ns)) as Hcns by (by eapply NoDup_key_split).
      apply NoDup_cons in Hcns as [Hcns Hnsnd].
      assert (forall q, q ∈ ns -> q ∈ nodes st) as Hnode by (intros q Hq; apply elem_of_nodes; eauto).
      match goal with |- context [for_skip1 _ _ _ _ ?b _] => set (body := b) end.
      destruct (for_skip1_J
        (fun l1 (s : heap * list nat) => s = (h1, partial) /\
           (forall q, q ∈ l1 -> forall sel, ~ exact_cover (cols G st) (rw G q :: sel)))
        (fun s => exists sol, s.2 = partial ++ sol /\ exact_cover (cols G st) sol /\ freed root h s.1 st)
        fst n_down c body ns fuel (h1, partial)) as ([g par]&stop&E&Hpost).
      + etrans; [|exact (lv_fuel _ _ _ _ _ HL)]. apply subset_length; [done|]. intros x Hx. by apply nodes_fp, Hnode.
      + intros Hin. eapply (lv_null _ _ _ _ _ null HL); [|done]. by apply nodes_fp, Hnode.
      + done.
      + by apply fwd_first.
      + intros l1 q l2 s Hl (->&Hno). cbn [fst].
        assert (q ∈ ns) as Hq by (rewrite Hl, elem_of_app; right; apply elem_of_list_here).
        split; [eapply fwd_at; by rewrite <-Hl|].
        pose proof (Hnode q Hq) as Hqn. pose proof (wf_node _ _ _ HW q Hqn) as Hqi.
        pose proof (fz_row _ _ _ _ F1 q Hq) as Hqrow.
        destruct (ro_row _ _ _ Hqrow) as [].
        pose proof (ro_row _ _ _ Hqrow) as (n&Hn&Hnrow)%fld_Some.
        assert (n_header n <> null) as Hnh.
        { pose proof (ro_hdr _ _ _ Hqrow) as (n'&Hn'&Hnh)%fld_Some. rewrite Hn in Hn'. injection Hn' as <-. rewrite Hnh.
          rewrite (wf_hdr _ _ _ HW c ns q Hc Hq). intros ->. eapply (lv_null _ _ _ _ _ null HL); [|done].
          apply elem_of_fp. exists null, ns. auto. }
        unfold body, load. rewrite Hn. cbn [bind]. cbv zeta. rewrite (Hlook _ _ Hnh), Hnrow. clear n Hn Hnrow Hnh.
        assert (forall y, y ∈ rr G q -> y ∈ nodes st) as Hmates.
        { intros y Hy. eapply (wf_closed _ _ _ HW); [exact Hqn|].
          by apply (elem_of_rr G HG) in Hy as [? _]. }
        assert (forall y, y ∈ rr G q -> rowok G h1 y) as Hmrow.
        { intros y Hy. eapply rowok_calm; [done|exact C1|apply (wf_key _ _ _ HW)|..].
          - by apply (wf_node _ _ _ HW), Hmates.
          - by apply (lv_row _ _ _ _ _ HL), Hmates. }
        assert (forall y, y ∈ rr G q -> fld n_header h1 y = Some (hdr G y)) as Hmh.
        { intros y Hy. by apply (ro_hdr _ _ _ (Hmrow y Hy)). }
        assert (forall y, y ∈ rr G q -> hdr G y ∈ (coverset G [c] st).*1) as Hmk.
        { intros y Hy. rewrite coverset_keys. apply elem_of_list_filter. split.
          - rewrite elem_of_list_singleton, <-(wf_hdr _ _ _ HW c ns q Hc Hq). by apply (rr_hdr G HG).
          - pose proof (Hmates y Hy) as (d&ms&Hdm&Hym)%elem_of_nodes.
            rewrite (wf_hdr _ _ _ HW d ms y Hdm Hym). apply elem_of_list_fmap. by exists (d, ms). }
        assert (NoDup (hdr G <$> (q :: rr G q))) as Hmnd.
        { rewrite (gr_rr G HG _ _ Hqi). apply (gr_hdr G HG). }
        rewrite fmap_cons in Hmnd. apply NoDup_cons in Hmnd as [Hqh Hmnd].
        assert (null ∉ rr G q) as Hmnull.
        { intros Hin. eapply (lv_null _ _ _ _ _ null HL); [|done]. by apply nodes_fp, Hmates. }
        assert (q ∉ rr G q) as Hself by (intros Hin; by apply (elem_of_rr G HG) in Hin as [_ ?]).
        assert (length (rr G q) <= fuel) as Hmlen.
        { etrans; [|exact (lv_fuel _ _ _ _ _ HL)]. apply subset_length; [by apply (rr_NoDup G HG)|].
          intros x Hx. by apply nodes_fp, Hmates. }
        destruct (covers_loop G HG root fuel h1 (coverset G [c] st) q (rr G q)) as (h2&E2&EL2&UL2); try done.
        { intros y [->|Hy]%elem_of_cons; [done|]. by apply (wf_node _ _ _ HW), Hmates. }
        { apply (ro_ring _ _ _ Hqrow). }
        assert (heap_loop fuel n_right q cover h1 = Ret h2) as EL2'.
        { destruct (covers_loop_like G HG root fuel cover h1 (coverset G [c] st) q (rr G q) Hcover) as (h2'&E2'&->); try done.
          - intros y [->|Hy]%elem_of_cons; [done|]. by apply (wf_node _ _ _ HW), Hmates.
          - apply (ro_ring _ _ _ Hqrow).
          - congruence. }
        destruct (covers_spec G HG root fuel h1 (coverset G [c] st) (rr G q)) as (h2'&fz&E2'&HL2&C2&F2&Hbnd&Hsplit&Hdis); try done.
        assert (h2' = h2) as -> by congruence. clear E2'.
        rewrite coverset_coverset in HL2, Hsplit, Hdis. cbn [app] in HL2, Hsplit, Hdis.
        rewrite EL2'. cbn [bind].
        set (st2 := coverset G (c :: (hdr G <$> rr G q)) st) in *.
        assert (forall sel, exact_cover (cols G st) (rw G q :: sel) <-> exact_cover (cols G st2) sel) as Hec.
        { intros sel. rewrite (exact_cover_step G HG root st q sel HW Hnd Hqn). unfold st2.
          rewrite (coverset_ext G (hdr G <$> rl G (rw G q)) (c :: (hdr G <$> rr G q))); [done|].
          intros x. rewrite <-(wf_hdr _ _ _ HW c ns q Hc Hq), <-fmap_cons.
          by rewrite (gr_rr G HG _ _ Hqi). }
        assert (length st2 < depth) as Hd2.
        { assert (length st2 < length st); [|lia]. apply (coverset_shorter G (c :: (hdr G <$> rr G q)) st c ns Hc).
          apply elem_of_list_here. }
        destruct (IH h2 st2 (partial ++ [rw G q]) Hd2 HL2) as [(sol&h3&E3&Hsol&Hfr)|(E3&Hnone)]; rewrite E3; cbn [bind].
        * (* success: free the covered columns *)
          assert (forall x, x ∈ fp st <-> x ∈ blk G c ns \/ x ∈ blks G fz \/ x ∈ fp st2) as Hall.
          { intros x. rewrite (fp_split G HG root st c ns x HW Hnd Hc), Hsplit. done. }
          assert (forall x, x ∈ blk G c ns -> x ∉ blks G fz /\ x ∉ fp st2) as Hbc.
          { intros x Hx. split; intros Hx'; eapply (fp_split_disjoint G HG root st c ns x HW Hnd Hc Hx); apply Hsplit; auto. }
          assert (forall x, x ∈ blk G c ns \/ x ∈ blks G fz -> h3 !! x = h2 !! x) as H32.
          { intros x Hx. apply (fr_out _ _ _ _ Hfr). rewrite not_elem_of_cons. split.
            - intros ->. apply (lv_root _ _ _ _ _ HL). apply Hall. tauto.
            - destruct Hx as [Hx|Hx]; [by apply Hbc|]. intros Hx'. by eapply Hdis. }
          assert (forall x, x ∈ blk G c ns -> h2 !! x = h1 !! x) as H21.
          { intros x Hx. apply (c_out _ _ _ _ C2). rewrite not_elem_of_cons. split.
            - intros ->. apply (lv_root _ _ _ _ _ HL). apply Hall. tauto.
            - intros Hx'. by eapply (fp_split_disjoint G HG root st c ns x HW Hnd Hc Hx). }
          assert (forall x, x ∈ q :: rr G q -> x ∈ blk G c ns) as Hqblk.
          { intros x Hx. apply elem_of_blk. right. exists q. split; [done|]. by apply elem_of_cons in Hx. }
          assert (forall y, y ∈ q :: rr G q -> h3 !! y = h1 !! y) as H31.
          { intros y Hy. rewrite H32 by (left; by apply Hqblk). apply H21. by apply Hqblk. }
          assert (NoDup (blk G c ns)) as Hbcnd.
          { eapply blk_NoDup; [done|exact HW|done|done|]. by apply (lv_root _ _ _ _ _ HL). }
          destruct (frees_loop G fuel h3 q (rr G q) fz) as (h4&E4&Her4); try done.
          { eapply Forall2_impl_in; [|exact F2]. intros y [d ms] Hdm [? Hfz]. split; [done|].
            eapply frozen_frame; [|exact Hfz]. intros x Hx. apply H32. right. apply elem_of_blks. eauto. }
          { intros Hin. eapply (lv_null _ _ _ _ _ null HL); [|done]. apply Hall. tauto. }
          { etrans; [|exact (lv_fuel _ _ _ _ _ HL)]. apply subset_length; [done|]. intros x Hx. apply Hall. tauto. }
          { intros y Hy. by apply Hbc, Hqblk. }
          { intros y Hy. rewrite <-(Hmh y Hy). apply fld_eq, H31. by apply elem_of_list_further. }
          { eapply seg_frame_eq; [|exact (ro_ring _ _ _ Hqrow)]. intros y Hy. apply H31.
            rewrite elem_of_cons, elem_of_app, elem_of_list_singleton in Hy. rewrite elem_of_cons. tauto. }
          rewrite E4. cbn [bind].
          assert (forall x, x ∈ blk G c ns -> h4 !! x = h1 !! x) as H41.
          { intros x Hx. rewrite (erased_out _ _ _ _ Her4) by (by apply Hbc).
            rewrite H32 by (by left). by apply H21. }
          destruct (free_chain_spec G fuel h4 c ns c) as (h5&E5&Her5); try done.
          { eapply frozen_frame; [exact H41|done]. }
          { eapply to_header_frame; [|exact Hth]. rewrite <-(c_header _ _ _ _ C1).
            apply fld_eq, H41, elem_of_list_here. }
          { intros Hin. eapply (lv_null _ _ _ _ _ null HL); [|done]. apply Hall. tauto. }
          { etrans; [|exact (lv_fuel _ _ _ _ _ HL)]. apply subset_length; [done|]. intros x Hx. apply Hall. tauto. }
          rewrite E5. cbn [bind]. eexists _, true. split; [done|]. cbn [fst snd].
          exists (rw G q :: sol). split_and!.
          -- by rewrite <-app_assoc.
          -- by apply Hec.
          -- split.
             ++ eapply Rep_nil_frame; [|exact (fr_rep _ _ _ _ Hfr)].
                rewrite (erased_out _ _ _ _ Her5); [apply (erased_out _ _ _ _ Her4)|];
                  intros Hin; apply (lv_root _ _ _ _ _ HL), Hall; tauto.
             ++ intros x [Hx|[Hx|Hx]]%Hall.
                ** rewrite Her5. by rewrite decide_True.
                ** rewrite Her5. destruct (decide _); [done|]. rewrite Her4. by rewrite decide_True.
                ** rewrite Her5. destruct (decide _); [done|]. rewrite Her4. destruct (decide _); [done|].
                   by apply (fr_in _ _ _ _ Hfr).
             ++ intros x Hx. rewrite not_elem_of_cons, Hall in Hx.
                rewrite (erased_out _ _ _ _ Her5) by tauto. rewrite (erased_out _ _ _ _ Her4) by tauto.
                rewrite (fr_out _ _ _ _ Hfr) by (rewrite not_elem_of_cons; tauto).
                rewrite (c_out _ _ _ _ C2).
                2:{ rewrite not_elem_of_cons, Hsplit. tauto. }
                apply (c_out _ _ _ _ C1). rewrite not_elem_of_cons, Hall. tauto.
        * (* failure: restore *)
          rewrite UL2. cbn [bind]. eexists _, false. split; [done|]. split.
          -- f_equal. rewrite app_length. cbn. rewrite Nat.add_sub. by rewrite take_app.
          -- intros x [Hx|Hx]%elem_of_app sel Hsel; [by eapply Hno|].
             apply elem_of_list_singleton in Hx as ->. by eapply Hnone, Hec.
      + split; [done|intros q Hq%elem_of_nil; done].
      + rewrite E. cbn [bind fst snd]. destruct stop.
        * destruct Hpost as (sol&Hpar&Hsol&Hfr). cbn [fst snd] in *. subst par. left. eauto 10.
        * destruct Hpost as (Hs&Hno). injection Hs as -> ->. right. rewrite U1. cbn [bind]. split; [done|].
          intros sel Hsel. destruct (exact_cover_pick G st c ns sel Hc Hsel) as (q&S'&Hq&_&Hec).
          by eapply Hno.
  Qed.
End search.
