(** Algorithm X on lists of columns. *)
From Verif Require Import Base Dlx DlxSeg DlxCover DlxColumn SpecDlx.

Lemma exact_cover_perm cs S S' : S ≡ₚ S' -> exact_cover cs S -> exact_cover cs S'.
Proof.
  intros Hp (H1&H2&H3). split_and!.
  - by rewrite <-Hp.
  - intros k Hk. destruct (H2 k Hk) as (r&[Hr1 Hr2]&Hu). exists r. split; [by rewrite <-Hp|].
    intros r'. rewrite <-Hp. apply Hu.
  - intros r. rewrite <-Hp. apply H3.
Qed.

Section sets.
  Context (G : rows_info) (HG : good_rows G).

  Definition cols (st : cstate) : list (list nat) := (fun p : ptr * list ptr => rw G <$> p.2) <$> st.
  Lemma elem_of_cols k st : k ∈ cols st <-> exists c ns, (c, ns) ∈ st /\ k = rw G <$> ns.
  Proof.
    unfold cols. rewrite elem_of_list_fmap. split.
    - intros ([c ns]&->&H). eauto.
    - intros (c&ns&H&->). by exists (c, ns).
  Qed.

  Lemma coverset_nil st : coverset G [] st = st.
  Proof.
    unfold coverset. rewrite filter_id by (intros x _; apply not_elem_of_nil).
    etrans; [|apply list_fmap_id]. apply list_fmap_ext. intros i [c ns] _. cbn. f_equal.
    apply filter_id. intros q _ (?&?&?&_&H%elem_of_nil&_)%elem_of_rows_of. done.
  Qed.
  Lemma coverset_ext D E st : (forall x, x ∈ D <-> x ∈ E) -> coverset G D st = coverset G E st.
  Proof.
    intros H. unfold coverset.
    assert (filter (fun p : ptr * list ptr => p.1 ∉ D) st = filter (fun p => p.1 ∉ E) st) as ->.
    { apply filter_ext_in. intros x _. by rewrite H. }
    apply list_fmap_ext. intros i [c ns] _. cbn. f_equal. apply filter_ext_in. intros q _.
    rewrite !elem_of_rows_of. setoid_rewrite H. done.
  Qed.
  Lemma fp_coverset_sub D st : fp (coverset G D st) `sublist_of` fp st.
  Proof.
    unfold coverset. generalize (rows_of G D st). intros R.
    induction st as [|[c ns] st IH]; [done|]. destruct (decide (c ∉ D)).
    - rewrite filter_cons_True by done. rewrite fmap_cons. cbn [fst snd]. rewrite !fp_cons.
      apply sublist_skip, sublist_app; [|done]. clear. induction ns as [|x ns IH]; [done|].
      destruct (decide (rw G x ∉ R)).
      + rewrite filter_cons_True by done. by apply sublist_skip.
      + rewrite filter_cons_False by done. by apply sublist_cons.
    - rewrite filter_cons_False by done. rewrite fp_cons. apply sublist_cons.
      by apply sublist_inserts_l.
  Qed.
  Lemma coverset_coverset D E st : coverset G E (coverset G D st) = coverset G (D ++ E) st.
  Proof.
    assert (forall q, rw G q ∉ rows_of G D st ->
      rw G q ∈ rows_of G E (coverset G D st) <-> rw G q ∈ rows_of G (D ++ E) st) as HR.
    { intros q Hq. rewrite !elem_of_rows_of. split.
      - intros (c&ns&x&(Hc&ns'&Hin&->)%elem_of_coverset&HE&[Hx1 Hx2]%elem_of_list_filter&Heq).
        exists c, ns', x. rewrite elem_of_app. auto.
      - intros (c&ns&x&Hin&HDE&Hx&Heq). apply elem_of_app in HDE as [HD|HE].
        + exfalso. apply Hq. apply elem_of_rows_of. eauto 10.
        + exists c, (filter (fun q => rw G q ∉ rows_of G D st) ns), x.
          rewrite elem_of_coverset, elem_of_list_filter. split_and!; [|eauto|done|by rewrite Heq|done|done].
          intros HD. apply Hq. apply elem_of_rows_of. eauto 10. }
    assert (forall q, rw G q ∉ rows_of G (D ++ E) st <->
       rw G q ∉ rows_of G E (coverset G D st) /\ rw G q ∉ rows_of G D st) as HR2.
    { intros q. split.
      - intros Hq. assert (rw G q ∉ rows_of G D st) as HqD.
        { intros (c&ns&x&Hin&HD&Hx&Heq)%elem_of_rows_of. apply Hq, elem_of_rows_of.
          exists c, ns, x. rewrite elem_of_app. auto. }
        split; [|done]. by rewrite HR.
      - intros [H1 H2]. by rewrite <-HR. }
    unfold coverset at 1 3. clear HR.
    generalize dependent (rows_of G (D ++ E) st). intros RDE.
    generalize (rows_of G E (coverset G D st)). intros RE HR2.
    unfold coverset. generalize dependent (rows_of G D st). intros RD HR2.
    induction st as [|[c ns] st IH]; [done|].
    destruct (decide (c ∉ D)) as [HD|HD]; [destruct (decide (c ∉ E)) as [HE|HE]|].
    - rewrite (filter_cons_True _ (c, ns)) by done. rewrite fmap_cons. cbn [fst snd].
      rewrite (filter_cons_True _ (c, _)) by done. rewrite fmap_cons. cbn [fst snd].
      rewrite (filter_cons_True _ (c, ns)) by (cbn; rewrite elem_of_app; tauto).
      rewrite fmap_cons, <-IH. cbn [fst snd]. f_equal. f_equal.
      rewrite list_filter_filter. apply filter_ext_in. intros q _. rewrite HR2. done.
    - rewrite (filter_cons_True _ (c, ns)) by done. rewrite fmap_cons. cbn [fst snd].
      rewrite (filter_cons_False _ (c, _)) by done.
      rewrite (filter_cons_False _ (c, ns)); [done|]. cbn. rewrite elem_of_app. tauto.
    - rewrite (filter_cons_False _ (c, ns)) by done.
      rewrite (filter_cons_False _ (c, ns)); [done|]. cbn. rewrite elem_of_app. tauto.
  Qed.
  Lemma coverset_length_le D st : length (coverset G D st) <= length st.
  Proof. unfold coverset. rewrite fmap_length. apply filter_length. Qed.
  Lemma coverset_length_lt c D st : c ∈ D -> c ∈ st.*1 -> length (coverset G D st) < length st.
  Proof.
    intros HD ([c' ns]&->&Hin)%elem_of_list_fmap. unfold coverset. rewrite fmap_length.
    eapply filter_length_lt; [exact Hin|]. cbn in *. tauto.
  Qed.

  Lemma wfst_coverset root D st : NoDup (fp st) -> wfst G root st -> wfst G root (coverset G D st).
  Proof.
    intros Hnd [W1 W2 W3 W4]. split.
    - intros x Hx. apply W1. rewrite coverset_keys in Hx.
      apply elem_of_cons in Hx as [->|[_ Hx]%elem_of_list_filter]; [apply elem_of_list_here|by apply elem_of_list_further].
    - intros c ns q (Hc&ns'&Hin&->)%elem_of_coverset [_ Hq]%elem_of_list_filter. by eapply W2.
    - intros q [Hq _]%elem_of_nodes_coverset; [|done]. by apply W3.
    - intros q x [Hq Hr]%elem_of_nodes_coverset Hx; [|done]. apply elem_of_nodes_coverset; [done|].
      split; [by eapply W4|]. by rewrite (gr_rw G HG _ _ Hx).
  Qed.

  (** A column contains row [r] iff it is the column of a node of that row. *)
  Lemma row_in_col root st q c ns :
    wfst G root st -> q ∈ nodes st -> (c, ns) ∈ st -> NoDup (fp st) ->
    rw G q ∈ rw G <$> ns <-> c ∈ hdr G <$> rl G (rw G q).
  Proof.
    intros HW Hq Hc Hnd. rewrite !elem_of_list_fmap. split.
    - intros (x&Hr&Hx). exists x. split.
      + symmetry. by eapply (wf_hdr _ _ _ HW).
      + rewrite Hr. apply (wf_node _ _ _ HW), elem_of_nodes. eauto.
    - intros (x&Hh&Hx). exists x. split; [symmetry; by apply (gr_rw G HG)|].
      apply (wf_closed _ _ _ HW q) in Hx; [|done].
      apply elem_of_nodes in Hx as (d&ms&Hd&Hx).
      rewrite (wf_hdr _ _ _ HW _ _ _ Hd Hx) in Hh. subst d.
      destruct (fp_disjoint st c ns c ms c Hnd Hc Hd) as [_ ->]; [apply elem_of_list_here..|done].
  Qed.

  (** Selecting row [r] leaves the columns it does not satisfy and the rows
      compatible with it. *)
  Lemma exact_cover_step root st q S :
    wfst G root st -> NoDup (fp st) -> q ∈ nodes st ->
    exact_cover (cols st) (rw G q :: S) <->
    exact_cover (cols (coverset G (hdr G <$> rl G (rw G q)) st)) S.
  Proof.
    intros HW Hnd Hq. set (r := rw G q). set (D := hdr G <$> rl G r).
    assert (forall c ns, (c, ns) ∈ st -> r ∈ rw G <$> ns <-> c ∈ D) as HD.
    { intros c ns Hc. by eapply row_in_col. }
    assert (forall s, s ∈ rows_of G D st <-> exists c ns, (c, ns) ∈ st /\ r ∈ rw G <$> ns /\ s ∈ rw G <$> ns) as Hdead.
    { intros s. rewrite elem_of_rows_of. split.
      - intros (c&ns&x&Hc&HcD&Hx&<-). exists c, ns. split_and!; [done|by apply HD in Hc as [_ Hc]; apply Hc|by apply elem_of_list_fmap_1].
      - intros (c&ns&Hc&Hr&(x&->&Hx)%elem_of_list_fmap). exists c, ns, x. apply (HD c ns) in Hr; auto. }
    assert (exists c ns, (c, ns) ∈ st /\ r ∈ rw G <$> ns) as (c0&ns0&Hc0&Hr0).
    { apply elem_of_nodes in Hq as (c&ns&Hc&Hq). exists c, ns. split; [done|]. by apply elem_of_list_fmap_1. }
    split.
    - intros (N1&N2&N3). apply NoDup_cons in N1 as [HrS N1].
      assert (forall s c ns, s ∈ S -> (c, ns) ∈ st -> r ∈ rw G <$> ns -> s ∈ rw G <$> ns -> False) as Hno.
      { intros s c ns Hs Hc Hr Hs'. destruct (N2 (rw G <$> ns)) as (t&_&Hu); [apply elem_of_cols; eauto|].
        assert (t = r) as -> by (apply Hu; split; [apply elem_of_list_here|done]).
        assert (r = s) as -> by (apply Hu; split; [by apply elem_of_list_further|done]). done. }
      split_and!; [done| |].
      + intros k (c&ns''&(HcD&ns&Hc&->)%elem_of_coverset&->)%elem_of_cols.
        destruct (N2 (rw G <$> ns)) as (t&[Ht1 Ht2]&Hu); [apply elem_of_cols; eauto|].
        assert (t <> r) as Htr by (intros ->; by apply HcD, (HD c ns)).
        exists t. split.
        * split; [by apply elem_of_cons in Ht1 as [?|?]|].
          apply elem_of_list_fmap in Ht2 as (x&->&Hx). apply elem_of_list_fmap_1, elem_of_list_filter.
          split; [|done]. intros (c'&ns'&Hc'&Hr'&Hs')%Hdead.
          eapply Hno; [|exact Hc'|exact Hr'|exact Hs']. by apply elem_of_cons in Ht1 as [?|?].
        * intros t' [Ht1' Ht2']. apply Hu. split; [by apply elem_of_list_further|].
          apply elem_of_list_fmap in Ht2' as (x&->&[_ Hx]%elem_of_list_filter). by apply elem_of_list_fmap_1.
      + intros s Hs. destruct (N3 s) as (k&(c&ns&Hc&->)%elem_of_cols&Hk); [by apply elem_of_list_further|].
        exists (rw G <$> filter (fun q => rw G q ∉ rows_of G D st) ns). split.
        * apply elem_of_cols. exists c. eexists. split; [|done]. apply elem_of_coverset. split; [|eauto].
          intros HcD. eapply Hno; [done|exact Hc|by apply (HD c ns)|done].
        * apply elem_of_list_fmap in Hk as (x&->&Hx). apply elem_of_list_fmap_1, elem_of_list_filter.
          split; [|done]. intros (c'&ns'&Hc'&Hr'&Hs')%Hdead. by eapply Hno.
    - intros (N1&N2&N3).
      assert (forall s, s ∈ S -> s ∉ rows_of G D st) as Hlive.
      { intros s Hs. destruct (N3 s Hs) as (k&(c&ns''&(HcD&ns&Hc&->)%elem_of_coverset&->)%elem_of_cols&Hk).
        apply elem_of_list_fmap in Hk as (x&->&[Hx _]%elem_of_list_filter). done. }
      split_and!.
      + apply NoDup_cons. split; [|done]. intros HrS. apply Hlive in HrS. apply HrS, Hdead. eauto.
      + intros k (c&ns&Hc&->)%elem_of_cols. destruct (decide (c ∈ D)) as [HcD|HcD].
        * exists r. assert (r ∈ rw G <$> ns) as Hr by (by apply (HD c ns)).
          split; [split; [apply elem_of_list_here|done]|].
          intros s [[->|Hs]%elem_of_cons Hs']; [done|]. exfalso. apply (Hlive s Hs), Hdead. eauto.
        * destruct (N2 (rw G <$> filter (fun q => rw G q ∉ rows_of G D st) ns)) as (t&[Ht1 Ht2]&Hu).
          { apply elem_of_cols. exists c. eexists. split; [|done]. apply elem_of_coverset. eauto. }
          exists t. split.
          -- split; [by apply elem_of_list_further|].
             apply elem_of_list_fmap in Ht2 as (x&->&[_ Hx]%elem_of_list_filter). by apply elem_of_list_fmap_1.
          -- intros s [[->|Hs]%elem_of_cons Hs']; [by apply (HD c ns) in Hs'|].
             apply Hu. split; [done|]. apply elem_of_list_fmap in Hs' as (x&->&Hx).
             apply elem_of_list_fmap_1, elem_of_list_filter. split; [by apply Hlive|done].
      + intros s [->|Hs]%elem_of_cons.
        * exists (rw G <$> ns0). split; [apply elem_of_cols; eauto|done].
        * destruct (N3 s Hs) as (k&(c&ns''&(HcD&ns&Hc&->)%elem_of_coverset&->)%elem_of_cols&Hk).
          exists (rw G <$> ns). split; [apply elem_of_cols; eauto|].
          apply elem_of_list_fmap in Hk as (x&->&[_ Hx]%elem_of_list_filter). by apply elem_of_list_fmap_1.
  Qed.

  Lemma exact_cover_pick st c ns S :
    (c, ns) ∈ st -> exact_cover (cols st) S ->
    exists q S', q ∈ ns /\ S ≡ₚ rw G q :: S' /\ exact_cover (cols st) (rw G q :: S').
  Proof.
    intros Hc HS. pose proof HS as (_&N2&_). destruct (N2 (rw G <$> ns)) as (t&[Ht1 Ht2]&_); [apply elem_of_cols; eauto|].
    apply elem_of_list_fmap in Ht2 as (q&->&Hq). apply elem_of_Permutation in Ht1 as (S'&HS').
    exists q, S'. split_and!; [done|done|]. by eapply exact_cover_perm.
  Qed.

  (** What is freed together with a column. *)
  Definition blk (c : ptr) (ns : list ptr) : list ptr := c :: mjoin ((fun q => q :: rr G q) <$> ns).
  Lemma elem_of_blk c ns x : x ∈ blk c ns <-> x = c \/ exists q, q ∈ ns /\ (x = q \/ x ∈ rr G q).
  Proof.
    unfold blk. rewrite elem_of_cons, elem_of_list_join. setoid_rewrite elem_of_list_fmap. split.
    - intros [->|(l&Hx&q&->&Hq)]; [by left|right]. exists q. by apply elem_of_cons in Hx.
    - intros [->|(q&Hq&Hx)]; [by left|right]. exists (q :: rr G q). rewrite elem_of_cons. eauto.
  Qed.
  Lemma blk_NoDup root st c ns : wfst G root st -> NoDup (fp st) -> (c, ns) ∈ st -> root ∉ fp st -> NoDup (blk c ns).
  Proof.
    intros HW Hnd Hc Hroot. pose proof (NoDup_key_split _ _ _ Hc Hnd) as Hcol. apply NoDup_cons in Hcol as [Hcns Hns].
    assert (forall q, q ∈ ns -> isnode G q) as Hin.
    { intros q Hq. apply (wf_node _ _ _ HW), elem_of_nodes. eauto. }
    apply NoDup_cons. split.
    - intros Hx. assert (c = c \/ c = c) as _ by auto.
      assert (c ∈ blk c ns) as _ by apply elem_of_list_here.
      apply elem_of_list_join in Hx as (l&Hx&(q&->&Hq)%elem_of_list_fmap).
      assert (~ isnode G c) as Hnc.
      { apply (wf_key _ _ _ HW), elem_of_list_further, elem_of_list_fmap. by exists (c, ns). }
      apply elem_of_cons in Hx as [->|Hx]; [by apply Hnc, Hin|].
      apply Hnc. eapply rr_isnode; [done|by apply Hin|done].
    - apply NoDup_mjoin; [done| |].
      + intros q Hq. rewrite (gr_rr G HG _ _ (Hin q Hq)). eapply NoDup_fmap_1, (gr_hdr G HG).
      + intros x y b Hx Hy Hbx Hby.
        rewrite (gr_rr G HG _ _ (Hin x Hx)) in Hbx. rewrite (gr_rr G HG _ _ (Hin y Hy)) in Hby.
        pose proof (gr_rw G HG _ _ Hbx) as E1. pose proof (gr_rw G HG _ _ Hby) as E2.
        apply (hdr_inj G HG (rw G x)); [by apply Hin|rewrite <-E1, E2; by apply Hin|].
        rewrite (wf_hdr _ _ _ HW c ns x Hc Hx). by rewrite (wf_hdr _ _ _ HW c ns y Hc Hy).
  Qed.

  (** Covering [c] splits the columns into what [c] owns and the rest. *)
  Lemma fp_split root st c ns x :
    wfst G root st -> NoDup (fp st) -> (c, ns) ∈ st ->
    x ∈ fp st <-> x ∈ blk c ns \/ x ∈ fp (coverset G [c] st).
  Proof.
    intros HW Hnd Hc. split.
    - intros (d&ms&Hd&Hx)%elem_of_fp. destruct (decide (d = c)) as [->|Hdc].
      + destruct (fp_disjoint st c ns c ms c Hnd Hc Hd) as [_ <-]; [apply elem_of_list_here..|].
        left. apply elem_of_blk. destruct Hx as [->|Hx]; [by left|right; eauto].
      + destruct Hx as [->|Hx].
        * right. apply keys_fp. rewrite coverset_keys. apply elem_of_list_filter.
          rewrite elem_of_list_singleton. split; [done|]. apply elem_of_list_fmap. by exists (d, ms).
        * assert (x ∈ nodes st) as Hxn by (apply elem_of_nodes; eauto).
          destruct (decide (rw G x ∈ rows_of G [c] st)) as [Hr|Hr].
          -- left. apply elem_of_rows_of in Hr as (c'&ns'&q&Hc'&->%elem_of_list_singleton&Hq&Hrw).
             destruct (fp_disjoint st c ns c ns' c Hnd Hc Hc') as [_ <-]; [apply elem_of_list_here..|].
             apply elem_of_blk. right. exists q. split; [done|].
             assert (isnode G q) as Hqn by (apply (wf_node _ _ _ HW), elem_of_nodes; eauto).
             assert (x ∈ q :: rr G q) as Hx'.
             { rewrite (gr_rr G HG _ _ Hqn), Hrw. by apply (wf_node _ _ _ HW). }
             by apply elem_of_cons in Hx'.
          -- right. apply nodes_fp. apply elem_of_nodes_coverset; done.
    - intros [Hx|Hx].
      + apply elem_of_blk in Hx as [->|(q&Hq&Hx)].
        * apply keys_fp, elem_of_list_fmap. by exists (c, ns).
        * apply nodes_fp. assert (q ∈ nodes st) as Hqn by (apply elem_of_nodes; eauto).
          destruct Hx as [->|Hx]; [done|]. eapply (wf_closed _ _ _ HW); [done|].
          apply (elem_of_rr G HG) in Hx as [Hx _]; [done|by apply (wf_node _ _ _ HW)].
      + eapply sublist_elem; [apply fp_coverset_sub|done].
  Qed.
  Lemma fp_split_disjoint root st c ns x :
    wfst G root st -> NoDup (fp st) -> (c, ns) ∈ st ->
    x ∈ blk c ns -> x ∈ fp (coverset G [c] st) -> False.
  Proof.
    intros HW Hnd Hc Hb Hf.
    assert (forall y, isnode G y -> y ∈ fp (coverset G [c] st) -> rw G y ∉ rows_of G [c] st) as Hn.
    { intros y Hy (d&ms&Hd&Hym)%elem_of_fp. destruct Hym as [->|Hym].
      - exfalso. apply (wf_key _ _ _ (wfst_coverset root [c] st Hnd HW) d); [|done].
        apply elem_of_list_further, elem_of_list_fmap. by exists (d, ms).
      - assert (y ∈ nodes (coverset G [c] st)) as H by (apply elem_of_nodes; eauto).
        apply elem_of_nodes_coverset in H; [tauto|done]. }
    apply elem_of_blk in Hb as [->|(q&Hq&Hx)].
    - apply elem_of_fp in Hf as (d&ms&(Hd&ms'&Hin&->)%elem_of_coverset&Hx).
      assert (d = c) as ->; [|apply Hd, elem_of_list_here].
      destruct (fp_disjoint st d ms' c ns c Hnd Hin Hc); [|apply elem_of_list_here|done].
      destruct Hx as [->|[_ Hx]%elem_of_list_filter]; [apply elem_of_list_here|by apply elem_of_list_further].
    - assert (isnode G q) as Hqn by (apply (wf_node _ _ _ HW), elem_of_nodes; eauto).
      assert (isnode G x /\ rw G x = rw G q) as [Hxn Hxr].
      { destruct Hx as [->|Hx]; [done|]. split; [by eapply rr_isnode|by apply rr_rw]. }
      apply (Hn x Hxn) in Hf. apply Hf. rewrite Hxr. apply elem_of_rows_of.
      exists c, ns, q. split_and!; [done|apply elem_of_list_here|done|done].
  Qed.
End sets.
