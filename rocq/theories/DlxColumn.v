(** cover_column and uncover_column. *)
From Verif Require Import Base Dlx DlxSeg DlxCover.

Lemma filter_ext_in {A} (P Q : A -> Prop) `{!forall x, Decision (P x)} `{!forall x, Decision (Q x)} (l : list A) :
  (forall x, x ∈ l -> P x <-> Q x) -> filter P l = filter Q l.
Proof.
  induction l as [|x l IH]; intros Hpq; [done|].
  assert (filter P l = filter Q l) as Heq.
  { apply IH. intros y Hy. apply Hpq. by apply elem_of_list_further. }
  pose proof (Hpq x (elem_of_list_here _ _)) as Hx.
  destruct (decide (P x)).
  - rewrite !filter_cons_True by tauto. by rewrite Heq.
  - rewrite !filter_cons_False by tauto. done.
Qed.

Lemma NoDup_mjoin {A B} (f : A -> list B) (l : list A) :
  NoDup l -> (forall x, x ∈ l -> NoDup (f x)) ->
  (forall x y b, x ∈ l -> y ∈ l -> b ∈ f x -> b ∈ f y -> x = y) -> NoDup (mjoin (f <$> l)).
Proof.
  induction l as [|x l IH]; intros Hnd Hf Hd; [constructor|].
  apply NoDup_cons in Hnd as [Hx Hnd]. change (mjoin (f <$> x :: l)) with (f x ++ mjoin (f <$> l)).
  apply NoDup_app. split_and!.
  - apply Hf, elem_of_list_here.
  - intros b Hb Hb'. apply elem_of_list_join in Hb' as (fy&Hb'&(y&->&Hy)%elem_of_list_fmap).
    apply Hx. rewrite (Hd x y b); [done|apply elem_of_list_here|by apply elem_of_list_further|done|done].
  - apply IH; [done| |].
    + intros y Hy. apply Hf. by apply elem_of_list_further.
    + intros y z b Hy Hz. apply Hd; by apply elem_of_list_further.
Qed.
Lemma mjoin_app {A} (l1 l2 : list (list A)) : mjoin (l1 ++ l2) = mjoin l1 ++ mjoin l2.
Proof.
  induction l1 as [|x l1 IH]; [done|]. change (x ++ mjoin (l1 ++ l2) = (x ++ mjoin l1) ++ mjoin l2).
  by rewrite IH, app_assoc.
Qed.

Lemma subset_length (l k : list ptr) : NoDup l -> (forall x, x ∈ l -> x ∈ k) -> length l <= length k.
Proof. intros H1 H2. apply submseteq_length. by apply NoDup_submseteq. Qed.

Section rows.
  Context (G : rows_info) (HG : good_rows G).

  Lemma hdr_inj r q x : q ∈ rl G r -> x ∈ rl G r -> hdr G q = hdr G x -> q = x.
  Proof.
    intros Hq Hx Heq. pose proof (gr_hdr G HG r) as Hnd.
    apply elem_of_list_lookup in Hq as [i Hi], Hx as [j Hj].
    assert (i = j) as <-; [|congruence].
    eapply (NoDup_lookup (hdr G <$> rl G r) i j (hdr G q) Hnd); rewrite list_lookup_fmap; [rewrite Hi|rewrite Hj]; cbn; congruence.
  Qed.
  Lemma elem_of_rr q x : isnode G q -> x ∈ rr G q <-> x ∈ rl G (rw G q) /\ x <> q.
  Proof.
    intros Hq. pose proof (gr_rr G HG _ _ Hq) as Hp.
    assert (NoDup (q :: rr G q)) as Hnd.
    { rewrite Hp. eapply NoDup_fmap_1. apply (gr_hdr G HG). }
    apply NoDup_cons in Hnd as [Hqr Hnd]. rewrite <-Hp, elem_of_cons. split.
    - intros Hx. split; [by right|]. by intros ->.
    - intros [[->|Hx] Hne]; done.
  Qed.
  Lemma rr_NoDup q : isnode G q -> NoDup (rr G q).
  Proof.
    intros Hq. pose proof (gr_rr G HG _ _ Hq) as Hp.
    assert (NoDup (q :: rr G q)) as Hnd.
    { rewrite Hp. eapply NoDup_fmap_1. apply (gr_hdr G HG). }
    by apply NoDup_cons in Hnd as [_ Hnd].
  Qed.
  Lemma rr_rw q x : isnode G q -> x ∈ rr G q -> rw G x = rw G q.
  Proof. intros Hq [Hx _]%elem_of_rr; [|done]. by apply (gr_rw G HG). Qed.
  Lemma rr_isnode q x : isnode G q -> x ∈ rr G q -> isnode G x.
  Proof. intros Hq Hx. pose proof Hx as [Hx' _]%elem_of_rr; [|done]. unfold isnode. by rewrite (rr_rw q x). Qed.
  Lemma rr_hdr q x : isnode G q -> x ∈ rr G q -> hdr G x <> hdr G q.
  Proof.
    intros Hq [Hx Hne]%elem_of_rr Heq; [|done]. apply Hne.
    by apply (hdr_inj (rw G q)).
  Qed.

  Lemma rowok_calm A C h h' q :
    calm A C h h' -> (forall x, x ∈ C -> ~ isnode G x) -> isnode G q -> rowok G h q -> rowok G h' q.
  Proof.
    intros Hc HC Hq [R1 R2 R3].
    assert (forall y, y ∈ q :: rr G q -> y ∉ C) as Hn.
    { intros y [->|Hy]%elem_of_cons Hin; apply HC in Hin; [done|]. apply Hin. by eapply rr_isnode. }
    split.
    - eapply seg_frame; [| |exact R1].
      + intros y Hy. apply (c_right _ _ _ _ Hc). by apply Hn.
      + intros y Hy. apply (c_left _ _ _ _ Hc). apply Hn.
        apply elem_of_app in Hy. rewrite elem_of_list_singleton in Hy. rewrite elem_of_cons. tauto.
    - by rewrite (c_header _ _ _ _ Hc).
    - rewrite (c_row _ _ _ _ Hc); [done|]. apply Hn, elem_of_list_here.
  Qed.

  Section cover.
    Context (root : ptr) (fuel : nat) (h : heap) (s1 s2 : cstate) (c : ptr) (ns : list ptr).
    Notation st := (s1 ++ (c, ns) :: s2).
    Context (HR : Rep root h st) (HW : wfst G root st) (Hok : forall q, q ∈ nodes st -> rowok G h q).
    Context (Hfuel : length (fp st) <= fuel).

    Local Lemma c_in : (c, ns) ∈ st.
    Proof. rewrite elem_of_app. right. apply elem_of_list_here. Qed.
    Local Lemma st_nd : NoDup (fp st).
    Proof. pose proof (rep_nd _ _ _ HR) as H. by apply NoDup_cons in H as []. Qed.
    Local Lemma ns_nd : NoDup (c :: ns).
    Proof. eapply NoDup_key_split; [apply c_in|apply st_nd]. Qed.
    Local Lemma ns_node q : q ∈ ns -> q ∈ nodes st.
    Proof. intros Hq. apply elem_of_nodes. exists c, ns. split; [apply c_in|done]. Qed.
    Local Lemma ns_isnode q : q ∈ ns -> isnode G q.
    Proof. intros Hq. by apply (wf_node _ _ _ HW), ns_node. Qed.
    Local Lemma other_nodes q : q ∈ nodes st -> q ∈ ns \/ q ∈ nodes (s1 ++ s2).
    Proof.
      rewrite !elem_of_nodes. intros (d&ms&Hd&Hq).
      apply elem_of_app in Hd as [Hd|Hd]; [|apply elem_of_cons in Hd as [Hd|Hd]].
      - right. exists d, ms. rewrite elem_of_app. auto.
      - left. by injection Hd as -> ->.
      - right. exists d, ms. rewrite elem_of_app. auto.
    Qed.
    Local Lemma mates_other q x : q ∈ ns -> x ∈ rr G q -> x ∈ nodes (s1 ++ s2).
    Proof.
      intros Hq Hx. pose proof (ns_isnode q Hq) as Hqn.
      pose proof Hx as [Hx' _]%elem_of_rr; [|done].
      apply (wf_closed _ _ _ HW q x (ns_node q Hq)) in Hx'.
      apply other_nodes in Hx' as [Hx'|Hx']; [|done]. exfalso.
      apply (rr_hdr q x Hqn Hx).
      rewrite (wf_hdr _ _ _ HW c ns x c_in Hx'). by rewrite (wf_hdr _ _ _ HW c ns q c_in Hq).
    Qed.
    Local Lemma ns_fresh q : q ∈ c :: ns -> q ∉ fp (s1 ++ s2).
    Proof.
      intros Hq. pose proof st_nd as Hnd. rewrite rep_permute_keys, app_comm_cons in Hnd.
      apply NoDup_app in Hnd as (_&Hnd&_). by apply Hnd.
    Qed.

    Notation LL := (mjoin (rr G <$> ns)).
    Local Lemma LL_nd : NoDup LL.
    Proof.
      apply NoDup_mjoin.
      - by pose proof ns_nd as [_ H]%NoDup_cons.
      - intros x Hx. by apply rr_NoDup, ns_isnode.
      - intros x y b Hx Hy Hbx Hby.
        pose proof (rr_rw x b (ns_isnode x Hx) Hbx) as E1.
        pose proof (rr_rw y b (ns_isnode y Hy) Hby) as E2.
        apply (hdr_inj (rw G x)).
        + by apply ns_isnode.
        + rewrite <-E1, E2. by apply ns_isnode.
        + rewrite (wf_hdr _ _ _ HW c ns x c_in Hx). by rewrite (wf_hdr _ _ _ HW c ns y c_in Hy).
    Qed.
    Local Lemma LL_nodes x : x ∈ LL -> x ∈ nodes (s1 ++ s2).
    Proof. intros (l&Hx&(q&->&Hq)%elem_of_list_fmap)%elem_of_list_join. by apply (mates_other q). Qed.
    Local Lemma LL_elem x : x ∈ LL <-> exists q, q ∈ ns /\ x ∈ rr G q.
    Proof.
      rewrite elem_of_list_join. setoid_rewrite elem_of_list_fmap. split.
      - intros (l&Hx&(q&->&Hq)). eauto.
      - intros (q&Hq&Hx). eauto.
    Qed.

    Context (h1 : heap) (HR1 : Rep root h1 (s1 ++ s2)).
    Context (Hcalm : calm (root :: (s1 ++ s2).*1) (root :: (s1 ++ s2).*1) h h1).
    Context (Hcol1 : seg n_down n_up h1 c ns c).

    Local Lemma row_ring1 q : q ∈ ns -> seg n_right n_left h1 q (rr G q) q.
    Proof.
      intros Hq. apply (ro_ring G). eapply rowok_calm; [exact Hcalm| |by apply ns_isnode|by apply Hok, ns_node].
      intros x Hx. apply (wf_key _ _ _ HW).
      rewrite fmap_app in Hx. rewrite fmap_app, fmap_cons, elem_of_cons, elem_of_app, elem_of_cons.
      rewrite elem_of_cons, elem_of_app in Hx. tauto.
    Qed.

    Definition hid (k : list ptr) (g : heap) : Prop := foldM hide k h1 = Ret g.
    Local Lemma hid_total k k' : LL = k ++ k' ->
      exists g, hid k g /\ Rep root g (rm k (s1 ++ s2)) /\ quiet (fp (s1 ++ s2)) (s1 ++ s2).*1 h1 g.
    Proof.
      intros Hk. pose proof LL_nd as Hnd. rewrite Hk in Hnd. apply NoDup_app in Hnd as (Hnd&_&_).
      destruct (hides_spec root h1 (s1 ++ s2) k HR1 Hnd) as (g&E&HRg&_&Hq); [|eauto].
      intros q Hq. apply LL_nodes. rewrite Hk, elem_of_app. by left.
    Qed.
    Local Lemma hid_quiet k k' g : LL = k ++ k' -> hid k g -> quiet (fp (s1 ++ s2)) (s1 ++ s2).*1 h1 g.
    Proof. intros Hk Hg. destruct (hid_total _ _ Hk) as (g'&Hg'&_&Hq). unfold hid in *. assert (g' = g) as -> by congruence. done. Qed.
    Local Lemma hid_step k y k' g : LL = k ++ y :: k' -> hid k g ->
      exists g', hide y g = Ret g' /\ hid (k ++ [y]) g' /\ unhide y g' = Ret g /\
        exists st' d ms, Rep root g st' /\ (d, ms) ∈ st' /\ y ∈ ms /\ length (fp st') <= length (fp (s1 ++ s2)).
    Proof.
      intros Hk Hg. destruct (hid_total _ _ Hk) as (g0&Hg0&HRg&_).
      assert (g0 = g) as -> by (unfold hid in *; congruence).
      assert (y ∈ nodes (rm k (s1 ++ s2))) as (d&ms&Hd&Hy)%elem_of_nodes.
      { apply elem_of_nodes_rm. split.
        - apply LL_nodes. rewrite Hk, elem_of_app. right. apply elem_of_list_here.
        - pose proof LL_nd as Hnd. rewrite Hk in Hnd. apply NoDup_app in Hnd as (_&Hnd&_).
          intros Hin. apply (Hnd y Hin), elem_of_list_here. }
      destruct (hide_spec _ _ _ _ _ _ HRg Hd Hy) as (g'&E&_&U&_). exists g'. split_and!; [done| |done|].
      - unfold hid. rewrite foldM_app, Hg. cbn [bind foldM]. by rewrite E.
      - eexists _, d, ms. split_and!; [exact HRg|done|done|]. apply sublist_length, fp_rm_sub.
    Qed.

    Local Lemma fuel_ns : length ns <= fuel.
    Proof.
      etrans; [|exact Hfuel]. apply subset_length; [by pose proof ns_nd as [_ ?]%NoDup_cons|].
      intros x Hx. apply nodes_fp. by apply ns_node.
    Qed.
    Local Lemma fuel_rr q : q ∈ ns -> length (rr G q) <= fuel.
    Proof.
      intros Hq. etrans; [|exact Hfuel]. apply subset_length; [by apply rr_NoDup, ns_isnode|].
      intros x Hx. apply nodes_fp. eapply (wf_closed _ _ _ HW); [by apply ns_node|].
      apply elem_of_rr in Hx as [Hx _]; [done|by apply ns_isnode].
    Qed.
    Local Lemma nonnull q : q ∈ nodes st -> q <> null.
    Proof. intros Hq ->. apply (rep_null _ _ _ HR). apply elem_of_list_further. by apply nodes_fp. Qed.
    Local Lemma null_ns : null ∉ ns.
    Proof. intros H%ns_node. by apply nonnull in H. Qed.
    Local Lemma null_rr q : q ∈ ns -> null ∉ rr G q.
    Proof.
      intros Hq Hx. apply (mates_other _ _ Hq) in Hx. apply nodes_fp in Hx.
      apply (rep_null _ _ _ HR1). by apply elem_of_list_further.
    Qed.
    Local Lemma self_rr q : q ∈ ns -> q ∉ rr G q.
    Proof. intros Hq Hx. apply elem_of_rr in Hx as [_ Hx]; [done|by apply ns_isnode]. Qed.

    Local Lemma LL_split l1 x l2 : ns = l1 ++ x :: l2 ->
      LL = mjoin (rr G <$> l1) ++ rr G x ++ mjoin (rr G <$> l2).
    Proof. intros ->. rewrite fmap_app, mjoin_app. done. Qed.

    (** The same for everything that hides a node like [hide]. *)
    Lemma cover_loop_like f :
      (forall y g st' d ms, Rep root g st' -> (d, ms) ∈ st' -> y ∈ ms -> length (fp st') <= fuel -> f y g = hide y g) ->
      exists g, heap_loop fuel n_down c (fun row h => heap_loop fuel n_right row f h) h1 = Ret g /\ hid LL g.
    Proof.
      intros Hf.
      pose proof (seg_fwd _ _ _ _ _ _ Hcol1) as Hfwd.
      apply (heap_loop_J (fun l1 g => hid (mjoin (rr G <$> l1)) g)).
      - apply fuel_ns.
      - apply null_ns.
      - by pose proof ns_nd as [? _]%NoDup_cons.
      - by apply fwd_first.
      - intros l1 x l2 g Hl Hg. pose proof (LL_split _ _ _ Hl) as HLL.
        assert (x ∈ ns) as Hx by (rewrite Hl, elem_of_app; right; apply elem_of_list_here).
        split.
        + rewrite <-(fwd_at n_down h1 c l1 x l2 c) by (by rewrite <-Hl). apply fld_eq.
          apply (q_out _ _ _ _ (hid_quiet _ _ _ HLL Hg)). apply ns_fresh. by apply elem_of_list_further.
        + pose proof (row_ring1 x Hx) as Hrow. pose proof (seg_fwd _ _ _ _ _ _ Hrow) as Hrfwd.
          destruct (heap_loop_J (fun k g => hid (mjoin (rr G <$> l1) ++ k) g) n_right x f (rr G x) fuel g)
            as (g'&E&Hg').
          * by apply fuel_rr.
          * by apply null_rr.
          * by apply self_rr.
          * rewrite (q_right _ _ _ _ (hid_quiet _ _ _ HLL Hg)). by apply fwd_first.
          * intros k1 y k2 g1 Hk Hg1.
            assert (LL = (mjoin (rr G <$> l1) ++ k1) ++ y :: (k2 ++ mjoin (rr G <$> l2))) as HLL1.
            { rewrite HLL, Hk, <-!app_assoc. done. }
            split.
            -- rewrite (q_right _ _ _ _ (hid_quiet _ _ _ HLL1 Hg1)). apply (fwd_at n_right h1 x k1). by rewrite <-Hk.
            -- destruct (hid_step _ _ _ _ HLL1 Hg1) as (g2&E&Hg2&_&st'&d&ms&HRg&Hd&Hy&Hle). exists g2.
               split; [|by rewrite app_assoc]. rewrite <-E. eapply Hf; [done..|].
               etrans; [exact Hle|]. etrans; [|exact Hfuel]. rewrite rep_permute_keys. cbn [length]. rewrite app_length. lia.
          * by rewrite app_nil_r.
          * exists g'. split; [done|]. rewrite fmap_app, mjoin_app. cbn. by rewrite app_nil_r.
      - done.
    Qed.
    Lemma cover_loop :
      exists g, heap_loop fuel n_down c (fun row h => heap_loop fuel n_right row hide h) h1 = Ret g /\ hid LL g.
    Proof. by apply cover_loop_like. Qed.

    Lemma uncover_loop g : hid LL g ->
      heap_loop fuel n_up c (fun row h => heap_loop fuel n_left row unhide h) g = Ret h1.
    Proof.
      intros Hg0. pose proof Hcol1 as Hcol2. apply seg_rev in Hcol2.
      pose proof (seg_fwd _ _ _ _ _ _ Hcol2) as Hfwd.
      destruct (heap_loop_J (fun l1 g => exists l2, ns = l2 ++ rev l1 /\ hid (mjoin (rr G <$> l2)) g)
         n_up c (fun row h => heap_loop fuel n_left row unhide h) (rev ns) fuel g) as (g'&->&l2&Hl2&Hg').
      - rewrite rev_length. apply fuel_ns.
      - rewrite elem_of_list_In, <-in_rev, <-elem_of_list_In. apply null_ns.
      - rewrite elem_of_list_In, <-in_rev, <-elem_of_list_In. by pose proof ns_nd as [? _]%NoDup_cons.
      - rewrite <-(fwd_first _ _ _ _ _ Hfwd). apply fld_eq.
        apply (q_out _ _ _ _ (hid_quiet LL [] g (eq_sym (app_nil_r _)) Hg0)). apply ns_fresh, elem_of_list_here.
      - intros l1 x l2 g1 Hl (l3&Hl3&Hg1).
        assert (ns = rev l2 ++ x :: rev l1) as Hns.
        { rewrite <-(rev_involutive ns), Hl, rev_app_distr. cbn. by rewrite <-app_assoc. }
        assert (l3 = rev l2 ++ [x]) as ->.
        { apply (app_inv_tail (rev l1)). rewrite <-Hl3, Hns, <-app_assoc. done. }
        pose proof (LL_split _ _ _ Hns) as HLL.
        assert (LL = mjoin (rr G <$> rev l2 ++ [x]) ++ mjoin (rr G <$> rev l1)) as HLL'.
        { rewrite HLL, fmap_app, mjoin_app. cbn. by rewrite app_nil_r, <-app_assoc. }
        assert (x ∈ ns) as Hx by (rewrite Hns, elem_of_app; right; apply elem_of_list_here).
        split.
        + rewrite <-(fwd_at n_up h1 c l1 x l2 c) by (by rewrite <-Hl). apply fld_eq.
          apply (q_out _ _ _ _ (hid_quiet _ _ _ HLL' Hg1)). apply ns_fresh. by apply elem_of_list_further.
        + pose proof (row_ring1 x Hx) as Hrow. apply seg_rev in Hrow. pose proof (seg_fwd _ _ _ _ _ _ Hrow) as Hrfwd.
          destruct (heap_loop_J (fun k g => exists k2, rr G x = k2 ++ rev k /\ hid (mjoin (rr G <$> rev l2) ++ k2) g)
            n_left x unhide (rev (rr G x)) fuel g1) as (g'&E&k2&Hk2&Hg').
          * rewrite rev_length. by apply fuel_rr.
          * rewrite elem_of_list_In, <-in_rev, <-elem_of_list_In. by apply null_rr.
          * rewrite elem_of_list_In, <-in_rev, <-elem_of_list_In. by apply self_rr.
          * rewrite (q_left _ _ _ _ (hid_quiet _ _ _ HLL' Hg1)). by apply fwd_first.
          * intros k1 y k2 g2 Hk (k3&Hk3&Hg2).
            assert (rr G x = rev k2 ++ y :: rev k1) as Hrr.
            { rewrite <-(rev_involutive (rr G x)), Hk, rev_app_distr. cbn. by rewrite <-app_assoc. }
            assert (k3 = rev k2 ++ [y]) as ->.
            { apply (app_inv_tail (rev k1)). rewrite <-Hk3, Hrr, <-app_assoc. done. }
            assert (LL = (mjoin (rr G <$> rev l2) ++ rev k2) ++ y :: (rev k1 ++ mjoin (rr G <$> rev l1))) as HLL1.
            { rewrite HLL, Hrr, <-!app_assoc. done. }
            split.
            -- rewrite <-(fwd_at n_left h1 x k1 y k2 x) by (by rewrite <-Hk).
               apply (q_left _ _ _ _ (hid_quiet (mjoin (rr G <$> rev l2) ++ rev k2 ++ [y]) (rev k1 ++ mjoin (rr G <$> rev l1)) g2
                  ltac:(rewrite HLL1, <-!app_assoc; done) Hg2)).
            -- destruct (hid_total _ _ HLL1) as (g3&Hg3&_).
               destruct (hid_step _ _ _ _ HLL1 Hg3) as (g4&_&Hg4&U&_).
               assert (g4 = g2) as ->.
               { unfold hid in *. rewrite <-app_assoc in Hg4. congruence. }
               exists g3. split; [done|]. exists (rev k2). split; [|done].
               rewrite Hrr, rev_app_distr. done.
          * exists (rr G x). split; [by rewrite app_nil_r|].
            rewrite fmap_app, mjoin_app in Hg1. cbn in Hg1. by rewrite app_nil_r in Hg1.
          * exists g'. split; [done|]. exists (rev l2). rewrite rev_app_distr. split; [done|].
            rewrite rev_involutive in Hk2. assert (k2 = []) as ->.
            { apply (f_equal length) in Hk2. rewrite app_length in Hk2. destruct k2; [done|cbn in Hk2; lia]. }
            by rewrite app_nil_r in Hg'.
      - exists ns. split; [by rewrite app_nil_r|done].
      - rewrite rev_involutive in Hl2. assert (l2 = []) as ->.
        { apply (f_equal length) in Hl2. rewrite app_length in Hl2. destruct l2; [done|cbn in Hl2; lia]. }
        unfold hid in Hg'. cbn in Hg'. congruence.
    Qed.

    Lemma rm_coverset : rm LL (s1 ++ s2) = coverset G [c] st.
    Proof.
      unfold coverset. assert (filter (fun p : ptr * list ptr => p.1 ∉ [c]) st = s1 ++ s2) as ->.
      { rewrite filter_app, filter_cons_False by (cbn; intros H; apply H, elem_of_list_here).
        rewrite <-filter_app. apply filter_id. intros [d ms] Hd Heq%elem_of_list_singleton. cbn in Heq. subst d.
        apply (ns_fresh c (elem_of_list_here _ _)). apply elem_of_fp. eauto. }
      unfold rm. apply list_fmap_ext. intros i [d ms] Hd%elem_of_list_lookup_2. cbn. f_equal.
      apply filter_ext_in. intros x Hx. rewrite LL_elem, elem_of_rows_of.
      assert (x ∈ nodes st) as Hxn.
      { apply elem_of_nodes. exists d, ms. split; [|done]. apply elem_of_app in Hd.
        rewrite elem_of_app, elem_of_cons. tauto. }
      apply not_iff_compat. split.
      - intros (q&Hq&Hxq). exists c, ns, q. split_and!; [apply c_in|apply elem_of_list_here|done|].
        symmetry. apply rr_rw; [by apply ns_isnode|done].
      - intros (c'&ns'&q&Hc'&->%elem_of_list_singleton&Hq&Hrw).
        rewrite (rep_unique _ _ _ _ _ _ HR Hc' c_in) in Hq.
        exists q. split; [done|]. apply elem_of_rr; [by apply ns_isnode|]. split.
        + rewrite Hrw. by apply (wf_node _ _ _ HW).
        + intros ->. apply (ns_fresh q); [by apply elem_of_list_further|].
          apply nodes_fp, elem_of_nodes. eauto.
    Qed.
  End cover.

  (** Covering a column and, in the resulting state, uncovering it. *)
  Lemma cover_column_spec root fuel h st c ns p :
    Rep root h st -> wfst G root st -> (forall q, q ∈ nodes st -> rowok G h q) ->
    length (fp st) <= fuel -> (c, ns) ∈ st -> to_header h p = Ret c ->
    exists h', cover_column fuel p h = Ret h' /\ Rep root h' (coverset G [c] st) /\
      uncover_column fuel p h' = Ret h /\ calm (root :: fp st) (root :: st.*1) h h' /\
      seg n_down n_up h' c ns c.
  Proof.
    intros HR HW Hok Hfuel Hc Hp.
    apply elem_of_list_split in Hc as (s1&s2&->).
    destruct (cover_horizontal_spec _ _ _ _ _ _ HR) as (h1&E1&HR1&U1&C1&F1).
    assert (seg n_down n_up h1 c ns c) as Hcol1.
    { eapply seg_frame; [| |apply (rep_col _ _ _ HR c ns), c_in]; intros y Hy; apply F1. }
    destruct (cover_loop root fuel h s1 s2 c ns HR HW Hok Hfuel h1 HR1 C1 Hcol1) as (g&E&Hg).
    destruct (hid_total root h s1 s2 c ns HR HW h1 HR1 _ [] (eq_sym (app_nil_r _))) as (g'&Hg'&HRg&Hq).
    assert (g' = g) as -> by (unfold hid in *; congruence).
    assert (calm (root :: fp (s1 ++ (c, ns) :: s2)) (root :: (s1 ++ (c, ns) :: s2).*1) h g) as Hcalm.
    { assert (forall q, q ∈ fp (s1 ++ s2) -> q ∈ fp (s1 ++ (c, ns) :: s2)) as Hsub.
      { intros q Hq'. rewrite rep_permute_keys, elem_of_cons, elem_of_app. tauto. }
      assert (forall q, q ∈ (s1 ++ s2).*1 -> q ∈ (s1 ++ (c, ns) :: s2).*1) as Hsubk.
      { intros q. rewrite !fmap_app, fmap_cons, !elem_of_app, elem_of_cons. tauto. }
      eapply calm_trans.
      - eapply calm_mono; [| |exact C1]; intros q [->|Hq']%elem_of_cons; try apply elem_of_list_here;
          apply elem_of_list_further; [by apply Hsub, keys_fp|by apply Hsubk].
      - eapply calm_mono; [| |apply quiet_calm, Hq]; intros q Hq'; apply elem_of_list_further; auto. }
    exists g. split_and!.
    - unfold cover_column. rewrite Hp. cbn [bind]. rewrite E1. cbn [bind]. done.
    - rewrite <-(rm_coverset root h s1 s2 c ns HR HW). done.
    - unfold uncover_column.
      rewrite (to_header_frame h g p c (c_header _ _ _ _ Hcalm p) Hp). cbn [bind].
      rewrite (uncover_loop root fuel h s1 s2 c ns HR HW Hok Hfuel h1 HR1 C1 Hcol1 g Hg). cbn [bind]. done.
    - done.
    - eapply seg_frame_eq; [|exact Hcol1]. intros y Hy. apply (q_out _ _ _ _ Hq).
      apply (ns_fresh root h s1 s2 c ns HR).
      apply elem_of_cons in Hy as [->|Hy]; [apply elem_of_list_here|].
      apply elem_of_app in Hy as [Hy|Hy]; [by apply elem_of_list_further|].
      apply elem_of_list_singleton in Hy as ->. apply elem_of_list_here.
  Qed.
  (** Hiding the nodes in another way. *)
  Lemma cover_column_like f root fuel h st c ns p :
    (forall y g st' d ms, Rep root g st' -> (d, ms) ∈ st' -> y ∈ ms -> length (fp st') <= fuel -> f y g = hide y g) ->
    Rep root h st -> wfst G root st -> (forall q, q ∈ nodes st -> rowok G h q) ->
    length (fp st) <= fuel -> (c, ns) ∈ st -> to_header h p = Ret c ->
    (let! c := to_header h p in let! h := cover_horizontal c h in
     heap_loop fuel n_down c (fun row h => heap_loop fuel n_right row f h) h) = cover_column fuel p h.
  Proof.
    intros Hf HR HW Hok Hfuel Hc Hp.
    apply elem_of_list_split in Hc as (s1&s2&->).
    destruct (cover_horizontal_spec _ _ _ _ _ _ HR) as (h1&E1&HR1&U1&C1&F1).
    assert (seg n_down n_up h1 c ns c) as Hcol1.
    { eapply seg_frame; [| |apply (rep_col _ _ _ HR c ns), c_in]; intros y Hy; apply F1. }
    destruct (cover_loop root fuel h s1 s2 c ns HR HW Hok Hfuel h1 HR1 C1 Hcol1) as (g&E&Hg).
    destruct (cover_loop_like root fuel h s1 s2 c ns HR HW Hok Hfuel h1 HR1 C1 Hcol1 f Hf) as (g'&E'&Hg').
    unfold cover_column. rewrite Hp. cbn [bind]. rewrite E1. cbn [bind]. unfold hid in *. congruence.
  Qed.
End rows.
