(** The search, freeing and dropping. *)
From Verif Require Import Base Dlx DlxSeg DlxCover DlxColumn SpecDlx SpecDlxSearch DlxSets DlxKnuth DlxCost SpecDlxCost.

(** [h'] is [h] with the nodes [L] freed. *)
Definition erased (L : list ptr) (h h' : heap) : Prop :=
  forall x, h' !! x = if decide (x ∈ L) then None else h !! x.
Lemma erased_nil h : erased [] h h.
Proof. intros x. rewrite decide_False; [done|apply not_elem_of_nil]. Qed.
Lemma erased_trans L1 L2 h1 h2 h3 : erased L1 h1 h2 -> erased L2 h2 h3 -> erased (L1 ++ L2) h1 h3.
Proof.
  intros H1 H2 x. rewrite H2. destruct (decide (x ∈ L2)) as [Hx|Hx].
  - rewrite decide_True; [done|]. rewrite elem_of_app. by right.
  - rewrite H1. destruct (decide (x ∈ L1)) as [Hy|Hy].
    + rewrite decide_True; [done|]. rewrite elem_of_app. by left.
    + rewrite decide_False; [done|]. rewrite elem_of_app. tauto.
Qed.
Lemma erased_ext L L' h h' : (forall x, x ∈ L <-> x ∈ L') -> erased L h h' -> erased L' h h'.
Proof.
  intros He H x. rewrite H. destruct (decide (x ∈ L)) as [Hx|Hx].
  - by rewrite decide_True by (by apply He).
  - rewrite decide_False; [done|]. by rewrite <-He.
Qed.
Lemma erased_out L h h' x : erased L h h' -> x ∉ L -> h' !! x = h !! x.
Proof. intros H Hx. rewrite H. by rewrite decide_False. Qed.
Lemma dealloc_erased p h : is_Some (h !! p) -> exists h', dealloc p h = Ret h' /\ erased [p] h h'.
Proof.
  intros [n Hn]. unfold dealloc. rewrite Hn. eexists. split; [done|]. intros x.
  destruct (decide (x ∈ [p])) as [->%elem_of_list_singleton|Hx].
  - apply lookup_delete.
  - apply lookup_delete_ne. intros ->. apply Hx, elem_of_list_here.
Qed.

Lemma first_cur (dir : node -> ptr) h o l n :
  h !! o = Some n -> fld dir h o = Some (first_or l o) -> o ∉ l ->
  (if decide (dir n = o) then null else dir n) = first_or l null.
Proof.
  intros Hn Hf Ho. apply fld_Some in Hf as (n'&Hn'&Hd). assert (n' = n) as -> by congruence.
  rewrite Hd. destruct l as [|y l]; cbn [first_or].
  - by rewrite decide_True.
  - rewrite decide_False; [done|]. intros ->. apply Ho, elem_of_list_here.
Qed.

Lemma Forall2_impl_in {A B} (P Q : A -> B -> Prop) l k :
  (forall x y, y ∈ k -> P x y -> Q x y) -> Forall2 P l k -> Forall2 Q l k.
Proof.
  intros H HF. induction HF as [|x y l k Hxy HF IH]; constructor.
  - apply H; [apply elem_of_list_here|done].
  - apply IH. intros a b Hb. apply H. by apply elem_of_list_further.
Qed.

(** The counter changes nothing. *)
Lemma for_from_same {S} fuel (heap_of : S -> heap) dir original (b1 : ptr -> S -> res (S * bool))
    (b2 : ptr -> S * nat -> res (S * nat * bool)) :
  (forall x s n, (let! (r, stop) := b2 x (s, n) in Ret (r.1, stop)) = b1 x s) ->
  forall cur s n, (let! (r, stop) := for_from fuel (fun p : S * nat => heap_of p.1) dir original cur b2 (s, n) in Ret (r.1, stop)) =
    for_from fuel heap_of dir original cur b1 s.
Proof.
  intros Hb. induction fuel as [|fuel IH]; intros cur s n; cbn [for_from]; (destruct (decide (cur = null)) as [Hz|Hz]; [done|]); [done|].
  cbn [fst]. destruct (load (heap_of s) cur) as [nd|]; cbn [bind]; [|done].
  rewrite <-(Hb cur s n). destruct (b2 cur (s, n)) as [[[s' n'] stop]|]; cbn [bind fst]; [|done].
  destruct stop; [done|]. apply IH.
Qed.
Lemma for_skip1_same {S} fuel (heap_of : S -> heap) dir original (b1 : ptr -> S -> res (S * bool))
    (b2 : ptr -> S * nat -> res (S * nat * bool)) s n :
  (forall x s n, (let! (r, stop) := b2 x (s, n) in Ret (r.1, stop)) = b1 x s) ->
  (let! (r, stop) := for_skip1 fuel (fun p : S * nat => heap_of p.1) dir original b2 (s, n) in Ret (r.1, stop)) =
    for_skip1 fuel heap_of dir original b1 s.
Proof.
  intros Hb. unfold for_skip1. cbn [fst]. destruct (load (heap_of s) original) as [nd|]; cbn [bind]; [|done]. by apply for_from_same.
Qed.
Lemma helper_same fuel root : forall depth h partial n,
  (let! (h, partial, ok, _) := solve_helper_calls fuel depth root h partial n in Ret (h, partial, ok)) =
  solve_helper fuel depth root h partial.
Proof.
  intros depth h partial n. revert h partial n. induction depth as [|depth IH]; intros h partial n; [done|].
  cbn [solve_helper_calls solve_helper]. cbv zeta. destruct (is_empty root h) as [[]|]; cbn [bind]; [done| |done].
  destruct (choose_column fuel root h) as [c|]; cbn [bind]; [|done].
  destruct (cover_column fuel c h) as [h1|]; cbn [bind]; [|done].
  match goal with |- context [for_skip1 fuel fst n_down c ?b (h1, partial)] => set (b1 := b) end.
  match goal with |- context [for_skip1 fuel (fun s : heap * list nat * nat => s.1.1) n_down c ?b _] => set (b2 := b) end.
  rewrite <-(for_skip1_same fuel fst n_down c b1 b2 (h1, partial) (S n)).
  - destruct (for_skip1 _ _ _ _ b2 _) as [[[[h2 par] n2] found]|]; cbn [bind fst snd]; [|done].
    destruct found; [done|]. destruct (uncover_column fuel c h2); done.
  - intros x [h2 par] n2. unfold b1, b2. destruct (load h2 x) as [nd|]; cbn [bind]; [|done]. cbv zeta.
    destruct (heap_loop fuel n_right x (cover_column fuel) h2) as [h3|]; cbn [bind]; [|done].
    rewrite <-(IH h3 (par ++ [n_row nd]) n2).
    destruct (solve_helper_calls fuel depth root h3 _ n2) as [[[[h4 par4] ok] n4]|]; cbn [bind]; [|done].
    destruct ok.
    + destruct (heap_loop fuel n_right x (free_chain fuel) h4) as [h5|]; cbn [bind]; [|done].
      destruct (free_chain fuel c h5); done.
    + destruct (heap_loop fuel n_left x (uncover_column fuel) h4); done.
Qed.

Section search.
  Context (G : rows_info) (HG : good_rows G) (root : ptr) (fuel : nat).

  Record Live (h : heap) (st : cstate) : Prop := {
    lv_rep : Rep root h st;
    lv_wf : wfst G root st;
    lv_row q : q ∈ nodes st -> rowok G h q;
    lv_fuel : length (fp st) <= fuel
  }.
  Lemma lv_nd h st : Live h st -> NoDup (fp st).
  Proof. intros H. pose proof (rep_nd _ _ _ (lv_rep _ _ H)) as Hnd. by apply NoDup_cons in Hnd as []. Qed.
  Lemma lv_root h st : Live h st -> root ∉ fp st.
  Proof. intros H. pose proof (rep_nd _ _ _ (lv_rep _ _ H)) as Hnd. by apply NoDup_cons in Hnd as []. Qed.
  Lemma lv_null h st x : Live h st -> x ∈ fp st -> x <> null.
  Proof. intros H Hx ->. apply (rep_null _ _ _ (lv_rep _ _ H)). by apply elem_of_list_further. Qed.

  (** A covered column, ready to be uncovered or freed. *)
  Record frozen (h : heap) (c : ptr) (ns : list ptr) : Prop := {
    fz_col : seg n_down n_up h c ns c;
    fz_node q : q ∈ ns -> isnode G q;
    fz_row q : q ∈ ns -> rowok G h q
  }.
  Lemma frozen_frame h h' c ns :
    (forall x, x ∈ blk G c ns -> h' !! x = h !! x) -> frozen h c ns -> frozen h' c ns.
  Proof.
    intros Hx [F1 F2 F3]. split; [|done|].
    - eapply seg_frame_eq; [|exact F1]. intros y Hy. apply Hx, elem_of_blk.
      rewrite elem_of_cons, elem_of_app, elem_of_list_singleton in Hy. naive_solver.
    - intros q Hq. destruct (F3 q Hq) as [R1 R2 R3].
      assert (forall y, y ∈ q :: rr G q -> h' !! y = h !! y) as Hy.
      { intros y Hy. apply Hx, elem_of_blk. right. exists q. split; [done|]. by apply elem_of_cons in Hy. }
      split.
      + eapply seg_frame_eq; [|exact R1]. intros y Hin. apply Hy.
        rewrite elem_of_cons, elem_of_app, elem_of_list_singleton in Hin. rewrite elem_of_cons. tauto.
      + rewrite <-R2. apply fld_eq, Hy, elem_of_list_here.
      + rewrite <-R3. apply fld_eq, Hy, elem_of_list_here.
  Qed.

  Lemma live_cover h st c ns p :
    Live h st -> (c, ns) ∈ st -> to_header h p = Ret c ->
    exists h', cover_column fuel p h = Ret h' /\ Live h' (coverset G [c] st) /\
      uncover_column fuel p h' = Ret h /\ calm (root :: fp st) (root :: st.*1) h h' /\ frozen h' c ns.
  Proof.
    intros HL Hc Hp. pose proof (lv_nd _ _ HL) as Hnd. destruct HL as [HR HW Hok Hfuel].
    destruct (cover_column_spec G HG root fuel h st c ns p HR HW Hok Hfuel Hc Hp) as (h'&E&HR'&U&C&S).
    assert (forall q, q ∈ nodes st -> rowok G h' q) as Hok'.
    { intros q Hq. eapply rowok_calm; [done|exact C| |by apply (wf_node _ _ _ HW)|by apply Hok].
      apply (wf_key _ _ _ HW). }
    exists h'. split_and!; [done| |done|done|].
    - split; [done|by apply wfst_coverset| |].
      + intros q [Hq _]%elem_of_nodes_coverset; [|done]. by apply Hok'.
      + etrans; [|exact Hfuel]. apply sublist_length, fp_coverset_sub.
    - split; [done| |].
      + intros q Hq. apply (wf_node _ _ _ HW), elem_of_nodes. eauto.
      + intros q Hq. apply Hok', elem_of_nodes. eauto.
  Qed.

  Lemma lv_col h st c : Live h st -> c ∈ st.*1 -> exists ns, (c, ns) ∈ st.
  Proof. intros _ ([c' ns]&->&H)%elem_of_list_fmap. eauto. Qed.

  Definition blks (fz : list (ptr * list ptr)) : list ptr := mjoin ((fun f => blk G f.1 f.2) <$> fz).
  Lemma blks_cons c ns fz : blks ((c, ns) :: fz) = blk G c ns ++ blks fz.
  Proof. done. Qed.

  (** Covering several columns, given by nodes. *)
  Lemma covers_spec h st k :
    Live h st -> (forall y, y ∈ k -> fld n_header h y = Some (hdr G y)) ->
    (forall y, y ∈ k -> hdr G y ∈ st.*1) -> NoDup (hdr G <$> k) ->
    exists h' fz, foldM (cover_column fuel) k h = Ret h' /\ Live h' (coverset G (hdr G <$> k) st) /\
      calm (root :: fp st) (root :: st.*1) h h' /\
      Forall2 (fun y f => f.1 = hdr G y /\ frozen h' f.1 f.2) k fz /\
      NoDup (blks fz) /\
      (forall x, x ∈ fp st <-> x ∈ blks fz \/ x ∈ fp (coverset G (hdr G <$> k) st)) /\
      (forall x, x ∈ blks fz -> x ∈ fp (coverset G (hdr G <$> k) st) -> False).
  Proof.
    revert h st. induction k as [|y k IH]; intros h st HL Hhd Hkeys Hnd.
    - exists h, []. cbn [fmap list_fmap]. rewrite coverset_nil. split_and!; [done|done|apply calm_refl|constructor|constructor| |].
      + intros x. rewrite elem_of_nil. tauto.
      + intros x H%elem_of_nil. done.
    - rewrite fmap_cons in Hnd. apply NoDup_cons in Hnd as [Hyk Hnd].
      destruct (lv_col h st (hdr G y) HL) as [ns Hc]; [apply Hkeys, elem_of_list_here|].
      assert (hdr G y <> null) as Hnn.
      { apply (lv_null h st); [done|]. apply keys_fp. apply Hkeys, elem_of_list_here. }
      destruct (live_cover h st (hdr G y) ns y HL Hc) as (h1&E1&HL1&U1&C1&F1).
      { apply to_header_fld. exists (hdr G y). split; [apply Hhd, elem_of_list_here|]. by rewrite decide_False. }
      destruct (IH h1 (coverset G [hdr G y] st) HL1) as (h'&fz&E&HL'&C&F&Hbn&Hsplit&Hdis).
      { intros z Hz. rewrite (c_header _ _ _ _ C1). apply Hhd. by apply elem_of_list_further. }
      { intros z Hz. rewrite coverset_keys. apply elem_of_list_filter. split.
        - rewrite elem_of_list_singleton. intros Heq. apply Hyk. rewrite <-Heq. by apply elem_of_list_fmap_1.
        - apply Hkeys. by apply elem_of_list_further. }
      { done. }
      rewrite coverset_coverset in HL', Hsplit, Hdis. cbn [app] in HL', Hsplit, Hdis.
      pose proof (lv_nd _ _ HL) as Hndst. pose proof (lv_wf _ _ HL) as HW.
      exists h', ((hdr G y, ns) :: fz). rewrite blks_cons, fmap_cons. split_and!.
      + cbn [foldM]. by rewrite E1.
      + done.
      + eapply calm_trans; [done|]. eapply calm_mono; [| |exact C].
        * intros p [->|Hp]%elem_of_cons; [apply elem_of_list_here|]. apply elem_of_list_further.
          eapply sublist_elem; [apply fp_coverset_sub|done].
        * intros p [->|Hp]%elem_of_cons; [apply elem_of_list_here|]. apply elem_of_list_further.
          rewrite coverset_keys in Hp. by apply elem_of_list_filter in Hp as [_ Hp].
      + constructor; [|done]. split; [done|]. eapply frozen_frame; [|exact F1].
        intros x Hx. apply (c_out _ _ _ _ C). rewrite not_elem_of_cons. split.
        * intros ->. apply (lv_root _ _ HL). apply (fp_split G HG root st (hdr G y) ns); auto.
        * intros Hx'. by eapply (fp_split_disjoint G HG root st (hdr G y) ns).
      + apply NoDup_app. split_and!; [|..|done].
        * eapply blk_NoDup; [done|exact HW|done|done|]. by apply (lv_root h).
        * intros x Hx Hx'. eapply (fp_split_disjoint G HG root st (hdr G y) ns x); [done|done|done|done|].
          apply Hsplit. by left.
      + intros x. rewrite elem_of_app. rewrite (fp_split G HG root st (hdr G y) ns x HW Hndst Hc), Hsplit. tauto.
      + intros x [Hx|Hx]%elem_of_app Hx'; [|by eapply Hdis].
        eapply (fp_split_disjoint G HG root st (hdr G y) ns x); [done|done|done|done|]. apply Hsplit. by right.
  Qed.

  (** The loops over a row that cover, and uncover, the columns [k] next to
      [q]. *)
  Lemma covers_loop h st q k :
    Live h st -> (forall y, y ∈ k -> fld n_header h y = Some (hdr G y)) ->
    (forall y, y ∈ k -> hdr G y ∈ st.*1) -> NoDup (hdr G <$> k) ->
    (forall y, y ∈ q :: k -> isnode G y) -> null ∉ k -> q ∉ k -> length k <= fuel ->
    seg n_right n_left h q k q ->
    exists h', foldM (cover_column fuel) k h = Ret h' /\
      heap_loop fuel n_right q (cover_column fuel) h = Ret h' /\
      heap_loop fuel n_left q (uncover_column fuel) h' = Ret h.
  Proof.
    intros HL Hhd Hkeys Hnd Hnode Hnull Hq Hlen Hring.
    assert (forall k1 k2, k = k1 ++ k2 -> exists g, foldM (cover_column fuel) k1 h = Ret g /\
      Live g (coverset G (hdr G <$> k1) st) /\ calm (root :: fp st) (root :: st.*1) h g) as Htot.
    { intros k1 k2 Hk. destruct (covers_spec h st k1 HL) as (g&fz&E&HLg&C&_).
      - intros y Hy. apply Hhd. rewrite Hk, elem_of_app. by left.
      - intros y Hy. apply Hkeys. rewrite Hk, elem_of_app. by left.
      - rewrite Hk, fmap_app in Hnd. by apply NoDup_app in Hnd as (?&_&_).
      - eauto. }
    assert (forall k1 k2 g, k = k1 ++ k2 -> foldM (cover_column fuel) k1 h = Ret g ->
      calm (root :: fp st) (root :: st.*1) h g) as Hcalm.
    { intros k1 k2 g Hk Hg. destruct (Htot k1 k2 Hk) as (g'&Hg'&_&C).
      assert (g' = g) as -> by congruence. done. }
    assert (forall k1 y k2 g, k = k1 ++ y :: k2 -> foldM (cover_column fuel) k1 h = Ret g ->
      exists g', cover_column fuel y g = Ret g' /\ foldM (cover_column fuel) (k1 ++ [y]) h = Ret g' /\
        uncover_column fuel y g' = Ret g) as Hstep.
    { intros k1 y k2 g Hk Hg. destruct (Htot k1 _ Hk) as (g0&Hg0&HLg&C).
      assert (g0 = g) as -> by congruence.
      assert (y ∈ k) as Hy by (rewrite Hk, elem_of_app; right; apply elem_of_list_here).
      destruct (lv_col g (coverset G (hdr G <$> k1) st) (hdr G y) HLg) as [ns Hc].
      { rewrite coverset_keys. apply elem_of_list_filter. split; [|by apply Hkeys].
        rewrite Hk, fmap_app, fmap_cons in Hnd. apply NoDup_app in Hnd as (_&Hnd&_).
        intros Hin. apply (Hnd _ Hin), elem_of_list_here. }
      destruct (live_cover g _ (hdr G y) ns y HLg Hc) as (g'&E&_&U&_).
      { apply to_header_fld. exists (hdr G y). rewrite (c_header _ _ _ _ C). split; [by apply Hhd|].
        rewrite decide_False; [done|]. apply (lv_null h st); [done|]. by apply keys_fp, Hkeys. }
      exists g'. split_and!; [done| |done]. rewrite foldM_app, Hg. cbn [bind foldM]. by rewrite E. }
    assert (forall x g, x ∈ q :: k -> calm (root :: fp st) (root :: st.*1) h g ->
      fld n_right g x = fld n_right h x /\ fld n_left g x = fld n_left h x) as Hread.
    { intros x g Hx C. assert (x ∉ root :: st.*1) as Hx'.
      { intros Hin. apply (wf_key _ _ _ (lv_wf _ _ HL)) in Hin. apply Hin. by apply Hnode. }
      split; [by apply (c_right _ _ _ _ C)|by apply (c_left _ _ _ _ C)]. }
    destruct (Htot k []) as (h'&Hh'&_&C); [by rewrite app_nil_r|].
    exists h'. split_and!; [done|..].
    - pose proof (seg_fwd _ _ _ _ _ _ Hring) as Hfwd.
      destruct (heap_loop_J (fun k1 g => foldM (cover_column fuel) k1 h = Ret g)
        n_right q (cover_column fuel) k fuel h) as (g&E&Hg); try done.
      + by apply fwd_first.
      + intros k1 x k2 g Hk Hg. split.
        * destruct (Hread x g) as [-> _].
          { rewrite Hk. apply elem_of_list_further. rewrite elem_of_app. right. apply elem_of_list_here. }
          { by eapply Hcalm. }
          eapply fwd_at. by rewrite <-Hk.
        * destruct (Hstep _ _ _ _ Hk Hg) as (g'&E&Hg'&_). eauto.
      + congruence.
    - apply seg_rev in Hring. pose proof (seg_fwd _ _ _ _ _ _ Hring) as Hfwd.
      destruct (heap_loop_J (fun k1 g => exists k2, k = k2 ++ rev k1 /\ foldM (cover_column fuel) k2 h = Ret g)
        n_left q (uncover_column fuel) (rev k) fuel h') as (g&E&k2&Hk2&Hg).
      + by rewrite rev_length.
      + by rewrite elem_of_list_In, <-in_rev, <-elem_of_list_In.
      + by rewrite elem_of_list_In, <-in_rev, <-elem_of_list_In.
      + destruct (Hread q h' (elem_of_list_here _ _) C) as [_ ->]. by apply fwd_first.
      + intros k1 x k2 g Hk (k3&Hk3&Hg).
        assert (k = rev k2 ++ x :: rev k1) as Hk'.
        { rewrite <-(rev_involutive k), Hk, rev_app_distr. cbn. by rewrite <-app_assoc. }
        assert (k3 = rev k2 ++ [x]) as ->.
        { apply (app_inv_tail (rev k1)). rewrite <-Hk3, Hk', <-app_assoc. done. }
        split.
        * destruct (Hread x g) as [_ ->].
          { rewrite Hk'. apply elem_of_list_further. rewrite elem_of_app. right. apply elem_of_list_here. }
          { by eapply (Hcalm _ (rev k1)). }
          eapply fwd_at. by rewrite <-Hk.
        * destruct (Htot (rev k2) _ Hk') as (g0&Hg0&_).
          destruct (Hstep _ _ _ _ Hk' Hg0) as (g1&_&Hg1&U).
          assert (g1 = g) as -> by congruence. exists g0. split; [done|].
          exists (rev k2). split; [|done]. by rewrite rev_app_distr.
      + exists k. split; [by rewrite app_nil_r|done].
      + rewrite rev_involutive in Hk2. assert (k2 = []) as ->.
        { apply (f_equal length) in Hk2. rewrite app_length in Hk2. destruct k2; [done|cbn in Hk2; lia]. }
        cbn in Hg. congruence.
  Qed.

  (** Covering them in another way. *)
  Lemma covers_loop_like f h st q k :
    (forall h st c ns p, Live h st -> (c, ns) ∈ st -> to_header h p = Ret c -> f p h = cover_column fuel p h) ->
    Live h st -> (forall y, y ∈ k -> fld n_header h y = Some (hdr G y)) ->
    (forall y, y ∈ k -> hdr G y ∈ st.*1) -> NoDup (hdr G <$> k) ->
    (forall y, y ∈ q :: k -> isnode G y) -> null ∉ k -> q ∉ k -> length k <= fuel ->
    seg n_right n_left h q k q ->
    exists h', foldM (cover_column fuel) k h = Ret h' /\ heap_loop fuel n_right q f h = Ret h'.
  Proof.
    intros Hf HL Hhd Hkeys Hnd Hnode Hnull Hq Hlen Hring.
    assert (forall k1 k2, k = k1 ++ k2 -> exists g, foldM (cover_column fuel) k1 h = Ret g /\
      Live g (coverset G (hdr G <$> k1) st) /\ calm (root :: fp st) (root :: st.*1) h g) as Htot.
    { intros k1 k2 Hk. destruct (covers_spec h st k1 HL) as (g&fz&E&HLg&C&_).
      - intros y Hy. apply Hhd. rewrite Hk, elem_of_app. by left.
      - intros y Hy. apply Hkeys. rewrite Hk, elem_of_app. by left.
      - rewrite Hk, fmap_app in Hnd. by apply NoDup_app in Hnd as (?&_&_).
      - eauto. }
    destruct (Htot k []) as (h'&Hh'&_&_); [by rewrite app_nil_r|].
    exists h'. split; [done|].
    pose proof (seg_fwd _ _ _ _ _ _ Hring) as Hfwd.
    destruct (heap_loop_J (fun k1 g => foldM (cover_column fuel) k1 h = Ret g)
      n_right q f k fuel h) as (g&E&Hg); try done.
    - by apply fwd_first.
    - intros k1 y k2 g Hk Hg. destruct (Htot k1 _ Hk) as (g0&Hg0&HLg&C).
      assert (g0 = g) as -> by congruence.
      assert (y ∈ k) as Hy by (rewrite Hk, elem_of_app; right; apply elem_of_list_here).
      split.
      + rewrite (c_right _ _ _ _ C); [eapply fwd_at; by rewrite <-Hk|].
        intros Hin. apply (wf_key _ _ _ (lv_wf _ _ HL)) in Hin. apply Hin, Hnode. by apply elem_of_list_further.
      + destruct (lv_col g (coverset G (hdr G <$> k1) st) (hdr G y) HLg) as [ns Hc].
        { rewrite coverset_keys. apply elem_of_list_filter. split; [|by apply Hkeys].
          rewrite Hk, fmap_app, fmap_cons in Hnd. apply NoDup_app in Hnd as (_&Hnd&_).
          intros Hin. apply (Hnd _ Hin), elem_of_list_here. }
        assert (to_header g y = Ret (hdr G y)) as Hth.
        { apply to_header_fld. exists (hdr G y). rewrite (c_header _ _ _ _ C). split; [by apply Hhd|].
          rewrite decide_False; [done|]. apply (lv_null h st); [done|]. by apply keys_fp, Hkeys. }
        destruct (live_cover g _ (hdr G y) ns y HLg Hc Hth) as (g'&E&_).
        exists g'. rewrite (Hf _ _ _ _ _ HLg Hc Hth). split; [done|].
        rewrite foldM_app, Hg. cbn [bind foldM]. by rewrite E.
    - congruence.
  Qed.

  (** Freeing a covered column and all its rows. *)
  Lemma free_chain_spec h c ns p :
    frozen h c ns -> to_header h p = Ret c -> NoDup (blk G c ns) -> null ∉ blk G c ns ->
    length (blk G c ns) <= fuel ->
    exists h', free_chain fuel p h = Ret h' /\ erased (blk G c ns) h h'.
  Proof.
    intros [F1 F2 F3] Hp Hnd Hnull Hlen.
    assert (forall q, q ∈ ns -> q ∈ blk G c ns) as Hns.
    { intros q Hq. apply elem_of_blk. right. exists q. auto. }
    assert (forall q x, q ∈ ns -> x ∈ rr G q -> x ∈ blk G c ns) as Hrr.
    { intros q x Hq Hx. apply elem_of_blk. right. exists q. auto. }
    pose proof (seg_fwd _ _ _ _ _ _ F1) as Hfwd.
    unfold free_chain. rewrite Hp. cbn [bind].
    set (K := fun l : list ptr => mjoin ((fun q => q :: rr G q) <$> l)).
    assert (forall l1 x l2, ns = l1 ++ x :: l2 -> blk G c ns = c :: K l1 ++ (x :: rr G x) ++ K l2) as Hblk.
    { intros l1 x l2 Hl. unfold blk. rewrite Hl, fmap_app, mjoin_app. done. }
    assert (c ∉ K ns /\ NoDup (K ns)) as [HcK HKnd] by (by apply NoDup_cons in Hnd).
    assert (NoDup ns) as Hnsnd.
    { clear -HKnd. unfold K in HKnd. clear K. induction ns as [|q l IH]; [constructor|].
      rewrite fmap_cons in HKnd. change (NoDup ((q :: rr G q) ++ mjoin ((fun q => q :: rr G q) <$> l))) in HKnd.
      apply NoDup_app in HKnd as (_&H2&H3). apply NoDup_cons. split; [|by apply IH].
      intros Hin. apply (H2 q); [apply elem_of_list_here|]. apply elem_of_list_join.
      exists (q :: rr G q). split; [apply elem_of_list_here|]. apply elem_of_list_fmap. eauto. }
    destruct (heap_loop_J (fun l1 g => erased (K l1) h g) n_down c
      (fun row h => let! h := heap_loop fuel n_right row dealloc h in dealloc row h) ns fuel h)
      as (g&E&Hg).
    - etrans; [|exact Hlen]. apply subset_length; done.
    - intros H. by apply Hnull, Hns.
    - intros H. apply HcK. apply elem_of_list_join. exists (c :: rr G c). split; [apply elem_of_list_here|].
      apply elem_of_list_fmap. eauto.
    - by apply fwd_first.
    - intros l1 x l2 g Hl Hg. pose proof (Hblk _ _ _ Hl) as Hb.
      assert (x ∈ ns) as Hx by (rewrite Hl, elem_of_app; right; apply elem_of_list_here).
      assert (forall y, y ∈ x :: rr G x -> y ∉ K l1) as Hfresh.
      { intros y Hy Hin. rewrite Hb in Hnd. apply NoDup_cons in Hnd as [_ Hnd].
        apply NoDup_app in Hnd as (_&Hnd&_). apply (Hnd y Hin). rewrite elem_of_app. by left. }
      assert (NoDup (x :: rr G x)) as Hxnd.
      { rewrite Hb in Hnd. apply NoDup_cons in Hnd as [_ Hnd].
        apply NoDup_app in Hnd as (_&_&Hnd). by apply NoDup_app in Hnd as (?&_&_). }
      apply NoDup_cons in Hxnd as [Hxrr Hrrnd].
      split.
      + rewrite <-(fwd_at n_down h c l1 x l2 c) by (by rewrite <-Hl). apply fld_eq.
        eapply erased_out; [exact Hg|]. apply Hfresh, elem_of_list_here.
      + destruct (F3 x Hx) as [R1 _ _]. pose proof (seg_fwd _ _ _ _ _ _ R1) as Hrf.
        destruct (heap_loop_J (fun k g' => erased k g g') n_right x dealloc (rr G x) fuel g) as (g1&E1&Hg1).
        * etrans; [|exact Hlen]. apply subset_length; [done|]. intros y Hy. by eapply Hrr.
        * intros H. by eapply Hnull, Hrr.
        * done.
        * rewrite <-(fwd_first _ _ _ _ _ Hrf). apply fld_eq. eapply erased_out; [exact Hg|]. apply Hfresh, elem_of_list_here.
        * intros k1 y k2 g' Hk Hg'.
          assert (y ∈ rr G x) as Hy by (rewrite Hk, elem_of_app; right; apply elem_of_list_here).
          assert (g' !! y = h !! y) as Heq.
          { rewrite (erased_out _ _ _ _ Hg').
            - eapply erased_out; [exact Hg|]. apply Hfresh. by apply elem_of_list_further.
            - intros Hin. rewrite Hk in Hrrnd. apply NoDup_app in Hrrnd as (_&Hd&_).
              apply (Hd _ Hin), elem_of_list_here. }
          split.
          -- rewrite <-(fwd_at n_right h x k1 y k2 x) by (by rewrite <-Hk). by apply fld_eq.
          -- destruct (dealloc_erased y g') as (g2&E2&Hg2).
             { rewrite Heq. eapply seg_lookup; [exact R1|]. by apply elem_of_list_further. }
             exists g2. split; [done|]. by eapply erased_trans.
        * apply erased_nil.
        * rewrite E1. cbn [bind]. destruct (dealloc_erased x g1) as (g2&E2&Hg2).
          { rewrite (erased_out _ _ _ _ Hg1) by done.
            rewrite (erased_out _ _ _ _ Hg) by (apply Hfresh, elem_of_list_here).
            eapply seg_lookup; [exact R1|apply elem_of_list_here]. }
          exists g2. split; [done|].
          eapply (erased_ext (K l1 ++ (rr G x ++ [x]))); [|by eapply erased_trans; [|eapply erased_trans]].
          intros y. unfold K. rewrite fmap_app, mjoin_app. cbn. rewrite app_nil_r.
          rewrite !elem_of_app, elem_of_list_singleton, elem_of_cons. tauto.
    - apply erased_nil.
    - rewrite E. cbn [bind]. destruct (dealloc_erased c g) as (g2&E2&Hg2).
      { rewrite (erased_out _ _ _ _ Hg) by done. eapply seg_lookup; [exact F1|apply elem_of_list_here]. }
      exists g2. split; [done|]. eapply (erased_ext (K ns ++ [c])); [|by eapply erased_trans].
      intros y. unfold blk. rewrite elem_of_app, elem_of_list_singleton, elem_of_cons. unfold K. tauto.
  Qed.

  Lemma blks_app f1 f2 : blks (f1 ++ f2) = blks f1 ++ blks f2.
  Proof. unfold blks. rewrite fmap_app. apply mjoin_app. Qed.
  Lemma elem_of_blks fz x : x ∈ blks fz <-> exists c ns, (c, ns) ∈ fz /\ x ∈ blk G c ns.
  Proof.
    unfold blks. rewrite elem_of_list_join. split.
    - intros (l&Hx&([c ns]&->&Hin)%elem_of_list_fmap). eauto.
    - intros (c&ns&Hin&Hx). exists (blk G c ns). split; [done|]. apply elem_of_list_fmap. by exists (c, ns).
  Qed.

  (** The loop over a row that frees its columns. *)
  Lemma frees_loop h q k fz :
    Forall2 (fun y f => f.1 = hdr G y /\ frozen h f.1 f.2) k fz ->
    NoDup (blks fz) -> null ∉ blks fz -> length (blks fz) <= fuel ->
    (forall y, y ∈ q :: k -> y ∉ blks fz) ->
    (forall y, y ∈ k -> fld n_header h y = Some (hdr G y)) ->
    null ∉ k -> q ∉ k -> length k <= fuel -> seg n_right n_left h q k q ->
    exists h', heap_loop fuel n_right q (free_chain fuel) h = Ret h' /\ erased (blks fz) h h'.
  Proof.
    intros HF Hnd Hnull Hlen Hout Hhd Hnk Hq Hlk Hring.
    pose proof (seg_fwd _ _ _ _ _ _ Hring) as Hfwd.
    destruct (heap_loop_J (fun k1 g => exists f1 f2, fz = f1 ++ f2 /\ length f1 = length k1 /\ erased (blks f1) h g)
      n_right q (free_chain fuel) k fuel h) as (g&E&f1&f2&Hf&Hl1&Hg).
    - done.
    - done.
    - done.
    - by apply fwd_first.
    - intros k1 y k2 g Hk (f1&f2&Hf&Hl1&Hg).
      assert (y ∈ k) as Hy by (rewrite Hk, elem_of_app; right; apply elem_of_list_here).
      assert (g !! y = h !! y) as Heq.
      { eapply erased_out; [exact Hg|]. intros Hin. apply (Hout y); [by apply elem_of_list_further|].
        rewrite Hf, blks_app, elem_of_app. by left. }
      split.
      + rewrite <-(fwd_at n_right h q k1 y k2 q) by (by rewrite <-Hk). by apply fld_eq.
      + rewrite Hk, Hf in HF. apply Forall2_app_inv in HF as [_ HF]; [|done].
        inversion HF as [|? [c ns] ? f2' [Hc Hfz] HF2]; subst; cbn [fst snd] in *. subst c.
        rewrite blks_app, blks_cons in Hnd, Hnull, Hlen.
        apply NoDup_app in Hnd as (Hnd1&Hnd2&Hnd3). apply NoDup_app in Hnd3 as (Hnd3&_&_).
        destruct (free_chain_spec g (hdr G y) ns y) as (g'&E'&Hg').
        * eapply frozen_frame; [|exact Hfz]. intros x Hx. eapply erased_out; [exact Hg|].
          intros Hin. apply (Hnd2 x Hin). rewrite elem_of_app. by left.
        * apply to_header_fld. exists (hdr G y). split; [rewrite <-Hhd by done; by apply fld_eq|].
          rewrite decide_False; [done|]. intros Hz. apply Hnull. rewrite !elem_of_app. right; left.
          rewrite <-Hz. apply elem_of_list_here.
        * done.
        * intros Hin. apply Hnull. rewrite !elem_of_app. auto.
        * rewrite !app_length in Hlen. lia.
        * exists g'. split; [done|]. exists (f1 ++ [(hdr G y, ns)]), f2'. split_and!.
          -- by rewrite <-app_assoc.
          -- rewrite !app_length. cbn. lia.
          -- rewrite blks_app, blks_cons. cbn [blks mjoin fmap]. change (blks []) with (@nil ptr).
             rewrite app_nil_r. by eapply erased_trans.
    - exists [], fz. split_and!; [done|done|apply erased_nil].
    - exists g. split; [done|]. assert (f2 = []) as ->.
      { apply Forall2_length in HF. apply (f_equal length) in Hf. rewrite app_length in Hf.
        destruct f2; [done|cbn in Hf; lia]. }
      rewrite app_nil_r in Hf. by subst.
  Qed.

  (** [choose_column] takes the first of the smallest columns. *)
  Lemma choose_column_rep h st :
    Rep root h st -> length (fp st) <= fuel -> st <> [] ->
    exists s1 c ns s2, choose_column fuel root h = Ret c /\ st = s1 ++ (c, ns) :: s2 /\
      (forall d ms, (d, ms) ∈ s1 -> length ns < length ms) /\
      (forall d ms, (d, ms) ∈ s2 -> length ns <= length ms).
  Proof.
    intros HR Hfuel Hne. pose proof (rep_nd _ _ _ HR) as [Hroot Hnd]%NoDup_cons.
    pose proof (seg_fwd _ _ _ _ _ _ (rep_ring _ _ _ HR)) as Hfwd.
    set (best_of := fun (p : cstate) (b : option (ptr * nat)) =>
      match b with
      | None => p = []
      | Some (c, k) => exists a ns b, p = a ++ (c, ns) :: b /\ k = length ns /\
          (forall d ms, (d, ms) ∈ a -> length ns < length ms) /\
          (forall d ms, (d, ms) ∈ b -> length ns <= length ms)
      end).
    unfold choose_column.
    match goal with |- context [for_skip1 _ _ _ _ ?b _] => set (body := b) end.
    destruct (for_skip1_J (fun l1 (s : heap * option (ptr * nat)) =>
        s.1 = h /\ exists p p', st = p ++ p' /\ p.*1 = l1 /\ best_of p s.2) (fun _ => False)
      fst n_right root body st.*1 fuel (h, None)) as ([g b]&stop&E&Hpost).
    - etrans; [|exact Hfuel]. apply subset_length; [|intros x; apply (keys_fp x st)].
      clear -Hnd. induction st as [|[c ns] st IH]; [constructor|].
      rewrite fp_cons in Hnd. apply NoDup_cons in Hnd as [Hc Hnd]. apply NoDup_app in Hnd as (_&_&Hnd).
      rewrite fmap_cons. apply NoDup_cons. split; [|by apply IH]. intros Hin%keys_fp. apply Hc.
      rewrite elem_of_app. by right.
    - intros Hin%keys_fp. apply (rep_null _ _ _ HR). by apply elem_of_list_further.
    - by intros Hin%keys_fp.
    - by apply fwd_first.
    - intros l1 x l2 [g b] Hl (Hg&p&p'&Hp&Hp1&Hbest). cbn [fst snd] in *. subst g.
      destruct p' as [|[c ns] p'].
      { rewrite app_nil_r in Hp. subst p. rewrite Hp1 in Hl. apply (f_equal length) in Hl.
        rewrite app_length in Hl. cbn in Hl. lia. }
      assert (x = c /\ p'.*1 = l2) as [-> <-].
      { rewrite Hp, fmap_app, fmap_cons, Hp1 in Hl. apply app_inv_head in Hl. cbn in Hl. by injection Hl. }
      split; [eapply fwd_at; by rewrite <-Hl|].
      assert ((c, ns) ∈ st) as Hc by (rewrite Hp, elem_of_app; right; apply elem_of_list_here).
      destruct (rep_col _ _ _ HR c ns Hc) as (_&(n&Hn&Hrow)%fld_Some&_&_).
      assert (forall P : cstate -> Prop, P (p ++ [(c, ns)]) -> exists p1 p2, st = p1 ++ p2 /\ p1.*1 = l1 ++ [c] /\ P p1) as Hwrap.
      { intros P HP. exists (p ++ [(c, ns)]), p'. rewrite <-app_assoc, fmap_app, Hp1. done. }
      unfold body, load. rewrite Hn. cbn [bind]. rewrite Hrow.
      destruct b as [[c0 k0]|].
      + destruct Hbest as (a&ns0&bb&Hpa&->&Ha&Hb).
        destruct (decide (length ns < length ns0)) as [Hlt|Hlt]; eexists _, false; (split; [done|]); cbn [fst snd]; (split; [done|]).
        * apply (Hwrap (fun p => best_of p (Some (c, length ns)))). exists p, ns, []. split_and!; [done|done| |].
          -- intros d ms Hd. rewrite Hpa, elem_of_app, elem_of_cons in Hd. destruct Hd as [Hd|[Hd|Hd]].
             ++ apply Ha in Hd. lia.
             ++ by injection Hd as -> ->.
             ++ apply Hb in Hd. lia.
          -- intros d ms Hd%elem_of_nil. done.
        * apply (Hwrap (fun p => best_of p (Some (c0, length ns0)))). exists a, ns0, (bb ++ [(c, ns)]). split_and!; [|done|done|].
          -- rewrite Hpa, <-app_assoc. done.
          -- intros d ms Hd. apply elem_of_app in Hd as [Hd|Hd]; [by eapply Hb|].
             apply elem_of_list_singleton in Hd. injection Hd as -> ->. lia.
      + cbn in Hbest. subst p. eexists _, false. split; [done|]. cbn [fst snd]. split; [done|].
        apply (Hwrap (fun p => best_of p (Some (c, length ns)))). exists [], ns, []. split_and!; [done|done|..];
          intros d ms Hd%elem_of_nil; done.
    - split; [done|]. exists [], st. done.
    - rewrite E. cbn [bind snd]. destruct stop; [done|]. destruct Hpost as (_&p&p'&Hp&Hp1&Hbest). cbn [snd] in Hbest.
      assert (p' = []) as ->.
      { apply (f_equal length) in Hp1. rewrite Hp, !fmap_length, app_length in Hp1. destruct p'; [done|cbn in Hp1; lia]. }
      rewrite app_nil_r in Hp. subst p. destruct b as [[c k]|]; [|done].
      destruct Hbest as (a&ns&bb&Hst&_&Ha&Hb). exists a, c, ns, bb. done.
  Qed.
  Lemma choose_column_spec h st :
    Live h st -> st <> [] ->
    exists s1 c ns s2, choose_column fuel root h = Ret c /\ st = s1 ++ (c, ns) :: s2 /\
      (forall d ms, (d, ms) ∈ s1 -> length ns < length ms) /\
      (forall d ms, (d, ms) ∈ s2 -> length ns <= length ms).
  Proof. intros HL. apply choose_column_rep; [apply (lv_rep _ _ HL)|apply (lv_fuel _ _ HL)]. Qed.

  (** The outcome of a successful search. *)
  Record freed (h h' : heap) (st : cstate) : Prop := {
    fr_rep : Rep root h' [];
    fr_in x : x ∈ fp st -> h' !! x = None;
    fr_out x : x ∉ root :: fp st -> h' !! x = h !! x
  }.

  Lemma Rep_nil_frame h h' : h' !! root = h !! root -> Rep root h [] -> Rep root h' [].
  Proof.
    intros Heq [R1 R2 R3 R4 R5]. split.
    - eapply seg_frame_eq; [|exact R1]. cbn [fmap list_fmap app]. intros y Hy.
      rewrite elem_of_cons, elem_of_list_singleton in Hy. destruct Hy; by subst.
    - intros c ns H%elem_of_nil. done.
    - done.
    - done.
    - rewrite <-R5. by apply fld_eq.
  Qed.

  Lemma within_live depth st : length st < depth -> within depth (cols G st).
  Proof. intros H. apply within_length. unfold cols. by rewrite fmap_length. Qed.

  Lemma solve_helper_calls_spec depth : forall h st partial calls,
    within depth (cols G st) -> Live h st ->
    (exists sol h', solve_helper_calls fuel depth root h partial calls =
         Ret (h', partial ++ sol, true, calls + knuth_branches (cols G st)) /\
       exact_cover (cols G st) sol /\ freed h h' st /\ knuth (cols G st) = Some sol) \/
    (solve_helper_calls fuel depth root h partial calls =
         Ret (h, partial, false, calls + knuth_branches (cols G st)) /\
       (forall sel, ~ exact_cover (cols G st) sel) /\ knuth (cols G st) = None).
  Proof.
    induction depth as [|depth IH]; intros h st partial calls Hd HL; [done|].
    cbn [solve_helper_calls]. cbv zeta. pose proof (lv_rep _ _ HL) as HR. pose proof (lv_nd _ _ HL) as Hnd.
    pose proof (lv_wf _ _ HL) as HW.
    pose proof (seg_fwd _ _ _ _ _ _ (rep_ring _ _ _ HR)) as Hfwd.
    pose proof (fwd_first _ _ _ _ _ Hfwd) as (nr&Hnr&Hright)%fld_Some.
    assert (is_empty root h = Ret (bool_decide (first_or st.*1 root = root))) as ->.
    { unfold is_empty, load. rewrite Hnr. cbn [bind]. by rewrite Hright. }
    cbn [bind].
    destruct (decide (st = [])) as [->|Hne].
    - left. exists [], h. rewrite bool_decide_eq_true_2 by done. split_and!.
      + rewrite app_nil_r. do 2 f_equal. change (knuth_branches (cols G [])) with 1. lia.
      + split_and!; [constructor|intros k Hk%elem_of_nil; done|intros r Hr%elem_of_nil; done].
      + split; [done|intros x Hx%elem_of_nil; done|done].
      + done.
    - rewrite bool_decide_eq_false_2.
      2:{ destruct st as [|[c ns] st]; [done|]. cbn. intros ->.
          apply (lv_root _ _ HL). rewrite fp_cons. apply elem_of_list_here. }
      destruct (choose_column_spec h st HL Hne) as (s1&c&ns&s2&Ech&Hst&Hs1&Hs2).
      assert ((c, ns) ∈ st) as Hc by (rewrite Hst, elem_of_app; right; apply elem_of_list_here).
      assert (knuth (cols G st) = first_some (fun r => cons r <$> knuth (choose (cols G st) r)) (rw G <$> ns)) as Hkn.
      { apply (knuth_split _ (cols G s1) _ (cols G s2)).
        - rewrite Hst. unfold cols. by rewrite fmap_app.
        - intros x (d&ms&Hdm&->)%elem_of_cols. rewrite !fmap_length. by eapply Hs1.
        - intros x (d&ms&Hdm&->)%elem_of_cols. rewrite !fmap_length. by eapply Hs2. }
      assert (knuth_branches (cols G st) = S (sum_until (solvable (cols G st))
        (fun r => knuth_branches (choose (cols G st) r)) (rw G <$> ns))) as Hbr.
      { apply (branches_split _ (cols G s1) _ (cols G s2)).
        - rewrite Hst. unfold cols. by rewrite fmap_app.
        - intros x (d&ms&Hdm&->)%elem_of_cols. rewrite !fmap_length. by eapply Hs1.
        - intros x (d&ms&Hdm&->)%elem_of_cols. rewrite !fmap_length. by eapply Hs2. }
      assert (forall q, q ∈ ns -> within depth (choose (cols G st) (rw G q))) as Hdeep.
      { intros q Hq. apply (within_split _ _ (cols G s1) (rw G <$> ns) (cols G s2) Hd).
        - rewrite Hst. unfold cols. by rewrite fmap_app.
        - intros x (d&ms&Hdm&->)%elem_of_cols. rewrite !fmap_length. by eapply Hs1.
        - intros x (d&ms&Hdm&->)%elem_of_cols. rewrite !fmap_length. by eapply Hs2.
        - by apply elem_of_list_fmap_1. }
      clear s1 s2 Hst Hs1 Hs2. rewrite Ech. cbn [bind].
      assert (to_header h c = Ret c) as Hth.
      { apply to_header_fld. exists null. split; [by apply (rep_col _ _ _ HR c ns)|]. by rewrite decide_True. }
      destruct (live_cover h st c ns c HL Hc Hth) as (h1&E1&HL1&U1&C1&F1).
      rewrite E1. cbn [bind].
      pose proof (seg_fwd _ _ _ _ _ _ (fz_col _ _ _ F1)) as Hfwd1.
      assert (NoDup (c :: ns)) as Hcns by (by eapply NoDup_key_split).
      apply NoDup_cons in Hcns as [Hcns Hnsnd].
      assert (forall q, q ∈ ns -> q ∈ nodes st) as Hnode by (intros q Hq; apply elem_of_nodes; eauto).
      match goal with |- context [for_skip1 _ _ _ _ ?b _] => set (body := b) end.
      destruct (for_skip1_J
        (fun l1 (s : heap * list nat * nat) => s = (h1, partial, S calls + sum_until (solvable (cols G st))
             (fun r => knuth_branches (choose (cols G st) r)) (rw G <$> l1)) /\
           (forall q, q ∈ l1 -> forall sel, ~ exact_cover (cols G st) (rw G q :: sel)) /\
           forall q, q ∈ l1 -> knuth (choose (cols G st) (rw G q)) = None)
        (fun s => exists sol, s.1.2 = partial ++ sol /\ exact_cover (cols G st) sol /\ freed h s.1.1 st /\
           knuth (cols G st) = Some sol /\ s.2 = calls + knuth_branches (cols G st))
        (fun s : heap * list nat * nat => s.1.1) n_down c body ns fuel (h1, partial, S calls)) as ([[g par] cnt]&stop&E&Hpost).
      + etrans; [|exact (lv_fuel _ _ HL)]. apply subset_length; [done|]. intros x Hx. by apply nodes_fp, Hnode.
      + intros Hin. eapply (lv_null _ _ null HL); [|done]. by apply nodes_fp, Hnode.
      + done.
      + by apply fwd_first.
      + intros l1 q l2 s Hl (->&Hno&HnoK). cbn [fst].
        assert (q ∈ ns) as Hq by (rewrite Hl, elem_of_app; right; apply elem_of_list_here).
        split; [eapply fwd_at; by rewrite <-Hl|].
        pose proof (Hnode q Hq) as Hqn. pose proof (wf_node _ _ _ HW q Hqn) as Hqi.
        pose proof (fz_row _ _ _ F1 q Hq) as Hqrow.
        destruct (ro_row _ _ _ Hqrow) as [].
        pose proof (ro_row _ _ _ Hqrow) as (n&Hn&Hnrow)%fld_Some.
        unfold body, load. rewrite Hn. cbn [bind]. rewrite Hnrow. clear n Hn Hnrow.
        assert (forall y, y ∈ rr G q -> y ∈ nodes st) as Hmates.
        { intros y Hy. eapply (wf_closed _ _ _ HW); [exact Hqn|].
          by apply (elem_of_rr G HG) in Hy as [? _]. }
        assert (forall y, y ∈ rr G q -> rowok G h1 y) as Hmrow.
        { intros y Hy. eapply rowok_calm; [done|exact C1|apply (wf_key _ _ _ HW)|..].
          - by apply (wf_node _ _ _ HW), Hmates.
          - by apply (lv_row _ _ HL), Hmates. }
        assert (forall y, y ∈ rr G q -> fld n_header h1 y = Some (hdr G y)) as Hmh.
        { intros y Hy. by apply (ro_hdr _ _ _ (Hmrow y Hy)). }
        assert (forall y, y ∈ rr G q -> hdr G y ∈ (coverset G [c] st).*1) as Hmk.
        { intros y Hy. rewrite coverset_keys. apply elem_of_list_filter. split.
          - rewrite elem_of_list_singleton, <-(wf_hdr _ _ _ HW c ns q Hc Hq). by apply (rr_hdr G HG).
          - pose proof (Hmates y Hy) as (d&ms&Hdm&Hym)%elem_of_nodes.
            rewrite (wf_hdr _ _ _ HW d ms y Hdm Hym). apply elem_of_list_fmap. by exists (d, ms). }
        assert (NoDup (hdr G <$> (q :: rr G q))) as Hmnd.
        { rewrite (gr_rr G HG _ _ Hqi). apply (gr_hdr G HG). }
        rewrite fmap_cons in Hmnd. apply NoDup_cons in Hmnd as [Hqh Hmnd].
        assert (null ∉ rr G q) as Hmnull.
        { intros Hin. eapply (lv_null _ _ null HL); [|done]. by apply nodes_fp, Hmates. }
        assert (q ∉ rr G q) as Hself by (intros Hin; by apply (elem_of_rr G HG) in Hin as [_ ?]).
        assert (length (rr G q) <= fuel) as Hmlen.
        { etrans; [|exact (lv_fuel _ _ HL)]. apply subset_length; [by apply (rr_NoDup G HG)|].
          intros x Hx. by apply nodes_fp, Hmates. }
        destruct (covers_loop h1 (coverset G [c] st) q (rr G q)) as (h2&E2&EL2&UL2); try done.
        { intros y [->|Hy]%elem_of_cons; [done|]. by apply (wf_node _ _ _ HW), Hmates. }
        { apply (ro_ring _ _ _ Hqrow). }
        destruct (covers_spec h1 (coverset G [c] st) (rr G q)) as (h2'&fz&E2'&HL2&C2&F2&Hbnd&Hsplit&Hdis); try done.
        assert (h2' = h2) as -> by congruence. clear E2'.
        rewrite coverset_coverset in HL2, Hsplit, Hdis. cbn [app] in HL2, Hsplit, Hdis.
        rewrite EL2. cbn [bind].
        set (st2 := coverset G (c :: (hdr G <$> rr G q)) st) in *.
        assert (forall sel, exact_cover (cols G st) (rw G q :: sel) <-> exact_cover (cols G st2) sel) as Hec.
        { intros sel. rewrite (exact_cover_step G HG root st q sel HW Hnd Hqn). unfold st2.
          rewrite (coverset_ext G (hdr G <$> rl G (rw G q)) (c :: (hdr G <$> rr G q))); [done|].
          intros x. rewrite <-(wf_hdr _ _ _ HW c ns q Hc Hq), <-fmap_cons.
          by rewrite (gr_rr G HG _ _ Hqi). }
        assert (choose (cols G st) (rw G q) = cols G st2) as HecK.
        { rewrite <-(cols_choose G HG root st q HW Hnd Hqn). unfold st2.
          rewrite (coverset_ext G (hdr G <$> rl G (rw G q)) (c :: (hdr G <$> rr G q))); [done|].
          intros x. rewrite <-(wf_hdr _ _ _ HW c ns q Hc Hq), <-fmap_cons.
          by rewrite (gr_rr G HG _ _ Hqi). }
        assert (forall x, x ∈ rw G <$> l1 -> solvable (cols G st) x = false) as Hl1.
        { intros x (y&->&Hy)%elem_of_list_fmap. unfold solvable. rewrite (HnoK y Hy). apply bool_decide_eq_false_2. by intros [? ?]. }
        destruct (IH h2 st2 (partial ++ [rw G q]) (S calls + sum_until (solvable (cols G st))
             (fun r => knuth_branches (choose (cols G st) r)) (rw G <$> l1))) as [(sol&h3&E3&Hsol&Hfr&HsolK)|(E3&Hnone&HnoneK)]; [rewrite <-HecK; by apply Hdeep|done|..]; rewrite E3; cbn [bind].
        * (* success: free the covered columns *)
          assert (forall x, x ∈ fp st <-> x ∈ blk G c ns \/ x ∈ blks fz \/ x ∈ fp st2) as Hall.
          { intros x. rewrite (fp_split G HG root st c ns x HW Hnd Hc), Hsplit. done. }
          assert (forall x, x ∈ blk G c ns -> x ∉ blks fz /\ x ∉ fp st2) as Hbc.
          { intros x Hx. split; intros Hx'; eapply (fp_split_disjoint G HG root st c ns x HW Hnd Hc Hx); apply Hsplit; auto. }
          assert (forall x, x ∈ blk G c ns \/ x ∈ blks fz -> h3 !! x = h2 !! x) as H32.
          { intros x Hx. apply (fr_out _ _ _ Hfr). rewrite not_elem_of_cons. split.
            - intros ->. apply (lv_root _ _ HL). apply Hall. tauto.
            - destruct Hx as [Hx|Hx]; [by apply Hbc|]. intros Hx'. by eapply Hdis. }
          assert (forall x, x ∈ blk G c ns -> h2 !! x = h1 !! x) as H21.
          { intros x Hx. apply (c_out _ _ _ _ C2). rewrite not_elem_of_cons. split.
            - intros ->. apply (lv_root _ _ HL). apply Hall. tauto.
            - intros Hx'. by eapply (fp_split_disjoint G HG root st c ns x HW Hnd Hc Hx). }
          assert (forall x, x ∈ q :: rr G q -> x ∈ blk G c ns) as Hqblk.
          { intros x Hx. apply elem_of_blk. right. exists q. split; [done|]. by apply elem_of_cons in Hx. }
          assert (forall y, y ∈ q :: rr G q -> h3 !! y = h1 !! y) as H31.
          { intros y Hy. rewrite H32 by (left; by apply Hqblk). apply H21. by apply Hqblk. }
          assert (NoDup (blk G c ns)) as Hbcnd.
          { eapply blk_NoDup; [done|exact HW|done|done|]. by apply (lv_root h). }
          destruct (frees_loop h3 q (rr G q) fz) as (h4&E4&Her4); try done.
          { eapply Forall2_impl_in; [|exact F2]. intros y [d ms] Hdm [? Hfz]. split; [done|].
            eapply frozen_frame; [|exact Hfz]. intros x Hx. apply H32. right. apply elem_of_blks. eauto. }
          { intros Hin. eapply (lv_null _ _ null HL); [|done]. apply Hall. tauto. }
          { etrans; [|exact (lv_fuel _ _ HL)]. apply subset_length; [done|]. intros x Hx. apply Hall. tauto. }
          { intros y Hy. by apply Hbc, Hqblk. }
          { intros y Hy. rewrite <-(Hmh y Hy). apply fld_eq, H31. by apply elem_of_list_further. }
          { eapply seg_frame_eq; [|exact (ro_ring _ _ _ Hqrow)]. intros y Hy. apply H31.
            rewrite elem_of_cons, elem_of_app, elem_of_list_singleton in Hy. rewrite elem_of_cons. tauto. }
          rewrite E4. cbn [bind].
          assert (forall x, x ∈ blk G c ns -> h4 !! x = h1 !! x) as H41.
          { intros x Hx. rewrite (erased_out _ _ _ _ Her4) by (by apply Hbc).
            rewrite H32 by (by left). by apply H21. }
          destruct (free_chain_spec h4 c ns c) as (h5&E5&Her5); try done.
          { eapply frozen_frame; [exact H41|done]. }
          { eapply to_header_frame; [|exact Hth]. rewrite <-(c_header _ _ _ _ C1).
            apply fld_eq, H41, elem_of_list_here. }
          { intros Hin. eapply (lv_null _ _ null HL); [|done]. apply Hall. tauto. }
          { etrans; [|exact (lv_fuel _ _ HL)]. apply subset_length; [done|]. intros x Hx. apply Hall. tauto. }
          rewrite E5. cbn [bind]. eexists _, true. split; [done|]. cbn [fst snd].
          exists (rw G q :: sol). split_and!.
          -- by rewrite <-app_assoc.
          -- by apply Hec.
          -- split.
             ++ eapply Rep_nil_frame; [|exact (fr_rep _ _ _ Hfr)].
                rewrite (erased_out _ _ _ _ Her5); [apply (erased_out _ _ _ _ Her4)|];
                  intros Hin; apply (lv_root _ _ HL), Hall; tauto.
             ++ intros x [Hx|[Hx|Hx]]%Hall.
                ** rewrite Her5. by rewrite decide_True.
                ** rewrite Her5. destruct (decide _); [done|]. rewrite Her4. by rewrite decide_True.
                ** rewrite Her5. destruct (decide _); [done|]. rewrite Her4. destruct (decide _); [done|].
                   by apply (fr_in _ _ _ Hfr).
             ++ intros x Hx. rewrite not_elem_of_cons, Hall in Hx.
                rewrite (erased_out _ _ _ _ Her5) by tauto. rewrite (erased_out _ _ _ _ Her4) by tauto.
                rewrite (fr_out _ _ _ Hfr) by (rewrite not_elem_of_cons; tauto).
                rewrite (c_out _ _ _ _ C2).
                2:{ rewrite not_elem_of_cons, Hsplit. tauto. }
                apply (c_out _ _ _ _ C1). rewrite not_elem_of_cons, Hall. tauto.
          -- rewrite Hkn, Hl, fmap_app, fmap_cons, first_some_app.
             2:{ intros r (x&->&Hx)%elem_of_list_fmap. by rewrite HnoK. }
             cbn [first_some]. by rewrite HecK, HsolK.
          -- rewrite Hbr, Hl, fmap_app, fmap_cons, sum_until_app by done. cbn [sum_until].
             replace (solvable (cols G st) (rw G q)) with true; [rewrite HecK; lia|].
             unfold solvable. rewrite HecK, HsolK. symmetry. by apply bool_decide_eq_true_2.
        * (* failure: restore *)
          rewrite UL2. cbn [bind]. eexists _, false. split; [done|]. split; [|split].
          -- rewrite fmap_app, sum_until_app by done. cbn [fmap list_fmap sum_until]. rewrite HecK.
             f_equal; [f_equal; rewrite app_length; cbn; rewrite Nat.add_sub; by rewrite take_app|].
             destruct (solvable (cols G st) (rw G q)); lia.
          -- intros x [Hx|Hx]%elem_of_app sel Hsel; [by eapply Hno|].
             apply elem_of_list_singleton in Hx as ->. by eapply Hnone, Hec.
          -- intros x [Hx|Hx]%elem_of_app; [by apply HnoK|].
             apply elem_of_list_singleton in Hx as ->. by rewrite HecK.
      + split_and!; [by rewrite Nat.add_0_r|intros q Hq%elem_of_nil; done..].
      + rewrite E. cbn [bind fst snd]. destruct stop.
        * destruct Hpost as (sol&Hpar&Hsol&Hfr&HsolK&Hcnt). cbn [fst snd] in *. subst par cnt. left. eauto 10.
        * destruct Hpost as (Hs&Hno&HnoK). injection Hs as -> -> ->. right. rewrite U1. cbn [bind]. split; [do 2 f_equal; rewrite Hbr; lia|]. split.
          -- intros sel Hsel. destruct (exact_cover_pick G st c ns sel Hc Hsel) as (q&S'&Hq&_&Hec).
             by eapply Hno.
          -- rewrite Hkn, <-(app_nil_r (rw G <$> ns)), first_some_app; [done|].
             intros r (x&->&Hx)%elem_of_list_fmap. by rewrite HnoK.
  Qed.

  Lemma solve_helper_spec depth : forall h st partial,
    within depth (cols G st) -> Live h st ->
    (exists sol h', solve_helper fuel depth root h partial = Ret (h', partial ++ sol, true) /\
       exact_cover (cols G st) sol /\ freed h h' st /\ knuth (cols G st) = Some sol) \/
    (solve_helper fuel depth root h partial = Ret (h, partial, false) /\
       (forall sel, ~ exact_cover (cols G st) sel) /\ knuth (cols G st) = None).
  Proof.
    intros h st partial Hd HL. rewrite <-(helper_same fuel root depth h partial 0).
    destruct (solve_helper_calls_spec depth h st partial 0 Hd HL) as [(sol&h'&->&H)|(->&H)]; cbn [bind]; [left|right]; eauto.
  Qed.
End search.
