(** Reading other sizes changes at most which exact cover is found. *)
From Verif Require Import Base Dlx DlxSeg DlxCover DlxColumn SpecDlx SpecDlxSearch DlxSets DlxKnuth DlxSearch DlxBuild DlxNew DlxAdd DlxReady DlxProofs.
From Verif Require Import DlxReleaseEq DlxLook DlxLenSearch.

Section search.
  Context (look : N -> node -> nat) (Hlook : forall p n, n_header n <> null -> look p n = n_row n).
  Context (G : rows_info) (root : ptr) (fuel : nat).

  Lemma clear_look_eq h st c ns q rows : Live G root fuel h st -> (c, ns) ∈ st -> q ∈ ns ->
    clear_look look fuel q h rows = clear_rows fuel q h rows.
  Proof.
    intros HL Hc Hq.
    pose proof (lv_rep _ _ _ _ _ HL) as HR. destruct (rep_col _ _ _ HR c ns Hc) as (Hseg&_&_&Hh).
    pose proof (seg_fwd _ _ _ _ _ _ Hseg) as Hfwd. unfold clear_look, clear_rows.
    pose proof (Hh q Hq) as (n&Hn&Hnh)%fld_Some. unfold load at 1. rewrite Hn. cbn [bind].
    unfold load at 2. rewrite Hn. cbn [bind]. rewrite Hnh. f_equal.
    assert (c <> null) as Hcz.
    { eapply (lv_null _ _ _ _ _ c HL). apply elem_of_fp. exists c, ns. auto. }
    apply (ring_cong (fun s => s.1 = h) fst n_down c _ _ h ns); [done|done| | |done].
    - intros x [g b] Hx Hg. cbn in Hg. subst g. pose proof (Hh x Hx) as (m&Hm&Hmh)%fld_Some.
      unfold load. rewrite Hm. cbn [bind]. by rewrite Hlook by (by rewrite Hmh).
    - intros x [g b] [g' b'] Hx Hg. cbn in Hg. subst g. destruct (load h x) as [m|]; cbn [bind]; [|done].
      unfold vec_set. destruct (decide _); cbn [bind]; [|done]. by intros [= <- _].
  Qed.
End search.

(** Covering the columns of any live matrix. *)
Definition covers (fuel : nat) (cover : ptr -> heap -> res heap) : Prop := forall G, good_rows G -> forall h st c ns p,
  Live G 1%N fuel h st -> (c, ns) ∈ st -> to_header h p = Ret c -> cover p h = cover_column fuel p h.

Lemma covers_column fuel : covers fuel (cover_column fuel).
Proof. done. Qed.
Lemma covers_row cover fuel G (HG : good_rows G) h st c ns q n :
  (forall h st c ns p, Live G 1%N fuel h st -> (c, ns) ∈ st -> to_header h p = Ret c -> cover p h = cover_column fuel p h) ->
  Live G 1%N fuel h st -> (c, ns) ∈ st -> q ∈ ns -> h !! q = Some n ->
  exists h1 h2 b b', cover q h = Ret h1 /\ cover_column fuel q h = Ret h1 /\
    for_from fuel id n_right q (if decide (n_right n = q) then null else n_right n)
      (fun x h => let! h := cover x h in Ret (h, false)) h1 = Ret (h2, b) /\
    for_from fuel id n_right q (if decide (n_right n = q) then null else n_right n)
      (fun x h => let! h := cover_column fuel x h in Ret (h, false)) h1 = Ret (h2, b').
Proof.
  intros Hcov HL Hc Hq Hn.
  pose proof (lv_rep _ _ _ _ _ HL) as HR. pose proof (lv_nd _ _ _ _ _ HL) as Hnd.
  pose proof (lv_wf _ _ _ _ _ HL) as HW.
  assert (q ∈ nodes st) as Hqn by (apply elem_of_nodes; eauto).
  pose proof (wf_node _ _ _ HW q Hqn) as Hqi.
  assert (to_header h q = Ret c) as Hth.
  { apply to_header_fld. exists c. split; [by apply (rep_col _ _ _ HR c ns)|]. rewrite decide_False; [done|].
    intros ->. eapply (lv_null _ _ _ _ _ null HL); [|done]. apply elem_of_fp. eauto. }
  destruct (live_cover G HG 1%N fuel h st c ns q HL Hc Hth) as (h1&E1&HL1&U1&C1&F1).
  pose proof (fz_row _ _ _ _ F1 q Hq) as Hqrow.
  assert (forall y, y ∈ rr G q -> y ∈ nodes st) as Hmates.
  { intros y Hy. eapply (wf_closed _ _ _ HW); [exact Hqn|].
    by apply (elem_of_rr G HG) in Hy as [? _]. }
  assert (forall y, y ∈ rr G q -> rowok G h1 y) as Hmrow.
  { intros y Hy. eapply rowok_calm; [done|exact C1|apply (wf_key _ _ _ HW)|..].
    - by apply (wf_node _ _ _ HW), Hmates.
    - by apply (lv_row _ _ _ _ _ HL), Hmates. }
  assert (forall y, y ∈ rr G q -> fld n_header h1 y = Some (hdr G y)) as Hmh.
  { intros y Hy. by apply (ro_hdr _ _ _ (Hmrow y Hy)). }
  assert (forall y, y ∈ rr G q -> hdr G y ∈ (coverset G [c] st).*1) as Hmk.
  { intros y Hy. rewrite coverset_keys. apply elem_of_list_filter. split.
    - rewrite elem_of_list_singleton, <-(wf_hdr _ _ _ HW c ns q Hc Hq). by apply (rr_hdr G HG).
    - pose proof (Hmates y Hy) as (d&ms&Hdm&Hym)%elem_of_nodes.
      rewrite (wf_hdr _ _ _ HW d ms y Hdm Hym). apply elem_of_list_fmap. by exists (d, ms). }
  assert (NoDup (hdr G <$> (q :: rr G q))) as Hmnd.
  { rewrite (gr_rr G HG _ _ Hqi). apply (gr_hdr G HG). }
  rewrite fmap_cons in Hmnd. apply NoDup_cons in Hmnd as [Hqh Hmnd].
  assert (null ∉ rr G q) as Hmnull.
  { intros Hin. eapply (lv_null _ _ _ _ _ null HL); [|done]. by apply nodes_fp, Hmates. }
  assert (q ∉ rr G q) as Hself by (intros Hin; by apply (elem_of_rr G HG) in Hin as [_ ?]).
  assert (length (rr G q) <= fuel) as Hmlen.
  { etrans; [|exact (lv_fuel _ _ _ _ _ HL)]. apply subset_length; [by apply (rr_NoDup G HG)|].
    intros x Hx. by apply nodes_fp, Hmates. }
  assert (forall y, y ∈ q :: rr G q -> isnode G y) as Hnodes.
  { intros y [->|Hy]%elem_of_cons; [done|]. by apply (wf_node _ _ _ HW), Hmates. }
  destruct (covers_loop_like G HG 1%N fuel (cover_column fuel) h1 (coverset G [c] st) q (rr G q)) as (h2&E2&EL2); try done.
  { apply (ro_ring _ _ _ Hqrow). }
  destruct (covers_loop_like G HG 1%N fuel cover h1 (coverset G [c] st) q (rr G q) Hcov) as (h2'&E2'&EL2'); try done.
  { apply (ro_ring _ _ _ Hqrow). }
  assert (h2' = h2) as -> by congruence.
  assert (exists n1, h1 !! q = Some n1 /\ n_right n1 = n_right n) as (n1&Hn1&Hr1).
  { apply fld_Some. rewrite (c_right _ _ _ _ C1); [apply fld_Some; eauto|].
    intros Hin. by apply (wf_key _ _ _ HW) in Hin. }
  exists h1, h2. unfold heap_loop, for_skip1, load in EL2, EL2'. change (id h1) with h1 in EL2, EL2'.
  rewrite Hn1 in EL2, EL2'. cbn [bind] in EL2, EL2'. rewrite Hr1 in EL2, EL2'.
  rewrite (Hcov _ _ _ _ _ HL Hc Hth), E1.
  destruct (for_from _ _ _ _ _ _ h1) as [[g b]|] in EL2 |- *; [|done]. cbn [bind] in EL2. injection EL2 as ->.
  destruct (for_from _ _ _ _ _ (fun x h => let! h := cover x h in _) h1) as [[g b']|]; [|done]. cbn [bind] in EL2'. injection EL2' as ->.
  by exists b', b.
Qed.
Lemma add_look_eq look cover fuel cs added mx r : (forall p n, n_header n <> null -> look p n = n_row n) -> covers fuel cover ->
  Ready fuel cs added mx -> add_look look cover fuel mx r = add_solution fuel mx r.
Proof.
  intros Hlook Hcov (Hf&Hroot&G&st0&HS&HL&Hown&(T1&T2&T3)&_&_). unfold add_look, add_solution.
  destruct (decide (length (d_rows mx) <= r)) as [Hlt|Hlt]; [done|].
  destruct (vec_get (d_rows mx) r) as [p|] eqn:Hg; cbn [bind]; [|done].
  destruct (decide (p = null)) as [Hp|Hp]; [done|].
  assert (d_rows mx !! r = Some p) as Hrow.
  { unfold vec_get, expect in Hg. destruct (d_rows mx !! r); [by injection Hg as ->|done]. }
  assert (occurs cs r) as Ho.
  { destruct (occurs_dec cs r) as [|Ho]; [done|]. rewrite T2 in Hrow; [by injection Hrow as <-|lia|by left]. }
  assert (~ nulled cs added r) as Hn.
  { intros Hn. rewrite T2 in Hrow; [by injection Hrow as <-|lia|by right]. }
  destruct (d_heap mx !! p) as [n|] eqn:Hh.
  2:{ unfold clear_look, clear_rows, load. by rewrite Hh. }
  destruct (T3 r Ho Hn) as (p1&Hl&Hrow1). assert (p1 = p) as -> by congruence.
  destruct (last_exists cs G st0 HS r Ho) as (p'&c&ns&Hl'&Hcn&Hpn&Hpr). assert (p' = p) as -> by congruence.
  assert (is_Some (d_heap mx !! p)) as Hs by eauto.
  pose proof (wf_node _ _ _ (s_wf _ _ _ HS) p) as Hpi. rewrite elem_of_nodes in Hpi.
  pose proof (Hpi (ex_intro _ c (ex_intro _ ns (conj Hcn Hpn)))) as Hi.
  pose proof (lv_wf _ _ _ _ _ HL) as HW.
  apply Hown, elem_of_cons in Hs as [->|(d&ms&Hd&[->|Hm])%elem_of_fp].
  - apply (wf_key _ _ _ HW) in Hi; [done|apply elem_of_list_here].
  - apply (wf_key _ _ _ HW) in Hi; [done|]. apply elem_of_list_further, elem_of_list_fmap. by exists (d, ms).
  - rewrite (clear_look_eq look Hlook G 1%N fuel _ _ d ms p _ HL Hd Hm).
    destruct (clear_rows _ _ _ _) as [rows|]; cbn [bind]; [|done].
    unfold load. rewrite Hh. cbn [bind].
    destruct (covers_row cover fuel G (s_good _ _ _ HS) _ _ d ms p n (Hcov G (s_good _ _ _ HS)) HL Hd Hm Hh) as (h1&h2&b&b'&->&->&E1&E2).
    cbn [bind]. by rewrite E1, E2.
Qed.

(** [solve] branching on the columns that look smallest. *)
Definition solve_len (look : N -> node -> nat) (cover : ptr -> heap -> res heap) (fuel : nat) (mx : matrix) : res (result (list nat) dlx_error * heap) :=
  let! (h, partial, ok) := solve_look look cover fuel fuel (d_root mx) (d_heap mx) (d_partial mx) in
  let! h := matrix_drop fuel (d_root mx) h in
  Ret (if ok : bool then Ok partial else Err DlxNoSolution, h).
Lemma solve_len_ready look cover fuel cs added mx : (forall p n, n_header n <> null -> look p n = n_row n) ->
  covers fuel cover -> Ready fuel cs added mx ->
  (exists sol, solve_len look cover fuel mx = Ret (Ok (d_partial mx ++ sol), ∅) /\ exact_cover cs (added ++ sol)) \/
  (solve_len look cover fuel mx = Ret (Err DlxNoSolution, ∅) /\ forall sel, ~ exact_cover cs (added ++ sel)).
Proof.
  intros Hlook Hcov (Hf&Hroot&G&st0&HS&HL&Hown&_&Hec&_). unfold solve_len. rewrite Hroot. set (st := coverset G (fixed G added) st0) in *.
  assert (length st < fuel) as Hlen.
  { eapply Nat.le_lt_trans; [|exact Hf]. rewrite <-(s_size _ _ _ HS).
    etrans; [apply coverset_length_le|]. clear. induction st0 as [|[c ns] st IH]; [done|].
    rewrite fp_cons. cbn [length]. rewrite app_length. lia. }
  destruct (solve_look_spec look Hlook G (s_good _ _ _ HS) 1%N fuel cover (Hcov G (s_good _ _ _ HS)) fuel (d_heap mx) st (d_partial mx) Hlen HL)
    as [(sol&h'&E&Hsol&[F1 F2 F3])|[E Hno]]; rewrite E; cbn [bind].
  - left. exists sol. split; [|by apply Hec].
    rewrite (matrix_drop_spec fuel 1%N h' []); [done|done|cbn; lia|].
    intros x Hx. change (fp []) with (@nil ptr). rewrite elem_of_list_singleton.
    destruct (decide (x ∈ 1%N :: fp st)) as [Hin|Hout].
    + apply elem_of_cons in Hin as [?|Hin]; [done|]. rewrite (F2 x Hin) in Hx. by destruct Hx.
    + rewrite (F3 x Hout) in Hx. by apply Hown in Hx.
  - right. split; [|intros sel Hsel; by eapply Hno, Hec].
    rewrite (matrix_drop_spec fuel 1%N (d_heap mx) st); [done|by apply lv_rep in HL|by apply lv_fuel in HL|].
    intros x. apply Hown.
Qed.
