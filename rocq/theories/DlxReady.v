(** A matrix with some rows fixed, seen from outside. *)
From Verif Require Import Base Dlx DlxSeg DlxCover DlxColumn SpecDlx SpecDlxSearch DlxSets DlxKnuth DlxSearch DlxBuild DlxNew DlxAdd.

Record Static (cs : list (list nat)) (G : rows_info) (st0 : cstate) : Prop := {
  s_good : good_rows G;
  s_wf : wfst G 1%N st0;
  s_nd : NoDup (fp st0);
  s_cols : cols G st0 = cs;
  s_node q : isnode G q -> q ∈ nodes st0;
  s_row r : rl G r <> [] <-> occurs cs r;
  s_last r p : last (rl G r) = Some p ->
    exists s1 c ns s2, st0 = s1 ++ (c, ns) :: s2 /\ p ∈ ns /\
      forall d ms q, (d, ms) ∈ s2 -> q ∈ ms -> q ∉ rl G r;
  s_null : null ∉ fp st0;
  s_size : length (fp st0) = matrix_size cs
}.

Definition fixed (G : rows_info) (added : list nat) : list ptr :=
  mjoin ((fun a => hdr G <$> rl G a) <$> added).
Lemma fixed_snoc G added r : fixed G (added ++ [r]) = fixed G added ++ (hdr G <$> rl G r).
Proof. unfold fixed. rewrite fmap_app, mjoin_app. cbn. by rewrite app_nil_r. Qed.
Lemma elem_of_fixed G added c : c ∈ fixed G added <-> exists a, a ∈ added /\ c ∈ hdr G <$> rl G a.
Proof.
  unfold fixed. rewrite elem_of_list_join. split.
  - intros (l&Hc&(a&->&Ha)%elem_of_list_fmap). eauto.
  - intros (a&Ha&Hc). eexists. split; [exact Hc|]. apply elem_of_list_fmap. eauto.
Qed.

Definition table_ok (G : rows_info) (cs : list (list nat)) (added : list nat) (rows : list ptr) : Prop :=
  (forall r, r < length rows <-> exists r', r <= r' /\ occurs cs r') /\
  (forall r, r < length rows -> ~ occurs cs r \/ nulled cs added r -> rows !! r = Some null) /\
  (forall r, occurs cs r -> ~ nulled cs added r -> exists p, last (rl G r) = Some p /\ rows !! r = Some p).

Definition Ready (fuel : nat) (cs : list (list nat)) (added : list nat) (mx : matrix) : Prop :=
  matrix_size cs < fuel /\ d_root mx = 1%N /\ exists G st0, Static cs G st0 /\
    Live G 1%N fuel (d_heap mx) (coverset G (fixed G added) st0) /\
    Owned 1%N (d_heap mx) (coverset G (fixed G added) st0) /\
    table_ok G cs added (d_rows mx) /\
    (forall sel, exact_cover cs (added ++ sel) <-> exact_cover (cols G (coverset G (fixed G added) st0)) sel) /\
    cols G (coverset G (fixed G added) st0) = foldl choose cs added.

Lemma ready_new cs : Forall NoDup cs ->
  exists mx, matrix_new cs = Ret mx /\ d_partial mx = [] /\
    forall fuel, matrix_size cs < fuel -> Ready fuel cs [] mx.
Proof.
  intros Hnd. destruct (matrix_new_spec cs Hnd) as (mx&R&st&E&Hroot&Hpar&HG&HL&Hcols&Hown&Hsize&[T1 T2 T3 T4]).
  exists mx. split_and!; [done|done|]. intros fuel Hf. split_and!; [done|done|].
  set (G := info_of (d_heap mx) R) in *. exists G, st.
  assert (Live G 1%N fuel (d_heap mx) st) as HLf by (apply HL; lia).
  assert (coverset G (fixed G []) st = st) as -> by apply coverset_nil.
  pose proof (lv_wf _ _ _ _ _ HLf) as HW. pose proof (lv_nd _ _ _ _ _ HLf) as Hfnd.
  split; [split; try done|].
  2:{ intros Hin. by apply (lv_null _ _ _ _ _ null HLf). }
  - intros q Hq. unfold isnode in Hq. change (rl G (rw G q)) with (R (rw G q)) in Hq.
    assert (R (rw G q) <> []) as Hne by (intros Hn; rewrite Hn in Hq; by apply elem_of_nil in Hq).
    apply T3 in Hne as (C&HC&Hr). rewrite <-Hcols in HC. apply elem_of_cols in HC as (c&ns&Hc&->).
    apply elem_of_list_fmap in Hr as (x&Hrx&Hx).
    assert (x ∈ nodes st) as Hxn by (apply elem_of_nodes; eauto).
    apply (wf_closed _ _ _ HW x); [done|]. by rewrite <-Hrx.
  - split_and!; [done|done|split_and!| |done].
    + intros r. rewrite T1. unfold occurs. naive_solver.
    + intros r Hr [Hno|(l1&a&l2&Hl&_)]; [|by destruct l1].
      assert (R r = []) as HR.
      { destruct (R r) eqn:HRr; [done|]. exfalso. apply Hno, T3. by rewrite HRr. }
      specialize (T2 r). rewrite HR in T2. apply lookup_lt_is_Some in Hr as [x Hx]. rewrite Hx in T2 |- *. by f_equal.
    + intros r Hocc _. apply T3 in Hocc. change (rl G r) with (R r). specialize (T2 r).
      destruct (last (R r)) as [p|] eqn:Hl; [|by apply last_None in Hl].
      exists p. split; [done|]. assert (p <> null) as Hp.
      { assert (p ∈ R r) as Hin by (apply last_Some in Hl as [l' ->]; rewrite elem_of_app; right; apply elem_of_list_here).
        destruct (T4 r p Hl) as (s1&c&ns&s2&Hst&Hpn&_).
        eapply (lv_null _ _ _ _ _ p HLf). apply elem_of_fp. exists c, ns. split; [|by right].
        rewrite Hst, elem_of_app. right. apply elem_of_list_here. }
      cbn in T2. destruct (d_rows mx !! r) as [y|]; [by rewrite <-T2|]. cbn in T2. by rewrite <-T2 in Hp.
    + intros sel. by rewrite Hcols.
Qed.

Section static.
  Context (cs : list (list nat)) (G : rows_info) (st0 : cstate) (HS : Static cs G st0).

  Lemma rl_col r q : q ∈ rl G r -> exists c ns, (c, ns) ∈ st0 /\ q ∈ ns /\ hdr G q = c /\ rw G q = r.
  Proof.
    intros Hq. pose proof (gr_rw G (s_good _ _ _ HS) r q Hq) as Hr.
    assert (isnode G q) as Hi by (unfold isnode; by rewrite Hr).
    apply (s_node _ _ _ HS) in Hi. apply elem_of_nodes in Hi as (c&ns&Hc&Hqn). exists c, ns.
    split_and!; try done. by eapply (wf_hdr _ _ _ (s_wf _ _ _ HS)).
  Qed.
  Lemma col_rl c ns q : (c, ns) ∈ st0 -> q ∈ ns -> q ∈ rl G (rw G q) /\ hdr G q = c.
  Proof.
    intros Hc Hq. split; [|by eapply (wf_hdr _ _ _ (s_wf _ _ _ HS))].
    apply (wf_node _ _ _ (s_wf _ _ _ HS)), elem_of_nodes. eauto.
  Qed.
  Lemma header_row c ns r : (c, ns) ∈ st0 -> c ∈ hdr G <$> rl G r <-> r ∈ rw G <$> ns.
  Proof.
    intros Hc. rewrite !elem_of_list_fmap. split.
    - intros (q&->&Hq). destruct (rl_col r q Hq) as (d&ms&Hd&Hqm&Hh&Hr). exists q. split; [done|].
      rewrite Hh in Hc. by destruct (fp_disjoint _ _ _ _ _ d (s_nd _ _ _ HS) Hc Hd) as [_ ->]; [apply elem_of_list_here..|].
    - intros (q&->&Hq). destruct (col_rl c ns q Hc Hq) as [H1 H2]. exists q. done.
  Qed.
  Lemma conflict_rows_of added r : conflict cs added r <-> r ∈ rows_of G (fixed G added) st0.
  Proof.
    rewrite elem_of_rows_of. unfold conflict. rewrite <-(s_cols _ _ _ HS). split.
    - intros (k&a&(c&ns&Hc&->)%elem_of_cols&Ha&Hak&(q&->&Hq)%elem_of_list_fmap).
      exists c, ns, q. split_and!; [done| |done|done]. apply elem_of_fixed. exists a. split; [done|].
      by eapply header_row.
    - intros (c&ns&q&Hc&(a&Ha&Hca)%elem_of_fixed&Hq&<-). exists (rw G <$> ns), a. split_and!.
      + apply elem_of_cols. eauto.
      + done.
      + by eapply header_row.
      + by apply elem_of_list_fmap_1.
  Qed.
  Lemma alive added r p : p ∈ rl G r -> p ∈ nodes (coverset G (fixed G added) st0) <-> ~ conflict cs added r.
  Proof.
    intros Hp. rewrite elem_of_nodes_coverset by apply (s_nd _ _ _ HS). rewrite conflict_rows_of.
    destruct (rl_col r p Hp) as (c&ns&Hc&Hpn&_&Hr). rewrite Hr. split; [tauto|]. split; [|done].
    apply elem_of_nodes. eauto.
  Qed.
  Lemma last_col r p c ns :
    last (rl G r) = Some p -> (c, ns) ∈ st0 -> p ∈ ns ->
    last (filter (fun k => r ∈ k) cs) = Some (rw G <$> ns).
  Proof.
    intros Hl Hc Hp. destruct (s_last _ _ _ HS r p Hl) as (s1&d&ms&s2&Hst&Hpm&Hafter).
    assert ((d, ms) ∈ st0) as Hd by (rewrite Hst, elem_of_app; right; apply elem_of_list_here).
    destruct (fp_disjoint _ _ _ _ _ p (s_nd _ _ _ HS) Hc Hd) as [-> ->]; [by apply elem_of_list_further..|].
    assert (p ∈ rl G r) as Hpr by (apply last_Some in Hl as [l' ->]; rewrite elem_of_app; right; apply elem_of_list_here).
    rewrite <-(s_cols _ _ _ HS). unfold cols. rewrite Hst, fmap_app, fmap_cons, filter_app, filter_cons. cbn [snd].
    rewrite decide_True.
    2:{ apply elem_of_list_fmap. exists p. split; [|done]. symmetry. by apply (gr_rw G (s_good _ _ _ HS)). }
    assert (filter (fun k => r ∈ k) ((fun p : ptr * list ptr => rw G <$> p.2) <$> s2) = []) as ->.
    { apply elem_of_nil_inv. intros k [Hrk ([e es]&->&He)%elem_of_list_fmap]%elem_of_list_filter. cbn in Hrk.
      apply elem_of_list_fmap in Hrk as (q&->&Hq). eapply (Hafter e es q He Hq).
      apply (col_rl e es q); [|done]. rewrite Hst, elem_of_app. right. by apply elem_of_list_further. }
    by rewrite last_snoc.
  Qed.
  Lemma last_exists r : occurs cs r -> exists p c ns, last (rl G r) = Some p /\ (c, ns) ∈ st0 /\ p ∈ ns /\ p ∈ rl G r.
  Proof.
    intros Ho. apply (s_row _ _ _ HS) in Ho. destruct (last (rl G r)) as [p|] eqn:Hl; [|by apply last_None in Hl].
    assert (p ∈ rl G r) as Hpr by (apply last_Some in Hl as [l' ->]; rewrite elem_of_app; right; apply elem_of_list_here).
    destruct (rl_col r p Hpr) as (c&ns&Hc&Hp&_). exists p, c, ns. done.
  Qed.
End static.

Lemma conflict_app cs l1 l2 r : conflict cs (l1 ++ l2) r <-> conflict cs l1 r \/ conflict cs l2 r.
Proof. unfold conflict. setoid_rewrite elem_of_app. naive_solver. Qed.
Lemma conflict_nil cs r : ~ conflict cs [] r.
Proof. intros (k&a&_&?%elem_of_nil&_). done. Qed.
Lemma shares_last_conflict cs a r : shares_last cs a r -> conflict cs [a] r.
Proof.
  intros (k&Hk&Hr). apply last_Some in Hk as [l' Hk].
  assert (k ∈ filter (fun k => a ∈ k) cs) as [H1 H2]%elem_of_list_filter.
  { rewrite Hk, elem_of_app. right. apply elem_of_list_here. }
  exists k, a. split_and!; try done. apply elem_of_list_here.
Qed.
Lemma nulled_snoc cs added a r :
  nulled cs (added ++ [a]) r <-> nulled cs added r \/ (~ conflict cs added r /\ shares_last cs a r).
Proof.
  split.
  - intros (l1&x&l2&Hl&H1&H2). destruct l2 as [|y l2 _] using rev_ind.
    + apply app_inj_tail in Hl as [-> ->]. by right.
    + rewrite app_comm_cons, app_assoc in Hl. apply app_inj_tail in Hl as [-> ->]. left. exists l1, x, l2. done.
  - intros [(l1&x&l2&->&H1&H2)|[H1 H2]].
    + exists l1, x, (l2 ++ [a]). by rewrite <-app_assoc.
    + exists added, a, []. done.
Qed.
Lemma nulled_conflict cs added r : nulled cs added r -> conflict cs added r.
Proof.
  intros (l1&a&l2&->&_&H%shares_last_conflict). change (a :: l2) with ([a] ++ l2). rewrite !conflict_app. tauto.
Qed.

(** The four outcomes of [add_solution]. *)
Lemma ready_index_error fuel cs added mx r :
  Ready fuel cs added mx -> (forall r', occurs cs r' -> r' < r) ->
  add_solution fuel mx r = Ret (Err IndexError, mx).
Proof.
  intros (_&_&G&st0&_&_&_&(T1&_)&_) Hr. unfold add_solution. rewrite decide_True; [done|].
  destruct (decide (r < length (d_rows mx))) as [Hlt|]; [|lia].
  apply T1 in Hlt as (r'&H1&H2%Hr). lia.
Qed.

Lemma ready_invalid fuel cs added mx r :
  Ready fuel cs added mx -> (exists r', r <= r' /\ occurs cs r') -> ~ occurs cs r \/ nulled cs added r ->
  add_solution fuel mx r =
    Ret (Err InvalidRow, Matrix (d_heap mx) (d_next mx) (d_root mx) (d_rows mx) (d_partial mx ++ [r])).
Proof.
  intros (_&_&G&st0&_&_&_&(T1&T2&T3)&_) Hr Hn. apply T1 in Hr. unfold add_solution. rewrite decide_False by lia.
  unfold vec_get. by rewrite (T2 r Hr Hn).
Qed.

Lemma ready_ub fuel cs added mx r :
  Ready fuel cs added mx -> occurs cs r -> conflict cs added r -> ~ nulled cs added r ->
  add_solution fuel mx r = Fault UB.
Proof.
  intros (_&_&G&st0&HS&HL&Hown&(T1&T2&T3)&_) Ho Hc Hn. unfold add_solution.
  rewrite decide_False. 2:{ assert (r < length (d_rows mx)); [|lia]. apply T1. eauto. }
  destruct (T3 r Ho Hn) as (p&Hl&Hrow). unfold vec_get, expect. rewrite Hrow. cbn [bind].
  destruct (last_exists cs G st0 HS r Ho) as (p'&c&ns&Hl'&Hcn&Hpn&Hpr).
  assert (p' = p) as -> by congruence.
  assert (p ∈ fp st0) as Hpf by (apply elem_of_fp; eauto).
  assert (p <> 1%N /\ p <> null /\ p ∉ fp (coverset G (fixed G added) st0)) as (H1&H2&H3).
  { pose proof (wf_node _ _ _ (s_wf _ _ _ HS) p) as Hpi. rewrite elem_of_nodes in Hpi.
    pose proof (Hpi (ex_intro _ c (ex_intro _ ns (conj Hcn Hpn)))) as Hi.
    pose proof (lv_wf _ _ _ _ _ HL) as HW. split_and!.
    - intros ->. apply (wf_key _ _ _ HW) in Hi; [done|apply elem_of_list_here].
    - intros ->. by apply (s_null _ _ _ HS).
    - intros (d&ms&Hd&[->|Hm])%elem_of_fp.
      + apply (wf_key _ _ _ HW) in Hi; [done|]. apply elem_of_list_further, elem_of_list_fmap. by exists (d, ms).
      + apply (alive cs G st0 HS added r p Hpr); [|done]. apply elem_of_nodes. eauto. }
  rewrite decide_False by done. unfold clear_rows, load.
  assert (d_heap mx !! p = None) as ->; [|done].
  destruct (d_heap mx !! p) eqn:Hx; [|done]. exfalso.
  assert (is_Some (d_heap mx !! p)) as Hs by eauto. apply Hown, elem_of_cons in Hs as [?|?]; done.
Qed.

Lemma ready_ok fuel cs added mx r :
  Ready fuel cs added mx -> occurs cs r -> ~ conflict cs added r ->
  exists mx', add_solution fuel mx r = Ret (Ok (), mx') /\ Ready fuel cs (added ++ [r]) mx' /\ d_partial mx' = d_partial mx ++ [r].
Proof.
  intros (Hf&Hroot&G&st0&HS&HL&Hown&(T1&T2&T3)&Hec&Hch) Ho Hc.
  assert (~ nulled cs added r) as Hn by (by intros ?%nulled_conflict).
  unfold add_solution.
  rewrite decide_False. 2:{ assert (r < length (d_rows mx)); [|lia]. apply T1. eauto. }
  destruct (T3 r Ho Hn) as (p&Hl&Hrow). unfold vec_get, expect. rewrite Hrow. cbn [bind].
  destruct (last_exists cs G st0 HS r Ho) as (p'&c&ns0&Hl'&Hcn&Hpn&Hpr).
  assert (p' = p) as -> by congruence.
  pose proof (proj2 (alive cs G st0 HS added r p Hpr) Hc) as Hlive.
  set (st := coverset G (fixed G added) st0) in *.
  pose proof (lv_wf _ _ _ _ _ HL) as HW. pose proof (lv_nd _ _ _ _ _ HL) as Hnd.
  pose proof Hlive as (d&ns&Hd&Hp)%elem_of_nodes.
  rewrite decide_False.
  2:{ intros ->. eapply (lv_null _ _ _ _ _ null HL); [by apply nodes_fp|done]. }
  pose proof (gr_rw G (s_good _ _ _ HS) r p Hpr) as Hrwp.
  pose proof Hd as (Hdf&ns'&Hd0&Hns)%elem_of_coverset.
  assert (d = c /\ ns' = ns0) as [-> ->].
  { destruct (fp_disjoint _ _ _ _ _ p (s_nd _ _ _ HS) Hd0 Hcn) as [-> ->]; try done.
    - apply elem_of_list_further. rewrite Hns in Hp. by apply elem_of_list_filter in Hp as [_ ?].
    - by apply elem_of_list_further. }
  destruct (clear_rows_spec G 1%N fuel (d_heap mx) st c ns p (d_rows mx) HL Hd Hp) as (rows'&E1&Hlen&Hrows').
  { intros y Hy. apply T1. exists (rw G y). split; [done|]. exists (rw G <$> ns0). rewrite <-(s_cols _ _ _ HS). split.
    - apply elem_of_cols. eauto.
    - apply elem_of_list_fmap_1. rewrite Hns in Hy. by apply elem_of_list_filter in Hy as [_ ?]. }
  rewrite E1. cbn [bind].
  destruct (commit_spec G (s_good _ _ _ HS) 1%N fuel (d_heap mx) st c ns p HL Hown Hd Hp) as (h'&E2&HL'&Hown').
  rewrite Hrwp in HL', Hown'. unfold st in HL', Hown'. rewrite coverset_coverset, <-fixed_snoc in HL', Hown'.
  exists (Matrix h' (d_next mx) (d_root mx) rows' (d_partial mx ++ [r])). split_and!; [|split_and!|done].
  - revert E2. unfold commit. destruct (load (d_heap mx) p) as [n|]; [|done]. cbn [bind].
    destruct (cover_column _ _ _) as [h1|]; [|done]. cbn [bind].
    destruct (for_from _ _ _ _ _ _ _) as [[h2 ?]|]; [|done]. cbn [bind].
    destruct (heap_loop _ _ _ _ _) as [h3|]; [|done]. cbn [bind]. intros ->. done.
  - done.
  - done.
  - exists G, st0. split_and!; [done|done|done|split_and!| |].
    + intros r'. cbn [d_rows]. rewrite Hlen. apply T1.
    + intros r'. cbn [d_rows]. rewrite Hlen, Hrows', nulled_snoc. intros Hlt Hr'.
      destruct (decide (r' ∈ rw G <$> ns)) as [|Hin]; [done|].
      destruct Hr' as [Hr'|[Hr'|[Hnc Hsh]]]; [by apply T2; auto..|].
      exfalso. apply Hin. destruct Hsh as (k&Hk&Hrk). rewrite (last_col cs G st0 HS r p c ns0 Hl Hcn Hpn) in Hk.
      injection Hk as <-. apply elem_of_list_fmap in Hrk as (q&->&Hq). apply elem_of_list_fmap_1. rewrite Hns.
      apply elem_of_list_filter. split; [|done]. by rewrite <-(conflict_rows_of cs G st0 HS).
    + intros r' Ho'. cbn [d_rows]. rewrite nulled_snoc, Hrows'. intros Hnn.
      rewrite decide_False; [apply T3; [done|tauto]|]. intros (q&->&Hq)%elem_of_list_fmap. apply Hnn. right.
      rewrite Hns in Hq. apply elem_of_list_filter in Hq as [Hq1 Hq2]. split.
      * by rewrite (conflict_rows_of cs G st0 HS).
      * exists (rw G <$> ns0). split; [by eapply last_col|]. by apply elem_of_list_fmap_1.
    + intros sel. rewrite <-app_assoc. cbn [app]. rewrite Hec. rewrite fixed_snoc, <-coverset_coverset. fold st.
      rewrite <-Hrwp. by eapply exact_cover_step; [apply (s_good _ _ _ HS)|exact HW|..].
    + rewrite foldl_snoc, <-Hch, fixed_snoc, <-coverset_coverset. fold st.
      rewrite <-Hrwp. by eapply cols_choose; [apply (s_good _ _ _ HS)|exact HW|..].
Qed.

Lemma ready_drop fuel cs added mx : Ready fuel cs added mx -> matrix_drop fuel (d_root mx) (d_heap mx) = Ret ∅.
Proof.
  intros (Hf&->&G&st0&HS&HL&Hown&_). eapply matrix_drop_spec; [by apply lv_rep in HL|by apply lv_fuel in HL|].
  intros x. apply Hown.
Qed.

Lemma ready_partial fuel cs added mx partial :
  Ready fuel cs added mx -> Ready fuel cs added (Matrix (d_heap mx) (d_next mx) (d_root mx) (d_rows mx) partial).
Proof. done. Qed.

Lemma ready_solve fuel cs added mx :
  Ready fuel cs added mx ->
  (exists sol, solve fuel mx = Ret (Ok (d_partial mx ++ sol), ∅) /\ exact_cover cs (added ++ sol)) \/
  (solve fuel mx = Ret (Err DlxNoSolution, ∅) /\ forall sel, ~ exact_cover cs (added ++ sel)).
Proof.
  intros (Hf&Hroot&G&st0&HS&HL&Hown&_&Hec&_).
  destruct (solve_spec G (s_good _ _ _ HS) 1%N fuel mx _ Hroot HL Hown) as [(sol&E&Hsol&_)|(E&Hno&_)].
  - eapply Nat.le_lt_trans; [|exact Hf]. rewrite <-(s_size _ _ _ HS).
    etrans; [apply coverset_length_le|]. clear. induction st0 as [|[c ns] st IH]; [done|].
    rewrite fp_cons. cbn [length]. rewrite app_length. lia.
  - left. exists sol. split; [done|]. by apply Hec.
  - right. split; [done|]. intros sel Hsel. eapply Hno. by apply Hec.
Qed.

(** Which solution is found. *)
Lemma ready_knuth fuel cs added mx :
  Ready fuel cs added mx ->
  solve fuel mx = Ret (match knuth (foldl choose cs added) with
                       | Some sol => Ok (d_partial mx ++ sol)
                       | None => Err DlxNoSolution
                       end, ∅).
Proof.
  intros (Hf&Hroot&G&st0&HS&HL&Hown&_&_&<-).
  destruct (solve_spec G (s_good _ _ _ HS) 1%N fuel mx _ Hroot HL Hown) as [(sol&E&_&->)|(E&_&->)]; [|done..].
  eapply Nat.le_lt_trans; [|exact Hf]. rewrite <-(s_size _ _ _ HS).
  etrans; [apply coverset_length_le|]. clear. induction st0 as [|[c ns] st IH]; [done|].
  rewrite fp_cons. cbn [length]. rewrite app_length. lia.
Qed.
