(** Calls of the search, nodes of a matrix, and matrices that need no search. *)
From Verif Require Import Base Dlx SpecDlx SpecDlxSearch DlxCost SpecDlxCost DlxSeg DlxCover DlxColumn DlxSets DlxKnuth DlxSearch
  DlxBuild DlxNew DlxAdd DlxReady DlxProofs.

Lemma solve_same fuel mx : (let! (r, h, _) := solve_calls fuel mx in Ret (r, h)) = solve fuel mx.
Proof.
  unfold solve_calls, solve. rewrite <-(helper_same fuel (d_root mx) fuel (d_heap mx) (d_partial mx) 0).
  destruct (solve_helper_calls fuel fuel _ _ _ 0) as [[[[h par] ok] n]|]; cbn [bind]; [|done].
  destruct (matrix_drop fuel (d_root mx) h); done.
Qed.
Lemma ready_calls fuel cs added mx : Ready fuel cs added mx ->
  solve_calls fuel mx = Ret (match knuth (foldl choose cs added) with
                             | Some sol => Ok (d_partial mx ++ sol)
                             | None => Err DlxNoSolution
                             end, ∅, knuth_branches (foldl choose cs added)).
Proof.
  intros HR. pose proof (ready_knuth fuel cs added mx HR) as E. rewrite <-solve_same in E.
  destruct HR as (Hf&Hroot&G&st0&HS&HL&Hown&_&_&Hcols).
  assert (exists hpo, solve_helper_calls fuel fuel (d_root mx) (d_heap mx) (d_partial mx) 0 =
    Ret (hpo, knuth_branches (foldl choose cs added))) as [[[h par] ok] E'].
  { rewrite Hroot, <-Hcols.
    edestruct (solve_helper_calls_spec G (s_good _ _ _ HS) 1%N fuel fuel (d_heap mx)) with (2 := HL)
      as [(sol&h'&E'&_)|[E' _]]; [|by rewrite E'; eauto..].
    apply within_length. unfold cols. rewrite fmap_length.
    eapply Nat.le_lt_trans; [|exact Hf]. rewrite <-(s_size _ _ _ HS).
    etrans; [apply coverset_length_le|]. clear. induction st0 as [|[c ns] st IH]; [done|].
    rewrite fp_cons. cbn [length]. rewrite app_length. lia. }
  unfold solve_calls in E |- *. rewrite E' in E |- *. cbn [bind] in E |- *.
  destruct (matrix_drop fuel (d_root mx) h) as [h'|]; cbn [bind] in E |- *; [|done].
  by injection E as -> ->.
Qed.
Lemma search_calls cs added fuel :
  Forall NoDup cs -> compatible cs added -> matrix_size cs < fuel ->
  exists mx0 mx, matrix_new cs = Ret mx0 /\ add_all fuel added mx0 = Ret (Ok mx) /\
    solve_calls fuel mx = Ret (match knuth (foldl choose cs added) with
                               | Some sol => Ok (added ++ sol)
                               | None => Err DlxNoSolution
                               end, ∅, knuth_branches (foldl choose cs added)).
Proof.
  intros Hnd Hc Hf. destruct (ready_new cs Hnd) as (mx0&E0&Hp0&HR0).
  destruct (ready_add_all fuel cs added mx0 (HR0 fuel Hf) Hp0 Hc) as (mx&E&HR&Hp).
  exists mx0, mx. split_and!; [done|done|]. rewrite (ready_calls fuel cs added mx HR). by rewrite Hp.
Qed.

(** Nodes. *)
Lemma cols_size G st : length (fp st) = matrix_size (cols G st).
Proof.
  unfold matrix_size. induction st as [|[c ns] st IH]; [done|].
  rewrite fp_cons. cbn [length]. rewrite app_length, IH. unfold cols. cbn. rewrite fmap_length. lia.
Qed.
Lemma owned_size (h : heap) (l : list ptr) : NoDup l -> (forall x, is_Some (h !! x) <-> x ∈ l) -> size h = length l.
Proof.
  intros Hnd Hl. rewrite <-size_dom. rewrite <-(size_list_to_set (C := gset ptr) l Hnd). f_equal.
  apply set_eq. intros x. rewrite elem_of_dom, elem_of_list_to_set. apply Hl.
Qed.
Lemma ready_nodes fuel cs added mx : Ready fuel cs added mx ->
  size (d_heap mx) = S (matrix_size (foldl choose cs added)).
Proof.
  intros (Hf&Hroot&G&st0&HS&HL&Hown&_&_&<-). rewrite <-cols_size.
  rewrite (owned_size (d_heap mx) (1%N :: fp (coverset G (fixed G added) st0))); [done| |exact Hown].
  apply (rep_nd _ _ _ (lv_rep _ _ _ _ _ HL)).
Qed.
Lemma matrix_nodes cs added fuel :
  Forall NoDup cs -> compatible cs added -> matrix_size cs < fuel ->
  exists mx0 mx, matrix_new cs = Ret mx0 /\ add_all fuel added mx0 = Ret (Ok mx) /\
    size (d_heap mx) = S (matrix_size (foldl choose cs added)).
Proof.
  intros Hnd Hc Hf. destruct (ready_new cs Hnd) as (mx0&E0&Hp0&HR0).
  destruct (ready_add_all fuel cs added mx0 (HR0 fuel Hf) Hp0 Hc) as (mx&E&HR&Hp).
  exists mx0, mx. split_and!; [done|done|]. by eapply ready_nodes.
Qed.

(** Forced rows. *)
Lemma elem_of_choose cs r x : x ∈ choose cs r <-> exists k, k ∈ cs /\ r ∉ k /\ x = filter (fun s => ~ meets cs r s) k.
Proof. unfold choose. rewrite elem_of_list_fmap. setoid_rewrite elem_of_list_filter. naive_solver. Qed.
Lemma forced_not_nil cs rows : forced cs rows -> [] ∉ cs.
Proof.
  induction 1 as [|cs r rows Hr Hf IH]; [intros H%elem_of_nil; done|]. intros Hn. apply IH.
  apply elem_of_choose. exists []. split_and!; [done|apply not_elem_of_nil|done].
Qed.
Lemma meets_sym cs r s : meets cs r s <-> meets cs s r.
Proof. unfold meets. rewrite !Exists_exists. naive_solver. Qed.
Lemma meets_choose cs r s t : ~ meets cs r s -> ~ meets cs r t -> meets (choose cs r) s t <-> meets cs s t.
Proof.
  intros Hs Ht. unfold meets at 1 2. rewrite !Exists_exists. setoid_rewrite elem_of_choose. split.
  - intros (x&(k&Hk&Hr&->)&[_ H1]%elem_of_list_filter&[_ H2]%elem_of_list_filter). eauto.
  - intros (k&Hk&H1&H2). eexists. split; [exists k; split_and!; [done| |reflexivity]|by split; apply elem_of_list_filter].
    intros Hr. apply Hs. apply Exists_exists. eauto.
Qed.
Lemma filter_fmap_filter {A B} (f : A -> B) (P : B -> Prop) `{!forall x, Decision (P x)} (Q : A -> Prop) `{!forall x, Decision (Q x)} (l : list A) :
  (forall x, x ∈ l -> P (f x) <-> Q x) -> filter P (f <$> l) = f <$> filter Q l.
Proof.
  induction l as [|x l IH]; intros Hpq; [done|]. rewrite fmap_cons, !filter_cons.
  pose proof (Hpq x (elem_of_list_here _ _)) as Hx. specialize (IH (fun y Hy => Hpq y (elem_of_list_further _ _ _ Hy))).
  destruct (decide (P (f x))), (decide (Q x)); try tauto. by rewrite fmap_cons, IH.
Qed.
(** Choosing twice, without order. *)
Lemma choose_choose cs r s : ~ meets cs r s ->
  choose (choose cs r) s =
    filter (fun t => ~ meets cs r t /\ ~ meets cs s t) <$> filter (fun k => r ∉ k /\ s ∉ k) cs.
Proof.
  intros Hm. change (choose (choose cs r) s) with (filter (fun t => ~ meets (choose cs r) s t) <$>
    filter (fun k => s ∉ k) (filter (fun t => ~ meets cs r t) <$> filter (fun k => r ∉ k) cs)).
  rewrite (filter_fmap_filter _ _ (fun k => s ∉ k)).
  2:{ intros k _. rewrite elem_of_list_filter. tauto. }
  rewrite <-list_fmap_compose. rewrite list_filter_filter.
  rewrite (list_filter_iff (fun k => s ∉ k /\ r ∉ k) (fun k => r ∉ k /\ s ∉ k)) by (intros; tauto).
  apply list_fmap_ext. intros i k _. unfold compose. rewrite list_filter_filter.
  apply list_filter_iff. intros t. split.
  - intros [H1 H2]. split; [done|]. by rewrite <-(meets_choose cs r s t).
  - intros [H1 H2]. split; [|done]. by rewrite (meets_choose cs r s t).
Qed.
Lemma choose_comm cs r s : ~ meets cs r s -> choose (choose cs r) s = choose (choose cs s) r.
Proof.
  intros Hm. assert (~ meets cs s r) as Hm' by (by rewrite meets_sym). rewrite !choose_choose by done.
  rewrite (list_filter_iff (fun k => s ∉ k /\ r ∉ k) (fun k => r ∉ k /\ s ∉ k)) by (intros; tauto).
  apply list_fmap_ext. intros i k _. apply list_filter_iff. intros; tauto.
Qed.
Lemma single_choose cs r s : ~ meets cs r s -> [s] ∈ cs -> [s] ∈ choose cs r.
Proof.
  intros Hm Hs. apply elem_of_choose. exists [s]. split_and!; [done| |].
  - rewrite elem_of_list_singleton. intros ->. apply Hm, Exists_exists. exists [s]. split; [done|]. split; apply elem_of_list_here.
  - rewrite filter_cons, decide_True by done. done.
Qed.
Lemma forced_pick cs rows : forced cs rows -> forall s, [s] ∈ cs ->
  exists rows', rows ≡ₚ s :: rows' /\ forced (choose cs s) rows'.
Proof.
  induction 1 as [|cs r rows Hr Hf IH]; [intros s H%elem_of_nil; done|]. intros s Hs.
  destruct (decide (r = s)) as [<-|Hne]; [by exists rows|]. destruct (decide (meets cs r s)) as [Hm|Hm].
  - exfalso. apply (forced_not_nil _ _ Hf). apply elem_of_choose. exists [s]. split_and!; [done| |].
    + by rewrite elem_of_list_singleton.
    + rewrite filter_cons, decide_False; [done|]. by intros H.
  - destruct (IH s) as (rows'&Hp&Hf'); [by apply single_choose|]. exists (r :: rows'). split.
    + rewrite Hp. apply perm_swap.
    + constructor; [apply single_choose; [by rewrite meets_sym|done]|]. by rewrite <-choose_comm.
Qed.
Lemma shortest_le {A} (k : list A) ks x : x ∈ k :: ks -> length (shortest k ks) <= length x.
Proof.
  revert k x. induction ks as [|k' ks IH]; intros k x Hx; [by apply elem_of_list_singleton in Hx as ->|].
  cbn [shortest]. rewrite !elem_of_cons in Hx. destruct (decide (length k' < length k)) as [Hl|Hl].
  - destruct Hx as [->|Hx]; [|apply IH; by apply elem_of_cons].
    etrans; [apply (IH k' k'), elem_of_list_here|]. lia.
  - destruct Hx as [->|[->|Hx]]; [apply IH, elem_of_list_here| |apply IH; apply elem_of_cons; tauto].
    etrans; [apply (IH k k), elem_of_list_here|]. lia.
Qed.
Lemma forced_knuth n : forall cs rows, length rows = n -> forced cs rows ->
  exists sol, knuth cs = Some sol /\ sol ≡ₚ rows /\ knuth_branches cs = S n.
Proof.
  induction n as [|n IH]; intros cs rows Hn Hf.
  - apply nil_length_inv in Hn as ->. inversion Hf; subst. by exists [].
  - destruct cs as [|k ks]; [inversion Hf as [|? ? ? H]; subst; [done|by apply elem_of_nil in H]|].
    assert (exists r, [r] ∈ k :: ks) as [r Hr] by (inversion Hf; subst; eauto).
    pose proof (shortest_elem k ks) as Hs. pose proof (shortest_le k ks [r] Hr) as Hle. cbn [length] in Hle.
    destruct (shortest k ks) as [|s [|]] eqn:Es; [by apply (forced_not_nil _ _ Hf) in Hs| |cbn in Hle; lia].
    destruct (forced_pick _ _ Hf s Hs) as (rows'&Hp&Hf').
    destruct (IH (choose (k :: ks) s) rows') as (sol&Hk&Hsol&Hb); [|done|].
    { apply Permutation_length in Hp. cbn in Hp. lia. }
    exists (s :: sol). rewrite knuth_cons, branches_cons, Es. cbn [first_some sum_until]. rewrite Hk, Hb. cbn. split_and!; [done| |].
    + by rewrite Hp, Hsol.
    + destruct (solvable _ _); lia.
Qed.
Lemma forced_calls cs added fuel rows :
  Forall NoDup cs -> compatible cs added -> matrix_size cs < fuel -> forced (foldl choose cs added) rows ->
  exists mx0 mx sol, matrix_new cs = Ret mx0 /\ add_all fuel added mx0 = Ret (Ok mx) /\
    solve_calls fuel mx = Ret (Ok (added ++ sol), ∅, S (length rows)) /\ sol ≡ₚ rows.
Proof.
  intros Hnd Hc Hf Hfo. destruct (search_calls cs added fuel Hnd Hc Hf) as (mx0&mx&E0&E&Es).
  destruct (forced_knuth _ _ _ eq_refl Hfo) as (sol&Hk&Hsol&Hb). rewrite Hk, Hb in Es. eauto 10.
Qed.
