(** Recursion depth of the search. *)
From Verif Require Import Base Dlx Sudoku SpecDlx SpecDlxSearch SpecSudoku DlxSeg DlxCover DlxColumn DlxSets DlxKnuth DlxSearch
  DlxBuild DlxNew DlxAdd DlxReady DlxProofs SudokuTable.

(** A result does not depend on the bound. *)
Lemma for_from_mono {S} heap_of dir original (b1 b2 : ptr -> S -> res (S * bool)) :
  (forall x s r, b1 x s = Ret r -> b2 x s = Ret r) ->
  forall fuel cur s r, for_from fuel heap_of dir original cur b1 s = Ret r ->
    for_from fuel heap_of dir original cur b2 s = Ret r.
Proof.
  intros Hb. induction fuel as [|fuel IH]; intros cur s r; cbn [for_from]; destruct (decide (cur = null)) as [Hz|Hz]; try done.
  destruct (load (heap_of s) cur) as [n|]; cbn [bind]; [|done].
  destruct (b1 cur s) as [[s' stop]|] eqn:E; cbn [bind]; [|done]. rewrite (Hb _ _ _ E). cbn [bind].
  destruct stop; [done|]. apply IH.
Qed.
Lemma for_skip1_mono {S} fuel heap_of dir original (b1 b2 : ptr -> S -> res (S * bool)) s r :
  (forall x s r, b1 x s = Ret r -> b2 x s = Ret r) ->
  for_skip1 fuel heap_of dir original b1 s = Ret r -> for_skip1 fuel heap_of dir original b2 s = Ret r.
Proof.
  intros Hb. unfold for_skip1. destruct (load (heap_of s) original) as [n|]; cbn [bind]; [|done]. by apply for_from_mono.
Qed.
Lemma solve_helper_mono fuel root : forall d d' h partial r, d <= d' ->
  solve_helper fuel d root h partial = Ret r -> solve_helper fuel d' root h partial = Ret r.
Proof.
  induction d as [|d IH]; intros d' h partial r Hd; [done|]. destruct d' as [|d']; [lia|]. cbn [solve_helper].
  destruct (is_empty root h) as [[]|]; cbn [bind]; [done| |done].
  destruct (choose_column fuel root h) as [c|]; cbn [bind]; [|done].
  destruct (cover_column fuel c h) as [h1|]; cbn [bind]; [|done].
  destruct (for_skip1 fuel fst n_down c _ (h1, partial)) as [[s found]|] eqn:E; cbn [bind]; [|done].
  erewrite for_skip1_mono; [|clear E|exact E]; [done|].
  intros x [h2 par] [[h3 par3] stop]. destruct (load h2 x) as [n|]; cbn [bind]; [|done]. cbv zeta.
  destruct (heap_loop fuel n_right x (cover_column fuel) h2) as [h4|]; cbn [bind]; [|done].
  destruct (solve_helper fuel d root h4 (par ++ [n_row n])) as [[[h5 par5] ok]|] eqn:E5; cbn [bind]; [|done].
  rewrite (IH d' _ _ _ ltac:(lia) E5). done.
Qed.

Lemma ready_depth fuel cs added mx depth : Ready fuel cs added mx -> within depth (foldl choose cs added) ->
  exists r, solve_helper fuel depth (d_root mx) (d_heap mx) (d_partial mx) = Ret r /\
    solve_helper fuel fuel (d_root mx) (d_heap mx) (d_partial mx) = Ret r.
Proof.
  intros HR Hw. enough (forall depth, within depth (foldl choose cs added) ->
    exists r, solve_helper fuel depth (d_root mx) (d_heap mx) (d_partial mx) = Ret r) as H.
  { destruct (H depth Hw) as [r E]. destruct (H fuel) as [r' E'].
    - apply within_length. destruct HR as (Hf&_&G&st0&HS&_&_&_&_&<-). unfold cols. rewrite fmap_length.
      eapply Nat.le_lt_trans; [|exact Hf]. rewrite <-(s_size _ _ _ HS).
      etrans; [apply coverset_length_le|]. clear. induction st0 as [|[c ns] st IH]; [done|].
      rewrite fp_cons. cbn [length]. rewrite app_length. lia.
    - exists r. split; [done|]. destruct (Nat.le_ge_cases depth fuel) as [Hd|Hd].
      + by apply (solve_helper_mono _ _ depth).
      + rewrite E'. f_equal. apply (solve_helper_mono _ _ fuel depth) in E'; [congruence|done]. }
  clear depth Hw. intros depth. destruct HR as (Hf&Hroot&G&st0&HS&HL&Hown&_&_&<-). intros Hw. rewrite Hroot.
  destruct (solve_helper_spec G (s_good _ _ _ HS) 1%N fuel depth (d_heap mx) _ (d_partial mx) Hw HL) as [(sol&h'&E&_)|[E _]];
    rewrite E; eauto.
Qed.

Lemma occurs_choose cs a r : occurs cs r -> ~ meets cs a r -> occurs (choose cs a) r.
Proof.
  intros (k&Hk&Hr) Hm. assert (a ∉ k) as Ha.
  { intros Ha. apply Hm, Exists_exists. eauto. }
  exists (filter (fun s => ~ meets cs a s) k). split.
  - unfold choose. apply elem_of_list_fmap. exists k. split; [done|]. by apply elem_of_list_filter.
  - by apply elem_of_list_filter.
Qed.
Lemma conflict_choose cs a l r : conflict (choose cs a) l r -> conflict cs l r.
Proof.
  intros (k&b&Hk&Hb&Hbk&Hrk). unfold choose in Hk. apply elem_of_list_fmap in Hk as (k0&->&Hk0).
  apply elem_of_list_filter in Hbk as [_ Hbk], Hrk as [_ Hrk], Hk0 as [_ Hk0]. exists k0, b. done.
Qed.
Lemma compatible_choose cs a rows : compatible cs (a :: rows) -> occurs cs a /\ compatible (choose cs a) rows.
Proof.
  intros H. split; [by destruct (H [] a rows eq_refl)|]. intros l1 r l2 ->.
  destruct (H (a :: l1) r l2 eq_refl) as [Ho Hc]. split.
  - apply occurs_choose; [done|]. intros Hm. apply Hc. apply Exists_exists in Hm as (k&Hk&Ha&Hr).
    exists k, a. split_and!; [done|apply elem_of_list_here|done|done].
  - intros Hc'. apply Hc. apply conflict_choose in Hc' as (k&b&?&Hb&?&?). exists k, b. split_and!; try done.
    by apply elem_of_list_further.
Qed.
Lemma within_added w depth : 0 < w -> forall added cs, heavy w cs -> compatible cs added ->
  length cs < w * (length added + depth) -> within depth (foldl choose cs added).
Proof.
  intros Hw. induction added as [|a added IH]; intros cs Hh Hc Hl; cbn [foldl].
  - by apply (within_heavy w).
  - apply compatible_choose in Hc as [(k&Hk&Ha) Hc]. apply IH; [by apply heavy_choose|done|].
    pose proof (Hh a k Hk Ha) as Hcount. unfold choose. rewrite fmap_length.
    pose proof (filter_not_length (fun k => a ∈ k) cs) as Hf. cbn [length] in Hl. lia.
Qed.

Lemma search_depth cs added fuel w depth :
  Forall NoDup cs -> compatible cs added -> matrix_size cs < fuel ->
  0 < w -> (forall r, occurs cs r -> w <= length (filter (fun k => r ∈ k) cs)) ->
  length cs < w * (length added + depth) ->
  exists mx0 mx, matrix_new cs = Ret mx0 /\ add_all fuel added mx0 = Ret (Ok mx) /\
    exists r, solve_helper fuel depth (d_root mx) (d_heap mx) (d_partial mx) = Ret r /\
      solve_helper fuel fuel (d_root mx) (d_heap mx) (d_partial mx) = Ret r.
Proof.
  intros Hnd Hc Hf Hw Hh Hl. destruct (ready_new cs Hnd) as (mx0&E0&Hp0&HR0).
  destruct (ready_add_all fuel cs added mx0 (HR0 fuel Hf) Hp0 Hc) as (mx&E&HR&Hp).
  exists mx0, mx. split_and!; [done|done|]. apply (ready_depth _ _ _ _ _ HR). apply (within_added w); try done.
  intros r k Hk Hr. apply Hh. by exists k.
Qed.

Lemma sudoku_heavy r : occurs SUDOKU_CONSTRAINTS r -> 4 <= length (filter (fun k => r ∈ k) SUDOKU_CONSTRAINTS).
Proof.
  rewrite occurs_sudoku. intros Hr. unfold SUDOKU_CONSTRAINTS. rewrite !filter_app, !app_length.
  assert (forall l (k : list nat), k ∈ l -> r ∈ k -> 1 <= length (filter (fun k => r ∈ k) l)) as H1.
  { intros l k Hk Hrk. assert (k ∈ filter (fun k => r ∈ k) l) as Hin by (by apply elem_of_list_filter).
    destruct (filter _ l); [by apply elem_of_nil in Hin|cbn; lia]. }
  set (c := r `div` 9). set (d := r `mod` 9).
  assert (c < 81 /\ d < 9 /\ r = c * 9 + d) as (Hc&Hd&Er) by (unfold c, d; lia).
  assert (c `div` 9 < 9 /\ c `mod` 9 < 9) as [Hc1 Hc2] by lia.
  assert (box_of c < 9) as Hb by (unfold box_of; lia).
  epose proof (H1 (family (fun index inner => index * 9 + inner)) (cell_constraint c) _ _) as Ha1.
  epose proof (H1 (family (fun index inner => index `mod` 9 + inner * 9 + (index `div` 9) * 81))
    (unit_constraint (row_cells (c `div` 9)) d) _ _) as Ha2.
  epose proof (H1 (family (fun index inner => index + inner * 81))
    (unit_constraint (col_cells (c `mod` 9)) d) _ _) as Ha3.
  epose proof (H1 (family box_index_fun)
    (unit_constraint (box_cells (box_of c)) d) _ _) as Ha4.
  unfold box_index_fun in Ha4. lia.
  Unshelve.
  - apply elem_of_family. by exists c.
  - rewrite Er. apply elem_of_cell_constraint. by exists d.
  - apply elem_of_family. exists (c `div` 9 * 9 + d). split; [lia|]. symmetry. by apply row_index.
  - rewrite Er. apply elem_of_unit_constraint. exists c. split; [|done]. by apply elem_of_row.
  - apply elem_of_family. exists (c `mod` 9 * 9 + d). split; [lia|]. symmetry. by apply col_index.
  - rewrite Er. apply elem_of_unit_constraint. exists c. split; [|done]. by apply elem_of_col.
  - apply elem_of_family. exists (box_of c * 9 + d). split; [lia|]. symmetry. by apply box_index.
  - rewrite Er. apply elem_of_unit_constraint. exists c. split; [|done]. by apply elem_of_box.
Qed.

Lemma sudoku_depth added fuel depth : compatible SUDOKU_CONSTRAINTS added -> matrix_size SUDOKU_CONSTRAINTS < fuel ->
  82 <= length added + depth ->
  exists mx0 mx, matrix_new SUDOKU_CONSTRAINTS = Ret mx0 /\ add_all fuel added mx0 = Ret (Ok mx) /\
    exists r, solve_helper fuel depth (d_root mx) (d_heap mx) (d_partial mx) = Ret r /\
      solve_helper fuel fuel (d_root mx) (d_heap mx) (d_partial mx) = Ret r.
Proof.
  intros Hc Hf Hl. apply (search_depth _ _ _ 4); [apply constraints_NoDup|done|done|lia|apply sudoku_heavy|].
  unfold SUDOKU_CONSTRAINTS, family. rewrite !app_length, !fmap_length, !seq_length. lia.
Qed.
