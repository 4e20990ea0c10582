(** A matrix with an empty column: the search stops at once. *)
From Verif Require Import Base Dlx DlxSeg DlxCover DlxColumn SpecDlx DlxSearch DlxBuild DlxNew.

(** A loop over a ring of one node. *)
Lemma for_skip1_alone {S} fuel (heap_of : S -> heap) dir o body (s : S) :
  fld dir (heap_of s) o = Some o -> for_skip1 fuel heap_of dir o body s = Ret (s, false).
Proof.
  intros (n&Hn&Hd)%fld_Some. unfold for_skip1, load. rewrite Hn. cbn [bind].
  rewrite Hd, decide_True by done. destruct fuel; cbn [for_from]; by rewrite decide_True.
Qed.
Lemma heap_loop_alone fuel dir o body h :
  fld dir h o = Some o -> heap_loop fuel dir o body h = Ret h.
Proof. intros H. unfold heap_loop. by rewrite for_skip1_alone. Qed.

Lemma to_header_top h c : fld n_header h c = Some null -> to_header h c = Ret c.
Proof.
  intros (n&Hn&Hd)%fld_Some. unfold to_header, load. rewrite Hn. cbn [bind]. by rewrite decide_True.
Qed.

Lemma search_empty root fuel depth h st c partial :
  Rep root h st -> length (fp st) <= fuel -> (c, []) ∈ st ->
  solve_helper fuel (S depth) root h partial = Ret (h, partial, false).
Proof.
  intros HR Hfuel Hc. cbn [solve_helper].
  pose proof (seg_fwd _ _ _ _ _ _ (rep_ring _ _ _ HR)) as Hfwd.
  pose proof (fwd_first _ _ _ _ _ Hfwd) as (nr&Hnr&Hright)%fld_Some.
  pose proof (rep_nd _ _ _ HR) as [Hroot Hnd]%NoDup_cons.
  assert (st <> []) as Hne by (intros ->; by apply elem_of_nil in Hc).
  assert (is_empty root h = Ret false) as ->.
  { unfold is_empty, load. rewrite Hnr. cbn [bind]. rewrite Hright. f_equal. apply bool_decide_eq_false_2.
    destruct st as [|[d ms] st']; [done|]. cbn. intros ->. apply Hroot. apply elem_of_list_here. }
  cbn [bind]. destruct (choose_column_rep root fuel h st HR Hfuel Hne) as (s1&d&ns&s2&E&Hst&H1&H2).
  rewrite E. cbn [bind].
  assert (ns = []) as ->.
  { apply nil_length_inv. rewrite Hst, elem_of_app, elem_of_cons in Hc. destruct Hc as [Hc|[Hc|Hc]].
    - apply H1 in Hc. cbn in Hc. lia.
    - by injection Hc as _ <-.
    - apply H2 in Hc. cbn in Hc. lia. }
  assert ((d, []) ∈ st) as Hd by (rewrite Hst, elem_of_app; right; apply elem_of_list_here).
  destruct (rep_col _ _ _ HR d [] Hd) as ([Hdown Hup]&_&Hhd&_). cbn in Hdown, Hup.
  rewrite Hst in HR. destruct (cover_horizontal_spec _ _ _ _ _ _ HR) as (h'&Ec&HR'&Eu&Hcalm&Hf).
  destruct (Hf d) as (F1&F2&_).
  assert (cover_column fuel d h = Ret h') as ->.
  { unfold cover_column. rewrite (to_header_top h d Hhd). cbn [bind]. rewrite Ec. cbn [bind].
    apply heap_loop_alone. by rewrite F2. }
  cbn [bind]. rewrite for_skip1_alone by (cbn [fst]; by rewrite F2). cbn [bind fst snd].
  assert (to_header h' d = Ret d) as Eh by (apply to_header_top; by rewrite (c_header _ _ _ _ Hcalm)).
  unfold uncover_column. rewrite Eh. cbn [bind].
  rewrite heap_loop_alone by (by rewrite F1). cbn [bind]. by rewrite Eu.
Qed.

Lemma no_cover_empty cs : [] ∈ cs -> forall sel, ~ exact_cover cs sel.
Proof.
  intros Hin sel (_&Hk&_). destruct (Hk [] Hin) as (r&[_ Hr]&_). by apply elem_of_nil in Hr.
Qed.

Lemma solve_empty cs fuel : [] ∈ cs -> matrix_size cs < fuel ->
  (forall sel, ~ exact_cover cs sel) /\
  exists mx, matrix_new cs = Ret mx /\ solve fuel mx = Ret (Err DlxNoSolution, ∅).
Proof.
  intros Hin Hf. split; [by apply no_cover_empty|].
  destruct (matrix_new_built cs) as (h&next&rows&R&st&E&HB&Hh&Hs).
  eexists. split; [exact E|]. unfold solve. cbn [d_root d_heap d_partial].
  pose proof (holds_size _ _ _ Hh) as Hsize.
  assert (Rep 1%N h st) as HR.
  { split.
    - apply (b_ring _ _ _ _ _ HB).
    - intros c ns Hc. destruct (b_col _ _ _ _ _ HB c ns Hc) as (H1&H2&H3). split_and!; [done|by apply Hs|done|done].
    - apply (b_nd _ _ _ _ _ HB).
    - intros Hx%(b_lt _ _ _ _ _ HB). unfold null in Hx. lia.
    - apply (b_root _ _ _ _ _ HB). }
  assert (exists c, (c, []) ∈ st) as [c Hc].
  { unfold holds in Hh. clear -Hin Hh. induction Hh as [|[c ns] C st cs HC Hh IH]; [by apply elem_of_nil in Hin|].
    apply elem_of_cons in Hin as [<-|Hin].
    - cbn in HC. inversion HC; subst. exists c. apply elem_of_list_here.
    - destruct (IH Hin) as [d Hd]. exists d. by apply elem_of_list_further. }
  destruct fuel as [|fuel]; [lia|].
  rewrite (search_empty 1%N (S fuel) fuel h st c []) by (done || lia). cbn [bind].
  rewrite (matrix_drop_spec (S fuel) 1%N h st); [done|done|lia|].
  intros x. apply (b_dom _ _ _ _ _ HB).
Qed.
