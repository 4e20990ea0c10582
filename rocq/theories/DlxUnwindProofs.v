(** Dropping a half covered matrix does no harm. *)
From Verif Require Import Base Dlx DlxSeg DlxCover DlxColumn SpecDlx SpecDlxSearch SpecDlxRelease SpecDlxLen SpecDlxUnwind DlxSearch DlxBuild.
From Verif Require Import DlxReleaseSim DlxLook DlxLookProofs DlxLenCheck DlxLenCheckProofs.
From Verif Require DlxLen DlxUnwind.

(** * Covering that tries to drop the matrix after every step *)

Section probe.
Context (fuel : nat) (root : ptr).
Definition probe_hide (col : ptr) (h : heap) : res heap :=
  let! h := hide col h in
  match matrix_drop fuel root h with Ret _ => Ret h | Fault _ => Fault Panic end.
Definition probe_column (p : ptr) (h : heap) : res heap :=
  let! c := to_header h p in
  let! h := cover_horizontal c h in
  heap_loop fuel n_down c (fun row h => heap_loop fuel n_right row probe_hide h) h.
Lemma probe_hide_eq y g st d ms : Rep root g st -> (d, ms) ∈ st -> y ∈ ms -> length (fp st) <= fuel -> probe_hide y g = hide y g.
Proof.
  intros HR Hd Hy Hlen. unfold probe_hide. destruct (hide_spec root g st y d ms HR Hd Hy) as (h&->&HR'&_&_). cbn [bind].
  destruct (matrix_drop_erased fuel root h _ HR') as (g'&->&_); [|done].
  etrans; [|exact Hlen]. apply sublist_length, fp_rm_sub.
Qed.
End probe.
Lemma probe_covers fuel : covers fuel (probe_column fuel 1%N).
Proof.
  intros G HG h st c ns p [HR HW Hrow Hfuel] Hc Hp. eapply (cover_column_like G HG); [|done..].
  intros. by eapply probe_hide_eq.
Qed.

(** * Unwinding from where that one succeeds *)

Section off.
Context (off : N -> Z) (safe : Prop) (Hok : safe -> forall p, (0 <= off p)%Z) (fuel : nat) (root : ptr).

Lemma hide_unwinds h h' p : hsim off h h' -> qsim safe (hsim off) (probe_hide fuel root p h) (DlxUnwind.hide fuel root p h').
Proof.
  intros H. unfold probe_hide, DlxUnwind.hide, hide.
  pose proof (cover_vertical_sim off safe h h' p H) as Hv. clear H.
  destruct (cover_vertical p h) as [h1|[]], (cover_vertical p h') as [h1'|[]]; cbn [bind]; try done.
  2:{ destruct (bind (dec_size p h1) _) as [|[]]; done. }
  cbn in Hv. rename Hv into H. unfold dec_size. pose proof H as (G&[H0 H1]&H2).
  unfold load. rewrite !G. destruct (h1 !! p) as [n|] eqn:Hn; cbn [bind fmap option_fmap option_map]; [|done].
  cbn [wrap n_header]. rewrite G. destruct (h1 !! n_header n) as [hd|] eqn:Hhd; cbn [bind fmap option_fmap option_map]; [|done].
  pose proof (H1 _ _ _ Hn Hhd) as Hnull. destruct (n_row hd) as [|k] eqn:Er; cbn [bind]; [done|].
  pose proof (H2 _ _ Hhd Hnull) as Hpos. rewrite Er in Hpos. unfold modify at 1. rewrite Hhd. cbn [bind].
  assert (n_row (wrap off (n_header n) hd) = Z.to_nat (Z.of_nat (S k) + off (n_header n))) as Ew.
  { cbn [wrap n_row]. unfold seen. by rewrite decide_True, Er. }
  set (g := <[n_header n := set_row k hd]> h1).
  destruct (n_row (wrap off (n_header n) hd)) as [|k'] eqn:Ek.
  - (* a panic: the two heaps differ only in the sizes *)
    set (off' := fun q => if decide (q = n_header n) then (off q + 1)%Z else off q).
    assert (hsim off' g h1') as Hg.
    { split; [|split].
      - intros q. rewrite G. unfold g. destruct (decide (q = n_header n)) as [->|Hq].
        + rewrite lookup_insert, Hhd. cbn. f_equal. unfold wrap, seen, set_row, off'. cbn [n_header n_row n_left n_right n_up n_down].
          rewrite Hnull, !decide_True by done. f_equal. lia.
        + rewrite lookup_insert_ne by done. destruct (h1 !! q) as [m|]; [|done]. cbn. f_equal.
          unfold wrap, seen, off'. by rewrite (decide_False (P := q = n_header n)).
      - unfold g. by eapply heads_alter.
      - intros q m. unfold g, off'. destruct (decide (q = n_header n)) as [->|Hne].
        + rewrite lookup_insert. intros [= <-] _. cbn [set_row n_row]. lia.
        + rewrite lookup_insert_ne by done. apply H2. }
    pose proof (matrix_drop_sim off' True fuel g h1' root Hg) as Hd.
    destruct (matrix_drop fuel root g) as [a|], (matrix_drop fuel root h1') as [a'|[]]; cbn in Hd |- *; try done;
      try (intros Ho; specialize (Hok Ho (n_header n)); lia); try tauto.
  - destruct (matrix_drop fuel root g); [|done]. unfold modify. rewrite G, Hhd. cbn [fmap option_fmap option_map qsim]. split.
    + assert (wrap off (n_header n) (set_row k hd) = set_row k' (wrap off (n_header n) hd)) as Hw.
      { unfold wrap, set_row, seen. cbn [n_header n_row n_left n_right n_up n_down].
        rewrite Hnull, !decide_True by done. f_equal. lia. }
      rewrite <-Hw. by apply look_insert.
    + eapply fine_alter; [apply H|exact Hhd|done|]. intros _. cbn [set_row n_row]. lia.
Qed.
Lemma column_unwinds h h' p : hsim off h h' -> qsim safe (hsim off) (probe_column fuel root p h) (DlxUnwind.cover_column fuel root p h').
Proof.
  intros H. unfold probe_column, DlxUnwind.cover_column. eapply qsim_bind; [by apply (to_header_sim off)|]. intros c ? ->.
  eapply qsim_bind; [by apply (cover_horizontal_sim off)|]. intros h1 h1' H1. apply heap_loop_sim; [done| |done].
  intros q h2 h2' H2. apply heap_loop_sim; [done| |done]. intros. by apply hide_unwinds.
Qed.
End off.

(** * The solver *)

Lemma for_from_ext {S} (heap_of : S -> heap) dir o body body' : (forall p s, body p s = body' p s) -> forall fuel cur s,
  for_from fuel heap_of dir o cur body s = for_from fuel heap_of dir o cur body' s.
Proof.
  intros H. induction fuel as [|fuel IH]; intros cur s; cbn [for_from]; [done|]. destruct (decide (cur = null)) as [?Hd|?Hd]; [done|].
  destruct (load (heap_of s) cur) as [n|]; cbn [bind]; [|done]. rewrite H.
  destruct (body' cur s) as [[s' stop]|]; cbn [bind]; [|done]. destruct stop; [done|apply IH].
Qed.
Lemma for_skip1_ext {S} (heap_of : S -> heap) dir o body body' : (forall p s, body p s = body' p s) -> forall fuel s,
  for_skip1 fuel heap_of dir o body s = for_skip1 fuel heap_of dir o body' s.
Proof.
  intros H fuel s. unfold for_skip1. destruct (load (heap_of s) o) as [n|]; cbn [bind]; [|done]. by apply for_from_ext.
Qed.
Section solver.
Context (fuel : nat).
Notation cover := (DlxUnwind.cover_column fuel).
Lemma helper_unwinds root depth : forall h partial,
  DlxUnwind.solve_helper fuel depth root h partial = solve_look (fun _ n => n_row n) (cover root) fuel depth root h partial.
Proof.
  induction depth as [|depth IH]; intros h partial; cbn [DlxUnwind.solve_helper solve_look]; [done|].
  destruct (is_empty root h) as [[]|]; cbn [bind]; [done| |done].
  change (choose_look (fun _ n => n_row n) fuel root h) with (choose_column fuel root h).
  destruct (choose_column fuel root h) as [c|]; cbn [bind]; [|done].
  destruct (cover root c h) as [h1|]; cbn [bind]; [|done].
  erewrite for_skip1_ext; [done|]. clear h1 partial.
  intros row [h1 partial]. destruct (load h1 row) as [n|]; cbn [bind]; [|done].
  destruct (heap_loop fuel n_right row (cover root) h1) as [h2|]; cbn [bind]; [|done]. by rewrite IH.
Qed.
Lemma each_unwinds rows : forall mx, add_each_unwind fuel rows mx = each_look fuel cover rows mx.
Proof.
  induction rows as [|r rows IH]; intros mx; cbn [add_each_unwind each_look]; [done|].
  change (add_look (fun _ n => n_row n) (cover (d_root mx)) fuel mx r) with (DlxUnwind.add_solution fuel mx r).
  destruct (DlxUnwind.add_solution fuel mx r) as [[e m]|]; cbn [bind]; [|done]. by rewrite IH.
Qed.
Lemma session_unwinds lcs rows : session_unwind fuel lcs rows = session_look fuel cover lcs rows.
Proof.
  unfold session_unwind, session_look. destruct (DlxLen.checked_matrix_new lcs) as [mx|]; cbn [bind]; [|done].
  rewrite each_unwinds. destruct (each_look fuel cover rows mx) as [[es m]|]; cbn [bind]; [|done].
  unfold DlxUnwind.solve, solve_len. by rewrite helper_unwinds.
Qed.
Lemma abandoned_unwinds lcs rows : abandoned_unwind fuel lcs rows = abandoned_look fuel cover lcs rows.
Proof.
  unfold abandoned_unwind, abandoned_look. destruct (DlxLen.checked_matrix_new lcs) as [mx|]; cbn [bind]; [|done].
  by rewrite each_unwinds.
Qed.

Lemma unwind_same lcs rows : Forall NoDup lcs.*2 -> matrix_size lcs.*2 < fuel ->
  session_unwind fuel lcs rows = Fault Panic /\ ~ long_enough lcs \/
  same_but_answer (session fuel lcs.*2 rows) (session_unwind fuel lcs rows).
Proof.
  intros Hnd Hf. rewrite session_unwinds. eapply look_session; [done|done|apply (probe_covers fuel)|].
  intros p h h' H. apply column_unwinds; [apply Hok|done].
Qed.
Lemma unwind_abandoned lcs rows : Forall NoDup lcs.*2 -> matrix_size lcs.*2 < fuel ->
  abandoned_unwind fuel lcs rows = Fault Panic /\ ~ long_enough lcs \/
  abandoned_unwind fuel lcs rows = abandoned fuel lcs.*2 rows.
Proof.
  intros Hnd Hf. rewrite abandoned_unwinds. eapply look_abandoned; [done|done|apply (probe_covers fuel)|].
  intros p h h' H. apply column_unwinds; [apply Hok|done].
Qed.
Lemma unwind_answer lcs rows : Forall NoDup lcs.*2 -> compatible lcs.*2 rows -> matrix_size lcs.*2 < fuel ->
  session_unwind fuel lcs rows = Fault Panic /\ ~ long_enough lcs \/
  exists r, session_unwind fuel lcs rows = Ret (replicate (length rows) (Ok ()), r, 0) /\
    match r with
    | Ok sel => exists sol, sel = rows ++ sol /\ exact_cover lcs.*2 sel
    | Err e => e = DlxNoSolution /\ forall sol, ~ exact_cover lcs.*2 (rows ++ sol)
    end.
Proof.
  intros Hnd Hc Hf. rewrite session_unwinds. eapply look_answer; [done|done|apply (probe_covers fuel)| |done].
  intros p h h' H. apply column_unwinds; [apply Hok|done].
Qed.
End solver.

(** * Unwinding changes nothing but panics *)

Definition fsim {A} (x y : res A) : Prop := y = x \/ x = Fault Panic /\ exists f, y = Fault f.
Lemma fsim_bind {A B} (x y : res A) (k k' : A -> res B) : fsim x y -> (forall a, fsim (k a) (k' a)) -> fsim (bind x k) (bind y k').
Proof.
  intros [->|[-> [f ->]]] Hk; [|right; by eauto]. destruct x as [a|]; cbn [bind]; [apply Hk|by left].
Qed.
Lemma fsim_refl {A} (x : res A) : fsim x x.
Proof. by left. Qed.
Section look.
Context (fuel : nat) (cover cover' : ptr -> heap -> res heap) (Hc : forall p h, fsim (cover p h) (cover' p h)).
Lemma fsim_from {S} (heap_of : S -> heap) dir o body body' : (forall p s, fsim (body p s) (body' p s)) -> forall n cur s,
  fsim (for_from n heap_of dir o cur body s) (for_from n heap_of dir o cur body' s).
Proof.
  intros H. induction n as [|n IH]; intros cur s; cbn [for_from]; [apply fsim_refl|].
  destruct (decide (cur = null)) as [?Hd|?Hd]; [apply fsim_refl|].
  apply fsim_bind; [apply fsim_refl|]. intros a. apply fsim_bind; [apply H|]. intros [s' stop].
  destruct stop; [apply fsim_refl|apply IH].
Qed.
Lemma fsim_skip1 {S} (heap_of : S -> heap) dir o body body' s : (forall p s, fsim (body p s) (body' p s)) ->
  fsim (for_skip1 fuel heap_of dir o body s) (for_skip1 fuel heap_of dir o body' s).
Proof. intros H. unfold for_skip1. apply fsim_bind; [apply fsim_refl|]. intros n. by apply fsim_from. Qed.
Lemma fsim_loop dir o body body' h : (forall p s, fsim (body p s) (body' p s)) ->
  fsim (heap_loop fuel dir o body h) (heap_loop fuel dir o body' h).
Proof.
  intros H. unfold heap_loop. apply fsim_bind; [|intros []; apply fsim_refl]. apply fsim_skip1. intros p s.
  apply fsim_bind; [apply H|]. intros. apply fsim_refl.
Qed.
Lemma fsim_helper look root depth : forall h partial,
  fsim (solve_look look cover fuel depth root h partial) (solve_look look cover' fuel depth root h partial).
Proof.
  induction depth as [|depth IH]; intros h partial; cbn [solve_look]; [apply fsim_refl|].
  apply fsim_bind; [apply fsim_refl|]. intros []; [apply fsim_refl|].
  apply fsim_bind; [apply fsim_refl|]. intros c. apply fsim_bind; [apply Hc|]. intros h1.
  apply fsim_bind; [|intros [s []]; apply fsim_refl]. apply fsim_skip1. intros row [h2 p2].
  apply fsim_bind; [apply fsim_refl|]. intros n. apply fsim_bind; [by apply fsim_loop|]. intros h3.
  apply fsim_bind; [apply IH|]. intros [[h4 p4] []]; apply fsim_refl.
Qed.
Lemma fsim_add look mx r : fsim (add_look look cover fuel mx r) (add_look look cover' fuel mx r).
Proof.
  unfold add_look. destruct (decide (length (d_rows mx) <= r)) as [?Hd|?Hd]; [apply fsim_refl|].
  apply fsim_bind; [apply fsim_refl|]. intros p. destruct (decide (p = null)) as [?Hd|?Hd]; [apply fsim_refl|].
  apply fsim_bind; [apply fsim_refl|]. intros rows. apply fsim_bind; [apply fsim_refl|]. intros n.
  apply fsim_bind; [apply Hc|]. intros h1. apply fsim_bind; [|intros []; apply fsim_refl].
  apply fsim_from. intros x h. apply fsim_bind; [apply Hc|]. intros. apply fsim_refl.
Qed.
End look.
Section same.
Context (fuel : nat).
Lemma fsim_column root p h : fsim (cover_column fuel p h) (DlxUnwind.cover_column fuel root p h).
Proof.
  unfold cover_column, DlxUnwind.cover_column. apply fsim_bind; [apply fsim_refl|]. intros c.
  apply fsim_bind; [apply fsim_refl|]. intros h1. apply fsim_loop. intros row h2. apply fsim_loop. intros col h3.
  unfold hide, DlxUnwind.hide, dec_size. apply fsim_bind; [apply fsim_refl|]. intros h4.
  apply fsim_bind; [apply fsim_refl|]. intros n. apply fsim_bind; [apply fsim_refl|]. intros hd.
  destruct (n_row hd); [|apply fsim_refl]. right. split; [done|]. destruct (matrix_drop fuel root h4); cbn [bind]; eauto.
Qed.
Lemma fsim_each rows : forall mx, fsim (each_look fuel (fun _ => cover_column fuel) rows mx) (each_look fuel (DlxUnwind.cover_column fuel) rows mx).
Proof.
  induction rows as [|r rows IH]; intros mx; cbn [each_look]; [apply fsim_refl|].
  apply fsim_bind; [apply fsim_add, fsim_column|]. intros [e m]. apply fsim_bind; [apply IH|]. intros []. apply fsim_refl.
Qed.
Lemma unwind_unchanged lcs rows : Forall NoDup lcs.*2 -> compatible lcs.*2 rows -> matrix_size lcs.*2 < fuel ->
  session_unwind fuel lcs rows = session_len_checked fuel lcs rows.
Proof.
  intros Hnd Hc Hf. pose proof (unwind_answer fuel lcs rows Hnd Hc Hf) as Ha.
  assert (fsim (session_len_checked fuel lcs rows) (session_unwind fuel lcs rows)) as [|[-> [f E]]].
  { rewrite session_unwinds, session_checked. unfold session_look. apply fsim_bind; [apply fsim_refl|]. intros mx.
    apply fsim_bind; [apply fsim_each|]. intros [es m]. apply fsim_bind; [|intros []; apply fsim_refl].
    unfold solve_len. apply fsim_bind; [apply fsim_helper, fsim_column|]. intros [[]]. apply fsim_refl. }
  { done. }
  destruct Ha as [[Ha _]|(r&Ha&_)]; congruence.
Qed.
End same.
