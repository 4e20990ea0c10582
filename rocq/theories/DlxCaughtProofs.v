(** Catching a panic: the matrix that is left is the one that unwinding drops. *)
From Verif Require Import Base Dlx SpecDlx SpecDlxSearch SpecDlxRelease SpecDlxLen SpecDlxUnwind SpecDlxCaught.
From Verif Require Import DlxCover DlxSets DlxReady DlxProofs DlxReleaseSim DlxReleaseEq DlxLook DlxLookProofs DlxLenCheck DlxLenCheckProofs DlxUnwindProofs.
From Verif Require DlxLen DlxUnwind DlxCaught.

(** * Nothing else panics *)

Notation quiet x := (x <> Fault Panic).
Lemma quiet_bind {A B} (x : res A) (k : A -> res B) : quiet x -> (forall a, x = Ret a -> quiet (k a)) -> quiet (bind x k).
Proof. destruct x as [a|f]; cbn [bind]; [|congruence]. intros _ H. by apply H. Qed.
Lemma quiet_load h p : quiet (load h p).
Proof. unfold load. by destruct (h !! p). Qed.
Lemma quiet_modify f p h : quiet (modify f p h).
Proof. unfold modify. by destruct (h !! p). Qed.
Lemma quiet_dealloc p h : quiet (dealloc p h).
Proof. unfold dealloc. by destruct (h !! p). Qed.
Lemma quiet_from {S} (heap_of : S -> heap) dir o body : (forall p s, quiet (body p s)) -> forall n cur s,
  quiet (for_from n heap_of dir o cur body s).
Proof.
  intros H. induction n as [|n IH]; intros cur s; cbn [for_from]; destruct (decide (cur = null)) as [?Hd|?Hd]; try done.
  apply quiet_bind; [apply quiet_load|]. intros a _. apply quiet_bind; [apply H|]. intros [s' []] _; [done|apply IH].
Qed.
Lemma quiet_skip1 {S} (heap_of : S -> heap) dir o body n s : (forall p s, quiet (body p s)) ->
  quiet (for_skip1 n heap_of dir o body s).
Proof. intros H. unfold for_skip1. apply quiet_bind; [apply quiet_load|]. intros. by apply quiet_from. Qed.
Lemma quiet_loop n dir o body h : (forall p s, quiet (body p s)) -> quiet (heap_loop n dir o body h).
Proof.
  intros H. unfold heap_loop. apply quiet_bind; [|by intros []]. apply quiet_skip1. intros p s.
  by apply quiet_bind; [apply H|].
Qed.
Lemma quiet_header h p : quiet (to_header h p).
Proof. unfold to_header. apply quiet_bind; [apply quiet_load|]. intros. by destruct (decide _). Qed.
Lemma quiet_horizontal h p : quiet (cover_horizontal p h).
Proof.
  unfold cover_horizontal. apply quiet_bind; [apply quiet_load|]. intros.
  apply quiet_bind; [apply quiet_modify|]. intros. apply quiet_modify.
Qed.
Lemma quiet_vertical h p : quiet (cover_vertical p h).
Proof.
  unfold cover_vertical. apply quiet_bind; [apply quiet_load|]. intros.
  apply quiet_bind; [apply quiet_modify|]. intros. apply quiet_modify.
Qed.
Lemma quiet_free n p h : quiet (free_chain n p h).
Proof.
  unfold free_chain. apply quiet_bind; [apply quiet_header|]. intros c _.
  apply quiet_bind; [|intros; apply quiet_dealloc]. apply quiet_loop. intros q s.
  apply quiet_bind; [|intros; apply quiet_dealloc]. apply quiet_loop, quiet_dealloc.
Qed.
Lemma quiet_column n p h : quiet (drop_column n p h).
Proof.
  unfold drop_column. apply quiet_bind; [apply quiet_load|]. intros a _. apply quiet_bind; [apply quiet_dealloc|]. intros h1 _.
  apply quiet_bind; [|by intros []]. apply quiet_from. intros q s.
  by apply quiet_bind; [apply quiet_dealloc|].
Qed.
Lemma quiet_drop n p h : quiet (matrix_drop n p h).
Proof.
  unfold matrix_drop. apply quiet_bind; [apply quiet_load|]. intros a _. apply quiet_bind; [apply quiet_column|]. intros h1 _.
  apply quiet_bind; [|by intros []]. apply quiet_from. intros q s. by apply quiet_bind; [apply quiet_column|].
Qed.
Lemma quiet_hide p h : quiet (DlxCaught.hide p h).
Proof.
  unfold DlxCaught.hide. apply quiet_bind; [apply quiet_vertical|]. intros h1 _. apply quiet_bind; [apply quiet_load|]. intros a _.
  apply quiet_bind; [apply quiet_load|]. intros b _. destruct (n_row b); [done|]. by apply quiet_bind; [apply quiet_modify|].
Qed.
Lemma quiet_cover n p h : quiet (DlxCaught.cover_column n p h).
Proof.
  unfold DlxCaught.cover_column. apply quiet_bind; [apply quiet_header|]. intros c _. apply quiet_bind; [apply quiet_horizontal|]. intros h1 _.
  apply quiet_skip1. intros q s. apply quiet_skip1. intros. apply quiet_hide.
Qed.

(** * Unwinding is dropping what is left *)

Section unwound.
Context (fuel : nat) (root : ptr).
Definition unwind (x : heap * bool) : res heap :=
  if x.2 then let! _ := matrix_drop fuel root x.1 in Fault Panic else Ret x.1.
Lemma hide_caught p h : DlxUnwind.hide fuel root p h = bind (DlxCaught.hide p h) unwind.
Proof.
  unfold DlxUnwind.hide, DlxCaught.hide. destruct (cover_vertical p h) as [h1|]; cbn [bind]; [|done].
  destruct (load h1 p) as [n|]; cbn [bind]; [|done]. destruct (load h1 (n_header n)) as [hd|]; cbn [bind]; [|done].
  destruct (n_row hd); [done|]. by destruct (modify _ _ h1).
Qed.
Lemma from_caught dir o body body' : (forall p h, body p h = bind (body' p h) unwind) -> forall n cur h,
  bind (for_from n id dir o cur (fun x h => let! h := body x h in Ret (h, false)) h) (fun '(h, _) => Ret h) =
  bind (for_from n id dir o cur body' h) unwind.
Proof.
  intros H. induction n as [|n IH]; intros cur h; cbn [for_from]; destruct (decide (cur = null)) as [?Hd|?Hd]; try done.
  destruct (load (id h) cur) as [a|]; cbn [bind]; [|done]. rewrite H. destruct (body' cur h) as [[h1 []]|]; cbn [bind]; [| |done].
  - unfold unwind; cbn [fst snd]. by destruct (matrix_drop fuel root h1).
  - unfold unwind at 1; cbn [fst snd bind]. apply IH.
Qed.
Lemma loop_caught dir o body body' h : (forall p h, body p h = bind (body' p h) unwind) ->
  heap_loop fuel dir o body h = bind (for_skip1 fuel id dir o body' h) unwind.
Proof.
  intros H. unfold heap_loop, for_skip1. destruct (load (id h) o) as [a|]; cbn [bind]; [|done]. by apply from_caught.
Qed.
Lemma column_caught p h : DlxUnwind.cover_column fuel root p h = bind (DlxCaught.cover_column fuel p h) unwind.
Proof.
  unfold DlxUnwind.cover_column, DlxCaught.cover_column. destruct (to_header h p) as [c|]; cbn [bind]; [|done].
  destruct (cover_horizontal c h) as [h1|]; cbn [bind]; [|done]. apply loop_caught. intros q h2. apply loop_caught, hide_caught.
Qed.
End unwound.

Definition unwind_matrix (fuel : nat) (x : option (result unit dlx_error) * matrix) : res (result unit dlx_error * matrix) :=
  match x.1 with
  | None => let! _ := matrix_drop fuel (d_root x.2) (d_heap x.2) in Fault Panic
  | Some e => Ret (e, x.2)
  end.
Lemma add_caught fuel mx r : DlxUnwind.add_solution fuel mx r = bind (DlxCaught.add_solution fuel mx r) (unwind_matrix fuel).
Proof.
  unfold DlxUnwind.add_solution, DlxCaught.add_solution. destruct (decide _) as [?Hd|?Hd]; [done|].
  destruct (vec_get (d_rows mx) r) as [p|]; cbn [bind]; [|done]. destruct (decide (p = null)) as [?Hp|?Hp]; [done|].
  destruct (clear_rows fuel p _ _) as [rows|]; cbn [bind]; [|done]. destruct (load (d_heap mx) p) as [n|]; cbn [bind]; [|done].
  rewrite column_caught. destruct (DlxCaught.cover_column fuel p (d_heap mx)) as [[h1 []]|]; cbn [bind]; [| |done].
  { unfold unwind, unwind_matrix; cbn [fst snd d_root d_heap]. by destruct (matrix_drop fuel (d_root mx) h1). }
  unfold unwind at 1; cbn [fst snd bind].
  pose proof (from_caught fuel (d_root mx) n_right p _ _ (column_caught fuel (d_root mx)) fuel
    (if decide (n_right n = p) then null else n_right n) h1) as E.
  destruct (for_from _ _ _ p _ (fun x h => let! h := DlxUnwind.cover_column _ _ x h in Ret (h, false)) h1) as [[h2 b]|f];
    destruct (for_from _ _ _ p _ (DlxCaught.cover_column fuel) h1) as [[h3 []]|f']; cbn [bind] in E |- *;
    unfold unwind in E; cbn [fst snd bind] in E.
  - by destruct (matrix_drop fuel (d_root mx) h3).
  - injection E as <-. destruct (heap_loop fuel n_right p (free_chain fuel) h2) as [h4|]; cbn [bind]; [|done].
    by destruct (free_chain fuel p h4).
  - done.
  - unfold unwind_matrix; cbn [fst snd d_root d_heap]. destruct (matrix_drop fuel (d_root mx) h3); cbn [bind] in *; congruence.
  - done.
  - congruence.
Qed.
Lemma unwound :
  (forall fuel root p h, DlxUnwind.cover_column fuel root p h =
     match DlxCaught.cover_column fuel p h with
     | Ret (h', true) => let! _ := matrix_drop fuel root h' in Fault Panic
     | Ret (h', false) => Ret h'
     | Fault f => Fault f
     end) /\
  (forall fuel mx r, DlxUnwind.add_solution fuel mx r =
     match DlxCaught.add_solution fuel mx r with
     | Ret (None, m) => let! _ := matrix_drop fuel (d_root m) (d_heap m) in Fault Panic
     | Ret (Some e, m) => Ret (e, m)
     | Fault f => Fault f
     end).
Proof.
  split.
  - intros fuel root p h. rewrite column_caught. by destruct (DlxCaught.cover_column fuel p h) as [[? []]|].
  - intros fuel mx r. rewrite add_caught. by destruct (DlxCaught.add_solution fuel mx r) as [[[] ?]|].
Qed.

(** * Dropping what is left *)

Section run.
Context (lcs : list (N * list nat)) (fuel : nat) (Hnd : Forall NoDup lcs.*2) (Hf : matrix_size lcs.*2 < fuel).
Notation off := (off_by 2%N lcs).
Notation both := (both lcs fuel).

Lemma new_caught : exists mx mx', matrix_new lcs.*2 = Ret mx /\ DlxLen.checked_matrix_new lcs = Ret mx' /\ both mx mx'.
Proof.
  destruct (ready_new lcs.*2 Hnd) as (mx&E&_&HR). specialize (HR fuel Hf).
  assert (qsim True (msim off) (matrix_new lcs.*2) (DlxLen.checked_matrix_new lcs)) as H
    by (eapply matrix_new_sim; first [by apply off_by_low|by apply off_by_fits]).
  rewrite E in H. destruct (DlxLen.checked_matrix_new lcs) as [mx'|[]]; cbn in H; try done.
  exists mx, mx'. split; [done|]. split; [done|]. split; [done|eauto].
Qed.
Lemma add_quiet mx mx' r : both mx mx' -> quiet (DlxCaught.add_solution fuel mx' r).
Proof.
  intros [[H1 H2 H3 H4] [added HR]].
  assert (quiet (add_solution fuel mx r)) as Hq by (by destruct (ready_step fuel _ added mx r HR) as [->|(?&?&?&->&_)]).
  rewrite <-(add_look_eq (seen off) (cover_column fuel) fuel _ added mx r (seen_row off) (covers_column fuel) HR) in Hq.
  unfold add_look in Hq. unfold DlxCaught.add_solution. rewrite H3. destruct (decide _) as [?Hd|?Hd]; [done|].
  destruct (vec_get (d_rows mx) r) as [p|f]; cbn [bind] in *; [|by destruct f]. destruct (decide (p = null)) as [?Hp|?Hp]; [done|].
  pose proof (clear_rows_sim off True fuel _ _ p (d_rows mx) H1) as Hc.
  change (clear_look (fun _ n => n_row n) fuel p (d_heap mx') (d_rows mx)) with (clear_rows fuel p (d_heap mx') (d_rows mx)) in Hc.
  apply quiet_bind.
  - destruct (clear_look _ fuel p _ _) as [rows|[]]; destruct (clear_rows fuel p _ _) as [rows'|[]]; cbn in *; try done; tauto.
  - intros rows _. apply quiet_bind; [apply quiet_load|]. intros n _. apply quiet_bind; [apply quiet_cover|]. intros [h1 []] _; [done|].
    apply quiet_bind; [apply quiet_from, quiet_cover|]. intros [h2 []] _; [done|].
    apply quiet_bind; [apply quiet_loop; intros; apply quiet_free|]. intros h3 _. by apply quiet_bind; [apply quiet_free|].
Qed.
Lemma add_left mx mx' r : both mx mx' ->
  (exists m, DlxCaught.add_solution fuel mx' r = Ret (None, m) /\
    ((exists h, matrix_drop fuel (d_root m) (d_heap m) = Ret h) /\ ~ long_enough lcs \/
     exists f, matrix_drop fuel (d_root m) (d_heap m) = Fault f /\ add_solution fuel mx r = Fault f)) \/
  match add_solution fuel mx r with
  | Ret (e, m) => exists m', DlxCaught.add_solution fuel mx' r = Ret (Some e, m') /\ both m m'
  | Fault f => DlxCaught.add_solution fuel mx' r = Fault f
  end.
Proof.
  intros Hb. pose proof (add_quiet mx mx' r Hb) as Hq.
  assert (quiet (add_solution fuel mx r)) as Hq'.
  { destruct Hb as [_ [added HR]]. by destruct (ready_step fuel _ added mx r HR) as [->|(?&?&?&->&_)]. }
  assert (tsim (long_enough lcs) (fun a b => b.1 = a.1 /\ both a.2 b.2) (add_solution fuel mx r)
    (add_look (fun _ n => n_row n) (DlxUnwind.cover_column fuel (d_root mx')) fuel mx' r)) as H.
  { apply (add_check lcs fuel (probe_column fuel 1%N)); [apply probe_covers| |done].
    intros p h h' Hh. apply column_unwinds; [apply Hok|done]. }
  change (add_look (fun _ n => n_row n) (DlxUnwind.cover_column fuel (d_root mx')) fuel mx' r) with (DlxUnwind.add_solution fuel mx' r) in H.
  rewrite add_caught in H. destruct (DlxCaught.add_solution fuel mx' r) as [[[e'|] m']|f']; cbn [bind] in *.
  - unfold unwind_matrix in H; cbn [fst snd] in H. right. destruct (add_solution fuel mx r) as [[e m]|]; cbn in H; [|done].
    destruct H as [-> H]. eauto.
  - unfold unwind_matrix in H; cbn [fst snd] in H. left. exists m'. split; [done|].
    pose proof (quiet_drop fuel (d_root m') (d_heap m')) as Hd.
    destruct (matrix_drop fuel (d_root m') (d_heap m')) as [h|f]; cbn [bind] in H; [left|right].
    + split; [eauto|]. destruct (add_solution fuel mx r) as [?|f]; cbn in H; [tauto|]. destruct H as [H|[_ H]]; [by rewrite <-H in Hq'|done].
    + exists f. split; [done|]. destruct (add_solution fuel mx r) as [?|f']; cbn in H; [by destruct H as [-> _]|].
      destruct H as [->|[-> _]]; done.
  - right. destruct (add_solution fuel mx r) as [?|f]; cbn in H; [by destruct H as [-> _]|]. destruct H as [->|[-> _]]; done.
Qed.

(** The matrix a session leaves can be dropped, or the rows themselves are to
    blame. *)
Lemma until_left rows : forall mx mx', both mx mx' ->
  (exists es m, add_until fuel rows mx' = Ret (es, true, m) /\ length es < length rows /\
    ((exists h, matrix_drop fuel (d_root m) (d_heap m) = Ret h) /\ ~ long_enough lcs \/
     exists f, matrix_drop fuel (d_root m) (d_heap m) = Fault f /\ add_each fuel rows mx = Fault f)) \/
  match add_each fuel rows mx with
  | Ret (es, m) => exists m', add_until fuel rows mx' = Ret (es, false, m') /\ both m m'
  | Fault f => add_until fuel rows mx' = Fault f
  end.
Proof.
  induction rows as [|r rows IH]; intros mx mx' Hb; cbn [add_until add_each length].
  { right. eauto. }
  destruct (add_left mx mx' r Hb) as [(m&->&H)|H]; cbn [bind].
  { left. exists [], m. split; [done|]. split; [cbn; lia|]. destruct H as [H|(f&H&->)]; [by left|right; eauto]. }
  destruct (add_solution fuel mx r) as [[e m]|f]; cbn [bind]; [|right; by rewrite H].
  destruct H as (m'&->&H). cbn [bind]. destruct (IH m m' H) as [(es&m2&->&Hl&H2)|H2]; cbn [bind].
  { left. exists (e :: es), m2. split; [done|]. split; [cbn; lia|]. destruct H2 as [?|(f&?&->)]; [by left|right; eauto]. }
  right. destruct (add_each fuel rows m) as [[es m2]|f]; cbn [bind]; [|by rewrite H2].
  destruct H2 as (m2'&->&H2). eauto.
Qed.
Lemma caught_dropped rows :
  (exists es leaked, dropped_caught fuel lcs rows = Ret (es, true, leaked) /\ length es < length rows) /\ ~ long_enough lcs \/
  match abandoned fuel lcs.*2 rows with
  | Ret (es, leaked) => dropped_caught fuel lcs rows = Ret (es, false, leaked)
  | Fault f => dropped_caught fuel lcs rows = Fault f
  end.
Proof.
  unfold dropped_caught, abandoned. destruct new_caught as (mx&mx'&->&->&Hb). cbn [bind].
  destruct (until_left rows mx mx' Hb) as [(es&m&->&Hl&[[[h E] Hs]|(f&E&E')])|H]; cbn [bind].
  - left. rewrite E. cbn [bind]. eauto.
  - right. by rewrite E, E'.
  - right. destruct (add_each fuel rows mx) as [[es m]|f]; cbn [bind]; [|by rewrite H]. destruct H as (m'&->&H). cbn [bind].
    destruct H as [[H1 H2 H3 H4] [added HR]]. pose proof (matrix_drop_sim off True fuel _ _ (d_root m) H1) as H.
    rewrite (ready_drop fuel _ added m HR) in *. rewrite H2. cbn [bind].
    destruct (matrix_drop fuel (d_root m) (d_heap m')) as [h|[]]; cbn in H; try done. cbn [bind]. do 2 f_equal.
    rewrite map_size_empty. apply map_size_empty_iff. apply map_eq. intros p. destruct H as [H _]. by rewrite H, !lookup_empty.
Qed.
End run.
Lemma abandoned_compatible fuel cs rows : Forall NoDup cs -> compatible cs rows -> matrix_size cs < fuel ->
  abandoned fuel cs rows = Ret (replicate (length rows) (Ok ()), 0).
Proof.
  intros Hnd Hc Hf. unfold abandoned. destruct (ready_new cs Hnd) as (mx&->&_&HR). specialize (HR fuel Hf). cbn [bind].
  assert (forall rs added m, Ready fuel cs added m -> compatible cs (added ++ rs) ->
    exists m', add_each fuel rs m = Ret (replicate (length rs) (Ok ()), m') /\ Ready fuel cs (added ++ rs) m') as Hadd.
  { induction rs as [|r rs IH]; intros added m HRm Hcm; cbn [add_each].
    - exists m. rewrite app_nil_r. done.
    - destruct (Hcm added r rs eq_refl) as [Ho Hno].
      destruct (ready_ok fuel _ added m r HRm Ho Hno) as (m1&E1&HR1&_). rewrite E1. cbn [bind].
      destruct (IH (added ++ [r]) m1) as (m2&E2&HR2); [done|by rewrite <-app_assoc|].
      rewrite E2. cbn [bind]. exists m2. rewrite <-app_assoc in HR2. done. }
  destruct (Hadd rows [] mx HR Hc) as (m&->&HRm). cbn [bind]. rewrite (ready_drop fuel _ _ m HRm). cbn [bind].
  by rewrite map_size_empty.
Qed.
Lemma caught_compatible lcs rows fuel : Forall NoDup lcs.*2 -> compatible lcs.*2 rows -> matrix_size lcs.*2 < fuel ->
  (exists es leaked, dropped_caught fuel lcs rows = Ret (es, true, leaked) /\ length es < length rows) /\ ~ long_enough lcs \/
  dropped_caught fuel lcs rows = Ret (replicate (length rows) (Ok ()), false, 0).
Proof.
  intros Hnd Hc Hf. pose proof (caught_dropped lcs fuel Hnd Hf rows) as H. by rewrite abandoned_compatible in H.
Qed.

(** * What is left after a panic *)

(** The table of rows is the one of a matrix to which the row was added. *)
Lemma rows_left lcs fuel mx mx' m r added : both lcs fuel mx mx' -> Ready fuel lcs.*2 added mx ->
  occurs lcs.*2 r -> ~ conflict lcs.*2 added r -> DlxCaught.add_solution fuel mx' r = Ret (None, m) ->
  d_partial m = d_partial mx' ++ [r] /\
  exists mx2, Ready fuel lcs.*2 (added ++ [r]) mx2 /\ d_rows m = d_rows mx2.
Proof.
  intros [[H1 H2 H3 H4] _] HR Ho Hc E. destruct (ready_ok fuel _ added mx r HR Ho Hc) as (mx2&E2&HR2&_).
  rewrite <-(add_look_eq (seen (off_by 2%N lcs)) (cover_column fuel) fuel _ added mx r (seen_row _) (covers_column fuel) HR) in E2.
  unfold add_look in E2. unfold DlxCaught.add_solution in E. rewrite H3 in E. destruct (decide (length _ <= _)) as [?Hd|?Hd]; [done|].
  destruct (vec_get (d_rows mx) r) as [p|f]; cbn [bind] in E, E2; [|done]. destruct (decide (p = null)) as [?Hp|?Hp]; [done|].
  pose proof (clear_rows_sim (off_by 2%N lcs) True fuel _ _ p (d_rows mx) H1) as Hcl.
  change (clear_look (fun _ n => n_row n) fuel p (d_heap mx') (d_rows mx)) with (clear_rows fuel p (d_heap mx') (d_rows mx)) in Hcl.
  destruct (clear_look _ fuel p _ _) as [rows|] in E2, Hcl; cbn [bind] in E2; [|done].
  destruct (clear_rows fuel p _ _) as [rows'|[]] in E, Hcl; cbn in Hcl; try done; cbn [bind] in E. subst rows'.
  assert (d_rows m = rows /\ d_partial m = d_partial mx' ++ [r]) as [-> ->].
  { destruct (load (d_heap mx') p) as [n|]; cbn [bind] in E; [|done].
    destruct (DlxCaught.cover_column fuel p _) as [[h1 []]|]; cbn [bind] in E; [by injection E as <-| |done].
    destruct (for_from _ _ _ p _ _ h1) as [[h2 []]|]; cbn [bind] in E; [by injection E as <-| |done].
    destruct (heap_loop _ _ _ _ h2) as [h3|]; cbn [bind] in E; [|done]. by destruct (free_chain fuel p h3). }
  split; [done|]. exists mx2. split; [done|].
  destruct (load (d_heap mx) p) as [n|]; cbn [bind] in E2; [|done].
  destruct (cover_column fuel p _) as [h1|]; cbn [bind] in E2; [|done].
  destruct (for_from _ _ _ p _ _ h1) as [[h2 b]|]; cbn [bind] in E2; [|done].
  destruct (heap_loop _ _ _ _ h2) as [h3|]; cbn [bind] in E2; [|done].
  destruct (free_chain fuel p h3) as [h4|]; cbn [bind] in E2; [|done]. by injection E2 as <-.
Qed.
Lemma until_rows_left lcs fuel r m rows : forall mx mx' es added, both lcs fuel mx mx' -> Ready fuel lcs.*2 added mx ->
  compatible lcs.*2 (added ++ rows ++ [r]) -> add_until fuel (rows ++ [r]) mx' = Ret (es, true, m) -> length es = length rows ->
  es = replicate (length rows) (Ok ()) /\ d_partial m = d_partial mx' ++ rows ++ [r] /\
  exists mx2, Ready fuel lcs.*2 (added ++ rows ++ [r]) mx2 /\ d_rows m = d_rows mx2.
Proof.
  induction rows as [|a rows IH]; intros mx mx' es added Hb HR Hc E Hl; cbn [app] in *; cbn [add_until length] in *.
  - destruct es; [|done]. destruct (Hc added r [] eq_refl) as [Ho Hno].
    destruct (DlxCaught.add_solution fuel mx' r) as [[[e|] m1]|] eqn:E1; cbn [bind] in E; try done.
    injection E as <-. split; [done|]. by eapply rows_left.
  - destruct (Hc added a (rows ++ [r]) eq_refl) as [Ho Hno].
    destruct (DlxCaught.add_solution fuel mx' a) as [[[e|] m1]|] eqn:E1; cbn [bind] in E; [| |done].
    2:{ injection E as <- <-. done. }
    destruct (add_until fuel (rows ++ [r]) m1) as [[[es1 b1] m2]|] eqn:E2; cbn [bind] in E; [|done].
    injection E as <- -> ->. cbn in Hl.
    pose proof (ready_ok fuel _ added mx a HR Ho Hno) as (mx1&F1&HR1&F2).
    destruct (add_left lcs fuel mx mx' a Hb) as [(m3&F&_)|H]; [congruence|].
    rewrite F1 in H. destruct H as (m3&F&Hb1). rewrite E1 in F. injection F as -> ->.
    assert (d_partial m3 = d_partial mx' ++ [a]) as Hp.
    { destruct Hb as [[_ _ _ G1] _], Hb1 as [[_ _ _ G2] _]. by rewrite G2, F2, G1. }
    destruct (IH mx1 m3 es1 (added ++ [a]) Hb1 HR1) as (->&Hp2&H2); [by rewrite <-app_assoc|done|lia|].
    split; [done|]. rewrite <-app_assoc in H2. split; [|done]. by rewrite Hp2, Hp, <-app_assoc.
Qed.
Lemma caught_left lcs rows r fuel mx es m : Forall NoDup lcs.*2 -> compatible lcs.*2 (rows ++ [r]) -> matrix_size lcs.*2 < fuel ->
  DlxLen.checked_matrix_new lcs = Ret mx -> add_until fuel (rows ++ [r]) mx = Ret (es, true, m) -> length es = length rows ->
  es = replicate (length rows) (Ok ()) /\ d_partial m = rows ++ [r] /\ forall r',
  ((forall k, occurs lcs.*2 k -> k < r') -> DlxCaught.add_solution fuel m r' = Ret (Some (Err IndexError), m)) /\
  ((exists k, r' <= k /\ occurs lcs.*2 k) -> ~ occurs lcs.*2 r' \/ nulled lcs.*2 (rows ++ [r]) r' ->
    DlxCaught.add_solution fuel m r' = Ret (Some (Err InvalidRow), Matrix (d_heap m) (d_next m) (d_root m) (d_rows m) (d_partial m ++ [r']))) /\
  (occurs lcs.*2 r' -> ~ nulled lcs.*2 (rows ++ [r]) r' ->
    forall e m', DlxCaught.add_solution fuel m r' <> Ret (Some (Err e), m')).
Proof.
  intros Hnd Hc Hf En E Hl. destruct (new_caught lcs fuel Hnd Hf) as (mx0&mx'&En0&En'&Hb).
  rewrite En in En'. injection En' as <-. destruct (ready_new lcs.*2 Hnd) as (mx1&En1&Hp&HR).
  rewrite En0 in En1. injection En1 as <-. specialize (HR fuel Hf).
  destruct (until_rows_left lcs fuel r m rows mx0 mx es [] Hb HR Hc E Hl) as (->&Hpm&mx2&HR2&Hr).
  assert (d_partial mx = []) as Hpx by (destruct Hb as [[_ _ _ G1] _]; by rewrite G1).
  rewrite Hpx in Hpm. split; [done|]. split; [done|]. cbn [app] in HR2. intros r'.
  destruct HR2 as (_&_&G&st0&HS&_&_&(T1&T2&T3)&_). rewrite <-Hr in T1, T2, T3.
  unfold DlxCaught.add_solution. split; [|split].
  - intros Hk. rewrite decide_True; [done|].
    destruct (decide (r' < length (d_rows m))) as [Hlt|]; [|lia]. apply T1 in Hlt as (k&H1&H2%Hk). lia.
  - intros Hk Hn. apply T1 in Hk. rewrite decide_False by lia. unfold vec_get. by rewrite (T2 r' Hk Hn).
  - intros Ho Hn e m'. rewrite decide_False by (apply Nat.lt_nge, T1; eauto).
    destruct (T3 r' Ho Hn) as (p&Hlast&Hrow). unfold vec_get, expect. rewrite Hrow. cbn [bind].
    destruct (last_exists lcs.*2 G st0 HS r' Ho) as (p'&c&ns&Hl'&Hcn&Hpn&_). assert (p' = p) as -> by congruence.
    rewrite decide_False.
    2:{ intros ->. apply (s_null _ _ _ HS), elem_of_fp. exists c, ns. split; [done|]. by right. }
    destruct (clear_rows fuel p _ _) as [rs|]; cbn [bind]; [|done]. destruct (load (d_heap m) p) as [n|]; cbn [bind]; [|done].
    destruct (DlxCaught.cover_column fuel p _) as [[h1 []]|]; cbn [bind]; try done.
    destruct (for_from _ _ _ p _ _ h1) as [[h2 []]|]; cbn [bind]; try done.
    destruct (heap_loop _ _ _ _ h2) as [h3|]; cbn [bind]; [|done]. by destruct (free_chain fuel p h3).
Qed.

(** * Using what is left *)

Lemma reuse_ub : exists lcs rows fuel, Forall NoDup lcs.*2 /\ compatible lcs.*2 rows /\ matrix_size lcs.*2 < fuel /\
  (exists es leaked, abandoned_caught fuel lcs rows = Ret (es, leaked)) /\ session_caught fuel lcs rows = Fault UB.
Proof.
  exists [(0%N, [0; 1]); (2%N, [0; 1]); (1%N, [2])], [0; 2], 20. cbn [fmap list_fmap snd].
  split; [repeat constructor; rewrite ?elem_of_cons, ?elem_of_nil; lia|]. split; [|split; [vm_compute; lia|]].
  - intros l1 r l2 E. destruct l1 as [|a [|b l1]]; cbn [app] in E.
    + injection E as <- _. split; [exists [0; 1]; rewrite !elem_of_cons; auto|]. intros (k&a&_&Ha&_). by apply elem_of_nil in Ha.
    + injection E as <- <- _. split; [exists [2]; rewrite !elem_of_cons; auto 6|]. intros (k&a&Hk&Ha&Hak&Hr).
      rewrite !elem_of_cons, elem_of_nil in Hk. apply elem_of_list_singleton in Ha as ->.
      destruct Hk as [->|[->|[->|[]]]]; rewrite !elem_of_cons, elem_of_nil in Hr, Hak; lia.
    + injection E as _ _ E. by destruct l1.
  - split; [eexists _, _|]; vm_compute; reflexivity.
Qed.
Lemma reuse_wrong : exists lcs row fuel sel leaked, Forall NoDup lcs.*2 /\ compatible lcs.*2 [row] /\ matrix_size lcs.*2 < fuel /\
  session_caught fuel lcs [row] = Ret ([None], Ok sel, leaked) /\ ~ exact_cover lcs.*2 sel.
Proof.
  exists [(0%N, [0; 1]); (1%N, [0])], 0, 20, [0; 1], 3. cbn [fmap list_fmap snd].
  split; [repeat constructor; rewrite ?elem_of_cons, ?elem_of_nil; lia|]. split; [|split; [vm_compute; lia|]].
  - intros l1 r l2 E. destruct l1 as [|a l1]; [|injection E as _ E; by destruct l1]. injection E as <- _.
    split; [exists [0; 1]; rewrite !elem_of_cons; auto|]. intros (k&a&_&Ha&_). by apply elem_of_nil in Ha.
  - split; [vm_compute; reflexivity|]. intros (_&H&_). destruct (H [0; 1]) as (r&_&Hr); [apply elem_of_cons; auto|].
    assert (r = 0) by (apply Hr; rewrite !elem_of_cons; auto). assert (r = 1) by (apply Hr; rewrite !elem_of_cons; auto). lia.
Qed.
