(** Wrong lengths with overflow checks: a panic, or what they do without. *)
From Verif Require Import Base Dlx SpecDlx SpecDlxSearch SpecDlxRelease SpecDlxLen DlxReady DlxProofs DlxReleaseEq.
From Verif Require Import DlxLook DlxLookProofs DlxLenCheck.
From Verif Require DlxLen.

Lemma seen_row off p n : n_header n <> null -> seen off p n = n_row n.
Proof. intros H. unfold seen. by rewrite decide_False. Qed.
Lemma off_by_long cs : long_enough cs -> forall next p, (0 <= off_by next cs p)%Z.
Proof.
  induction 1 as [|[len l] cs Hl Hcs IH]; intros next p; cbn [off_by]; [done|]. cbn in Hl.
  destruct (decide (p = next)) as [Hp|Hp]; [lia|apply IH].
Qed.

(** The right sizes do not panic either. *)
Definition tsim (safe : Prop) {A B} (R : A -> B -> Prop) (x : res A) (y : res B) : Prop :=
  match x, y with
  | Ret a, Ret b => R a b
  | Ret _, Fault f => f = Panic /\ ~ safe
  | Fault e, Fault f => f = e \/ f = Panic /\ ~ safe
  | Fault _, Ret _ => False
  end.
Lemma tsim_bind safe {A B A' B'} (R : A -> A' -> Prop) (Q : B -> B' -> Prop) x x' k k' :
  tsim safe R x x' -> (forall a a', R a a' -> tsim safe Q (k a) (k' a')) -> tsim safe Q (bind x k) (bind x' k').
Proof.
  destruct x as [a|e], x' as [a'|f]; cbn [bind tsim]; try done; [intros H Hk; by apply Hk|].
  intros H _. destruct (k a); cbn [tsim]; auto.
Qed.
Lemma tsim_and safe {A B} (R : A -> B -> Prop) (Q : A -> Prop) x y : qsim safe R x y -> x <> Fault Panic -> (forall a, x = Ret a -> Q a) ->
  tsim safe (fun a b => R a b /\ Q a) x y.
Proof. destruct x as [a|[]], y as [b|[]]; cbn; try done; auto. Qed.

Section run.
Context (lcs : list (N * list nat)) (fuel : nat).
Notation off := (off_by 2%N lcs).
(** The columns of the matrix with the right sizes and of the other one, with
    its root, are covered. *)
Context (cover : ptr -> heap -> res heap) (cover' : ptr -> ptr -> heap -> res heap).
Notation plain := (fun _ n => n_row n).
Fixpoint each_look (rows : list nat) (mx : matrix) : res (list (result unit dlx_error) * matrix) :=
  match rows with
  | [] => Ret ([], mx)
  | r :: rows =>
      let! (e, mx) := add_look plain (cover' (d_root mx)) fuel mx r in
      let! (es, mx) := each_look rows mx in
      Ret (e :: es, mx)
  end.
Definition session_look (lcs : list (N * list nat)) (rows : list nat) :=
  let! mx := DlxLen.checked_matrix_new lcs in
  let! (es, mx) := each_look rows mx in
  let! (s, h) := solve_len plain (cover' (d_root mx)) fuel mx in
  Ret (es, s, size h).
Definition abandoned_look (lcs : list (N * list nat)) (rows : list nat) :=
  let! mx := DlxLen.checked_matrix_new lcs in
  let! (es, mx) := each_look rows mx in
  let! h := matrix_drop fuel (d_root mx) (d_heap mx) in
  Ret (es, size h).
Context (Hnd : Forall NoDup lcs.*2) (Hf : matrix_size lcs.*2 < fuel) (Hcov : covers fuel cover).
Context (Hsim : forall p h h', hsim off h h' -> qsim (long_enough lcs) (hsim off) (cover p h) (cover' 1%N p h')).
Notation psim := (tsim (long_enough lcs)).

Definition both (mx mx' : matrix) : Prop := msim off mx mx' /\ exists added, Ready fuel lcs.*2 added mx.
Lemma both_root mx mx' : both mx mx' -> d_root mx' = 1%N.
Proof. intros [[_ -> _ _] (added&_&Hroot&_)]. done. Qed.
Lemma Hok : long_enough lcs -> forall p, (0 <= off p)%Z.
Proof. intros H p. by apply off_by_long. Qed.
Lemma new_check : psim both (matrix_new lcs.*2) (DlxLen.checked_matrix_new lcs).
Proof.
  destruct (ready_new lcs.*2 Hnd) as (mx&E&_&HR). specialize (HR fuel Hf). apply tsim_and.
  - apply matrix_new_sim; [by apply off_by_low|by apply off_by_fits].
  - by rewrite E.
  - intros a Ha. rewrite Ha in E. injection E as ->. eauto.
Qed.
Lemma add_check mx mx' r : both mx mx' ->
  psim (fun a b => b.1 = a.1 /\ both a.2 b.2) (add_solution fuel mx r) (add_look plain (cover' (d_root mx')) fuel mx' r).
Proof.
  intros Hb. rewrite (both_root _ _ Hb). destruct Hb as [Hm [added HR]]. pose proof (ready_step fuel _ added mx r HR) as Hs.
  assert (psim (fun a b => (b.1 = a.1 /\ msim off a.2 b.2) /\ exists added, Ready fuel lcs.*2 added a.2)
    (add_solution fuel mx r) (add_look plain (cover' 1%N) fuel mx' r)) as H.
  { apply tsim_and.
    - rewrite <-(add_look_eq (seen off) cover fuel _ added mx r (seen_row off) Hcov HR). by apply add_solution_sim.
    - by destruct Hs as [->|(?&?&?&->&_)].
    - intros a Ha. destruct Hs as [Hs|(e&m&ad&Hs&HR')]; rewrite Ha in Hs; [done|]. injection Hs as ->. eauto. }
  destruct (add_solution fuel mx r), (add_look _ _ fuel mx' r); cbn in *; unfold both; tauto.
Qed.
Lemma each_check rows : forall mx mx', both mx mx' ->
  psim (fun a b => b.1 = a.1 /\ both a.2 b.2) (add_each fuel rows mx) (each_look rows mx').
Proof.
  induction rows as [|r rows IH]; intros mx mx' H; cbn [add_each each_look]; [done|].
  eapply tsim_bind; [by apply add_check|]. intros [e m] [e' m'] [E1 H1]. cbn in E1, H1. subst e'.
  eapply tsim_bind; [by apply IH|]. intros [es m2] [es' m2'] [E2 H2]. cbn in E2, H2. subst es'. done.
Qed.
Lemma solve_check mx mx' r : both mx mx' -> solve_len (seen off) cover fuel mx = Ret (r, ∅) ->
  solve_len plain (cover' (d_root mx')) fuel mx' = Ret (r, ∅) \/
  solve_len plain (cover' (d_root mx')) fuel mx' = Fault Panic /\ ~ long_enough lcs.
Proof.
  intros Hb E. rewrite (both_root _ _ Hb). destruct Hb as [[H1 H2 H3 H4] _].
  assert (qsim (long_enough lcs) (fun a b => b.1 = a.1 /\ hsim off a.2 b.2) (solve_len (seen off) cover fuel mx) (solve_len plain (cover' 1%N) fuel mx')) as H.
  { unfold solve_len. rewrite H2, H4.
    eapply qsim_bind; [by apply solve_helper_sim|].
    intros [[h p] ok] [[h' p'] ok'] (G1&G2&G3). cbn in G1, G2, G3. subst p' ok'.
    eapply qsim_bind; [by apply matrix_drop_sim|]. intros h1 h1' G. done. }
  rewrite E in H. destruct (solve_len _ _ fuel mx') as [[a g]|[]]; cbn in H; [|auto|done..].
  destruct H as [-> [H _]]. left. do 2 f_equal. apply map_eq. intros p. by rewrite H, !lookup_empty.
Qed.
Lemma drop_check mx mx' : both mx mx' ->
  matrix_drop fuel (d_root mx') (d_heap mx') = Ret ∅ \/ matrix_drop fuel (d_root mx') (d_heap mx') = Fault Panic /\ ~ long_enough lcs.
Proof.
  intros [[H1 H2 H3 H4] [added HR]]. pose proof (ready_drop fuel _ added mx HR) as E.
  rewrite H2. pose proof (matrix_drop_sim off (long_enough lcs) fuel _ _ (d_root mx) H1) as H. rewrite E in H.
  destruct (matrix_drop _ _ (d_heap mx')) as [|[]]; cbn in H; [|auto|done..]. left. destruct H as [H _]. f_equal.
  apply map_eq. intros p. by rewrite H, !lookup_empty.
Qed.

Lemma look_session rows : session_look lcs rows = Fault Panic /\ ~ long_enough lcs \/
  same_but_answer (session fuel lcs.*2 rows) (session_look lcs rows).
Proof.
  unfold session, session_look.
  pose proof new_check as Hn. destruct (matrix_new lcs.*2) as [mx|], (DlxLen.checked_matrix_new lcs) as [mx'|]; cbn [tsim bind] in *; try done.
  2:{ destruct Hn as [-> ?]. auto. }
  2:{ destruct Hn as [->|[-> ?]]; [by right|by left]. }
  pose proof (each_check rows mx mx' Hn) as He.
  destruct (add_each fuel rows mx) as [[es m]|], (each_look rows mx') as [[es' m']|]; cbn [tsim bind fst snd] in *; try done.
  2:{ destruct He as [-> ?]. auto. }
  2:{ destruct He as [->|[-> ?]]; [by right|by left]. }
  destruct He as [-> Hb]. pose proof Hb as [_ [added HR]].
  destruct (solve_len_ready (seen off) cover fuel _ added m (seen_row off) Hcov HR) as [(sol&E&Hs)|[E Hs]];
    (destruct (solve_check m m' _ Hb E) as [->|[-> ?]]; [right|left; done]);
    destruct (ready_solve fuel _ added m HR) as [(sol'&->&Hs')|[-> Hs']]; cbn [bind same_but_answer]; rewrite map_size_empty.
  - done.
  - by destruct (Hs' sol).
  - by destruct (Hs sol').
  - done.
Qed.
Lemma look_abandoned rows : abandoned_look lcs rows = Fault Panic /\ ~ long_enough lcs \/
  abandoned_look lcs rows = abandoned fuel lcs.*2 rows.
Proof.
  unfold abandoned, abandoned_look.
  pose proof new_check as Hn. destruct (matrix_new lcs.*2) as [mx|], (DlxLen.checked_matrix_new lcs) as [mx'|]; cbn [tsim bind] in *; try done.
  2:{ destruct Hn as [-> ?]. auto. }
  2:{ destruct Hn as [->|[-> ?]]; [by right|by left]. }
  pose proof (each_check rows mx mx' Hn) as He.
  destruct (add_each fuel rows mx) as [[es m]|], (each_look rows mx') as [[es' m']|]; cbn [tsim bind fst snd] in *; try done.
  2:{ destruct He as [-> ?]. auto. }
  2:{ destruct He as [->|[-> ?]]; [by right|by left]. }
  destruct He as [-> Hb]. destruct (drop_check m m' Hb) as [->|[-> ?]]; [right|left; done].
  destruct Hb as [_ [added HR]]. by rewrite (ready_drop fuel _ added m HR).
Qed.
Lemma look_answer rows : compatible lcs.*2 rows ->
  session_look lcs rows = Fault Panic /\ ~ long_enough lcs \/
  exists r, session_look lcs rows = Ret (replicate (length rows) (Ok ()), r, 0) /\
    match r with
    | Ok sel => exists sol, sel = rows ++ sol /\ exact_cover lcs.*2 sel
    | Err e => e = DlxNoSolution /\ forall sol, ~ exact_cover lcs.*2 (rows ++ sol)
    end.
Proof.
  intros Hc. unfold session_look.
  pose proof new_check as Hn.
  destruct (ready_new lcs.*2 Hnd) as (mx&E&Hp&HR). specialize (HR fuel Hf). rewrite E in Hn.
  destruct (DlxLen.checked_matrix_new lcs) as [mx'|]; cbn [tsim] in Hn; cbn [bind].
  2:{ destruct Hn as [-> ?]. auto. }
  pose proof (each_check rows mx mx' Hn) as He.
  assert (forall rs added m, Ready fuel lcs.*2 added m -> d_partial m = added -> compatible lcs.*2 (added ++ rs) ->
    exists m', add_each fuel rs m = Ret (replicate (length rs) (Ok ()), m') /\ Ready fuel lcs.*2 (added ++ rs) m' /\ d_partial m' = added ++ rs) as Hadd.
  { induction rs as [|r rs IH]; intros added m HRm Hpm Hcm; cbn [add_each].
    - exists m. rewrite app_nil_r. done.
    - destruct (Hcm added r rs eq_refl) as [Ho Hno].
      destruct (ready_ok fuel _ added m r HRm Ho Hno) as (m1&E1&HR1&Hp1). rewrite E1. cbn [bind].
      destruct (IH (added ++ [r]) m1) as (m2&E2&HR2&Hp2); [done|by rewrite Hp1, Hpm|by rewrite <-app_assoc|].
      rewrite E2. cbn [bind]. exists m2. rewrite <-app_assoc in HR2, Hp2. done. }
  destruct (Hadd rows [] mx HR Hp Hc) as (m&Em&HRm&Hpm). rewrite Em in He. cbn [app] in HRm, Hpm.
  destruct (each_look rows mx') as [[es m']|]; cbn [tsim fst snd bind] in *.
  2:{ destruct He as [-> ?]. auto. }
  destruct He as [-> Hb].
  destruct (solve_len_ready (seen off) cover fuel _ rows m (seen_row off) Hcov HRm) as [(sol&Es&Hs)|[Es Hs]];
    (destruct (solve_check m m' _ Hb Es) as [->|[-> ?]]; [right|left; done]); cbn [bind];
    (eexists; split; [by rewrite map_size_empty|]); cbn.
  - rewrite Hpm. eauto.
  - done.
Qed.
End run.

(** The solver of [Dlx]. *)
Section checked.
Context (lcs : list (N * list nat)) (fuel : nat).
Lemma column_check p h h' : hsim (off_by 2%N lcs) h h' ->
  qsim (long_enough lcs) (hsim (off_by 2%N lcs)) (cover_column fuel p h) (cover_column fuel p h').
Proof. apply cover_column_sim. apply Hok. Qed.
Notation cover := (fun _ => cover_column fuel).
Lemma each_checked rows : forall mx, add_each fuel rows mx = each_look fuel cover rows mx.
Proof.
  induction rows as [|r rows IH]; intros mx; cbn [add_each each_look]; [done|].
  change (add_look (fun _ n => n_row n) (cover_column fuel) fuel mx r) with (add_solution fuel mx r).
  destruct (add_solution fuel mx r) as [[e m]|]; cbn [bind]; [|done]. by rewrite IH.
Qed.
Lemma session_checked rows : session_len_checked fuel lcs rows = session_look fuel cover lcs rows.
Proof.
  unfold session_len_checked, session_look. destruct (DlxLen.checked_matrix_new lcs) as [mx|]; cbn [bind]; [|done].
  by rewrite each_checked.
Qed.
Lemma abandoned_checked rows : abandoned_len_checked fuel lcs rows = abandoned_look fuel cover lcs rows.
Proof.
  unfold abandoned_len_checked, abandoned_look. destruct (DlxLen.checked_matrix_new lcs) as [mx|]; cbn [bind]; [|done].
  by rewrite each_checked.
Qed.
End checked.
Lemma session_check lcs fuel (Hnd : Forall NoDup lcs.*2) (Hf : matrix_size lcs.*2 < fuel) rows :
  session_len_checked fuel lcs rows = Fault Panic /\ ~ long_enough lcs \/
  same_but_answer (session fuel lcs.*2 rows) (session_len_checked fuel lcs rows).
Proof.
  rewrite session_checked. eapply look_session; [done|done|apply (covers_column fuel)|]. intros. by apply column_check.
Qed.
Lemma abandoned_check lcs fuel (Hnd : Forall NoDup lcs.*2) (Hf : matrix_size lcs.*2 < fuel) rows :
  abandoned_len_checked fuel lcs rows = Fault Panic /\ ~ long_enough lcs \/
  abandoned_len_checked fuel lcs rows = abandoned fuel lcs.*2 rows.
Proof.
  rewrite abandoned_checked. eapply look_abandoned; [done|done|apply (covers_column fuel)|]. intros. by apply column_check.
Qed.
Lemma check_answer lcs rows fuel : Forall NoDup lcs.*2 -> compatible lcs.*2 rows -> matrix_size lcs.*2 < fuel ->
  session_len_checked fuel lcs rows = Fault Panic /\ ~ long_enough lcs \/
  exists r, session_len_checked fuel lcs rows = Ret (replicate (length rows) (Ok ()), r, 0) /\
    match r with
    | Ok sel => exists sol, sel = rows ++ sol /\ exact_cover lcs.*2 sel
    | Err e => e = DlxNoSolution /\ forall sol, ~ exact_cover lcs.*2 (rows ++ sol)
    end.
Proof.
  intros Hnd Hc Hf. rewrite session_checked. eapply look_answer; [done|done|apply (covers_column fuel)| |done].
  intros. by apply column_check.
Qed.
