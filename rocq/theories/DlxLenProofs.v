(** Wrong lengths change at most which exact cover is found. *)
From Verif Require Import Base Dlx DlxSeg DlxCover DlxColumn SpecDlx SpecDlxSearch SpecDlxRelease SpecDlxLen DlxSets DlxKnuth DlxSearch DlxBuild DlxNew DlxAdd DlxReady DlxProofs.
From Verif Require Import DlxReleaseSim DlxReleaseEq DlxReleaseProofs DlxLook DlxLenSim DlxLookProofs.
From Verif Require DlxRelease DlxLen.

Section width.
Context (ws : word).


(** What is read as a size. *)
Definition red (off : N -> N) (p : N) (n : node) : nat := N.to_nat (seen ws off p n).
Lemma red_node off p n : n_header n <> null -> red off p n = n_row n.
Proof. intros H. unfold red, seen. rewrite decide_False by done. apply Nat2N.id. Qed.

Definition both_len (off : N -> N) (fuel : nat) (cs : list (list nat)) (mx : matrix) (mx' : DlxRelease.matrix) : Prop :=
  DlxLenSim.msim ws off mx mx' /\ exists added, Ready fuel cs added mx.

Section run.
Context (lcs : list (N * list nat)) (fuel : nat) (Hlen : Forall (fun k => k < usize_size ws)%N lcs.*1).
Context (Hnd : Forall NoDup lcs.*2) (Hf : matrix_size lcs.*2 < fuel).
Notation off := (off_by ws 2%N lcs).

Lemma new_len : xsim (both_len off fuel lcs.*2) (matrix_new lcs.*2) (DlxLen.matrix_new lcs).
Proof.
  destruct (ready_new lcs.*2 Hnd) as (mx&E&_&HR). specialize (HR fuel Hf).
  apply xsim_and.
  - apply rsim_xsim; [|by rewrite E]. apply DlxLenSim.matrix_new_sim; [by apply off_by_low|by apply off_by_fits].
  - intros a Ha. rewrite Ha in E. injection E as ->. eauto.
Qed.
Lemma add_len mx mx' r : both_len off fuel lcs.*2 mx mx' ->
  xsim (fun a b => b.1 = a.1 /\ both_len off fuel lcs.*2 a.2 b.2) (add_solution fuel mx r) (DlxRelease.add_solution ws fuel mx' r).
Proof.
  intros [Hm [added HR]].
  assert (xsim (fun a b => (b.1 = a.1 /\ DlxLenSim.msim ws off a.2 b.2) /\ exists added, Ready fuel lcs.*2 added a.2)
    (add_solution fuel mx r) (DlxRelease.add_solution ws fuel mx' r)) as H.
  { pose proof (ready_step fuel _ added mx r HR) as Hs. apply xsim_and.
    - apply rsim_xsim.
      + rewrite <-(add_look_eq (red off) (cover_column fuel) fuel _ added mx r (red_node off) (covers_column fuel) HR). by apply DlxLenSim.add_solution_sim.
      + destruct Hs as [->|(?&?&?&->&_)]; done.
    - intros a Ha. destruct Hs as [Hs|(e&m&ad&Hs&HR')]; rewrite Ha in Hs; [done|]. injection Hs as ->. eauto. }
  destruct (add_solution fuel mx r), (DlxRelease.add_solution ws fuel mx' r); cbn in *; unfold both_len; tauto.
Qed.
Lemma each_len rows : forall mx mx', both_len off fuel lcs.*2 mx mx' ->
  xsim (fun a b => b.1 = a.1 /\ both_len off fuel lcs.*2 a.2 b.2) (add_each fuel rows mx) (add_each_release ws fuel rows mx').
Proof.
  induction rows as [|r rows IH]; intros mx mx' H; cbn [add_each add_each_release]; [done|].
  eapply xsim_bind; [by apply add_len|]. intros [e m] [e' m'] [E1 H1]. cbn in E1, H1. subst e'.
  eapply xsim_bind; [by apply IH|]. intros [es m2] [es' m2'] [E2 H2]. cbn in E2, H2. subst es'. done.
Qed.
Lemma solve_len_sim mx mx' r : DlxLenSim.msim ws off mx mx' -> solve_len (red off) (cover_column fuel) fuel mx = Ret (r, ∅) ->
  DlxRelease.solve ws fuel mx' = Ret (r, ∅).
Proof.
  intros [H1 H2 H3 H4] E.
  assert (rsim (fun a b => b.1 = a.1 /\ DlxLenSim.hsim ws off a.2 b.2) (solve_len (red off) (cover_column fuel) fuel mx) (DlxRelease.solve ws fuel mx')) as H.
  { unfold solve_len, DlxRelease.solve. rewrite H2, H4.
    eapply rsim_bind; [by apply DlxLenSim.solve_helper_sim|].
    intros [[h p] ok] [[h' p'] ok'] (G1&G2&G3). cbn in G1, G2, G3. subst p' ok'.
    eapply rsim_bind; [by apply DlxLenSim.matrix_drop_sim|]. intros h1 h1' G. done. }
  rewrite E in H. destruct (DlxRelease.solve ws fuel mx') as [[a g]|]; cbn in H; [|done].
  destruct H as [-> [H _]]. do 2 f_equal. apply map_eq. intros p. by rewrite H, !lookup_empty.
Qed.
Lemma drop_len mx mx' : both_len off fuel lcs.*2 mx mx' ->
  DlxRelease.matrix_drop fuel (DlxRelease.d_root mx') (DlxRelease.d_heap mx') = Ret ∅.
Proof.
  intros [[H1 H2 H3 H4] [added HR]]. pose proof (ready_drop fuel _ added mx HR) as E.
  rewrite H2. pose proof (DlxLenSim.matrix_drop_sim ws off fuel _ _ (d_root mx) H1) as H. rewrite E in H.
  destruct (DlxRelease.matrix_drop _ _ _); cbn in H; [|done]. destruct H as [H _]. f_equal.
  apply map_eq. intros p. by rewrite H, !lookup_empty.
Qed.

Lemma session_len_same rows : same_but_answer (session fuel lcs.*2 rows) (session_len ws fuel lcs rows).
Proof.
  unfold session, session_len.
  pose proof new_len as Hn. destruct (matrix_new lcs.*2) as [mx|], (DlxLen.matrix_new lcs) as [mx'|]; cbn [xsim bind] in *; try done.
  pose proof (each_len rows mx mx' Hn) as He.
  destruct (add_each fuel rows mx) as [[es m]|], (add_each_release ws fuel rows mx') as [[es' m']|]; cbn [xsim bind fst snd] in *; try done.
  destruct He as [-> [Hm [added HR]]].
  destruct (solve_len_ready (red off) (cover_column fuel) fuel _ added m (red_node off) (covers_column fuel) HR) as [(sol&E&Hs)|[E Hs]];
    rewrite (solve_len_sim m m' _ Hm E); destruct (ready_solve fuel _ added m HR) as [(sol'&->&Hs')|[-> Hs']]; cbn [bind same_but_answer]; rewrite map_size_empty.
  - done.
  - by destruct (Hs' sol).
  - by destruct (Hs sol').
  - done.
Qed.
Lemma abandoned_len_same rows : abandoned_len ws fuel lcs rows = abandoned fuel lcs.*2 rows.
Proof.
  apply xsim_eq. unfold abandoned, abandoned_len. eapply xsim_bind; [apply new_len|]. intros mx mx' H.
  eapply xsim_bind; [by apply each_len|]. intros [es m] [es' m'] [E1 H1]. cbn in E1, H1. subst es'.
  rewrite (drop_len _ _ H1). destruct H1 as [_ [added HR]]. by rewrite (ready_drop fuel _ added m HR).
Qed.
End run.

Lemma len_answer lcs rows fuel : Forall (fun k => k < usize_size ws)%N lcs.*1 -> Forall NoDup lcs.*2 -> compatible lcs.*2 rows ->
  matrix_size lcs.*2 < fuel ->
  exists r, session_len ws fuel lcs rows = Ret (replicate (length rows) (Ok ()), r, 0) /\
    match r with
    | Ok sel => exists sol, sel = rows ++ sol /\ exact_cover lcs.*2 sel
    | Err e => e = DlxNoSolution /\ forall sol, ~ exact_cover lcs.*2 (rows ++ sol)
    end.
Proof.
  intros Hl Hnd Hc Hf. unfold session_len.
  pose proof (new_len lcs fuel Hl Hnd Hf) as Hn.
  destruct (ready_new lcs.*2 Hnd) as (mx&E&Hp&HR). specialize (HR fuel Hf). rewrite E in Hn.
  destruct (DlxLen.matrix_new lcs) as [mx'|]; cbn [xsim] in Hn; [|done]. cbn [bind].
  pose proof (each_len lcs fuel rows mx mx' Hn) as He.
  assert (forall rs added m, Ready fuel lcs.*2 added m -> d_partial m = added -> compatible lcs.*2 (added ++ rs) ->
    exists m', add_each fuel rs m = Ret (replicate (length rs) (Ok ()), m') /\ Ready fuel lcs.*2 (added ++ rs) m' /\ d_partial m' = added ++ rs) as Hadd.
  { induction rs as [|r rs IH]; intros added m HRm Hpm Hcm; cbn [add_each].
    - exists m. rewrite app_nil_r. done.
    - destruct (Hcm added r rs eq_refl) as [Ho Hno].
      destruct (ready_ok fuel _ added m r HRm Ho Hno) as (m1&E1&HR1&Hp1). rewrite E1. cbn [bind].
      destruct (IH (added ++ [r]) m1) as (m2&E2&HR2&Hp2); [done|by rewrite Hp1, Hpm|by rewrite <-app_assoc|].
      rewrite E2. cbn [bind]. exists m2. rewrite <-app_assoc in HR2, Hp2. done. }
  destruct (Hadd rows [] mx HR Hp Hc) as (m&Em&HRm&Hpm). rewrite Em in He. cbn [app] in HRm, Hpm.
  destruct (add_each_release ws fuel rows mx') as [[es m']|]; cbn [xsim fst snd bind] in *; [|done].
  destruct He as [-> [Hm _]].
  destruct (solve_len_ready (red (off_by ws 2%N lcs)) (cover_column fuel) fuel _ rows m (red_node _) (covers_column fuel) HRm) as [(sol&Es&Hs)|[Es Hs]]; rewrite (solve_len_sim lcs fuel m m' _ Hm Es); cbn [bind];
    (eexists; split; [by rewrite map_size_empty|]); cbn.
  - rewrite Hpm. eauto.
  - done.
Qed.

(** Right lengths are no other program. *)
Lemma add_columns_right cs : forall curr h next rows,
  DlxLen.add_columns curr ((fun l => (N.of_nat (length l), l)) <$> cs) h next rows = DlxRelease.add_columns curr cs h next rows.
Proof.
  induction cs as [|l cs IH]; intros curr h next rows; cbn [fmap list_fmap DlxLen.add_columns DlxRelease.add_columns]; [done|].
  destruct (DlxRelease.node_new_header _ _ _ _) as [h1|]; cbn [bind]; [|done].
  destruct (DlxRelease.add_nodes _ _ _ _ _ _) as [[[h2 n2] r2]|]; cbn [bind]; [|done]. apply IH.
Qed.
Lemma session_right fuel cs rows :
  session_len ws fuel ((fun l => (N.of_nat (length l), l)) <$> cs) rows = session_release ws fuel cs rows.
Proof.
  unfold session_len, session_release, DlxLen.matrix_new, DlxRelease.matrix_new.
  destruct (DlxRelease.node_new_header _ _ _ _) as [h1|]; cbn [bind]; [|done]. by rewrite add_columns_right.
Qed.

End width.
