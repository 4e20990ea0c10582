(** The solver with and without overflow checks. *)
From Verif Require Import Base Dlx Sudoku SpecDlx SpecDlxRelease DlxReady DlxProofs SudokuTable SudokuProofs DlxReleaseSim DlxReleaseEq.
From Verif Require DlxRelease.

Section width.
Context (ws : word).


Definition xsim {A B} (R : A -> B -> Prop) (x : res A) (y : res B) : Prop :=
  match x, y with
  | Ret a, Ret b => R a b
  | Fault e, Fault f => e = f
  | _, _ => False
  end.
Lemma xsim_bind {A B A' B'} (R : A -> A' -> Prop) (Q : B -> B' -> Prop) x x' k k' :
  xsim R x x' -> (forall a a', R a a' -> xsim Q (k a) (k' a')) -> xsim Q (bind x k) (bind x' k').
Proof. destruct x, x'; cbn; try done. intros H Hk. by apply Hk. Qed.
Lemma xsim_eq {A} (x y : res A) : xsim (fun a b => b = a) x y -> y = x.
Proof. destruct x, y; cbn; intros; first [done|congruence]. Qed.
Lemma rsim_xsim {A B} (R : A -> B -> Prop) x y : rsim R x y -> x <> Fault Panic -> xsim R x y.
Proof. destruct x as [|[]], y; cbn; done. Qed.
Lemma xsim_and {A B} (R : A -> B -> Prop) (P : A -> Prop) x y : xsim R x y -> (forall a, x = Ret a -> P a) ->
  xsim (fun a b => R a b /\ P a) x y.
Proof. destruct x, y; cbn; try done. intros. split; [done|]. auto. Qed.

Definition both (fuel : nat) (cs : list (list nat)) (mx : matrix) (mx' : DlxRelease.matrix) : Prop :=
  msim ws mx mx' /\ exists added, Ready fuel cs added mx.

Section run.
Context (cs : list (list nat)) (fuel : nat) (Hnd : Forall NoDup cs) (Hf : matrix_size cs < fuel).
Context (Hsm : (N.of_nat (matrix_size cs) < usize_size ws)%N).

Lemma new_both : xsim (both fuel cs) (matrix_new cs) (DlxRelease.matrix_new cs).
Proof.
  destruct (ready_new cs Hnd) as (mx&E&_&HR). specialize (HR fuel Hf).
  apply xsim_and.
  - apply rsim_xsim; [|by rewrite E]. apply matrix_new_sim. apply Forall_forall. intros l Hl.
    assert (length l < matrix_size cs) as Hle; [|lia].
    clear -Hl. unfold matrix_size. induction cs as [|k c IH]; [by apply elem_of_nil in Hl|].
    cbn. apply elem_of_cons in Hl as [->|Hl]; [lia|]. specialize (IH Hl). lia.
  - intros a Ha. rewrite Ha in E. injection E as ->. eauto.
Qed.
Lemma add_both mx mx' r : both fuel cs mx mx' ->
  xsim (fun a b => b.1 = a.1 /\ both fuel cs a.2 b.2) (add_solution fuel mx r) (DlxRelease.add_solution ws fuel mx' r).
Proof.
  intros [Hm [added HR]].
  assert (xsim (fun a b => (b.1 = a.1 /\ msim ws a.2 b.2) /\ exists added, Ready fuel cs added a.2)
    (add_solution fuel mx r) (DlxRelease.add_solution ws fuel mx' r)) as H.
  { pose proof (ready_step fuel cs added mx r HR) as Hs. apply xsim_and.
    - apply rsim_xsim.
      + rewrite <-(add_reduced_eq ws fuel cs added mx r HR). by apply add_solution_sim.
      + destruct Hs as [->|(?&?&?&->&_)]; done.
    - intros a Ha. destruct Hs as [Hs|(e&m&ad&Hs&HR')]; rewrite Ha in Hs; [done|]. injection Hs as ->. eauto. }
  destruct (add_solution fuel mx r), (DlxRelease.add_solution ws fuel mx' r); cbn in *; unfold both; tauto.
Qed.
Lemma solve_both mx mx' : both fuel cs mx mx' ->
  xsim (fun a b => b = (a.1, ∅) /\ a.2 = ∅) (solve fuel mx) (DlxRelease.solve ws fuel mx').
Proof.
  intros [[H1 H2 H3 H4] [added HR]].
  pose proof (ready_solve fuel cs added mx HR) as Hs.
  assert (xsim (fun a b => b.1 = a.1 /\ hsim ws a.2 b.2) (solve fuel mx) (DlxRelease.solve ws fuel mx')) as H.
  { apply rsim_xsim; [|destruct Hs as [(?&->&_)|[-> _]]; done].
    unfold solve, DlxRelease.solve. rewrite <-(solve_ready_eq ws fuel cs added mx HR Hsm), H2, H4.
    eapply rsim_bind; [by apply solve_helper_sim|].
    intros [[h p] ok] [[h' p'] ok'] (G1&G2&G3). cbn in G1, G2, G3. subst p' ok'.
    eapply rsim_bind; [by apply matrix_drop_sim|]. intros h1 h1' G. done. }
  destruct Hs as [(sol&E&_)|[E _]]; rewrite E in *; destruct (DlxRelease.solve ws fuel mx') as [[a g]|]; cbn in *; try done;
    destruct H as [-> [-> _]]; by rewrite fmap_empty.
Qed.
Lemma drop_both mx mx' : both fuel cs mx mx' -> matrix_drop fuel (d_root mx) (d_heap mx) = Ret ∅ /\
  DlxRelease.matrix_drop fuel (DlxRelease.d_root mx') (DlxRelease.d_heap mx') = Ret ∅.
Proof.
  intros [[H1 H2 H3 H4] [added HR]]. pose proof (ready_drop fuel cs added mx HR) as E. split; [done|].
  rewrite H2. pose proof (matrix_drop_sim ws fuel _ _ (d_root mx) H1) as H. rewrite E in H.
  destruct (DlxRelease.matrix_drop _ _ _); cbn in H; [|done]. destruct H as [-> _]. by rewrite fmap_empty.
Qed.
Lemma each_both rows : forall mx mx', both fuel cs mx mx' ->
  xsim (fun a b => b.1 = a.1 /\ both fuel cs a.2 b.2) (add_each fuel rows mx) (add_each_release ws fuel rows mx').
Proof.
  induction rows as [|r rows IH]; intros mx mx' H; cbn [add_each add_each_release]; [done|].
  eapply xsim_bind; [by apply add_both|]. intros [e m] [e' m'] [E1 H1]. cbn in E1, H1. subst e'.
  eapply xsim_bind; [by apply IH|]. intros [es m2] [es' m2'] [E2 H2]. cbn in E2, H2. subst es'. done.
Qed.
Lemma session_same rows : session_release ws fuel cs rows = session fuel cs rows.
Proof.
  apply xsim_eq. unfold session, session_release. eapply xsim_bind; [apply new_both|]. intros mx mx' H.
  eapply xsim_bind; [by apply each_both|]. intros [es m] [es' m'] [E1 H1]. cbn in E1, H1. subst es'.
  eapply xsim_bind; [by apply solve_both|]. intros [s h] [s' h'] [E2 E3]. cbn in E2, E3. injection E2 as -> ->. by subst h.
Qed.
Lemma abandoned_same rows : abandoned_release ws fuel cs rows = abandoned fuel cs rows.
Proof.
  apply xsim_eq. unfold abandoned, abandoned_release. eapply xsim_bind; [apply new_both|]. intros mx mx' H.
  eapply xsim_bind; [by apply each_both|]. intros [es m] [es' m'] [E1 H1]. cbn in E1, H1. subst es'.
  destruct (drop_both _ _ H1) as [-> ->]. done.
Qed.
Lemma clues_both clues : forall mx mx', both fuel cs mx mx' ->
  xsim (fun a b => both fuel cs a.2 b.2 /\ match a.1, b.1 with Ok m, Ok m' => both fuel cs m m' | Err e, Err e' => e' = e | _, _ => False end)
    (add_clues fuel clues mx) (DlxRelease.add_clues ws fuel clues mx').
Proof.
  induction clues as [|[i v] clues IH]; intros mx mx' H; cbn [add_clues DlxRelease.add_clues]; [done|].
  destruct (decide (v = 0)) as [Hv|Hv]; [by apply IH|].
  eapply xsim_bind; [by apply add_both|]. intros [e m] [e' m'] [E1 H1]. cbn in E1, H1. subst e'.
  destruct e as [|[]]; [by apply IH|by apply IH|done|by apply IH].
Qed.
End run.

Lemma sudoku_same fuel p : matrix_size SUDOKU_CONSTRAINTS < fuel -> sudoku_release ws fuel p = sudoku fuel p.
Proof.
  intros Hf. unfold sudoku, sudoku_release, solve_sudoku, DlxRelease.solve_sudoku.
  destruct (decide (length p <> GRID_SIZE * GRID_SIZE)) as [Hp|Hp]; [done|]. clear Hp.
  assert (N.of_nat (matrix_size SUDOKU_CONSTRAINTS) < usize_size ws)%N as Hsm.
  { assert ((matrix_size SUDOKU_CONSTRAINTS =? 3240) = true) as E by (vm_compute; reflexivity).
    apply Nat.eqb_eq in E. rewrite E. unfold usize_size. destruct ws; lia. }
  pose proof constraints_NoDup as Hnd. revert Hf Hsm Hnd. generalize SUDOKU_CONSTRAINTS. intros cs Hf Hsm Hnd.
  apply xsim_eq. apply (xsim_bind (fun a b => b.1 = a.1 /\ size b.2 = size a.2)).
  2:{ intros [r h] [r' h'] [E1 E2]. cbn in E1, E2. subst r'. cbn. by rewrite E2. }
  eapply (xsim_bind (both fuel cs)); [by apply new_both|]. intros mx mx' H.
  eapply xsim_bind; [by apply clues_both|]. intros [r m] [r' m'] [H1 H2]. cbn [fst snd] in H1, H2.
  destruct r as [m1|e], r' as [m1'|e']; [|done|done|].
  - eapply xsim_bind; [by apply (solve_both cs)|]. intros [s h] [s' h'] [E2 E3]. cbn in E2, E3. injection E2 as -> ->. subst h.
    by destruct s.
  - subst e'. destruct (drop_both _ _ _ _ H1) as [-> ->]. done.
Qed.

(** * The answer *)

Lemma add_all_each fuel rows : forall mx mx', add_all fuel rows mx = Ret (Ok mx') ->
  add_each fuel rows mx = Ret (replicate (length rows) (Ok ()), mx').
Proof.
  induction rows as [|r rows IH]; intros mx mx'; cbn [add_all add_each]; [by intros [= ->]|].
  destruct (add_solution fuel mx r) as [[[[]|e] m]|]; cbn [bind]; [|done..]. intros H. by rewrite (IH _ _ H).
Qed.
Lemma release_answer cs rows fuel : Forall NoDup cs -> compatible cs rows -> matrix_size cs < fuel ->
  (N.of_nat (matrix_size cs) < usize_size ws)%N ->
  session_release ws fuel cs rows =
    Ret (replicate (length rows) (Ok ()),
         match SpecDlxSearch.knuth (foldl SpecDlxSearch.choose cs rows) with
         | Some sol => Ok (rows ++ sol)
         | None => Err DlxNoSolution
         end, 0).
Proof.
  intros Hnd Hc Hf Hsm. rewrite session_same by done. unfold session.
  destruct (search_order cs rows fuel Hnd Hc Hf) as (mx0&mx&-> &E&Es). cbn [bind].
  rewrite (add_all_each _ _ _ _ E). cbn [bind]. rewrite Es. done.
Qed.

(** * A repeated row *)

Definition wrong : list (list nat) := [[3; 0; 4]; [3; 5; 7]; [3; 1; 1]; [1; 0; 7; 4]; [1; 2; 3]; [7; 0; 2]].
Definition right_ : list (list nat) := [[3; 0; 4]; [3; 5; 7]; [3; 1]; [1; 0; 7; 4]; [1; 2; 3]; [7; 0; 2]].
Lemma wrong_none sel : ~ exact_cover wrong sel.
Proof.
  intros (H1&H2&H3).
  assert (exact_cover right_ sel) as H.
  { split_and!; [done| |].
    - intros k Hk. unfold right_ in Hk. rewrite !elem_of_cons in Hk.
      destruct Hk as [->|[->|[->|[->|[->|[->|Hk]]]]]]; [..|by apply elem_of_nil in Hk].
      3:{ destruct (H2 [3; 1; 1]) as (r&[Hr1 Hr2]&Hu); [unfold wrong; rewrite !elem_of_cons; tauto|].
          assert (forall x, x ∈ [3; 1; 1] <-> x ∈ [3; 1]) as Hx by (intros x; rewrite !elem_of_cons; tauto).
          exists r. split; [by rewrite <-Hx|]. intros y. rewrite <-Hx. apply Hu. }
      all: apply H2; unfold wrong; rewrite !elem_of_cons; tauto.
    - intros r Hr. destruct (H3 r Hr) as (k&Hk&Hrk). unfold wrong in Hk. rewrite !elem_of_cons in Hk.
      destruct (decide (k = [3; 1; 1])) as [->|Hne].
      + exists [3; 1]. split; [unfold right_; rewrite !elem_of_cons; tauto|]. rewrite !elem_of_cons in *. tauto.
      + exists k. split; [|done]. unfold right_. rewrite !elem_of_cons. tauto. }
  destruct (ready_new right_) as (mx&E&Hp&HR).
  { assert (bool_decide (Forall NoDup right_) = true) as B by (vm_compute; reflexivity). by apply bool_decide_eq_true in B. }
  assert (matrix_size right_ < 30) as Hf by (cbn; lia). specialize (HR 30 Hf).
  destruct (ready_solve 30 right_ [] mx HR) as [(sol&Es&_)|[_ Hno]]; [|by apply (Hno sel)].
  assert ((let! mx := matrix_new right_ in let! (s, h) := solve 30 mx in Ret s) = Ret (Err DlxNoSolution)) as Hv by (vm_compute; reflexivity).
  rewrite E in Hv. cbn [bind] in Hv. rewrite Es in Hv. done.
Qed.
Lemma release_wrong :
  (exists cs fuel sel k, matrix_size cs < fuel /\ (forall s, ~ exact_cover cs s) /\
     session_release ws fuel cs [] = Ret ([], Ok sel, k) /\ session fuel cs [] = Fault Panic) /\
  (exists cs fuel sel k, matrix_size cs < fuel /\ exact_cover cs sel /\ 0 < k /\
     session_release ws fuel cs [] = Ret ([], Err DlxNoSolution, k) /\ session fuel cs [] = Fault Panic).
Proof.
  split.
  - exists wrong, 30, [4; 2; 5], 1. split_and!; [cbn; lia|exact wrong_none|destruct ws; vm_compute; reflexivity|vm_compute; reflexivity].
  - exists [[0; 0; 0]], 10, [0], 3. split_and!; [cbn; lia| |lia|destruct ws; vm_compute; reflexivity|vm_compute; reflexivity].
    split_and!; [apply NoDup_singleton| |].
    + intros k ->%elem_of_list_singleton. exists 0. split; [split; apply elem_of_list_here|].
      intros y [->%elem_of_list_singleton _]. done.
    + intros r ->%elem_of_list_singleton. exists [0; 0; 0]. split; apply elem_of_list_here.
Qed.

End width.
