(** Proofs for C114: constraint iterators that panic. *)
From Verif Require Import Base Dlx SpecDlx SpecDlxIter DlxNew DlxLook DlxLenCheck DlxCapacityProofs.
From Verif Require DlxLen DlxIter.

Lemma nodes_calm hd a : forall cc h next rows,
  DlxIter.add_nodes hd cc (Some <$> a) h next rows = (let! s := add_nodes hd cc a h next rows in Ret (Ok s)).
Proof.
  induction a as [|i a IH]; intros cc h next rows; cbn [fmap list_fmap DlxIter.add_nodes add_nodes bind]; [done|].
  destruct (vec_get _ i) as [rp|]; [|done]. cbn [bind]. destruct (node_new _ _ _ _ _ _) as [h1|]; [|done]. cbn [bind].
  destruct (vec_set _ _ _) as [rows1|]; [|done]. cbn [bind]. apply IH.
Qed.
Lemma nodes_panic hd a b : forall cc h next rows h' next' rows', add_nodes hd cc a h next rows = Ret (h', next', rows') ->
  DlxIter.add_nodes hd cc ((Some <$> a) ++ None :: b) h next rows = Ret (Err h').
Proof.
  induction a as [|i a IH]; intros cc h next rows h' next' rows'; cbn [fmap list_fmap app DlxIter.add_nodes add_nodes bind]; [by intros [= <- _ _]|].
  destruct (vec_get _ i) as [rp|]; [|done]. cbn [bind]. destruct (node_new _ _ _ _ _ _) as [h1|]; [|done]. cbn [bind].
  destruct (vec_set _ _ _) as [rows1|]; [|done]. cbn [bind]. apply IH.
Qed.

Lemma columns_calm lcs : forall curr h next rows h' next' rows', (1 <= next)%N -> heap_to h next ->
  DlxLen.checked_add_columns curr lcs h next rows = Ret (h', next', rows') ->
  heap_to h' next' /\ next' = (next + N.of_nat (matrix_size lcs.*2))%N /\
  exists curr', (forall t, DlxIter.add_columns curr (calm lcs ++ t) h next rows = DlxIter.add_columns curr' t h' next' rows') /\
    (forall t, DlxLen.checked_add_columns curr (lcs ++ t) h next rows = DlxLen.checked_add_columns curr' t h' next' rows').
Proof.
  induction lcs as [|[len k] lcs IH]; intros curr h next rows h' next' rows' Hn Hh; cbn [DlxLen.checked_add_columns].
  - intros [= <- <- <-]. split; [done|]. split; [cbn; lia|]. by exists curr.
  - destruct (node_new_header next curr (N.to_nat len) h) as [h1|] eqn:Eh; [|done]. cbn [bind].
    pose proof (new_header_to _ _ _ _ _ Hn Hh Eh) as Hh1.
    destruct (add_nodes next next k h1 (next + 1)%N rows) as [[[h2 n2] r2]|] eqn:Ek; [|done]. cbn [bind]. intros E.
    assert (1 <= next + 1)%N as Hn1 by lia. destruct (nodes_to _ _ _ _ _ _ _ _ _ Hn1 Hh1 Ek) as [Hh2 Hn2].
    assert (1 <= n2)%N as Hn3 by lia. destruct (IH _ _ _ _ _ _ _ Hn3 Hh2 E) as (Hh'&Hn'&curr'&H1&H2). split; [done|]. split.
    { change (matrix_size ((len, k) :: lcs).*2) with (S (length k) + matrix_size lcs.*2). lia. }
    exists curr'. split; intros t; cbn [calm map fst snd fmap list_fmap app DlxIter.add_columns DlxLen.checked_add_columns]; rewrite Eh; cbn [bind].
    + rewrite nodes_calm, Ek. cbn [bind]. apply H1.
    + rewrite Ek. cbn [bind]. apply H2.
Qed.

Lemma checked_total lcs : exists mx, DlxLen.checked_matrix_new lcs = Ret mx.
Proof.
  destruct (matrix_new_built lcs.*2) as (h&next&rows&_&_&E&_).
  assert (qsim True (msim (off_by 2%N lcs)) (matrix_new lcs.*2) (DlxLen.checked_matrix_new lcs)) as H
    by (eapply matrix_new_sim; first [by apply off_by_low|by apply off_by_fits]).
  rewrite E in H. destruct (DlxLen.checked_matrix_new lcs) as [mx'|[]]; cbn in H; try done. eauto.
Qed.
Lemma new_calm lcs : exists h next rows curr h0, DlxLen.checked_matrix_new lcs = Ret (Matrix h next 1%N rows []) /\
  size h = 1 + matrix_size lcs.*2 /\ (1 <= next)%N /\ heap_to h next /\ node_new_header 1%N null 0 ∅ = Ret h0 /\
  (forall t, DlxIter.add_columns 1%N (calm lcs ++ t) h0 2%N [] = DlxIter.add_columns curr t h next rows) /\
  (forall t, DlxLen.checked_add_columns 1%N (lcs ++ t) h0 2%N [] = DlxLen.checked_add_columns curr t h next rows).
Proof.
  destruct (checked_total lcs) as (mx&E). rewrite E. unfold DlxLen.checked_matrix_new in E.
  destruct (node_new_header 1 null 0 ∅) as [h0|] eqn:E0; [|done]. cbn [bind] in E.
  assert (heap_to h0 2%N) as Hh0.
  { apply (new_header_to 1%N null 0 ∅ h0); [done| |done]. intros x. rewrite lookup_empty. split; [by intros []|lia]. }
  destruct (DlxLen.checked_add_columns 1%N lcs h0 2%N []) as [[[h next] rows]|] eqn:Ec; [|done]. cbn [bind] in E. injection E as <-.
  assert (1 <= 2)%N as H12 by lia. destruct (columns_calm _ _ _ _ _ _ _ _ H12 Hh0 Ec) as (Hh&Hn&curr&H1&H2).
  exists h, next, rows, curr, h0. split; [done|]. split; [|split_and!; [lia|done..]].
  rewrite (heap_to_size h next) by (done || lia). lia.
Qed.

Lemma iter_calm lcs : exists mx, DlxLen.checked_matrix_new lcs = Ret mx /\ DlxIter.matrix_new (calm lcs) = Ret (Ok mx).
Proof.
  destruct (new_calm lcs) as (h&next&rows&curr&h0&E&_&_&_&E0&H&_). eexists. split; [exact E|].
  unfold DlxIter.matrix_new. rewrite E0. cbn [bind]. specialize (H []). rewrite app_nil_r in H. by rewrite H.
Qed.
Lemma iter_panics lcs made it : panics_after lcs made it ->
  exists h, DlxIter.matrix_new it = Ret (Err h) /\ size h = 1 + matrix_size made.
Proof.
  destruct (new_calm lcs) as (h&next&rows&curr&h0&E&Hs&Hn&Hh&E0&H&H2). unfold DlxIter.matrix_new. rewrite E0. cbn [bind].
  intros [rest|items rest|len k items rest]; rewrite H; cbn [DlxIter.add_columns bind]; [by exists h..|].
  destruct (checked_total (lcs ++ [(len, k)])) as (mx&E2). unfold DlxLen.checked_matrix_new in E2. rewrite E0 in E2. cbn [bind] in E2.
  rewrite H2 in E2. cbn [DlxLen.checked_add_columns] in E2.
  destruct (node_new_header next curr (N.to_nat len) h) as [h1|] eqn:Eh; [|done]. cbn [bind] in E2 |- *.
  pose proof (new_header_to _ _ _ _ _ Hn Hh Eh) as Hh1.
  destruct (add_nodes next next k h1 (next + 1)%N rows) as [[[h3 n3] r3]|] eqn:Ek; [|done].
  rewrite (nodes_panic _ _ items _ _ _ _ _ _ _ Ek). cbn [bind]. exists h3. split; [done|].
  assert (1 <= next + 1)%N as Hn1 by lia. destruct (nodes_to _ _ _ _ _ _ _ _ _ Hn1 Hh1 Ek) as [Hh3 Hn3]. rewrite (heap_to_size h3 n3) by (done || lia).
  rewrite (heap_to_size h next) in Hs by (done || lia).
  change (matrix_size (lcs.*2 ++ [k])) with (sum_list ((fun k => S (length k)) <$> (lcs.*2 ++ [k]))).
  rewrite fmap_app, sum_list_with_app. fold (matrix_size lcs.*2). cbn. unfold id. lia.
Qed.

Lemma rows_cases (items : list (option nat)) : (exists a, items = Some <$> a) \/ exists a b, items = (Some <$> a) ++ None :: b.
Proof.
  induction items as [|[i|] items [(a&->)|(a&b&->)]]; [by left; exists []|by left; exists (i :: a)|by right; exists (i :: a), b|right..].
  - by exists [], (Some <$> a).
  - by exists [], ((Some <$> a) ++ None :: b).
Qed.
Lemma iter_cases it : (exists lcs, it = calm lcs) \/ exists lcs made, panics_after lcs made it.
Proof.
  induction it as [|[[[len|] items]|] it IH].
  - left. by exists [].
  - destruct (rows_cases items) as [(a&->)|(a&b&->)].
    + destruct IH as [(lcs&->)|(lcs&made&Hp)]; [left; by exists ((len, a) :: lcs)|right]. exists ((len, a) :: lcs).
      destruct Hp as [rest|items rest|len' k items rest]; eexists; [apply (panics_outer ((len, a) :: lcs))|apply (panics_len ((len, a) :: lcs))|apply (panics_row ((len, a) :: lcs))].
    + right. exists []. eexists. apply (panics_row []).
  - right. exists []. eexists. apply (panics_len []).
  - right. exists []. eexists. apply (panics_outer []).
Qed.
