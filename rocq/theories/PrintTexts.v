(** Proofs for C79: printed puzzles show every number. *)
From Verif Require Import Base Image Sudoku Nonogram NonogramPrint SpecPrint.
From Verif Require PrintProofs ErrorTextProofs NonogramParseProofs SpecNonogramText.
Local Open Scope N_scope.

(** A renderer that paints one pixel for one text and nothing for others. *)
Definition spotter (t0 : Z * Z * N * list N) : text_renderer :=
  fun im x y s t => if decide ((x, y, s, t) = t0) then set_pix im 50 50 BLACK_PIXEL else im.
Lemma spotter_keeps t0 : keeps_size (spotter t0).
Proof. intros im x y s t. unfold spotter. by destruct (decide _). Qed.
Lemma spotter_draw t0 ts : forall im, i_pix (draw_texts (spotter t0) ts im) 50 50 =
  if decide (t0 ∈ ts) then BLACK_PIXEL else i_pix im 50 50.
Proof.
  induction ts as [|[[[x y] s] t] ts IH]; intros im.
  - rewrite decide_False; [done|]. apply not_elem_of_nil.
  - change (i_pix (draw_texts (spotter t0) ts (spotter t0 im x y s t)) 50 50 =
      if decide (t0 ∈ (x, y, s, t) :: ts) then BLACK_PIXEL else i_pix im 50 50). rewrite IH.
    unfold spotter. destruct (decide (t0 ∈ ts)) as [H|H].
    + rewrite decide_True; [done|]. by apply elem_of_list_further.
    + destruct (decide ((x, y, s, t) = t0)) as [<-|Hne].
      * rewrite decide_True; [done|]. apply elem_of_list_here.
      * rewrite decide_False; [done|]. rewrite elem_of_cons. intros [->|?]; done.
Qed.
Lemma spotted ts ts' im im' : i_pix im 50 50 = WHITE_PIXEL -> i_pix im' 50 50 = WHITE_PIXEL ->
  (forall t0, i_pix (draw_texts (spotter t0) ts im) 50 50 = i_pix (draw_texts (spotter t0) ts' im') 50 50) ->
  forall t0, t0 ∈ ts <-> t0 ∈ ts'.
Proof.
  intros H1 H2 H t0. specialize (H t0). rewrite !spotter_draw, H1, H2 in H.
  destruct (decide (t0 ∈ ts)), (decide (t0 ∈ ts')); done.
Qed.

Lemma sudoku_texts_elem p x y s t : (x, y, s, t) ∈ sudoku_texts p <-> exists i v, p !! i = Some v /\ v <> 0 /\
  x = (100 * Z.of_nat (i mod 9) + 25)%Z /\ y = (100 * Z.of_nat (i / 9) + 5)%Z /\ s = 100 /\ t = to_decimal v.
Proof.
  unfold sudoku_texts. rewrite elem_of_list_omap. split.
  - intros ([i v]&Hin&E). apply elem_of_lookup_imap in Hin as (i'&v'&[= <- <-]&Hv). exists i, v.
    destruct (N.eqb_spec v 0); [done|]. injection E as <- <- <- <-. done.
  - intros (i&v&Hv&Hne&->&->&->&->). exists (i, v). split; [apply elem_of_lookup_imap; by exists i, v|].
    destruct (N.eqb_spec v 0); done.
Qed.
Lemma sudoku_texts_inj p p' : length p = length p' -> (forall t, t ∈ sudoku_texts p <-> t ∈ sudoku_texts p') -> p = p'.
Proof.
  intros Hl H. assert (forall q q' i v v', (forall t, t ∈ sudoku_texts q -> t ∈ sudoku_texts q') ->
    q !! i = Some v -> q' !! i = Some v' -> v <> 0 -> v = v') as Hq.
  { intros q q' i v v' Ht Hv Hv' Hne.
    destruct (proj1 (sudoku_texts_elem q' _ _ _ _) (Ht _ (proj2 (sudoku_texts_elem q _ _ _ _)
      (ex_intro _ i (ex_intro _ v (conj Hv (conj Hne (conj eq_refl (conj eq_refl (conj eq_refl eq_refl)))))))))) as (j&u&Hu&_&E1&E2&_&E3).
    assert (j = i) as ->.
    { pose proof (Nat.div_mod i 9 ltac:(lia)). pose proof (Nat.div_mod j 9 ltac:(lia)). lia. }
    rewrite Hv' in Hu. injection Hu as <-. by apply ErrorTextProofs.to_decimal_inj. }
  apply list_eq_same_length with (n := length p); [done|done|]. intros i v v' _ Hv Hv'.
  destruct (decide (v = 0)) as [->|Hne].
  - destruct (decide (v' = 0)) as [->|Hne']; [done|]. symmetry. eapply (Hq p' p); [|done..]. intros t. apply H.
  - eapply (Hq p p'); [|done..]. intros t. apply H.
Qed.
Lemma sudoku_shows p p' : length p = 81%nat -> length p' = 81%nat ->
  (forall text im im', keeps_size text -> print_sudoku text p = Ret (Ok im) -> print_sudoku text p' = Ret (Ok im') ->
     forall x y, x < 900 -> y < 900 -> i_pix im x y = i_pix im' x y) -> p = p'.
Proof.
  intros Hl Hl' H. apply sudoku_texts_inj; [lia|].
  assert (forall t0, t0 ∈ sudoku_texts p <-> t0 ∈ sudoku_texts p'); [|done]. intros t0.
  destruct (proj2 (PrintProofs.print_sudoku_spec (spotter t0) p) Hl) as (im&E&_&_&Hp).
  destruct (proj2 (PrintProofs.print_sudoku_spec (spotter t0) p') Hl') as (im'&E'&_&_&Hp').
  pose proof (H _ _ _ (spotter_keeps t0) E E' 50 50 ltac:(lia) ltac:(lia)) as Hpix. rewrite !spotter_draw in Hpix.
  assert (~ sudoku_black 50 50) as Hnb by (intros [Hb|Hb]; unfold sudoku_line in Hb; change (50 mod 100) with 50 in Hb; lia).
  rewrite (proj2 (Hp 50 50 ltac:(lia) ltac:(lia)) Hnb), (proj2 (Hp' 50 50 ltac:(lia) ltac:(lia)) Hnb) in Hpix.
  destruct (decide (t0 ∈ sudoku_texts p)), (decide (t0 ∈ sudoku_texts p')); done.
Qed.

(** * Nonograms *)

Lemma sep_inj (c : N) x : forall x' l l', c ∉ x -> c ∉ x' -> x ++ c :: l = x' ++ c :: l' -> x = x' /\ l = l'.
Proof.
  induction x as [|a x IH]; intros [|a' x'] l l' H H' E; cbn in E.
  - by injection E.
  - injection E as <- El. exfalso. apply H'. apply elem_of_list_here.
  - injection E as -> El. exfalso. apply H. apply elem_of_list_here.
  - injection E as <- El. rewrite not_elem_of_cons in H, H'. destruct (IH x' l l') as [-> ->]; tauto.
Qed.
Lemma spaced_inj l : forall l', Forall (fun x => x <> [] /\ 32 ∉ x) l -> Forall (fun x => x <> [] /\ 32 ∉ x) l' ->
  spaced l = spaced l' -> l = l'.
Proof.
  assert (forall x l, x <> [] -> spaced (x :: l) <> []) as Hne by (intros x [|y l0] Hx E; [done|]; by destruct x).
  assert (forall x y l, spaced (x :: y :: l) = x ++ 32 :: 32 :: spaced (y :: l)) as Hc by done.
  induction l as [|x l IH]; intros l' H H' E.
  - destruct l' as [|x' l']; [done|]. exfalso. apply Forall_cons in H' as [[Hx _] _]. by apply (Hne x' l').
  - apply Forall_cons in H as [[Hx Hx32] H]. destruct l' as [|x' l']; [exfalso; by apply (Hne x l)|].
    apply Forall_cons in H' as [[Hx' Hx32'] H']. destruct l as [|y l], l' as [|y' l'].
    + cbn in E. by subst.
    + exfalso. rewrite Hc in E. cbn [spaced] in E. subst x. apply Hx32. rewrite elem_of_app, elem_of_cons. by right; left.
    + exfalso. rewrite Hc in E. cbn [spaced] in E. subst x'. apply Hx32'. rewrite elem_of_app, elem_of_cons. by right; left.
    + rewrite !Hc in E. apply sep_inj in E as [-> E]; [|done..]. injection E as E. f_equal. by apply IH.
Qed.
Lemma row_text_inj rule rule' : spaced (to_decimal <$> rule) = spaced (to_decimal <$> rule') -> rule = rule'.
Proof.
  intros E. assert (forall r, Forall (fun x => x <> [] /\ 32 ∉ x) (to_decimal <$> r)) as H.
  { intros r. apply Forall_fmap, Forall_forall. intros n _. change (to_decimal n <> [] /\ 32 ∉ to_decimal n). split.
    - destruct (NonogramParseProofs.to_decimal_spec n) as (ds&->&?&_). done.
    - apply NonogramParseProofs.decimal_no_sep. unfold SpecNonogramText.ascii_digit. lia. }
  apply spaced_inj in E; [|apply H..]. revert E. revert rule'. induction rule as [|n rule IH]; intros [|n' rule'] E; try done.
  rewrite !fmap_cons in E. injection E as En El. f_equal; [by apply ErrorTextProofs.to_decimal_inj|by apply IH].
Qed.

Lemma col_texts_elem w col x y s t : (x, y, s, t) ∈ col_texts w col <-> exists i rule k v,
  col !! i = Some rule /\ rule !! k = Some v /\
  x = (50 * Z.of_nat i + Z.of_N (margin w) + 15)%Z /\ y = (30 * Z.of_nat k + 10)%Z /\ s = 30 /\ t = to_decimal v.
Proof.
  unfold col_texts. rewrite elem_of_list_join. split.
  - intros (ts&Hin&(i&rule&->&Hi)%elem_of_lookup_imap). apply elem_of_lookup_imap in Hin as (k&v&[= -> -> -> ->]&Hk).
    by exists i, rule, k, v.
  - intros (i&rule&k&v&Hi&Hk&->&->&->&->). eexists. split; [|apply elem_of_lookup_imap; by exists i, rule].
    apply elem_of_lookup_imap. by exists k, v.
Qed.
Lemma row_texts_elem h row x y s t : (x, y, s, t) ∈ row_texts h row <-> exists i rule,
  row !! i = Some rule /\ x = 10%Z /\ y = (50 * Z.of_nat i + Z.of_N (margin h) + 10)%Z /\ s = 30 /\
  t = spaced (to_decimal <$> rule).
Proof.
  unfold row_texts. rewrite elem_of_lookup_imap. split.
  - intros (i&rule&[= -> -> -> ->]&Hi). by exists i, rule.
  - intros (i&rule&Hi&->&->&->&->). by exists i, rule.
Qed.

Lemma nonogram_texts_inj w h col row col' row' : length col = length col' -> length row = length row' ->
  (forall t, t ∈ col_texts w col ++ row_texts h row <-> t ∈ col_texts w col' ++ row_texts h row') ->
  col = col' /\ row = row'.
Proof.
  intros Hc Hr H. assert (forall a b r r', (forall t, t ∈ col_texts w a ++ row_texts h r -> t ∈ col_texts w b ++ row_texts h r') ->
    (forall i rule rule' k v, a !! i = Some rule -> b !! i = Some rule' -> rule !! k = Some v -> rule' !! k = Some v) /\
    (forall i rule rule', r !! i = Some rule -> r' !! i = Some rule' -> rule = rule')) as Hh.
  { clear H Hc Hr. intros a b r r' H. split.
    - intros i rule rule' k v Hi Hi' Hk.
      pose proof (proj2 (col_texts_elem w a _ _ _ _) (ex_intro _ i (ex_intro _ rule (ex_intro _ k (ex_intro _ v
        (conj Hi (conj Hk (conj eq_refl (conj eq_refl (conj eq_refl eq_refl)))))))))) as Ht.
      feed pose proof (H _ (proj2 (elem_of_app _ _ _) (or_introl Ht))) as Ht'. apply elem_of_app in Ht' as [Ht'|Ht'].
      + apply col_texts_elem in Ht' as (j&rl&k'&v'&Hj&Hk'&E1&E2&_&E3). assert (j = i) as -> by lia. assert (k' = k) as -> by lia.
        rewrite Hi' in Hj. injection Hj as <-. by rewrite (ErrorTextProofs.to_decimal_inj _ _ E3).
      + apply row_texts_elem in Ht' as (j&rl&_&E&_). unfold margin in E. lia.
    - intros i rule rule' Hi Hi'.
      pose proof (proj2 (row_texts_elem h r _ _ _ _) (ex_intro _ i (ex_intro _ rule
        (conj Hi (conj eq_refl (conj eq_refl (conj eq_refl eq_refl))))))) as Ht.
      feed pose proof (H _ (proj2 (elem_of_app _ _ _) (or_intror Ht))) as Ht'. apply elem_of_app in Ht' as [Ht'|Ht'].
      + apply col_texts_elem in Ht' as (j&rl&k'&v'&Hj&Hk'&E&_). unfold margin in E. lia.
      + apply row_texts_elem in Ht' as (j&rl&Hj&_&E1&_&E2). assert (j = i) as -> by lia. rewrite Hi' in Hj. injection Hj as <-.
        by apply row_text_inj. }
  destruct (Hh col col' row row' (fun t => proj1 (H t))) as [H1 H2]. destruct (Hh col' col row' row (fun t => proj2 (H t))) as [H1' _].
  split.
  - apply list_eq_same_length with (n := length col); [done|done|]. intros i rule rule' _ Hi Hi'. apply list_eq. intros k.
    apply option_eq. intros v. split; [by eapply H1|by eapply H1'].
  - apply list_eq_same_length with (n := length row); [done|done|]. intros i rule rule' _. apply H2.
Qed.
Lemma nonogram_shows (m : mode) w h col row col' row' :
  w = N.of_nat (length col) -> h = N.of_nat (length row) -> w = N.of_nat (length col') -> h = N.of_nat (length row') ->
  nonogram_printable m w h col -> nonogram_printable m w h col' ->
  (forall text im im', keeps_size text -> print_nonogram m text w h col row = Ret (Ok im) ->
     print_nonogram m text w h col' row' = Ret (Ok im') ->
     forall x y, x < i_width im -> y < i_height im -> i_pix im x y = i_pix im' x y) -> col = col' /\ row = row'.
Proof.
  intros Hw Hh Hw' Hh' Hp Hp' H. apply (nonogram_texts_inj w h); [lia|lia|]. intros t0.
  destruct (PrintProofs.print_nonogram_exact m (spotter t0) w h col row (spotter_keeps t0) Hw Hh Hp) as (im&E&S1&S2&HE).
  destruct (PrintProofs.print_nonogram_exact m (spotter t0) w h col' row' (spotter_keeps t0) Hw' Hh' Hp') as (im'&E'&S1'&S2'&HE').
  assert (50 < side w /\ 50 < side h) as [L1 L2] by (unfold side, margin; lia).
  pose proof (H _ _ _ (spotter_keeps t0) E E' 50 50 ltac:(lia) ltac:(lia)) as Hpix.
  assert (~ nonogram_gray w h 50 50) as Hng.
  { intros [(k&_&Hk)|(k&_&Hk)]; unfold margin in Hk; lia. }
  rewrite (proj2 (HE 50 50 ltac:(lia) ltac:(lia)) Hng), (proj2 (HE' 50 50 ltac:(lia) ltac:(lia)) Hng) in Hpix.
  rewrite !spotter_draw in Hpix. cbn [i_pix] in Hpix.
  destruct (decide (t0 ∈ col_texts w col ++ row_texts h row)), (decide (t0 ∈ col_texts w col' ++ row_texts h row')); done.
Qed.
