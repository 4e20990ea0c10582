(** Proofs about [parse_sudoku]. *)
From Verif Require Import Base Dlx Sudoku SpecSudoku.

Lemma to_digit_Some c : is_digit c -> to_digit c = Some (digit_value c).
Proof.
  unfold is_digit, to_digit, digit_value. intros H.
  destruct (N.leb_spec 48 c), (N.leb_spec c 57); cbn; try done; lia.
Qed.
Lemma to_digit_None c : ~ is_digit c -> to_digit c = None.
Proof.
  unfold is_digit, to_digit. intros H.
  destruct (N.leb_spec 48 c), (N.leb_spec c 57); cbn; try done; lia.
Qed.
Global Instance is_digit_dec c : Decision (is_digit c).
Proof. unfold is_digit. apply _. Defined.

Lemma parse_digits_ok s : Forall is_digit s -> parse_digits s = Ok (digit_value <$> s).
Proof.
  induction 1 as [|c s Hc _ IH]; cbn; [done|]. by rewrite to_digit_Some, IH.
Qed.
Lemma parse_digits_err pre c post : Forall is_digit pre -> ~ is_digit c ->
  parse_digits (pre ++ c :: post) = Err (InvalidInteger c).
Proof.
  induction 1 as [|d pre Hd _ IH]; intros Hc; cbn.
  - by rewrite to_digit_None.
  - by rewrite to_digit_Some, IH.
Qed.

Lemma digits_or_first s :
  Forall is_digit s \/ exists pre c post, s = pre ++ c :: post /\ Forall is_digit pre /\ ~ is_digit c.
Proof.
  induction s as [|c s [IH|(pre&d&post&->&Hpre&Hd)]].
  - by left.
  - destruct (decide (is_digit c)); [left; by constructor|right]. by exists [], c, s.
  - destruct (decide (is_digit c)); right.
    + exists (c :: pre), d, post. split_and!; [done|by constructor|done].
    + by exists [], c, (pre ++ d :: post).
Qed.

Lemma parse_accepts s v :
  parse_sudoku s = Ok v <-> length s = 81 /\ Forall is_digit s /\ v = digit_value <$> s.
Proof.
  unfold parse_sudoku. destruct (digits_or_first s) as [Hs|(pre&c&post&->&Hpre&Hc)].
  - rewrite parse_digits_ok by done. rewrite fmap_length. case_decide as Hl; naive_solver.
  - rewrite parse_digits_err by done. split; [done|]. intros (_&H&_).
    apply Forall_app in H as [_ H]. by apply Forall_cons in H as [H _].
Qed.

Lemma parse_errors s e : parse_sudoku s = Err e <->
  (exists pre c post, s = pre ++ c :: post /\ Forall is_digit pre /\ ~ is_digit c /\ e = InvalidInteger c) \/
  (Forall is_digit s /\ length s <> 81 /\ e = InvalidSize (length s)).
Proof.
  unfold parse_sudoku. destruct (digits_or_first s) as [Hs|(pre&c&post&->&Hpre&Hc)].
  - rewrite parse_digits_ok by done. rewrite fmap_length. split.
    + case_decide; [done|]. intros [= <-]. right. done.
    + intros [(pre&c&post&->&_&Hc&_)|(_&Hl&->)].
      * apply Forall_app in Hs as [_ H]. by apply Forall_cons in H as [H _].
      * by rewrite decide_False.
  - rewrite parse_digits_err by done. split.
    + intros [= <-]. left. eauto 10.
    + intros [(pre'&c'&post'&Heq&Hpre'&Hc'&->)|(Hs&_)].
      * enough (c = c') by congruence.
        revert pre' Heq Hpre'. induction Hpre as [|d pre Hd _ IH]; intros [|d' pre'] Heq Hpre';
          cbn in Heq; injection Heq as Hd0 Heq; cbn in *.
        -- done.
        -- apply Forall_cons in Hpre' as [? _]. by subst.
        -- by subst.
        -- apply Forall_cons in Hpre' as [_ ?]. eauto.
      * apply Forall_app in Hs as [_ H]. by apply Forall_cons in H as [H _].
Qed.

Lemma roundtrip_print g : length g = 81 -> Forall (fun v => v <= 9)%N g ->
  parse_sudoku (digit_char <$> g) = Ok g.
Proof.
  intros Hl Hg. apply parse_accepts. split_and!.
  - by rewrite fmap_length.
  - apply Forall_fmap. eapply Forall_impl; [exact Hg|]. intros v Hv. unfold is_digit, digit_char; cbn in *. lia.
  - rewrite <-list_fmap_compose. rewrite <-(list_fmap_id g) at 1. apply list_fmap_ext.
    intros i v _. unfold digit_value, digit_char; cbn. lia.
Qed.
Lemma roundtrip_parse s v : parse_sudoku s = Ok v -> digit_char <$> v = s.
Proof.
  intros (_&Hs&->)%parse_accepts. rewrite <-list_fmap_compose.
  induction Hs as [|c s Hc _ IH]; cbn; [done|]. rewrite IH. f_equal.
  unfold is_digit in Hc. unfold digit_value, digit_char; cbn. lia.
Qed.
