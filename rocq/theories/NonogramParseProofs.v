(** Proofs about [parse_nonogram_rules]. *)
From Verif Require Import Base Image Nonogram SpecNonogramText.

(** * Splitting *)
Lemma split_on_cons sep s : exists p ps, split_on sep s = p :: ps.
Proof.
  destruct s as [|c s]; cbn; [eauto|]. destruct (c =? sep)%N; [eauto|].
  destruct (split_on sep s); eauto.
Qed.

Lemma split_on_splits sep s : splits sep s (split_on sep s).
Proof.
  induction s as [|c s IH]; cbn.
  - split_and!; [done| |done]. constructor; [|done]. apply not_elem_of_nil.
  - destruct (split_on_cons sep s) as (p&ps&Hp). rewrite Hp in *.
    destruct IH as (_&Hf&Hj). destruct (N.eqb_spec c sep) as [->|Hc].
    + split_and!; [done| |].
      * constructor; [apply not_elem_of_nil|done].
      * cbn [join app]. by rewrite Hj.
    + split_and!; [done| |].
      * apply Forall_cons in Hf as [Hf1 Hf2]. constructor; [|done]. cbn.
        rewrite not_elem_of_cons. done.
      * rewrite Hj. by destruct ps.
Qed.

Lemma splits_unique sep s ps : splits sep s ps -> ps = split_on sep s.
Proof.
  intros (Hne&Hf&->). induction ps as [|p ps IH]; [done|]. clear Hne.
  apply Forall_cons in Hf as [Hp Hf].
  assert (Hpre : forall q t, sep ∉ q -> split_on sep (q ++ sep :: t) = q :: split_on sep t).
  { intros q t. induction q as [|c q IHq]; intros Hq; cbn.
    - by rewrite N.eqb_refl.
    - apply not_elem_of_cons in Hq as [Hc Hq]. destruct (N.eqb_spec c sep); [done|].
      by rewrite IHq. }
  assert (Hone : forall q, sep ∉ q -> split_on sep q = [q]).
  { intros q. induction q as [|c q IHq]; intros Hq; cbn; [done|].
    apply not_elem_of_cons in Hq as [Hc Hq]. destruct (N.eqb_spec c sep); [done|].
    by rewrite IHq. }
  destruct ps as [|p' ps].
  - cbn. by rewrite Hone.
  - cbn [join]. change (p ++ sep :: _) with (p ++ sep :: join sep (p' :: ps)).
    rewrite Hpre by done. f_equal. by apply IH.
Qed.

Lemma splits_iff sep s ps : splits sep s ps <-> ps = split_on sep s.
Proof. split; [apply splits_unique|intros ->; apply split_on_splits]. Qed.

(** * Numbers *)
Definition dec_from (acc : N) (ds : list N) : N :=
  fold_left (fun a c => (a * 10 + (c - 48))%N) ds acc.

Lemma dec_from_ge acc ds : (acc <= dec_from acc ds)%N.
Proof.
  revert acc. induction ds as [|c ds IH]; intros acc; cbn; [lia|].
  etransitivity; [|apply IH]. lia.
Qed.

Section mode.
Context (m : mode).
Local Notation numeral := (SpecNonogramText.numeral m).
Local Notation rule_text := (SpecNonogramText.rule_text m).
Local Notation good_rule := (SpecNonogramText.good_rule m).
Local Notation bad_rule := (SpecNonogramText.bad_rule m).
Local Notation overflowing_rule := (SpecNonogramText.overflowing_rule m).
Local Notation no_overflow := (SpecNonogramText.no_overflow m).

Lemma parse_usize_digits_spec ds acc v : (acc < usize_size m)%N ->
  parse_usize_digits m acc ds = Some v <->
  Forall ascii_digit ds /\ v = dec_from acc ds /\ (v < usize_size m)%N.
Proof.
  revert acc. induction ds as [|c ds IH]; intros acc Hacc; cbn [parse_usize_digits].
  - cbn. naive_solver.
  - change (dec_from acc (c :: ds)) with (dec_from (acc * 10 + (c - 48)) ds).
    rewrite Forall_cons. unfold ascii_digit at 1.
    destruct (N.leb_spec 48 c), (N.leb_spec c 57); cbn [andb];
      try (split; [done|intros ([]&?); lia]).
    destruct (N.ltb_spec (acc * 10 + (c - 48)) (usize_size m)) as [Hlt|Hge].
    + rewrite IH by done. naive_solver.
    + split; [done|]. intros (_&->&Hv).
      pose proof (dec_from_ge (acc * 10 + (c - 48)) ds). lia.
Qed.

Lemma parse_usize_spec x v : parse_usize m x = Some v <-> numeral x v.
Proof.
  unfold parse_usize, SpecNonogramText.numeral. change (limit m) with (usize_size m).
  assert (0 < usize_size m)%N as H0 by (by destruct m as [p []]).
  destruct x as [|c rest].
  - split; [done|]. intros (ds&[<-|[=]]&Hne&_); done.
  - destruct (N.eqb_spec c 43) as [->|Hc].
    + destruct rest as [|d rest].
      * split; [done|]. intros (ds&[<-|[= <-]]&Hne&Hd&_); [|done].
        apply Forall_cons in Hd as [Hd _]. unfold ascii_digit in Hd. lia.
      * rewrite parse_usize_digits_spec by done. split.
        -- intros (?&?&?). exists (d :: rest). split_and!; eauto.
        -- intros (ds&[<-|[= <-]]&Hne&Hd&?&?); [|done].
           apply Forall_cons in Hd as [Hd _]. unfold ascii_digit in Hd. lia.
    + rewrite parse_usize_digits_spec by done. split.
      * intros (?&?&?). exists (c :: rest). split_and!; eauto.
      * intros (ds&[<-|[= -> <-]]&Hne&Hd&?&?); done.
Qed.

Lemma numeral_det x v v' : numeral x v -> numeral x v' -> v = v'.
Proof. rewrite <-!parse_usize_spec. congruence. Qed.
Lemma numeral_lt x v : numeral x v -> (v < usize_size m)%N.
Proof. intros (?&?&?&?&?&?). done. Qed.
Lemma parse_usize_none x : parse_usize m x = None <-> forall v, ~ numeral x v.
Proof.
  setoid_rewrite <-parse_usize_spec. destruct (parse_usize m x); [|done].
  split; [done|]. intros H. by destruct (H n).
Qed.
Lemma numerals_det xs vs vs' : Forall2 numeral xs vs -> Forall2 numeral xs vs' -> vs = vs'.
Proof.
  intros H. revert vs'. induction H as [|x v xs vs Hx _ IH]; intros vs' H'; inversion H'; subst; [done|].
  f_equal; [by eapply numeral_det|auto].
Qed.

(** * One rule *)
Lemma rule_sum_cons v vs : rule_sum (v :: vs) = (v + rule_sum vs)%N.
Proof. done. Qed.
Lemma rule_sum_app vs vs' : rule_sum (vs ++ vs') = (rule_sum vs + rule_sum vs')%N.
Proof. induction vs as [|v vs IH]; [done|]. cbn [app]. rewrite !rule_sum_cons, IH. lia. Qed.

Lemma usize_add_ok x y : (x + y < usize_size m)%N -> usize_add m x y = Ret (x + y)%N.
Proof. intros H. unfold usize_add, arith. by destruct (N.ltb_spec (x + y) (usize_size m)); [|lia]. Qed.
Lemma usize_add_panic x y : profile_of m = Debug -> (usize_size m <= x + y)%N -> usize_add m x y = Fault Panic.
Proof. intros Hm H. unfold usize_add, arith. rewrite Hm. destruct (N.ltb_spec (x + y) (usize_size m)); [lia|done]. Qed.
Lemma usize_add_release x y : profile_of m = Release -> exists z, usize_add m x y = Ret z.
Proof. intros Hm. unfold usize_add, arith. rewrite Hm. destruct (_ <? _)%N; eauto. Qed.

Lemma parse_items_ok items vs size : Forall2 numeral items vs ->
  (size + rule_sum vs < usize_size m)%N ->
  parse_items m items size = Ret (Ok (vs, (size + rule_sum vs)%N)).
Proof.
  intros H. revert size. induction H as [|x v items vs Hx _ IH]; intros size Hs; cbn [parse_items].
  - cbn. by rewrite N.add_0_r.
  - apply parse_usize_spec in Hx. rewrite Hx. rewrite rule_sum_cons in *.
    rewrite usize_add_ok by lia. cbn. rewrite IH by lia. cbn. by rewrite N.add_assoc.
Qed.
Lemma parse_items_bad pre x post vs size : Forall2 numeral pre vs ->
  (size + rule_sum vs < usize_size m)%N -> (forall v, ~ numeral x v) ->
  parse_items m (pre ++ x :: post) size = Ret (Err (InvalidRule x)).
Proof.
  intros H. revert size. induction H as [|y v items vs Hy _ IH]; intros size Hs Hx;
    cbn [parse_items app].
  - by apply parse_usize_none in Hx as ->.
  - apply parse_usize_spec in Hy. rewrite Hy. rewrite rule_sum_cons in *.
    rewrite usize_add_ok by lia. cbn. by rewrite IH by (done || lia).
Qed.
Lemma parse_items_overflow pre post vs size : profile_of m = Debug -> Forall2 numeral pre vs ->
  (size < usize_size m)%N -> (usize_size m <= size + rule_sum vs)%N ->
  parse_items m (pre ++ post) size = Fault Panic.
Proof.
  intros Hm H. revert size. induction H as [|y v items vs Hy _ IH]; intros size H1 H2;
    cbn [parse_items app].
  - change (rule_sum []) with 0%N in H2. lia.
  - apply parse_usize_spec in Hy. rewrite Hy. rewrite rule_sum_cons in *.
    destruct (decide (size + v < usize_size m)%N) as [Hlt|Hge].
    + rewrite usize_add_ok by done. cbn. by rewrite IH by lia.
    + by rewrite usize_add_panic by (done || lia).
Qed.
Lemma parse_items_release items size : profile_of m = Release -> exists r, parse_items m items size = Ret r.
Proof.
  intros Hm. revert size. induction items as [|x items IH]; intros size; cbn [parse_items]; [eauto|].
  destruct (parse_usize m x) as [v|]; [|eauto].
  destruct (usize_add_release size v Hm) as [z ->]. cbn.
  destruct (IH z) as [[[]|] ->]; cbn; eauto.
Qed.

(** Every list of items is of exactly one of the three kinds. *)
Lemma items_cases items size : (size < usize_size m)%N ->
  (exists vs, Forall2 numeral items vs /\ (size + rule_sum vs < usize_size m)%N) \/
  (exists pre x post vs, items = pre ++ x :: post /\ Forall2 numeral pre vs /\
     (size + rule_sum vs < usize_size m)%N /\ forall v, ~ numeral x v) \/
  (exists pre post vs, items = pre ++ post /\ Forall2 numeral pre vs /\
     (usize_size m <= size + rule_sum vs)%N).
Proof.
  revert size. induction items as [|x items IH]; intros size Hs.
  - left. exists []. split; [constructor|change (rule_sum []) with 0%N; lia].
  - destruct (parse_usize m x) as [v|] eqn:Hx.
    + apply parse_usize_spec in Hx.
      destruct (decide (size + v < usize_size m)%N) as [Hlt|Hge].
      * destruct (IH (size + v)%N Hlt) as [(vs&H1&H2)|[(pre&y&post&vs&->&H1&H2&H3)|(pre&post&vs&->&H1&H2)]].
        -- left. exists (v :: vs). split; [by constructor|]. rewrite rule_sum_cons. lia.
        -- right; left. exists (x :: pre), y, post, (v :: vs). split_and!; [done|by constructor| |done].
           rewrite rule_sum_cons. lia.
        -- right; right. exists (x :: pre), post, (v :: vs). split_and!; [done|by constructor|].
           rewrite rule_sum_cons. lia.
      * right; right. exists [x], items, [v]. split_and!; [done|by repeat constructor|].
        change (rule_sum [v]) with (v + 0)%N. lia.
    + right; left. exists [], x, items, []. split_and!; [done|constructor|change (rule_sum []) with 0%N; lia|].
      by apply parse_usize_none.
Qed.

Lemma n_sub_ok x y : y <= x -> n_sub m x y = Ret (x - y).
Proof. intros H. unfold n_sub. by rewrite decide_True. Qed.

Lemma numerals_nonempty t items vs : splits comma t items -> Forall2 numeral items vs -> 1 <= length vs.
Proof.
  intros (Hne&_) H. apply Forall2_length in H. destruct items; [done|]. cbn in H. lia.
Qed.

Lemma parse_rule_good bound t vs : (bound < usize_size m)%N -> good_rule bound t vs ->
  parse_rule m bound t = Ret (Ok vs).
Proof.
  intros Hb [(items&Hs&Hf) Hm]. unfold parse_rule. change 44%N with comma.
  pose proof (numerals_nonempty _ _ _ Hs Hf) as Hl.
  apply splits_iff in Hs as <-. unfold min_length in Hm.
  rewrite (parse_items_ok items vs 0 Hf) by lia. cbn.
  rewrite n_sub_ok by done. cbn. rewrite usize_add_ok by lia. cbn.
  rewrite bool_decide_eq_false_2 by (intros ->; cbn in Hl; lia). cbn.
  by destruct (N.ltb_spec bound (0 + rule_sum vs + N.of_nat (length vs - 1))); [lia|].
Qed.
Lemma parse_rule_bad bound t e : bad_rule bound t e -> parse_rule m bound t = Ret (Err e).
Proof.
  unfold parse_rule. change 44%N with comma.
  intros [(pre&x&post&vs&Hs&Hf&Hsum&Hx&->)|(vs&(items&Hs&Hf)&Hm&->)].
  - apply splits_iff in Hs as <-.
    by rewrite (parse_items_bad pre x post vs 0 Hf Hsum Hx).
  - pose proof (numerals_nonempty _ _ _ Hs Hf) as Hl.
    apply splits_iff in Hs as <-. unfold min_length in Hm. change (limit m) with (usize_size m) in Hm.
    rewrite (parse_items_ok items vs 0 Hf) by lia. cbn.
    rewrite n_sub_ok by done. cbn. rewrite usize_add_ok by lia. cbn.
    rewrite bool_decide_eq_false_2 by (intros ->; cbn in Hl; lia). cbn.
    by destruct (N.ltb_spec bound (0 + rule_sum vs + N.of_nat (length vs - 1))); [|lia].
Qed.
Lemma parse_rule_overflow bound t : profile_of m = Debug -> overflowing_rule t -> parse_rule m bound t = Fault Panic.
Proof.
  intros Hp. unfold parse_rule. change 44%N with comma.
  intros [(pre&post&vs&Hs&Hf&Hsum)|(vs&(items&Hs&Hf)&Hm)].
  - apply splits_iff in Hs as <-. by rewrite (parse_items_overflow pre post vs 0 Hp Hf) by (done || lia || by destruct m as [? []]).
  - pose proof (numerals_nonempty _ _ _ Hs Hf) as Hl.
    apply splits_iff in Hs as <-. unfold min_length in Hm. change (limit m) with (usize_size m) in Hm.
    destruct (decide (rule_sum vs < usize_size m)%N) as [Hlt|Hge].
    + rewrite (parse_items_ok items vs 0 Hf) by lia. cbn.
      rewrite n_sub_ok by done. cbn. by rewrite usize_add_panic by (done || lia).
    + rewrite <-(app_nil_r items). by rewrite (parse_items_overflow items [] vs 0 Hp Hf) by (done || lia || by destruct m as [? []]).
Qed.
Lemma rule_cases bound t : (bound < usize_size m)%N ->
  (exists vs, good_rule bound t vs) \/ (exists e, bad_rule bound t e) \/ overflowing_rule t.
Proof.
  intros Hb. pose proof (split_on_splits comma t) as Hs.
  destruct (items_cases (split_on comma t) 0) as
    [(vs&H1&H2)|[(pre&y&post&vs&Heq&H1&H2&H3)|(pre&post&vs&Heq&H1&H2)]]; [lia| | |].
  - destruct (decide (min_length vs <= bound)%N) as [Hle|Hgt].
    { left. exists vs. split; [|done]. by exists (split_on comma t). }
    right. destruct (decide (min_length vs < limit m)%N) as [Hlt|Hge].
    + left. exists InvalidRuleDimension. right. exists vs. split_and!; [|lia|lia|done].
      by exists (split_on comma t).
    + right. right. exists vs. split; [|lia]. by exists (split_on comma t).
  - right; left. exists (InvalidRule y). left. exists pre, y, post, vs. rewrite <-Heq. done.
  - right; right. left. exists pre, post, vs. rewrite <-Heq. done.
Qed.
Lemma parse_rule_release bound t : profile_of m = Release -> exists r, parse_rule m bound t = Ret r.
Proof.
  intros Hp. unfold parse_rule. destruct (parse_items_release (split_on 44 t) 0 Hp) as [[[vs size]|e] ->]; cbn; [|eauto].
  unfold n_sub. rewrite Hp. destruct (decide (1 <= length vs)); cbn;
  match goal with |- context [usize_add m ?x ?y] => destruct (usize_add_release x y Hp) as [z ->] end;
  cbn; destruct (_ || _); eauto.
Qed.

(** * All rules *)
Lemma parse_rule_list_good bound rules vss : (bound < usize_size m)%N ->
  Forall2 (good_rule bound) rules vss -> parse_rule_list m bound rules = Ret (Ok vss).
Proof.
  intros Hb. induction 1 as [|t vs rules vss Ht _ IH]; cbn; [done|].
  rewrite (parse_rule_good bound t vs Hb Ht). cbn. by rewrite IH.
Qed.
Lemma parse_rule_list_bad bound pre t post vss e : (bound < usize_size m)%N ->
  Forall2 (good_rule bound) pre vss -> bad_rule bound t e ->
  parse_rule_list m bound (pre ++ t :: post) = Ret (Err e).
Proof.
  intros Hb H Hbad. induction H as [|t' vs rules vss Ht _ IH]; cbn.
  - by rewrite (parse_rule_bad bound t e Hbad).
  - rewrite (parse_rule_good bound t' vs Hb Ht). cbn. by rewrite IH.
Qed.
Lemma parse_rule_list_overflow bound pre t post vss : profile_of m = Debug -> (bound < usize_size m)%N ->
  Forall2 (good_rule bound) pre vss -> overflowing_rule t ->
  parse_rule_list m bound (pre ++ t :: post) = Fault Panic.
Proof.
  intros Hp Hb H Hbad. induction H as [|t' vs rules vss Ht _ IH]; cbn.
  - by rewrite (parse_rule_overflow bound t Hp Hbad).
  - rewrite (parse_rule_good bound t' vs Hb Ht). cbn. by rewrite IH.
Qed.
Lemma list_cases bound rules : (bound < usize_size m)%N ->
  (exists vss, Forall2 (good_rule bound) rules vss) \/
  (exists pre t post vss e, rules = pre ++ t :: post /\ Forall2 (good_rule bound) pre vss /\ bad_rule bound t e) \/
  (exists pre t post vss, rules = pre ++ t :: post /\ Forall2 (good_rule bound) pre vss /\ overflowing_rule t).
Proof.
  intros Hb. induction rules as [|t rules IH].
  - left. exists []. constructor.
  - destruct (rule_cases bound t Hb) as [[vs Hg]|[[e He]|Ho]].
    + destruct IH as [(vss&H)|[(pre&t'&post&vss&e&->&H1&H2)|(pre&t'&post&vss&->&H1&H2)]].
      * left. exists (vs :: vss). by constructor.
      * right; left. exists (t :: pre), t', post, (vs :: vss), e. split_and!; [done|by constructor|done].
      * right; right. exists (t :: pre), t', post, (vs :: vss). split_and!; [done|by constructor|done].
    + right; left. exists [], t, rules, [], e. split_and!; [done|constructor|done].
    + right; right. exists [], t, rules, []. split_and!; [done|constructor|done].
Qed.

Lemma parse_cases s bound : (bound < usize_size m)%N -> profile_of m = Debug \/ no_overflow s ->
  (exists vss, parse_nonogram_rules m s bound = Ret (Ok vss) /\
     exists rules, splits semicolon s rules /\ Forall2 (good_rule bound) rules vss) \/
  (exists e, parse_nonogram_rules m s bound = Ret (Err e) /\
     exists pre t post vss, splits semicolon s (pre ++ t :: post) /\
       Forall2 (good_rule bound) pre vss /\ bad_rule bound t e) \/
  (profile_of m = Debug /\ parse_nonogram_rules m s bound = Fault Panic /\
     exists pre t post vss, splits semicolon s (pre ++ t :: post) /\
       Forall2 (good_rule bound) pre vss /\ overflowing_rule t).
Proof.
  intros Hb Hm. unfold parse_nonogram_rules. change 59%N with semicolon.
  pose proof (split_on_splits semicolon s) as Hs.
  destruct (list_cases bound (split_on semicolon s) Hb)
    as [(vss&H)|[(pre&t'&post&vss&e&Heq&H1&H2)|(pre&t'&post&vss&Heq&H1&H2)]].
  - left. exists vss. split; [by apply parse_rule_list_good|eauto].
  - right; left. exists e. rewrite Heq in Hs |- *. split; [by eapply parse_rule_list_bad|eauto 10].
  - right; right. rewrite Heq in Hs |- *. destruct Hm as [Hp|Hno].
    + split_and!; [done|by eapply parse_rule_list_overflow|eauto 10].
    + destruct (Hno _ t' Hs); [|done]. apply elem_of_app; right. apply elem_of_cons; by left.
Qed.

Lemma parse_ok s bound vss : (bound < limit m)%N -> profile_of m = Debug \/ no_overflow s ->
  parse_nonogram_rules m s bound = Ret (Ok vss) <->
  exists rules, splits semicolon s rules /\ Forall2 (good_rule bound) rules vss.
Proof.
  intros Hb Hm. split.
  - intros H. destruct (parse_cases s bound Hb Hm) as [(vss'&H'&?)|[(e&H'&?)|(_&H'&?)]]; try congruence.
    by assert (vss' = vss) as -> by congruence.
  - intros (rules&Hs&Hf). unfold parse_nonogram_rules. apply splits_iff in Hs. unfold semicolon in Hs.
    rewrite <-Hs. by apply parse_rule_list_good.
Qed.
Lemma parse_err s bound e : (bound < limit m)%N -> profile_of m = Debug \/ no_overflow s ->
  parse_nonogram_rules m s bound = Ret (Err e) <->
  exists pre t post vss, splits semicolon s (pre ++ t :: post) /\
    Forall2 (good_rule bound) pre vss /\ bad_rule bound t e.
Proof.
  intros Hb Hm. split.
  - intros H. destruct (parse_cases s bound Hb Hm) as [(vss'&H'&?)|[(e'&H'&?)|(_&H'&?)]]; try congruence.
    by assert (e' = e) as -> by congruence.
  - intros (pre&t&post&vss&Hs&Hf&Hbad). unfold parse_nonogram_rules. apply splits_iff in Hs.
    unfold semicolon in Hs. rewrite <-Hs. by eapply parse_rule_list_bad.
Qed.
Lemma parse_panic s bound f : profile_of m = Debug -> (bound < limit m)%N ->
  parse_nonogram_rules m s bound = Fault f <->
  f = Panic /\ exists pre t post vss, splits semicolon s (pre ++ t :: post) /\
    Forall2 (good_rule bound) pre vss /\ overflowing_rule t.
Proof.
  intros Hp Hb. split.
  - intros H. destruct (parse_cases s bound Hb) as [(vss'&H'&?)|[(e'&H'&?)|(_&H'&?)]]; [by left| | |];
      try congruence. split; [congruence|done].
  - intros (->&pre&t&post&vss&Hs&Hf&Hbad). unfold parse_nonogram_rules. apply splits_iff in Hs.
    unfold semicolon in Hs. rewrite <-Hs. by eapply parse_rule_list_overflow.
Qed.
Lemma parse_release s bound : profile_of m = Release -> exists r, parse_nonogram_rules m s bound = Ret r.
Proof.
  intros Hp. unfold parse_nonogram_rules. generalize (split_on 59 s) as rules.
  induction rules as [|t rules [r IH]]; cbn; [eauto|].
  destruct (parse_rule_release bound t Hp) as [[|] ->]; cbn; [|eauto].
  rewrite IH. cbn. destruct r; eauto.
Qed.

(** * Printing *)
Lemma dec_digits_spec fuel n acc : (n < 2 ^ N.of_nat fuel)%N -> 0 < fuel ->
  exists ds, dec_digits fuel n acc = ds ++ acc /\ ds <> [] /\ Forall ascii_digit ds /\ decimal_value ds = n.
Proof.
  revert n acc. induction fuel as [|fuel IH]; intros n acc Hn Hf; [lia|].
  cbn [dec_digits]. destruct (N.ltb_spec n 10) as [Hlt|Hge].
  - exists [ch_digit (n mod 10)]. rewrite N.mod_small by done. unfold ch_digit. split_and!; [done|done| |].
    + apply Forall_singleton. unfold ascii_digit. lia.
    + unfold decimal_value. cbn [fold_left]. lia.
  - assert (fuel <> 0). { intros ->. cbn in Hn. lia. }
    assert (n / 10 < 2 ^ N.of_nat fuel)%N as Hq.
    { rewrite Nat2N.inj_succ, N.pow_succ_r' in Hn. apply N.div_lt_upper_bound; lia. }
    destruct (IH (n / 10)%N (ch_digit (n mod 10) :: acc) Hq) as (ds&Hds&Hne&Hd&Hv); [lia|].
    exists (ds ++ [ch_digit (n mod 10)]). rewrite Hds. split_and!.
    + by rewrite <-app_assoc.
    + by destruct ds.
    + apply Forall_app. split; [done|]. apply Forall_singleton. unfold ascii_digit, ch_digit.
      generalize (N.mod_lt n 10 ltac:(done)). generalize (n mod 10)%N. intros; lia.
    + unfold decimal_value in *. rewrite fold_left_app. cbn [fold_left]. rewrite Hv. unfold ch_digit.
      generalize (N.div_mod n 10 ltac:(done)). generalize (n mod 10)%N (n / 10)%N. intros; lia.
Qed.
Lemma to_decimal_spec n : exists ds, to_decimal n = ds /\ ds <> [] /\ Forall ascii_digit ds /\ decimal_value ds = n.
Proof.
  unfold to_decimal. destruct (dec_digits_spec (S (N.to_nat (N.log2 n))) n []) as (ds&H1&H2&H3&H4); [|lia|].
  - rewrite Nat2N.inj_succ, N2Nat.id. destruct (decide (n = 0)%N) as [->|].
    + done.
    + apply N.log2_spec. lia.
  - exists ds. rewrite app_nil_r in H1. done.
Qed.
Lemma to_decimal_numeral n : (n < limit m)%N -> numeral (to_decimal n) n.
Proof.
  intros Hn. destruct (to_decimal_spec n) as (ds&->&?&?&?). exists ds. split_and!; eauto.
Qed.
Lemma decimal_no_sep sep n : ~ ascii_digit sep -> sep ∉ to_decimal n.
Proof.
  intros Hs Hin. destruct (to_decimal_spec n) as (ds&Hds&_&Hf&_). rewrite Hds in Hin.
  rewrite Forall_forall in Hf. by apply Hf in Hin.
Qed.

Lemma join_elem c sep ps : c ∈ join sep ps -> c = sep \/ exists p, p ∈ ps /\ c ∈ p.
Proof.
  induction ps as [|p ps IH]; cbn [join]; [by intros ?%elem_of_nil|].
  destruct ps as [|p' ps].
  - intros H. right. exists p. split; [by apply elem_of_list_singleton|done].
  - rewrite elem_of_app, elem_of_cons. intros [H|[->|H]]; [|by left|].
    + right. exists p. split; [apply elem_of_list_here|done].
    + destruct (IH H) as [->|(q&?&?)]; [by left|]. right. exists q. split; [by apply elem_of_list_further|done].
Qed.

Lemma print_rule_text vs : vs <> [] -> Forall (fun v => v < limit m)%N vs -> rule_text (print_rule vs) vs.
Proof.
  intros Hne Hf. exists (to_decimal <$> vs). split.
  - split_and!; [by destruct vs| |done]. apply Forall_fmap, Forall_true. intros v. cbn.
    apply decimal_no_sep. unfold ascii_digit, comma. lia.
  - apply Forall2_fmap_l. clear Hne. induction Hf; constructor; eauto using to_decimal_numeral.
Qed.

Lemma print_parse vss bound : (bound < limit m)%N -> vss <> [] -> Forall (fun vs => vs <> []) vss ->
  Forall (fun vs => min_length vs <= bound)%N vss ->
  parse_nonogram_rules m (print_rules vss) bound = Ret (Ok vss).
Proof.
  intros Hb Hne Hnes Hm. unfold parse_nonogram_rules.
  assert (splits semicolon (print_rules vss) (print_rule <$> vss)) as Hs.
  { split_and!; [by destruct vss| |done]. apply Forall_fmap, Forall_true. intros vs. cbn.
    unfold print_rule. intros [?|(p&Hp&Hin)]%join_elem; [done|].
    apply elem_of_list_fmap in Hp as (v&->&_). revert Hin. apply decimal_no_sep.
    unfold ascii_digit, semicolon. lia. }
  apply splits_iff in Hs. unfold semicolon in Hs. rewrite <-Hs. apply parse_rule_list_good; [done|].
  clear Hne Hs. induction vss as [|vs vss IH]; [constructor|].
  apply Forall_cons in Hnes as [Hn Hnes]. apply Forall_cons in Hm as [Hm Hms].
  cbn. constructor; [|by apply IH]. split; [|done]. apply print_rule_text; [done|].
  assert (Hle : forall v, v ∈ vs -> (v <= rule_sum vs)%N).
  { clear. induction vs as [|w vs IH]; intros v; [by intros ?%elem_of_nil|].
    rewrite elem_of_cons, rule_sum_cons. intros [->|H%IH]; lia. }
  apply Forall_forall. intros v Hv%Hle. unfold min_length in Hm. lia.
Qed.

Lemma accepted_fit s bound vss : (bound < limit m)%N -> profile_of m = Debug \/ no_overflow s ->
  parse_nonogram_rules m s bound = Ret (Ok vss) ->
  Forall (fun vs => vs <> [] /\ min_length vs <= bound)%N vss.
Proof.
  intros Hb Hm H. apply parse_ok in H as (rules&_&Hf); [|done|done].
  induction Hf as [|t vs rules vss [(items&Hs&Hi) ?] _ IH]; constructor; [|done].
  split; [|done]. pose proof (numerals_nonempty _ _ _ Hs Hi). intros ->. cbn in *. lia.
Qed.
End mode.

(** * Overflow *)
(** "18446744073709551615,1" and "4294967295,1" *)
Definition overflow_text (ws : word) : list N :=
  match ws with
  | W64 => [49;56;52;52;54;55;52;52;48;55;51;55;48;57;53;53;49;54;49;53;44;49]
  | W32 => [52;50;57;52;57;54;55;50;57;53;44;49]
  end%N.
Lemma overflow_refuted ws :
  (exists s bound, (bound < limit ws)%N /\ parse_nonogram_rules (Mode Debug ws) s bound = Fault Panic) /\
  (exists s bound vss vs, (bound < limit ws)%N /\
     parse_nonogram_rules (Mode Release ws) s bound = Ret (Ok vss) /\ vs ∈ vss /\ (bound < min_length vs)%N).
Proof.
  split.
  - exists (overflow_text ws), 10%N. by destruct ws; vm_compute.
  - exists (overflow_text ws), 10%N, [[(limit ws - 1); 1]]%N, [(limit ws - 1); 1]%N.
    destruct ws; (split_and!; [done|by vm_compute|by apply elem_of_list_singleton|done]).
Qed.
