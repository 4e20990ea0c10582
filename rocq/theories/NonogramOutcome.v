(** Proofs for C97: the outcome of puzzles with zeros at the ends of clues. *)
From Verif Require Import Base Nonogram SpecNonogram SpecNonogramDeduce SpecNonogramOutcome NonogramStates NonogramLine
  NonogramDeduce NonogramGrid NonogramProofs NonogramForced NonogramZero NonogramRigid WordProofs.

(** * Blank lines *)

Lemma spells_drop rule b : head rule <> Some 0 -> spells rule (false :: b) -> spells rule b.
Proof.
  destruct rule as [|v rule]; [|destruct rule as [|v' rule]]; intros Hh.
  - intros (i&j&E). destruct i as [|i]; [destruct j as [|j]; [done|]|]; injection E as ->; [by exists 0, j|by exists i, j].
  - intros (i&j&E). destruct i as [|i]; [|injection E as ->; by exists i, j]. destruct v as [|v]; [done|]. done.
  - intros (b1&b2&E&(i&j&->)&H). destruct i as [|i]; [destruct v as [|v]; done|]. injection E as ->.
    exists (replicate i false ++ replicate v true ++ replicate j false), b2. split; [done|]. split; [by exists i, j|done].
Qed.
Lemma spells_drops rule s b : head rule <> Some 0 -> spells rule (replicate s false ++ b) -> spells rule b.
Proof. intros Hh. induction s as [|s IH]; [done|]. intros H. by apply IH, spells_drop. Qed.
Lemma spells_shifts rule s b : spells rule b -> spells rule (replicate s false ++ b).
Proof. intros H. induction s as [|s IH]; [done|]. by apply spells_shift. Qed.
Lemma spells_drops_end rule s b : last rule <> Some 0 -> spells rule (b ++ replicate s false) -> spells rule b.
Proof.
  intros Hl H. apply spells_rev in H. rewrite rev_app_distr, (rev_reverse (replicate s false)), reverse_replicate in H.
  apply spells_drops in H; [|rewrite rev_reverse, head_reverse; done].
  apply spells_rev in H. by rewrite !rev_involutive in H.
Qed.

Lemma lv_false s b i : lv (replicate s false ++ b) !! i = if decide (i < s) then Some 0 else lv b !! (i - s).
Proof.
  unfold lv. revert i. induction s as [|s IH]; intros i; cbn [replicate app].
  - rewrite decide_False by lia. by rewrite Nat.sub_0_r.
  - cbn [levels Bool.eqb]. destruct i as [|i]; [rewrite decide_True by lia; done|].
    change (0 :: levels false 0 (replicate s false ++ b)) with ([0] ++ levels false 0 (replicate s false ++ b)).
    rewrite lookup_app_r by (cbn; lia). cbn [length]. replace (S i - 1) with i by lia. rewrite IH.
    destruct (decide (i < s)); [rewrite decide_True by lia; done|]. rewrite decide_False by lia. done.
Qed.
Lemma levels_step b : forall prev k j l l', levels prev k b !! j = Some l -> levels prev k b !! S j = Some l' -> l <= l' <= S l.
Proof.
  induction b as [|x b IH]; intros prev k j l l'; [done|]. cbn [levels]. set (k' := if Bool.eqb x prev then k else S k).
  destruct j as [|j]; [|apply (IH x k' j)]. cbn [lookup list_lookup]. intros [= <-]. destruct b as [|y b]; [done|].
  cbn [levels lookup list_lookup]. intros [= <-]. destruct (Bool.eqb y x); lia.
Qed.
Lemma lv_step b j l l' : lv b !! j = Some l -> lv b !! S j = Some l' -> l <= l' <= S l.
Proof. apply levels_step. Qed.
Lemma lv_0 b l : lv b !! 0 = Some l -> l <= 1.
Proof. destruct b as [|x b]; [done|]. unfold lv. cbn [levels lookup list_lookup]. intros [= <-]. destruct (Bool.eqb x false); lia. Qed.

Lemma fits_blank n rule b : fits rule (replicate n Blank) b <-> length b = n /\ spells rule b.
Proof.
  unfold fits. split.
  - intros [H1 H2%Forall2_length]. rewrite replicate_length in H2. done.
  - intros [<- H]. split; [done|]. clear H. induction b as [|x b IH]; cbn; [constructor|]. by constructor.
Qed.

Section constant.
Context (rule : list nat) (n : nat) (Hp : proper rule) (Hne : rule <> []).
Local Notation room := (sum_list rule + (length rule - 1)).
Context (Hn : room <= n).
Local Notation s := (n - room).
Local Notation pushed t := (replicate t false ++ pack rule ++ replicate (s - t) false).

Lemma pushed_fits t : t <= s -> fits rule (replicate n Blank) (pushed t).
Proof using Hp Hn.
  intros Ht. apply fits_blank. split; [|apply spells_shifts, pack_app].
  rewrite !app_length, !replicate_length, pack_length. lia.
Qed.
Lemma leftmost L R : extremes rule (replicate n Blank) L R -> L = pushed 0 /\ R = pushed s.
Proof using Hp Hne Hn.
  intros (HL&HR&Hx). pose proof Hp as [Hh Hl].
  pose proof (proj1 (fits_blank _ _ _) HL) as [HlL HsL]. pose proof (proj1 (fits_blank _ _ _) HR) as [HlR HsR]. split.
  - pose proof (pushed_fits 0 ltac:(lia)) as H0. destruct (Hx _ H0) as [_ Hle]. apply fits_blank in H0 as [Hl0 Hs0].
    rewrite Nat.sub_0_r in *. cbn [replicate app] in *.
    assert (L = take room L ++ replicate s false) as E.
    { rewrite <-(take_drop room L) at 1. f_equal. apply list_eq. intros j. rewrite lookup_drop.
      destruct (decide (j < s)) as [Hj|Hj]; [|rewrite !(proj2 (lookup_ge_None _ _)); [done|rewrite replicate_length; lia|lia]].
      rewrite lookup_replicate_2 by done. set (i := room + j). assert (i < n) as Hi by (unfold i; lia).
      destruct (lv_rev (pack rule ++ replicate s false) i) as (l0&r0&E1&E2&E3); [lia|].
      destruct (lv_rev L i) as (l1&r1&F1&F2&F3); [lia|].
      assert (r0 = 0) as ->.
      { rewrite Hl0 in E2. rewrite rev_app_distr, (rev_reverse (replicate s false)), reverse_replicate, lv_false in E2.
        rewrite decide_True in E2 by (unfold i; lia). by injection E2. }
      pose proof (Forall2_lookup_lr _ _ _ _ _ _ Hle E1 F1) as Hll.
      apply spells_clue in Hs0, HsL. rewrite Hs0 in E3. rewrite HsL in F3.
      destruct (lookup_lt_is_Some_2 L i) as [x Hx']; [lia|]. rewrite Hx'. f_equal.
      rewrite <-(lv_parity _ _ _ _ Hx' F1). assert (l1 = 2 * length (filter (fun v => v <> 0) rule)) as -> by lia.
      by rewrite Nat.odd_mul. }
    rewrite E in HsL. apply spells_drops_end in HsL; [|done]. apply spells_length in HsL as [_ HsL]; [|done].
    rewrite E. f_equal. apply HsL. rewrite take_length. lia.
  - pose proof (pushed_fits s ltac:(lia)) as H0. destruct (Hx _ H0) as [Hle _]. apply fits_blank in H0 as [Hl0 Hs0].
    rewrite Nat.sub_diag, app_nil_r in *.
    assert (R = replicate s false ++ drop s R) as E.
    { rewrite <-(take_drop s R) at 1. f_equal. apply list_eq. intros j.
      destruct (decide (j < s)) as [Hj|Hj]; [|rewrite !(proj2 (lookup_ge_None _ _)); [done|rewrite replicate_length; lia|rewrite take_length; lia]].
      rewrite lookup_replicate_2, lookup_take by done.
      destruct (lookup_lt_is_Some_2 R j) as [x Hx']; [lia|]. destruct (lookup_lt_is_Some_2 (lv R) j) as [l F]; [rewrite lv_length; lia|].
      pose proof (lv_false s (pack rule) j) as F0. rewrite decide_True in F0 by done.
      pose proof (Forall2_lookup_lr _ _ _ _ _ _ Hle F F0) as Hll. assert (l = 0) as -> by lia.
      rewrite Hx'. f_equal. by rewrite <-(lv_parity _ _ _ _ Hx' F). }
    rewrite E in HsR. apply spells_drops in HsR; [|done]. apply spells_length in HsR as [_ HsR]; [|done].
    rewrite E. f_equal. apply HsR. rewrite drop_length. lia.
Qed.
Lemma pushed_level i v : i < n -> (forall t, t <= s -> pushed t !! i = Some v) ->
  lv (pushed 0) !! i = lv (pushed s) !! i.
Proof using Hp Hne Hn.
  intros Hi Hall. enough (forall t, t <= s -> lv (pushed t) !! i = lv (pushed 0) !! i) as H by (symmetry; by apply H).
  induction t as [|t IH]; intros Ht; [done|]. rewrite <-IH by lia.
  assert (forall t, t <= s -> exists l, lv (pushed t) !! i = Some l /\ Nat.odd l = v) as Hlv.
  { intros u Hu. pose proof (pushed_fits u Hu) as Hf. pose proof (Hall _ Hu) as Hv. apply fits_blank in Hf as [Hf _].
    destruct (lookup_lt_is_Some_2 (lv (pushed u)) i) as [l Hl]; [rewrite lv_length; lia|]. exists l. split; [done|]. by eapply lv_parity. }
  destruct (Hlv t ltac:(lia)) as (l&E&O). destruct (Hlv (S t) Ht) as (l'&E'&O'). rewrite E, E'. f_equal.
  assert (l' <= l <= S l') as Hs.
  { set (X := pack rule ++ replicate (s - S t) false).
    assert (pushed t = replicate t false ++ X ++ [false]) as Ep.
    { unfold X. rewrite <-!app_assoc. do 2 f_equal. change [false] with (replicate 1 false). rewrite <-replicate_add. f_equal. lia. }
    assert (pushed (S t) = replicate (S t) false ++ X) as Ep' by done.
    assert (forall j, j < length X -> lv (X ++ [false]) !! j = lv X !! j) as HX.
    { intros j Hj. unfold lv. rewrite !levels_changes by (rewrite ?app_length; lia). do 3 f_equal. by rewrite take_app_le by lia. }
    assert (length X = n - S t) as HlX by (unfold X; rewrite app_length, replicate_length, pack_length; lia).
    rewrite Ep, lv_false in E. rewrite Ep', lv_false in E'. repeat case_decide; try lia.
    - injection E as <-. injection E' as <-. lia.
    - injection E' as <-. replace (i - t) with 0 in E by lia. apply lv_0 in E. lia.
    - rewrite <-HX in E' by lia. replace (i - t) with (S (i - S t)) in E by lia. by eapply lv_step. }
  assert (l = l' \/ l = S l') as [->| ->] by lia; [done|]. rewrite Nat.odd_succ, <-Nat.negb_odd in O. rewrite O' in O. by destruct v.
Qed.
Lemma pushed_cases i v : i < n -> can_be rule n i v \/ forced rule (replicate n Blank) i (negb v).
Proof using Hp Hne Hn.
  intros Hi.
  destruct (decide (Forall (fun t => pushed t !! i = Some (negb v)) (seq 0 (S s)))) as [Hall|Hex].
  2:{ left. apply not_Forall_Exists, Exists_exists in Hex as (t&Ht&Hne'); [|apply _]. apply elem_of_seq in Ht. cbn beta in Hne'.
      pose proof (pushed_fits t ltac:(lia)) as [Hl Hs]%fits_blank. exists (pushed t). split_and!; [done|done|].
      destruct (lookup_lt_is_Some_2 (pushed t) i) as [x Hx]; [lia|]. rewrite Hx in *. f_equal.
      destruct x, v; try done; by destruct Hne'. }
  right. assert (forall t, t <= s -> pushed t !! i = Some (negb v)) as Hall'.
  { intros t Ht. rewrite Forall_forall in Hall. apply Hall, elem_of_seq. lia. }
  destruct (line_spec rule (replicate n Blank) Hp) as [(L&R&Hx&_)|[_ Hno]].
  2:{ destruct (Hno (pushed 0)). apply pushed_fits. lia. }
  destruct (leftmost L R Hx) as [EL ER]. pose proof (pushed_level i _ Hi Hall') as Hlev.
  pose proof (Hall' 0 ltac:(lia)) as HvL. rewrite <-EL in HvL, Hlev. rewrite <-ER in Hlev.
  destruct Hx as (HL&HR&Hx). exists (block_no L i). intros b Hb.
  destruct (Hx b Hb) as [H1 H2]. pose proof (proj1 (proj1 (fits_blank _ _ _) Hb)) as Hlb. pose proof (proj1 (proj1 (fits_blank _ _ _) HL)) as HlL.
  destruct (lookup_lt_is_Some_2 (lv L) i) as [l E]; [rewrite lv_length; lia|].
  destruct (lookup_lt_is_Some_2 b i) as [x Hxb]; [lia|].
  destruct (lookup_lt_is_Some_2 (lv b) i) as [l' E']; [rewrite lv_length; lia|]. rewrite E in Hlev. symmetry in Hlev.
  pose proof (Forall2_lookup_lr _ _ _ _ _ _ H1 Hlev E') as Q1. pose proof (Forall2_lookup_lr _ _ _ _ _ _ H2 E' E) as Q2.
  assert (l' = l) as -> by lia. pose proof (lv_parity _ _ _ _ Hxb E') as P1. rewrite (lv_parity _ _ _ _ HvL E) in P1. subst x.
  pose proof (lv_count _ _ _ _ Hxb E') as C1. pose proof (lv_count _ _ _ _ HvL E) as C2. split; [done|]. lia.
Qed.
End constant.

Lemma blank_cases rule n i v : proper rule -> i < n -> fillable n rule ->
  can_be rule n i v \/ forced rule (replicate n Blank) i (negb v).
Proof.
  intros Hp Hi (b0&Hl0&Hs0). destruct (decide (rule = [])) as [->|Hne].
  { assert (forall b, length b = n -> spells [] b -> b = replicate n false) as Hu.
    { intros b Hl (a&c&->). cbn in *. rewrite <-replicate_add in *. rewrite replicate_length in Hl. by rewrite Hl. }
    destruct v.
    - right. exists (block_no b0 i). intros b [Hl Hs]%fits_blank. rewrite (Hu b), (Hu b0) by done.
      split; [by apply lookup_replicate_2|done].
    - left. exists b0. split_and!; [done|done|]. rewrite (Hu b0) by done. by apply lookup_replicate_2. }
  destruct (spells_length rule b0 Hne Hs0) as [Hr _]. rewrite Hl0 in Hr. by apply pushed_cases.
Qed.

(** The square that the deduction leaves on a blank line. *)
Lemma blank_agrees rule n L R i sq v : proper rule -> extremes rule (replicate n Blank) L R ->
  refine (replicate n Blank) (lv L) (lv R) !! i = Some sq -> agrees sq v <-> can_be rule n i v.
Proof.
  intros Hp Hx Hsq. assert (i < n) as Hi by (apply lookup_lt_Some in Hsq; by rewrite refine_length, replicate_length in Hsq).
  destruct (refine_forced rule (replicate n Blank) L R i Blank Hx) as (sq'&E&_&Hf); [by apply lookup_replicate_2|].
  rewrite Hsq in E. injection E as <-. specialize (Hf eq_refl). split.
  - intros Hag. destruct (blank_cases rule n i v Hp Hi) as [?Hc|Hfo]; [|done|].
    { exists L. destruct Hx as [HL _]. by apply fits_blank. }
    apply Hf in Hfo. subst sq. by destruct v.
  - intros (b&Hl&Hs&Hb). destruct sq; [done|..].
    + destruct (proj1 (Hf true) eq_refl) as [k Hk]. destruct (Hk b) as [Hv _]; [by apply fits_blank|].
      rewrite Hb in Hv. injection Hv as ->. done.
    + destruct (proj1 (Hf false) eq_refl) as [k Hk]. destruct (Hk b) as [Hv _]; [by apply fits_blank|].
      rewrite Hb in Hv. injection Hv as ->. done.
Qed.

(** * A pass over lines that share no square *)

Definition apart (lines : list gline) : Prop :=
  forall i j l l' p, i <> j -> lines !! i = Some l -> lines !! j = Some l' -> p ∈ l.2 -> p ∉ l'.2.
Lemma apart_tail l lines : apart (l :: lines) -> apart lines.
Proof. intros H i j k k' p Hne Hi Hj. apply (H (S i) (S j)); [lia|done..]. Qed.
Lemma apart_head l lines p : apart (l :: lines) -> p ∈ l.2 -> forall l', l' ∈ lines -> p ∉ l'.2.
Proof. intros H Hp l' Hl'. apply elem_of_list_lookup in Hl' as [j Hj]. by apply (H 0 (S j) l l'). Qed.
Lemma apart_head_r l lines p l' : apart (l :: lines) -> l' ∈ lines -> p ∈ l'.2 -> p ∉ l.2.
Proof. intros H Hl' Hp. apply elem_of_list_lookup in Hl' as [j Hj]. by apply (H (S j) 0 l' l). Qed.
Lemma sel_ext {A} ps (g g' : list A) : (forall p, p ∈ ps -> g !! p = g' !! p) -> sel ps g = sel ps g'.
Proof.
  intros H. unfold sel. induction ps as [|p ps IH]; [done|]. cbn. rewrite (H p) by (by apply elem_of_list_here).
  rewrite IH; [done|]. intros q Hq. apply H. by apply elem_of_list_further.
Qed.

Lemma run_apart positions ms lines : Forall2 (fun im l => im.2 = machine_new l.1 /\ positions im.1 = Ret l.2) ms lines ->
  forall c g, Forall (good_line (length g)) lines -> Forall (fun l => proper l.1) lines -> apart lines ->
  (exists c' g', run_lines positions ms c g = Ret (Ok (c', g')) /\ length g' = length g /\
     (forall l, l ∈ lines -> exists L R, extremes l.1 (sel l.2 g) L R /\ sel l.2 g' = refine (sel l.2 g) (lv L) (lv R)) /\
     (forall p, (forall l, l ∈ lines -> p ∉ l.2) -> g' !! p = g !! p)) \/
  (run_lines positions ms c g = Ret (Err NoSolution) /\ exists l, l ∈ lines /\ forall b, ~ fits l.1 (sel l.2 g) b).
Proof.
  induction 1 as [|[i mc] [rule ps] ms lines [Hm Hpos] H IH]; intros c g Hg Hp Ha.
  - left. exists c, g. split_and!; [done|done| |done]. intros l Hl. by apply elem_of_nil in Hl.
  - cbn [fst snd] in Hm, Hpos. subst mc. inversion Hg as [|? ? [Hnd Hb] Hg2]; subst. inversion Hp as [|? ? Hp1 Hp2]; subst.
    cbn [fst snd] in Hnd, Hb, Hp1. cbn [run_lines]. rewrite Hpos. cbn [bind]. unfold run_line. rewrite mapM_vec_get by done. cbn [bind].
    destruct (line_spec rule (sel ps g) Hp1) as [(L&R&Hx&E)|[E Hno]]; rewrite E; cbn [bind].
    2:{ right. split; [done|]. exists (rule, ps). split; [by apply elem_of_list_here|done]. }
    set (line := refine (sel ps g) (lv L) (lv R)) in *.
    assert (length line = length ps) as Hll by (unfold line; rewrite refine_length; by apply sel_length).
    destruct (write_back ps Hnd line g Hb Hll) as (g1&E'&Hlen&Hsel&Hout). rewrite E'. cbn [bind].
    assert (forall l, l ∈ lines -> sel l.2 g1 = sel l.2 g) as Hsame.
    { intros l Hl. apply sel_ext. intros p Hp'. apply Hout. by apply (apart_head_r (rule, ps) lines p l). }
    destruct (IH (c || bool_decide (line <> sel ps g)) g1) as [(c'&g2&E2&Hl2&Hin2&Hout2)|(E2&l&Hl&Hno)];
      [by rewrite Hlen|done|by apply apart_tail in Ha|..]; rewrite E2.
    + left. exists c', g2. split_and!; [done|lia| |].
      * intros l Hl. apply elem_of_cons in Hl as [->|Hl].
        { exists L, R. cbn [fst snd]. split; [done|]. fold line. rewrite <-Hsel. apply sel_ext.
          intros p Hp'. apply Hout2. intros l Hl. by apply (apart_head (rule, ps) lines p Ha). }
        { destruct (Hin2 l Hl) as (L'&R'&Hx'&Es). rewrite (Hsame l Hl) in Hx', Es. by exists L', R'. }
      * intros p Hp'. rewrite Hout2 by (intros l Hl; apply Hp'; by apply elem_of_list_further).
        apply Hout. apply (Hp' (rule, ps)). by apply elem_of_list_here.
    + right. split; [done|]. exists l. split; [by apply elem_of_list_further|]. by rewrite <-(Hsame l Hl).
Qed.

Lemma line_improper_exact rule g : ~ proper rule ->
  (line_right_left (machine_new rule) g = Fault Panic /\ (head rule = Some 0 \/ exists b, fits rule g b)) \/
  (line_right_left (machine_new rule) g = Ret (Err NoSolution) /\ ~ (head rule = Some 0 \/ exists b, fits rule g b)).
Proof.
  intros Hp. unfold line_right_left, machine_new. cbn [left_states right_states].
  destruct (decide (head rule = Some 0)) as [Hz|Hz].
  { left. destruct rule as [|v r]; [done|]. injection Hz as ->. rewrite find_left_zero. split; [done|by left]. }
  assert (last rule = Some 0) as Hl.
  { destruct (decide (last rule = Some 0)) as [|Hl]; [done|]. by destruct Hp. }
  destruct (find_left_spec rule g Hz) as [(b&E&Hb&_)|[E Hno]]; rewrite E; cbn [bind].
  - left. split; [|right; by exists b]. apply last_Some in Hl as [l ->]. rewrite rev_app_distr. cbn [rev app]. by rewrite find_left_zero.
  - right. split; [done|]. intros [H|[b Hb]]; [done|]. by apply (Hno b).
Qed.

(** The pass up to the first clue beginning or ending with zero. *)
Lemma run_first positions (f : nat -> list nat -> gline) pre rule post c g :
  (forall i r, (pre ++ [rule]) !! i = Some r -> (f i r).1 = r /\ positions i = Ret (f i r).2 /\ good_line (length g) (f i r)) ->
  apart (imap f (pre ++ [rule])) -> Forall proper pre -> ~ proper rule ->
  let cond := (forall i r, pre !! i = Some r -> exists b, fits r (sel (f i r).2 g) b) /\
              (head rule = Some 0 \/ exists b, fits rule (sel (f (length pre) rule).2 g) b) in
  let out := run_lines positions (enumerate (machine_new <$> (pre ++ rule :: post))) c g in
  (out = Fault Panic /\ cond) \/ (out = Ret (Err NoSolution) /\ ~ cond).
Proof.
  intros Hf Ha Hpre Hz cond out. unfold out, enumerate. rewrite fmap_app, imap_app, run_lines_app.
  assert (forall i r, pre !! i = Some r -> (f i r).1 = r /\ positions i = Ret (f i r).2 /\ good_line (length g) (f i r)) as Hf1.
  { intros i r Hi. apply Hf. by apply lookup_app_l_Some. }
  destruct (Hf (length pre) rule) as (_&Hps&Hnd&Hb); [by apply list_lookup_middle|].
  rewrite imap_app in Ha. cbn [imap] in Ha.
  assert (apart (imap f pre)) as Ha1.
  { intros i j l l' p Hne Hi Hj. apply (Ha i j); [done|by apply lookup_app_l_Some..]. }
  destruct (run_apart positions (enumerate (machine_new <$> pre)) (imap f pre)
    ltac:(apply enumerate_machines; intros i r Hi; split; apply (Hf1 i r Hi)) c g)
    as [(c'&g1&E&Hl1&Hin&Hout)|(E&l&Hl&Hno)].
  { apply Forall_lookup. intros i l Hl. apply list_lookup_imap_Some in Hl as (r&Hl&->). apply (Hf1 i r Hl). }
  { apply Forall_lookup. intros i l Hl. apply list_lookup_imap_Some in Hl as (r&Hl&->).
    rewrite (proj1 (Hf1 i r Hl)). by eapply Forall_lookup_1 in Hl. }
  { done. }
  - unfold enumerate in E. rewrite E. cbn [bind fmap list_fmap imap run_lines]. rewrite fmap_length. cbn. rewrite Nat.add_0_r, Hps.
    set (ps := (f (length pre) rule).2) in *. cbn [bind]. unfold run_line. rewrite mapM_vec_get by (by rewrite Hl1). cbn [bind].
    assert (sel ps g1 = sel ps g) as ->.
    { apply sel_ext. intros p Hp. apply Hout. intros l Hl. apply elem_of_list_lookup in Hl as [j Hj].
      apply (Ha (length pre) j (f (length pre) rule) l); [|..|done].
      - apply lookup_lt_Some in Hj. rewrite imap_length in Hj. lia.
      - rewrite lookup_app_r by (by rewrite imap_length). rewrite imap_length, Nat.sub_diag. cbn. unfold compose. by rewrite Nat.add_0_r.
      - by apply lookup_app_l_Some. }
    assert (forall i r, pre !! i = Some r -> exists b, fits r (sel (f i r).2 g) b) as Hall.
    { intros i r Hi. destruct (Hin (f i r)) as (L&R&(HL&_)&_).
      - apply elem_of_list_lookup. exists i. rewrite list_lookup_imap, Hi. done.
      - rewrite (proj1 (Hf1 i r Hi)) in HL. by exists L. }
    destruct (line_improper_exact rule (sel ps g) Hz) as [[-> H]|[-> H]]; cbn [bind].
    + left. split; [done|]. by split.
    + right. split; [done|]. by intros [_ H'].
  - unfold enumerate in E. rewrite E. cbn [bind]. right. split; [done|]. intros [Hall _].
    apply elem_of_list_lookup in Hl as [i Hi]. apply list_lookup_imap_Some in Hi as (r&Hi&->).
    destruct (Hall i r Hi) as [b Hb']. apply (Hno b). by rewrite (proj1 (Hf1 i r Hi)).
Qed.

(** * Whole puzzles *)

Lemma edge_improper rule : head rule = Some 0 \/ last rule = Some 0 -> ~ proper rule.
Proof. intros [H|H] [H1 H2]; done. Qed.

Lemma sel_replicate {A} (a : A) n ps : bounded n ps -> sel ps (replicate n a) = replicate (length ps) a.
Proof.
  induction 1 as [|p ps Hp H IH]; [done|]. rewrite (sel_cons _ _ _ a) by (by apply lookup_replicate_2). cbn. by rewrite IH.
Qed.
Lemma col_ps_apart w h x x' p : x < w -> x' < w -> x <> x' -> p ∈ col_ps w h x -> p ∉ col_ps w h x'.
Proof.
  intros Hx Hx' Hne (k&->&_)%elem_of_list_fmap (k'&E&_)%elem_of_list_fmap. apply Hne.
  apply (f_equal (fun z => z `mod` w)) in E. rewrite !Nat.mod_add, !Nat.mod_small in E by lia. done.
Qed.
Lemma row_ps_apart w y y' p : y <> y' -> p ∈ row_ps w y -> p ∉ row_ps w y'.
Proof. intros Hne H1%elem_of_seq H2%elem_of_seq. nia. Qed.
Lemma col_ps_length w h x : length (col_ps w h x) = h.
Proof. unfold col_ps. by rewrite fmap_length, seq_length. Qed.
Lemma col_ps_lookup w h x y : y < h -> col_ps w h x !! y = Some (x + y * w).
Proof. intros Hy. unfold col_ps. rewrite list_lookup_fmap, lookup_seq_lt by done. done. Qed.

Definition outcome (r : res (result (list bool) nonogram_error)) (P : Prop) : Prop :=
  (r = Fault Panic <-> P) /\ (r = Ret (Err NoSolution) <-> ~ P).
Lemma outcome_intro r P : (r = Fault Panic /\ P) \/ (r = Ret (Err NoSolution) /\ ~ P) -> outcome r P.
Proof.
  intros [[-> H]|[-> H]]; (split; split); intros H'; try done.
Qed.

Section outcome.
  Context (m : mode) (col row : list (list nat)).
  Local Notation w := (length col).
  Local Notation h := (length row).
  Context (Hov : (N.of_nat (w * h) < usize_size m)%N) (Hdim : 1 <= h \/ w <= 1).
  Local Notation g := (replicate (w * h) Blank).

  Lemma blank_col x : x < w -> sel (col_ps w h x) g = replicate h Blank.
  Proof using.
    clear Hov Hdim. intros Hx. rewrite sel_replicate by (by apply col_ps_good). by rewrite col_ps_length.
  Qed.
  Lemma col_good l x r : length l = w * h -> col !! x = Some r ->
    (fun x r => (r, col_ps w h x)) x r = (r, col_ps w h x) /\ column_positions (w * h) x w = Ret (col_ps w h x) /\
    good_line (length (l : list square)) (r, col_ps w h x).
  Proof using Hdim.
    intros Hl Hx. apply lookup_lt_Some in Hx. split_and!; [done|by apply column_positions_spec|].
    unfold good_line. rewrite Hl. by apply col_ps_good.
  Qed.

  Lemma solve_columns pre rule post : col = pre ++ rule :: post -> Forall proper pre -> ~ proper rule ->
    outcome (solve_nonogram m col row) (Forall (fillable h) pre /\ (head rule = Some 0 \/ fillable h rule)).
  Proof using Hov Hdim.
    intros Ecol Hpre Hz. apply outcome_intro. unfold solve_nonogram. rewrite n_mul_small by done. cbn [bind].
    unfold grid_right_left. cbn [rounds]. set (l := g). assert (length l = w * h) as Hl by apply replicate_length.
    assert (forall i r, (pre ++ [rule]) !! i = Some r -> col !! i = Some r) as Hi.
    { intros i r Hi. rewrite Ecol. change (rule :: post) with ([rule] ++ post). rewrite app_assoc. by apply lookup_app_l_Some. }
    unfold one_round. rewrite Hl.
    destruct (run_first (fun index => column_positions (w * h) index w) (fun x r => (r, col_ps w h x)) pre rule post false l)
      as [[E H]|[E H]]; [| |done|done|..].
    { intros i r Hir. destruct (col_good l i r Hl (Hi _ _ Hir)) as (_&H1&H2). split_and!; [done|done|apply H2..]. }
    { intros i j k k' p Hne H1 H2. apply list_lookup_imap_Some in H1 as (r&H1&->), H2 as (r'&H2&->). cbn [snd].
      apply col_ps_apart; [|..|done]; eapply lookup_lt_Some, Hi; done. }
    all: rewrite <-Ecol in E; rewrite E; cbn [bind].
    - left. split; [done|]. destruct H as [H1 H2]. split.
      + apply Forall_lookup. intros i r Hir. destruct (H1 i r Hir) as [b Hb]. cbn [snd] in Hb. unfold l in Hb.
        rewrite blank_col in Hb by (eapply lookup_lt_Some, Hi, lookup_app_l_Some; done). apply fits_blank in Hb. by exists b.
      + destruct H2 as [H2|[b Hb]]; [by left|right]. cbn [snd] in Hb. unfold l in Hb.
        rewrite blank_col in Hb by (eapply lookup_lt_Some, Hi, list_lookup_middle; done). apply fits_blank in Hb. by exists b.
    - right. split; [done|]. intros [H1 H2]. apply H. split.
      + intros i r Hir. cbn [snd]. unfold l. rewrite blank_col by (eapply lookup_lt_Some, Hi, lookup_app_l_Some; done).
        rewrite Forall_lookup in H1. destruct (H1 i r Hir) as [b Hb]. exists b. by apply fits_blank.
      + destruct H2 as [H2|[b Hb]]; [by left|right]. exists b. cbn [snd]. unfold l.
        rewrite blank_col by (eapply lookup_lt_Some, Hi, list_lookup_middle; done). by apply fits_blank.
  Qed.

  Lemma row_fits (g1 : list square) y r b : length g1 = w * h -> y < h -> Forall proper col ->
    (forall x c, col !! x = Some c -> exists L R, extremes c (replicate h Blank) L R /\
       sel (col_ps w h x) g1 = refine (replicate h Blank) (lv L) (lv R)) ->
    fits r (sel (row_ps w y) g1) b <->
    length b = w /\ spells r b /\ forall x c v, col !! x = Some c -> b !! x = Some v -> can_be c h y v.
  Proof using.
    clear Hov Hdim. intros Hl Hy Hp Hcol. destruct (row_ps_good w h y Hy) as [_ Hb]. rewrite <-Hl in Hb.
    assert (forall x c, col !! x = Some c -> exists sq, sel (row_ps w y) g1 !! x = Some sq /\ forall v, agrees sq v <-> can_be c h y v) as Hsq.
    { intros x c Hx. pose proof (lookup_lt_Some _ _ _ Hx) as Hlt. destruct (Hcol x c Hx) as (L&R&Hx'&E).
      destruct (lookup_lt_is_Some_2 (refine (replicate h Blank) (lv L) (lv R)) y) as [sq Es]; [by rewrite refine_length, replicate_length|].
      exists sq. split.
      - rewrite sel_lookup by done. unfold row_ps. rewrite lookup_seq_lt by done. cbn [mbind option_bind].
        rewrite <-E, sel_lookup, col_ps_lookup in Es by (try done; rewrite Hl; by apply col_ps_good). cbn [mbind option_bind] in Es.
        rewrite <-Es. f_equal. lia.
      - intros v. eapply blank_agrees; [|done|done]. by eapply Forall_lookup_1 in Hx. }
    unfold fits. split.
    - intros [Hs Hag]. pose proof (Forall2_length _ _ _ Hag) as Hlb. rewrite sel_length in Hlb by done. unfold row_ps in Hlb.
      rewrite seq_length in Hlb. split_and!; [done|done|]. intros x c v Hx Hv. destruct (Hsq x c Hx) as (sq&E&Hiff).
      apply Hiff. by eapply Forall2_lookup_lr.
    - intros (Hlb&Hs&Hall). split; [done|]. apply Forall2_same_length_lookup. split.
      { rewrite sel_length by done. unfold row_ps. by rewrite seq_length. }
      intros x sq v E Hv. destruct (lookup_lt_is_Some_2 col x) as [c Hx]; [rewrite <-Hlb; by apply lookup_lt_Some in Hv|].
      destruct (Hsq x c Hx) as (sq'&E'&Hiff). rewrite E in E'. injection E' as <-. apply Hiff. by eapply Hall.
  Qed.

  Lemma solve_rows pre rule post : Forall proper col -> row = pre ++ rule :: post -> Forall proper pre -> ~ proper rule ->
    outcome (solve_nonogram m col row)
      (Forall (fillable h) col /\ (forall y r, pre !! y = Some r -> row_fillable col h y r) /\
       (head rule = Some 0 \/ row_fillable col h (length pre) rule)).
  Proof using Hov Hdim.
    intros Hpc Erow Hpre Hz. apply outcome_intro. unfold solve_nonogram. rewrite n_mul_small by done. cbn [bind].
    unfold grid_right_left. cbn [rounds]. set (l := g). assert (length l = w * h) as Hl by apply replicate_length.
    unfold one_round. rewrite Hl.
    assert (forall i r, (pre ++ [rule]) !! i = Some r -> row !! i = Some r) as Hi.
    { intros i r Hi. rewrite Erow. change (rule :: post) with ([rule] ++ post). rewrite app_assoc. by apply lookup_app_l_Some. }
    destruct (run_apart (fun index => column_positions (w * h) index w) (enumerate (machine_new <$> col))
      (imap (fun x r => (r, col_ps w h x)) col)
      ltac:(apply enumerate_machines; intros i r Hir; split; [done|]; apply (col_good l i r Hl Hir)) false l)
      as [(c'&g1&E&Hl1&Hin&_)|(E&k&Hk&Hno)].
    { apply Forall_lookup. intros i k Hk. apply list_lookup_imap_Some in Hk as (r&Hk&->). apply (col_good l i r Hl Hk). }
    { apply Forall_lookup. intros i k Hk. apply list_lookup_imap_Some in Hk as (r&Hk&->). by eapply Forall_lookup_1 in Hk. }
    { intros i j k k' p Hne H1 H2. apply list_lookup_imap_Some in H1 as (r&H1&->), H2 as (r'&H2&->). cbn [snd].
      apply col_ps_apart; [|..|done]; eapply lookup_lt_Some; done. }
    2:{ right. rewrite E. cbn [bind]. split; [done|]. intros [Hall _]. apply elem_of_list_lookup in Hk as [i Hk].
        apply list_lookup_imap_Some in Hk as (r&Hk&->). cbn [fst snd] in Hno. unfold l in Hno.
        rewrite blank_col in Hno by (by apply lookup_lt_Some in Hk).
        rewrite Forall_lookup in Hall. destruct (Hall i r Hk) as [b Hb]. apply (Hno b). by apply fits_blank. }
    assert (forall x c, col !! x = Some c -> exists L R, extremes c (replicate h Blank) L R /\
      sel (col_ps w h x) g1 = refine (replicate h Blank) (lv L) (lv R)) as Hcol.
    { intros x c Hx. destruct (Hin (c, col_ps w h x)) as (L&R&Hx'&Es).
      - apply elem_of_list_lookup. exists x. by rewrite list_lookup_imap, Hx.
      - cbn [fst snd] in Hx', Es. unfold l in Hx', Es. rewrite blank_col in Hx', Es by (by apply lookup_lt_Some in Hx). by exists L, R. }
    assert (Forall (fillable h) col) as Hfc.
    { apply Forall_lookup. intros x c Hx. destruct (Hcol x c Hx) as (L&R&(HL&_)&_). apply fits_blank in HL. by exists L. }
    rewrite Hl in Hl1. rewrite E. cbn [bind]. rewrite Hl1.
    destruct (run_first (fun index => row_positions m (w * h) index w) (fun y r => (r, row_ps w y)) pre rule post c' g1)
      as [[E' H]|[E' H]]; [| |done|done|..].
    { intros i r Hir. apply Hi, lookup_lt_Some in Hir. split_and!; [done|by apply row_positions_spec|..]; cbn [snd];
        rewrite ?Hl1; by apply row_ps_good. }
    { intros i j k k' p Hne H1 H2. apply list_lookup_imap_Some in H1 as (r&H1&->), H2 as (r'&H2&->). cbn [snd].
      by apply row_ps_apart. }
    all: rewrite <-Erow in E'; rewrite E'; cbn [bind].
    - left. split; [done|]. destruct H as [H1 H2]. split_and!; [done|..].
      + intros y r Hy. destruct (H1 y r Hy) as [b Hb]. cbn [snd] in Hb. exists b. apply (row_fits g1); [done| |done..].
        eapply lookup_lt_Some, Hi, lookup_app_l_Some; done.
      + destruct H2 as [H2|[b Hb]]; [by left|right]. exists b. apply (row_fits g1); [done| |done..].
        eapply lookup_lt_Some, Hi, list_lookup_middle; done.
    - right. split; [done|]. intros (_&H1&H2). apply H. split.
      + intros y r Hy. destruct (H1 y r Hy) as [b Hb]. exists b. apply row_fits; [done| |done..].
        eapply lookup_lt_Some, Hi, lookup_app_l_Some; done.
      + destruct H2 as [H2|[b Hb]]; [by left|right]. exists b. apply row_fits; [done| |done..].
        eapply lookup_lt_Some, Hi, list_lookup_middle; done.
  Qed.
End outcome.

(** No rows and at least two columns. *)
Lemma solve_no_rows m c0 c1 col : outcome (solve_nonogram m (c0 :: c1 :: col) []) (head c0 = Some 0 \/ c0 = []).
Proof.
  apply outcome_intro. unfold solve_nonogram. set (cs := c0 :: c1 :: col).
  assert (n_mul m (length cs) (length (@nil (list nat))) = Ret 0) as ->.
  { rewrite n_mul_small by (cbn [length]; rewrite Nat.mul_0_r; apply usize_pos). cbn [length]. by rewrite Nat.mul_0_r. }
  cbn [bind replicate]. unfold grid_right_left. cbn [rounds length]. unfold one_round.
  assert (2 <= length cs) as Hw by (cbn; lia).
  assert (exists rest, enumerate (machine_new <$> cs) = (0, machine_new c0) :: (1, machine_new c1) :: rest) as [rest ->] by (by eexists).
  generalize dependent (length cs). intros W Hw. cbn [run_lines].
  assert (column_positions 0 0 W = Ret []) as E0.
  { unfold column_positions. rewrite !decide_False by lia.
    by replace ((0 - 0 + W - 1) `div` W) with 0 by (symmetry; apply Nat.div_small; lia). }
  assert (column_positions 0 1 W = Fault Panic) as E1.
  { unfold column_positions. by rewrite decide_True by lia. }
  cbn [length]. rewrite E0. cbn [bind]. rewrite E1. unfold run_line. cbn [mapM bind].
  assert (forall b, fits c0 [] b <-> b = [] /\ spells c0 []) as Hf.
  { intros b. unfold fits. split; [intros [H1 H2]; inversion H2; by subst|]. intros [-> H]. by split. }
  assert (forall r, head r <> Some 0 -> spells r [] -> r = []) as Hs.
  { intros r Hh. destruct r as [|v r]; [done|]. destruct r as [|v' r].
    - intros (a&b&E). destruct a; [|done]. destruct v; done.
    - intros (b1&b2&E&_). by destruct b1. }
  destruct (decide (proper c0)) as [Hp|Hp].
  - destruct (line_spec c0 [] Hp) as [(L&R&(HL&_)&E)|[E Hno]]; rewrite E; cbn [bind].
    + left. split; [cbn; done|]. right. apply Hf in HL as [_ HL]. apply Hs; [apply Hp|done].
    + right. split; [done|]. intros [H| ->]; [by apply (proj1 Hp)|]. apply (Hno []). apply Hf. split; [done|]. by exists 0, 0.
  - destruct (line_improper_exact c0 [] Hp) as [[-> H]|[-> H]]; cbn [bind].
    + left. split; [done|]. destruct (decide (head c0 = Some 0)) as [|Hh]; [by left|]. destruct H as [H|[b Hb]]; [by left|right].
      apply Hf in Hb as [_ Hb]. by apply Hs.
    + right. split; [done|]. intros [H'| ->]; apply H; [by left|]. right. exists []. apply Hf. split; [done|]. by exists 0, 0.
Qed.

(** The deduction on a blank line. *)
Lemma blank_line rule n : proper rule ->
  (line_right_left (machine_new rule) (replicate n Blank) = Ret (Err NoSolution) <-> ~ fillable n rule) /\
  forall changed g', line_right_left (machine_new rule) (replicate n Blank) = Ret (Ok (changed, g')) ->
    length g' = n /\ forall i sq v, g' !! i = Some sq -> agrees sq v <-> can_be rule n i v.
Proof.
  intros Hp. destruct (line_spec rule (replicate n Blank) Hp) as [(L&R&Hx&E)|[E Hno]]; rewrite E.
  - split.
    + split; [done|]. intros H. destruct H. exists L. destruct Hx as [HL _]. by apply fits_blank.
    + intros changed g' [= <- <-]. rewrite refine_length, replicate_length. split; [done|].
      intros i sq v Hsq. by eapply blank_agrees.
  - split; [|done]. split; [|done]. intros _ [b Hb]. apply (Hno b). by apply fits_blank.
Qed.

Lemma solve_columns' (m : mode) col row pre rule post :
  (N.of_nat (length col * length row) < usize_size m)%N -> 1 <= length row \/ length col <= 1 ->
  col = pre ++ rule :: post -> Forall proper pre -> head rule = Some 0 \/ last rule = Some 0 ->
  outcome (solve_nonogram m col row)
    (Forall (fillable (length row)) pre /\ (head rule = Some 0 \/ fillable (length row) rule)).
Proof. intros. eapply solve_columns; try done. by apply edge_improper. Qed.
Lemma solve_rows' (m : mode) col row pre rule post :
  (N.of_nat (length col * length row) < usize_size m)%N ->
  Forall proper col -> row = pre ++ rule :: post -> Forall proper pre -> head rule = Some 0 \/ last rule = Some 0 ->
  outcome (solve_nonogram m col row)
    (Forall (fillable (length row)) col /\
     (forall y r, pre !! y = Some r -> row_fillable col (length row) y r) /\
     (head rule = Some 0 \/ row_fillable col (length row) (length pre) rule)).
Proof.
  intros. eapply solve_rows; try done; [|by apply edge_improper]. left. subst row. rewrite app_length. cbn. lia.
Qed.

(** * More squares than an index can count *)

Lemma foldM_set_length (l : list (nat * square)) : forall g g', foldM (fun '(p, v) g => vec_set g p v) l g = Ret g' -> length g' = length g.
Proof.
  induction l as [|[p v] l IH]; intros g g' E; cbn [foldM] in E; [by injection E as <-|].
  unfold vec_set at 1 in E. case_decide; [|done]. cbn [bind] in E. apply IH in E. by rewrite insert_length in E.
Qed.
Lemma run_lines_length positions ms : forall c g c' g', run_lines positions ms c g = Ret (Ok (c', g')) -> length g' = length g.
Proof.
  induction ms as [|[i mc] ms IH]; intros c g c' g' E; cbn [run_lines] in E; [by injection E as _ <-|].
  destruct (positions i) as [ps|]; cbn [bind] in E; [|done]. destruct (run_line mc ps g) as [[[c1 g1]|]|] eqn:E1; cbn [bind] in E; [|done..].
  apply IH in E. rewrite E. unfold run_line in E1. destruct (mapM (vec_get g) ps) as [line|]; cbn [bind] in E1; [|done].
  destruct (line_right_left mc line) as [[[c2 line']|]|]; cbn [bind] in E1; [|done..].
  destruct (foldM _ _ _) as [g2|] eqn:E2; cbn [bind] in E1; [|done]. injection E1 as _ <-. by apply foldM_set_length in E2.
Qed.
Lemma run_lines_bad positions ms i mc : (forall i, pan (positions i)) -> positions i = Fault Panic -> (i, mc) ∈ ms ->
  forall c g, stops (run_lines positions ms c g).
Proof.
  intros Hpos Hi Hin. induction ms as [|[j mc'] ms IH]; [by apply elem_of_nil in Hin|]. intros c g. cbn [run_lines].
  pose proof (Hpos j) as Hj. destruct (positions j) as [ps|f] eqn:Ej; cbn [bind]; [|left; by rewrite (Hj f)].
  apply elem_of_cons in Hin as [[= <- <-]|Hin]; [congruence|].
  destruct (tame_run_line mc' ps g) as [H1 H2]. destruct (run_line mc' ps g) as [[[c' g']|e]|f]; cbn [bind].
  - by apply IH.
  - right. by rewrite (H2 e).
  - left. by rewrite (H1 f).
Qed.
Lemma n_mul_wrap ws x y : n_mul (Mode Release ws) x y = Ret (N.to_nat (N.of_nat (x * y) mod usize_size ws)).
Proof.
  unfold n_mul, usize_mul, arith. replace (N.of_nat x * N.of_nat y)%N with (N.of_nat (x * y)) by lia.
  cbn [word_of]. destruct (N.ltb_spec (N.of_nat (x * y)) (usize_size ws)); cbn [bind]; [|done]. by rewrite N.mod_small.
Qed.
Lemma row_positions_bad ws n w h : (N.of_nat w < usize_size ws)%N -> (usize_size ws <= N.of_nat (w * h))%N ->
  n = N.to_nat (N.of_nat (w * h) mod usize_size ws) ->
  exists y, y < h /\ row_positions (Mode Release ws) n y w = Fault Panic.
Proof.
  intros Hw Hov Hn. assert (0 < usize_size ws)%N as Hpos by (by destruct ws). assert (w <> 0) as Hw0 by (intros ->; lia).
  pose proof (N.mod_lt (N.of_nat (w * h)) (usize_size ws) ltac:(lia)) as Hlt.
  assert (N.of_nat n < usize_size ws)%N as Hns by (rewrite Hn, N2Nat.id; done).
  assert (N.of_nat n < N.of_nat (w * h))%N as Hnw by lia.
  clear Hn Hlt. exists (n `div` w). pose proof (Nat.div_mod n w Hw0) as Hd. pose proof (Nat.mod_upper_bound n w Hw0) as Hm.
  set (y := n `div` w) in *. split; [nia|]. unfold row_positions. rewrite !n_mul_wrap. cbn [bind].
  rewrite (N.mod_small (N.of_nat (w * y))) by lia. rewrite Nat2N.id.
  destruct (decide (N.of_nat (w * (y + 1)) < usize_size ws)%N) as [Hs|Hs].
  - rewrite N.mod_small by done. rewrite Nat2N.id. rewrite decide_True; [done|]. right. lia.
  - assert (N.of_nat (w * (y + 1)) mod usize_size ws = N.of_nat (w * (y + 1)) - usize_size ws)%N as ->.
    { symmetry. apply (N.mod_unique _ _ 1); lia. }
    rewrite decide_True; [done|]. left. lia.
Qed.

Lemma solve_overflow (m : mode) col row : (N.of_nat (length col) < usize_size m)%N -> (usize_size m <= N.of_nat (length col * length row))%N ->
  (profile_of m = Debug -> solve_nonogram m col row = Fault Panic) /\
  (solve_nonogram m col row = Fault Panic \/ solve_nonogram m col row = Ret (Err NoSolution)).
Proof.
  intros Hw Hov. destruct m as [[] ws]; cbn [word_of profile_of] in *.
  { assert (solve_nonogram (Mode Debug ws) col row = Fault Panic) as E; [|by split; [|left]].
    unfold solve_nonogram, n_mul, usize_mul, arith. cbn [word_of]. replace (N.of_nat (length col) * N.of_nat (length row))%N with (N.of_nat (length col * length row)) by lia.
    apply N.ltb_ge in Hov. rewrite Hov. done. }
  split; [done|]. unfold solve_nonogram. rewrite n_mul_wrap. cbn [bind].
  remember (N.to_nat (N.of_nat (length col * length row) mod usize_size ws)) as n eqn:En.
  destruct (row_positions_bad ws n _ _ Hw Hov En) as (y&Hy&Ebad). clear En.
  unfold grid_right_left. cbn [rounds]. unfold one_round. set (g := replicate n Blank).
  assert (length g = n) as Hl by apply replicate_length. rewrite Hl.
  destruct (tame_run_lines (fun index => column_positions n index (length col)) (enumerate (machine_new <$> col))
    (fun i => pan_column _ _ _) false g) as [H1 H2].
  destruct (run_lines _ (enumerate (machine_new <$> col)) false g) as [[[c g1]|e]|f] eqn:E; cbn [bind].
  - apply run_lines_length in E. rewrite E, Hl. destruct (lookup_lt_is_Some_2 row y Hy) as [r Hr].
    destruct (run_lines_bad (fun index => row_positions (Mode Release ws) n index (length col)) (enumerate (machine_new <$> row)) y (machine_new r)
      (fun i => pan_row _ _ _ _) Ebad) with (c := c) (g := g1) as [E'|E']; [|rewrite E'; by left|rewrite E'; by right].
    apply elem_of_list_lookup. exists y. unfold enumerate. rewrite list_lookup_imap, list_lookup_fmap, Hr. done.
  - right. by rewrite (H2 e).
  - left. by rewrite (H1 f).
Qed.
