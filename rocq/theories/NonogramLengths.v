(** Proofs for C46: lengths of lines on which the deduction is complete. *)
From Verif Require Import Base Nonogram SpecNonogram SpecNonogramDeduce.
From Verif Require Import NonogramStates NonogramDeduce NonogramForced NonogramOverlap NonogramUnique.

(** * Short lines, by enumeration *)

Definition meet (b1 b2 : list bool) (i : nat) : list square :=
  imap (fun j '(x, y) => if decide (j = i) then Blank else if Bool.eqb x y then (if x then Filled else Blocked) else Blank) (zip b1 b2).
Definition agree (s : square) (x : bool) : bool := match s with Blank => true | Filled => x | Blocked => negb x end.
Fixpoint agree_all (line : list square) (b : list bool) : bool :=
  match line, b with
  | [], [] => true
  | s :: line, x :: b => if agree s x then agree_all line b else false
  | _, _ => false
  end.
Lemma agree_all_spec line : forall b, agree_all line b = true <-> Forall2 agrees line b.
Proof.
  induction line as [|s line IH]; intros [|x b]; cbn.
  - split; [constructor|done].
  - split; [done|by inversion 1].
  - split; [done|by inversion 1].
  - split.
    + destruct (agree s x) eqn:E; [|done]. intros H%IH. constructor; [|done]. by destruct s, x.
    + inversion 1 as [|? ? ? ? Hs Hb]; subst. apply IH in Hb. rewrite Hb. destruct s, x; cbn in Hs; done.
Qed.

Definition line_check (v : bool) (n : nat) : bool :=
  let all := (fun b => (b, clue_of b)) <$> all_bools n in
  forallb (fun '(b1, c1) => forallb (fun '(b2, c2) =>
    if bool_decide (c1 = c2) then
      forallb (fun i =>
        if bool_decide (b1 !! i = Some v) then if bool_decide (b2 !! i = Some v) then
          if bool_decide (block_no b1 i = block_no b2 i) then true else
          existsb (fun '(b3, c3) => if agree_all (meet b1 b2 i) b3 then if bool_decide (b3 !! i = Some (negb v)) then bool_decide (c3 = c1) else false else false) all
        else true else true) (seq 0 n)
    else true) all) all.
Lemma check_lines : forallb (line_check true) (seq 0 8) = true /\ forallb (line_check false) (seq 0 5) = true.
Proof. split; vm_compute; reflexivity. Qed.

Lemma meet_lookup b1 b2 i j x y : b1 !! j = Some x -> b2 !! j = Some y ->
  meet b1 b2 i !! j = Some (if decide (j = i) then Blank else if Bool.eqb x y then (if x then Filled else Blocked) else Blank).
Proof.
  intros H1 H2. unfold meet. rewrite list_lookup_imap. assert (zip b1 b2 !! j = Some (x, y)) as ->; [|done].
  rewrite lookup_zip_with. by rewrite H1, H2.
Qed.
Lemma meet_agrees line b1 b2 b3 i : Forall2 agrees line b1 -> Forall2 agrees line b2 -> line !! i = Some Blank ->
  Forall2 agrees (meet b1 b2 i) b3 -> Forall2 agrees line b3.
Proof.
  intros H1 H2 Hi H3. pose proof (Forall2_length _ _ _ H1) as L1. pose proof (Forall2_length _ _ _ H2) as L2.
  pose proof (Forall2_length _ _ _ H3) as L3. unfold meet in L3. rewrite imap_length, zip_with_length in L3.
  apply Forall2_same_length_lookup. split; [lia|]. intros j s z Hs Hz.
  destruct (lookup_lt_is_Some_2 b1 j) as [x Hx]; [rewrite <-L1; by eapply lookup_lt_Some|].
  destruct (lookup_lt_is_Some_2 b2 j) as [y Hy]; [rewrite <-L2; by eapply lookup_lt_Some|].
  pose proof (Forall2_lookup_lr _ _ _ _ _ _ H1 Hs Hx) as A1. pose proof (Forall2_lookup_lr _ _ _ _ _ _ H2 Hs Hy) as A2.
  pose proof (Forall2_lookup_lr _ _ _ _ _ _ H3 (meet_lookup _ _ i _ _ _ Hx Hy) Hz) as A3.
  destruct (decide (j = i)) as [->|Hne]; [rewrite Hi in Hs; injection Hs as <-; done|].
  destruct s, x, y, z; cbn in *; done.
Qed.

Lemma check_forced v n rule line i : line_check v n = true -> positive rule -> length line = n -> line !! i = Some Blank ->
  (exists b, fits rule line b) -> (forall b, fits rule line b -> b !! i = Some v) -> forced rule line i v.
Proof.
  intros Hk Hp Hl Hi [b0 Hb0] Hall. exists (block_no b0 i). intros b Hb. split; [by apply Hall|].
  pose proof (Hall b Hb) as V. pose proof (Hall b0 Hb0) as V0.
  destruct Hb as [Hs Ha], Hb0 as [Hs0 Ha0]. apply spells_positive in Hs; [|done]. apply spells_positive in Hs0; [|done].
  assert (forall c, Forall2 agrees line c -> (c, clue_of c) ∈ ((fun b => (b, clue_of b)) <$> all_bools n)) as Hin.
  { intros c Hc. apply elem_of_list_fmap. exists c. split; [done|]. rewrite <-Hl, (Forall2_length _ _ _ Hc). apply elem_all_bools. }
  unfold line_check in Hk. rewrite forallb_forall in Hk. specialize (Hk (b, clue_of b) (proj1 (elem_of_list_In _ _) (Hin b Ha))).
  cbv beta iota in Hk. rewrite forallb_forall in Hk. specialize (Hk (b0, clue_of b0) (proj1 (elem_of_list_In _ _) (Hin b0 Ha0))).
  cbv beta iota in Hk. rewrite bool_decide_true in Hk by congruence. rewrite forallb_forall in Hk.
  specialize (Hk i). rewrite !bool_decide_true in Hk by done.
  destruct (bool_decide_reflect (block_no b i = block_no b0 i)) as [E|_]; [done|]. exfalso.
  specialize (Hk ltac:(apply in_seq; pose proof (lookup_lt_Some _ _ _ Hi); lia)).
  apply existsb_exists in Hk as ([b3 c3]&H3&Hk). apply elem_of_list_In, elem_of_list_fmap in H3 as (?&[= <- ->]&_).
  destruct (agree_all (meet b b0 i) b3) eqn:E3; [|done]. apply agree_all_spec in E3.
  destruct (bool_decide_reflect (b3 !! i = Some (negb v))) as [N3|]; [|done]. apply bool_decide_eq_true in Hk.
  assert (b3 !! i = Some v) as E; [|rewrite N3 in E; by destruct v]. apply Hall. split.
  - apply spells_positive; [done|]. congruence.
  - by apply (meet_agrees line b b0 b3 i).
Qed.

(** * Longer lines *)

Lemma starts_pad b n : forall i prev, starts_from i prev (b ++ replicate n false) = starts_from i prev b.
Proof.
  induction b as [|x b IH]; intros i prev; cbn.
  - revert i prev. induction n as [|n IH]; intros i prev; cbn; [done|apply IH].
  - by rewrite IH.
Qed.
Lemma block_no_pad b n i : block_no (b ++ replicate n false) i = block_no b i.
Proof. unfold block_no, starts. by rewrite starts_pad. Qed.
Lemma fits_pad_inv rule line n b : positive rule -> fits rule (line ++ replicate n Blocked) b ->
  exists b0, b = b0 ++ replicate n false /\ Forall2 agrees line b0 /\ clue_of b0 = rule.
Proof.
  intros Hp [Hs Ha]. apply Forall2_app_inv_l in Ha as (b0&b1&Ha0&Ha1&->).
  assert (b1 = replicate n false) as ->.
  { clear -Ha1. revert b1 Ha1. induction n as [|n IH]; intros b1 H; inversion H as [|? ? ? ? Hx Hb]; subst; [done|].
    cbn in Hx |- *. subst. f_equal. by apply IH. }
  exists b0. split_and!; [done|done|]. apply spells_positive in Hs; [|done]. by rewrite clue_pad in Hs.
Qed.
Lemma unforced_pad rule line n i v b1 b2 : positive rule ->
  Forall2 agrees line b1 -> clue_of b1 = rule -> Forall2 agrees line b2 -> clue_of b2 = rule -> block_no b1 i <> block_no b2 i ->
  line !! i = Some Blank -> (forall b, Forall2 agrees line b -> clue_of b = rule -> b !! i = Some v) ->
  exists line', length line' = length line + n /\ line' !! i = Some Blank /\ (exists b, fits rule line' b) /\
    (forall b, fits rule line' b -> b !! i = Some v) /\ ~ forced rule line' i v.
Proof.
  intros Hp A1 C1 A2 C2 Hne Hi Hall. exists (line ++ replicate n Blocked).
  pose proof (fits_pad rule line b1 n Hp A1 C1) as F1. pose proof (fits_pad rule line b2 n Hp A2 C2) as F2. split_and!.
  - by rewrite app_length, replicate_length.
  - by apply lookup_app_l_Some.
  - eauto.
  - intros b (b0&->&A&C)%fits_pad_inv; [|done]. apply lookup_app_l_Some. by apply Hall.
  - intros [k Hk]. destruct (Hk _ F1) as [_ E1], (Hk _ F2) as [_ E2]. rewrite block_no_pad in E1, E2. congruence.
Qed.
Definition limit (v : bool) : nat := if v then 8 else 5.
Lemma long_line (v : bool) n : limit v <= n -> exists rule line i, positive rule /\ length line = n /\ line !! i = Some Blank /\
  (exists b, fits rule line b) /\ (forall b, fits rule line b -> b !! i = Some v) /\ ~ forced rule line i v.
Proof.
  intros Hn. destruct v; cbn in Hn.
  - destruct (unforced_pad [2; 2] [Blank; Blank; Blocked; Filled; Blank; Blocked; Blank; Blank] (n - 8) 4 true
      [true; true; false; true; true; false; false; false] [false; false; false; true; true; false; true; true]) as (line&Hl&Hi&Hf&Hall&Hnf);
      [repeat constructor|repeat constructor|done|repeat constructor|done|done|done| |].
    + intros b Ha Hc. repeat (inversion Ha as [|? ? ? ? ? Ha']; subst; clear Ha; rename Ha' into Ha). inversion Ha; subst.
      cbn [agrees] in *. subst. 
      match goal with |- [?a; ?b; _; _; ?c; _; ?d; ?e] !! _ = _ => destruct c; [done|exfalso; destruct a, b, d, e; done] end.
    + exists [2; 2], line, 4. split_and!; try done; [repeat constructor|cbn in Hl; lia].
  - destruct (unforced_pad [1; 1] [Blank; Blank; Filled; Blank; Blank] (n - 5) 1 false
      [true; false; true; false; false] [false; false; true; false; true]) as (line&Hl&Hi&Hf&Hall&Hnf);
      [repeat constructor|repeat constructor|done|repeat constructor|done|done|done| |].
    + intros b Ha Hc. repeat (inversion Ha as [|? ? ? ? ? Ha']; subst; clear Ha; rename Ha' into Ha). inversion Ha; subst.
      cbn [agrees] in *. subst. 
      match goal with |- [?a; ?c; _; ?d; ?e] !! _ = _ => destruct c; [exfalso; destruct a, d, e; done|done] end.
    + exists [1; 1], line, 1. split_and!; try done; [repeat constructor|cbn in Hl; lia].
Qed.

Lemma line_lengths (v : bool) n :
  n < limit v <->
  forall rule line i changed line', positive rule -> length line = n -> line !! i = Some Blank ->
    (forall b, fits rule line b -> b !! i = Some v) ->
    line_right_left (machine_new rule) line = Ret (Ok (changed, line')) ->
    line' !! i = Some (if v then Filled else Blocked).
Proof.
  split.
  - intros Hn rule line i changed line' Hp Hl Hi Hall E.
    destruct (deduced rule (positive_proper _ Hp) _ _ _ E) as (Hex&_&_&_&Hf). apply (Hf i v Hi).
    apply (check_forced v n); try done. destruct check_lines as [K1 K2]. rewrite forallb_forall in K1, K2.
    destruct v; cbn in Hn; [apply K1|apply K2]; apply in_seq; lia.
  - intros H. destruct (decide (n < limit v)) as [|Hge]; [done|]. exfalso.
    destruct (long_line v n) as (rule&line&i&Hp&Hl&Hi&Hex&Hall&Hnf); [lia|].
    destruct (line_exact rule line (positive_proper _ Hp)) as (r&E&H1&H2&H3). destruct r as [[changed line']|e].
    + destruct (H3 _ _ eq_refl) as (_&_&_&Hf). apply Hnf, (Hf i v Hi). by apply (H rule line i changed line').
    + rewrite (H2 e eq_refl) in H1. by apply H1.
Qed.
