(** Debug texts can be read back. *)
From Verif Require Import Base Image Maze MazePrint Dlx Sudoku Nonogram ErrorText NonogramParseProofs ErrorTextProofs.
From Verif Require Import SpecDebugText DebugText.
From Coq Require Import Ascii String.

(** * Hexadecimal numbers *)
Definition hex_value (c : N) : N := (if c <? 58 then c - 48 else c - 87)%N.
Definition is_hex (c : N) : Prop := (48 <= c <= 57 \/ 97 <= c <= 102)%N.
Lemma hex_digit_ok d : (d < 16)%N -> is_hex (hex_digit d) /\ hex_value (hex_digit d) = d.
Proof.
  intros Hd. unfold is_hex, hex_value, hex_digit. destruct (N.ltb_spec d 10).
  - destruct (N.ltb_spec (48 + d) 58); lia.
  - destruct (N.ltb_spec (87 + d) 58); lia.
Qed.
Definition value (ds : list N) : N := fold_left (fun a c => a * 16 + hex_value c)%N ds 0%N.
Lemma hex_digits_spec fuel n acc : (n < 2 ^ N.of_nat fuel)%N -> 0 < fuel ->
  exists ds, hex_digits fuel n acc = ds ++ acc /\ Forall is_hex ds /\ value ds = n.
Proof.
  revert n acc. induction fuel as [|fuel IH]; intros n acc Hn Hf; [lia|].
  cbn [hex_digits]. pose proof (hex_digit_ok (n mod 16)) as [Hh Hv]; [by apply N.mod_lt|]. destruct (N.ltb_spec n 16) as [Hlt|Hge].
  - exists [hex_digit (n mod 16)]. split; [done|]. split; [by apply Forall_singleton|].
    unfold value. cbn [fold_left]. rewrite Hv, N.mod_small by done. lia.
  - assert (fuel <> 0). { intros ->. cbn in Hn. lia. }
    assert (n / 16 < 2 ^ N.of_nat fuel)%N as Hq.
    { rewrite Nat2N.inj_succ, N.pow_succ_r' in Hn. apply N.div_lt_upper_bound; lia. }
    destruct (IH (n / 16)%N (hex_digit (n mod 16) :: acc) Hq) as (ds&Hds&Hd&E); [lia|].
    exists (ds ++ [hex_digit (n mod 16)]). rewrite Hds. split; [by rewrite <-app_assoc|]. split.
    + apply Forall_app. split; [done|]. by apply Forall_singleton.
    + unfold value in *. rewrite fold_left_app. cbn [fold_left]. rewrite E, Hv.
      generalize (N.div_mod n 16 ltac:(done)). generalize (n mod 16)%N (n / 16)%N. intros; lia.
Qed.
Lemma to_hex_spec n : Forall is_hex (to_hex n) /\ value (to_hex n) = n.
Proof.
  unfold to_hex. destruct (hex_digits_spec (S (N.to_nat (N.log2 n))) n []) as (ds&H1&H2&H3); [|lia|].
  - rewrite Nat2N.inj_succ, N2Nat.id. destruct (decide (n = 0)%N) as [->|]; [done|]. apply N.log2_spec. lia.
  - rewrite H1, app_nil_r. done.
Qed.

(** Two texts that end at the first character outside a class. *)
Lemma ended (P : N -> Prop) s s' x r r' : Forall P s -> Forall P s' -> ~ P x -> s ++ x :: r = s' ++ x :: r' -> s = s' /\ r = r'.
Proof.
  revert s'. induction s as [|a s IH]; intros [|b s'] Hs Hs' Hx E; cbn in E.
  - by injection E.
  - injection E as <- E. apply Forall_cons in Hs' as [? _]. done.
  - injection E as -> E. apply Forall_cons in Hs as [? _]. done.
  - injection E as -> E. apply Forall_cons in Hs as [_ ?]. apply Forall_cons in Hs' as [_ ?].
    destruct (IH s') as [-> ->]; auto.
Qed.
Lemma to_hex_end n n' r r' : to_hex n ++ 125%N :: r = to_hex n' ++ 125%N :: r' -> n = n' /\ r = r'.
Proof.
  destruct (to_hex_spec n) as [H1 H2]. destruct (to_hex_spec n') as [H3 H4].
  intros [E ->]%(ended is_hex); [|done|done|unfold is_hex; lia]. split; [|done]. by rewrite <-H2, <-H4, E.
Qed.
Lemma to_decimal_end n n' x r r' : ~ SpecNonogramText.ascii_digit x -> to_decimal n ++ x :: r = to_decimal n' ++ x :: r' -> n = n' /\ r = r'.
Proof.
  destruct (to_decimal_spec n) as (ds&H1&_&H2&_). destruct (to_decimal_spec n') as (ds'&H3&_&H4&_).
  intros Hx [E ->]%(ended SpecNonogramText.ascii_digit); [|by rewrite H1|by rewrite H3|done]. split; [|done]. by apply to_decimal_inj.
Qed.

Ltac ascii := cbn; repeat (apply Forall_cons; split; [left; done|]); apply Forall_nil.

(** * Quoted texts *)
Section quote.
Context (plain : N -> bool) (q : N) (Hq : q = 34%N \/ q = 39%N).
(** The character written by a backslash and [k]. *)
Definition unescape (k : N) : N :=
  (if k =? 48 then 0 else if k =? 116 then 9 else if k =? 114 then 13 else if k =? 110 then 10 else k)%N.
Lemma escape_cases c :
  (escape plain q c = [c] /\ c <> 92%N /\ c <> q /\ plain c = true) \/
  (exists k, escape plain q c = [92%N; k] /\ k <> 117%N /\ unescape k = c /\ printable_ascii k) \/
  escape plain q c = [92%N; 117%N; 123%N] ++ to_hex c ++ [125%N].
Proof.
  unfold escape.
  destruct (N.eqb_spec c 0) as [->|]; [right; left; by exists 48%N|].
  destruct (N.eqb_spec c 9) as [->|]; [right; left; by exists 116%N|].
  destruct (N.eqb_spec c 13) as [->|]; [right; left; by exists 114%N|].
  destruct (N.eqb_spec c 10) as [->|]; [right; left; by exists 110%N|].
  destruct (N.eqb_spec c 92) as [->|]; [right; left; by exists 92%N|].
  destruct (N.eqb_spec c q) as [->|].
  { right. left. exists q. destruct Hq as [-> | ->]; done. }
  destruct (plain c) eqn:E; [by left|]. right. right. done.
Qed.
Lemma escape_inj c c' r r' : escape plain q c ++ r = escape plain q c' ++ r' -> c = c' /\ r = r'.
Proof.
  destruct (escape_cases c) as [(->&?&_)|[(k&->&?&<-&_)| ->]], (escape_cases c') as [(->&?&_)|[(k'&->&?&<-&_)| ->]];
    rewrite <-?app_assoc; cbn [app]; intros E; try (injection E as E1 E2; congruence).
  - by injection E as -> ->.
  - by injection E as -> ->.
  - injection E as E. by apply to_hex_end.
Qed.
Lemma escape_head c r x l : escape plain q c ++ r = x :: l -> x <> q.
Proof.
  destruct (escape_cases c) as [(->&_&?&_)|[(k&->&_&_&_)| ->]]; cbn [app]; intros E; injection E as <- _; [done|destruct Hq; by subst..].
Qed.
Lemma quoted_inj s : forall s' r r', List.concat (escape plain q <$> s) ++ q :: r = List.concat (escape plain q <$> s') ++ q :: r' -> s = s' /\ r = r'.
Proof.
  induction s as [|c s IH]; intros [|c' s'] r r'; cbn [fmap list_fmap List.concat]; rewrite <-?app_assoc; cbn [app].
  - by intros [= ->].
  - intros E. symmetry in E. by apply escape_head in E.
  - intros E. by apply escape_head in E.
  - intros [-> E]%escape_inj. destruct (IH _ _ _ E) as [-> ->]. done.
Qed.
Lemma escape_ok c : Forall (fun c => printable_ascii c \/ plain c = true) (escape plain q c).
Proof.
  destruct (escape_cases c) as [(->&_&_&?)|[(k&->&_&_&?)| ->]].
  - apply Forall_singleton. by right.
  - by ascii.
  - apply Forall_app. split; [by ascii|]. apply Forall_app. split; [|by ascii].
    eapply Forall_impl; [apply to_hex_spec|]. unfold is_hex, printable_ascii. intros. left. lia.
Qed.
Lemma quoted_ok s : Forall (fun c => printable_ascii c \/ plain c = true) (quoted plain q s).
Proof.
  assert (printable_ascii q) by (destruct Hq; by subst). unfold quoted. constructor; [by left|].
  apply Forall_app. split; [|by ascii]. induction s as [|c s IH]; cbn; [done|]. apply Forall_app. split; [apply escape_ok|done].
Qed.
Lemma quoted_end s s' r r' : quoted plain q s ++ r = quoted plain q s' ++ r' -> s = s' /\ r = r'.
Proof. unfold quoted. rewrite <-!app_assoc. intros E. apply app_inv_head in E. by apply quoted_inj. Qed.
End quote.

(** * Errors *)
Lemma decimal_ok plain n : Forall (fun c => printable_ascii c \/ plain c = true) (to_decimal n).
Proof.
  destruct (to_decimal_spec n) as (ds&->&_&H&_). eapply Forall_impl; [exact H|].
  unfold SpecNonogramText.ascii_digit, printable_ascii. intros. left. lia.
Qed.
Lemma error_debug_ok plain e : Forall (fun c => printable_ascii c \/ plain c = true) (error_debug plain e).
Proof.
  destruct e as [[[[]|[c|n|]]|[|s| | |]]|[]]; cbn [error_debug maze_error_debug sudoku_error_debug nonogram_error_debug dlx_error_debug];
    try (by ascii); apply Forall_app; (split; [by ascii|]);
    apply Forall_app; (split; [|by ascii]).
  - apply quoted_ok. by right.
  - apply decimal_ok.
  - apply quoted_ok. by left.
Qed.
Lemma error_debug_inj plain e e' : error_debug plain e = error_debug plain e' <-> same_variant e e'.
Proof.
  split.
  - destruct e as [[[[]|[]]|[]]|[]], e' as [[[[]|[]]|[]]|[]];
      cbn [error_debug maze_error_debug sudoku_error_debug nonogram_error_debug dlx_error_debug]; intros E;
      try (by left); try done; try (right; left; split; unfold no_solution; tauto); try (right; right; split; unfold invalid_dimensions; tauto); left.
    + apply app_inv_head in E. apply quoted_end in E as [[= ->] _]; auto.
    + apply app_inv_head, app_inv_tail, to_decimal_inj, Nat2N.inj in E. by subst.
    + apply app_inv_head in E. apply quoted_end in E as [-> _]; auto.
  - intros [->|[[H H']|[H H']]]; [done| |]; destruct H as [->|H]; destruct H' as [->|H']; try destruct H as [->|H]; try destruct H' as [->|H']; by subst.
Qed.

(** * Mazes *)
Section lists.
Context {A} (f : A -> list N) (Hf : forall x x' r r', f x ++ r = f x' ++ r' -> x = x' /\ r = r').
Lemma more_debug_inj l : forall l' r r', more_debug f l ++ r = more_debug f l' ++ r' -> l = l' /\ r = r'.
Proof.
  induction l as [|x l IH]; intros [|x' l'] r r'; cbn [more_debug chars app]; rewrite <-?app_assoc; cbn; intros [= E]; [done|].
  apply Hf in E as [-> E]. destruct (IH _ _ _ E) as [-> ->]. done.
Qed.
Lemma list_debug_inj l l' r r' : (forall x, exists a t, f x = a :: t /\ a <> 93%N) ->
  list_debug f l ++ r = list_debug f l' ++ r' -> l = l' /\ r = r'.
Proof.
  intros Hh. destruct l as [|x l], l' as [|x' l']; cbn [list_debug chars app]; intros E; injection E as E.
  - done.
  - destruct (Hh x') as (a&t&Ea&?). rewrite Ea in E. cbn in E. injection E as E _. done.
  - destruct (Hh x) as (a&t&Ea&?). rewrite Ea in E. cbn in E. injection E as E _. done.
  - rewrite <-!app_assoc in E. apply Hf in E as [-> E]. apply more_debug_inj in E as [-> ->]. done.
Qed.
End lists.
Lemma node_debug_inj n n' r r' : node_debug n ++ r = node_debug n' ++ r' -> n = n' /\ r = r'.
Proof. destruct n as [[] []], n' as [[] []]; cbn; intros E; injection E; intros; subst; done. Qed.
Lemma direction_debug_inj d d' r r' : direction_debug d ++ r = direction_debug d' ++ r' -> d = d' /\ r = r'.
Proof. destruct d, d'; cbn; intros E; injection E; intros; subst; done. Qed.
Lemma square_debug_inj s s' : square_debug s = square_debug s' -> s = s'.
Proof. by destruct s, s'. Qed.
Lemma maze_debug_inj m m' : maze_debug m = maze_debug m' -> m = m'.
Proof.
  destruct m as [g p], m' as [g' p']. unfold maze_debug. cbn [fst snd]. intros E. apply app_inv_head in E.
  apply list_debug_inj in E as [-> E]; [|apply node_debug_inj|intros x; by eexists _, _].
  apply app_inv_head in E. apply list_debug_inj in E as [-> E]; [done|apply direction_debug_inj|intros []; by eexists _, _].
Qed.
Lemma types_inj plain :
  (forall e e', maze_error_debug e = maze_error_debug e' -> e = e') /\
  (forall e e', sudoku_error_debug plain e = sudoku_error_debug plain e' -> e = e') /\
  (forall e e', nonogram_error_debug plain e = nonogram_error_debug plain e' -> e = e') /\
  (forall e e', dlx_error_debug e = dlx_error_debug e' -> e = e') /\
  (forall s s', square_debug s = square_debug s' -> s = s').
Proof.
  split; [by intros [] []|]. split; [|split; [|split; [by intros [] []|apply square_debug_inj]]].
  - intros e e' E. apply (error_debug_inj plain (inl (inl (inr e))) (inl (inl (inr e')))) in E as [E|[[H H']|[[H|H] _]]]; [congruence| |done..].
    destruct H as [H|[H|H]]; [|done..]. destruct H' as [H'|[H'|H']]; [congruence|done..].
  - intros e e' E. apply (error_debug_inj plain (inl (inr e)) (inl (inr e'))) in E as [E|[[H H']|[[H|H] [H'|H']]]]; try congruence.
    destruct H as [H|[H|H]]; [done| |done]. destruct H' as [H'|[H'|H']]; [done|congruence|done].
Qed.
