(** Specification of the nonogram rule language, independent of the parser. *)
From Verif Require Import Base Image Nonogram.
From Verif Require Export SpecWord.

(** The pieces of [s] between occurrences of the separator. *)
Fixpoint join (sep : N) (ps : list (list N)) : list N :=
  match ps with
  | [] => []
  | [p] => p
  | p :: ps => p ++ sep :: join sep ps
  end.
Definition splits (sep : N) (s : list N) (ps : list (list N)) : Prop :=
  ps <> [] /\ Forall (fun p => sep ∉ p) ps /\ s = join sep ps.

Definition ascii_digit (c : N) : Prop := (48 <= c <= 57)%N.
Definition decimal_value (ds : list N) : N :=
  fold_left (fun a c => (a * 10 + (c - 48))%N) ds 0%N.
Definition numeral (ws : word) (x : list N) (v : N) : Prop :=
  exists ds, (x = ds \/ x = 43%N :: ds) /\ ds <> [] /\ Forall ascii_digit ds /\
    v = decimal_value ds /\ (v < limit ws)%N.

Definition comma : N := 44.
Definition semicolon : N := 59.

(** A rule text and its numbers. *)
Definition rule_text (ws : word) (t : list N) (vs : list N) : Prop :=
  exists items, splits comma t items /\ Forall2 (numeral ws) items vs.

(** Space needed by a rule: the blocks and one gap between neighbours. *)
Definition rule_sum (vs : list N) : N := foldr N.add 0%N vs.
Definition min_length (vs : list N) : N := (rule_sum vs + (N.of_nat (length vs) - 1))%N.

(** The three possible fates of a single rule. *)
Definition good_rule (ws : word) (bound : N) (t vs : list N) : Prop :=
  rule_text ws t vs /\ (min_length vs <= bound)%N.
Definition bad_rule (ws : word) (bound : N) (t : list N) (e : nonogram_error) : Prop :=
  (exists pre x post vs, splits comma t (pre ++ x :: post) /\ Forall2 (numeral ws) pre vs /\
     (rule_sum vs < limit ws)%N /\ (forall v, ~ numeral ws x v) /\ e = InvalidRule x) \/
  (exists vs, rule_text ws t vs /\ (bound < min_length vs < limit ws)%N /\ e = InvalidRuleDimension).
Definition overflowing_rule (ws : word) (t : list N) : Prop :=
  (exists pre post vs, splits comma t (pre ++ post) /\ Forall2 (numeral ws) pre vs /\
     (limit ws <= rule_sum vs)%N) \/
  (exists vs, rule_text ws t vs /\ (limit ws <= min_length vs)%N).

(** No rule of the text overflows usize. *)
Definition no_overflow (ws : word) (s : list N) : Prop :=
  forall rules t, splits semicolon s rules -> t ∈ rules -> ~ overflowing_rule ws t.

(** Writing rules as text, numbers in decimal ([to_decimal] is Rust's
    [to_string]). *)
Definition print_rule (vs : list N) : list N := join comma (to_decimal <$> vs).
Definition print_rules (vss : list (list N)) : list N := join semicolon (print_rule <$> vss).
