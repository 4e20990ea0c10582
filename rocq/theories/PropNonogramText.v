(** Properties C30-C33. *)
From Verif Require Import Base Image Nonogram SpecNonogramText.
From Verif Require NonogramParseProofs.

(** C30: accepted texts and their meaning.  Without overflow checks the
    statement needs that no rule overflows usize (see C32). *)
Theorem C30_accepts : forall (m : mode) s bound vss, (bound < limit m)%N -> profile_of m = Debug \/ no_overflow m s ->
  parse_nonogram_rules m s bound = Ret (Ok vss) <->
  exists rules, splits semicolon s rules /\ Forall2 (good_rule m bound) rules vss.
Proof. exact NonogramParseProofs.parse_ok. Qed.
Print Assumptions C30_accepts.

(** "1,+02;3" *)
Example C30_example :
  parse_nonogram_rules (Mode Debug W64) [49; 44; 43; 48; 50; 59; 51]%N 4 = Ret (Ok [[1; 2]; [3]]%N).
Proof. reflexivity. Qed.

(** C31: the first offending rule decides the error. *)
Theorem C31_errors : forall (m : mode) s bound e, (bound < limit m)%N -> profile_of m = Debug \/ no_overflow m s ->
  parse_nonogram_rules m s bound = Ret (Err e) <->
  exists pre t post vss, splits semicolon s (pre ++ t :: post) /\
    Forall2 (good_rule m bound) pre vss /\ bad_rule m bound t e.
Proof. exact NonogramParseProofs.parse_err. Qed.
Print Assumptions C31_errors.

(** "1;2,x,9" and "1;2,2;y" *)
Example C31_example_item :
  parse_nonogram_rules (Mode Release W64) [49; 59; 50; 44; 120; 44; 57]%N 4 = Ret (Err (InvalidRule [120%N])).
Proof. reflexivity. Qed.
Example C31_example_size :
  parse_nonogram_rules (Mode Debug W64) [49; 59; 50; 44; 50; 59; 121]%N 4 = Ret (Err InvalidRuleDimension).
Proof. reflexivity. Qed.

(** C32 is false: with overflow checks the sum can panic, without them it can
    wrap so that a far too long rule is accepted. *)
Theorem C32_refuted : forall ws : word,
  (exists s bound, (bound < limit ws)%N /\ parse_nonogram_rules (Mode Debug ws) s bound = Fault Panic) /\
  (exists s bound vss vs, (bound < limit ws)%N /\
     parse_nonogram_rules (Mode Release ws) s bound = Ret (Ok vss) /\ vs ∈ vss /\ (bound < min_length vs)%N).
Proof. exact NonogramParseProofs.overflow_refuted. Qed.
Print Assumptions C32_refuted.

(** What does hold: it panics exactly when the first rule that is not
    acceptable overflows, never without overflow checks, and accepted rules fit
    unless a rule overflowed. *)
Theorem C32_panics_partial : forall (m : mode) s bound f, profile_of m = Debug -> (bound < limit m)%N ->
  parse_nonogram_rules m s bound = Fault f <->
  f = Panic /\ exists pre t post vss, splits semicolon s (pre ++ t :: post) /\
    Forall2 (good_rule m bound) pre vss /\ overflowing_rule m t.
Proof. exact NonogramParseProofs.parse_panic. Qed.
Print Assumptions C32_panics_partial.

Theorem C32_release_partial : forall (m : mode) s bound, profile_of m = Release ->
  exists r, parse_nonogram_rules m s bound = Ret r.
Proof. exact NonogramParseProofs.parse_release. Qed.
Print Assumptions C32_release_partial.

Theorem C32_fits_partial : forall (m : mode) s bound vss, (bound < limit m)%N -> profile_of m = Debug \/ no_overflow m s ->
  parse_nonogram_rules m s bound = Ret (Ok vss) ->
  Forall (fun vs => vs <> [] /\ min_length vs <= bound)%N vss.
Proof. exact NonogramParseProofs.accepted_fit. Qed.
Print Assumptions C32_fits_partial.

(** "1;18446744073709551615,1" panics with overflow checks, "1,2;3" is accepted.
    "1;4294967295,1" panics with 32 bits and is too long with 64. *)
Example C32_example :
  parse_nonogram_rules (Mode Debug W64) ([49; 59; 49; 56; 52; 52; 54; 55; 52; 52; 48; 55; 51; 55; 48; 57; 53; 53; 49; 54; 49; 53; 44; 49])%N 10 = Fault Panic /\
  parse_nonogram_rules (Mode Debug W32) ([49; 59; 52; 50; 57; 52; 57; 54; 55; 50; 57; 53; 44; 49])%N 10 = Fault Panic /\
  parse_nonogram_rules (Mode Debug W64) ([49; 59; 52; 50; 57; 52; 57; 54; 55; 50; 57; 53; 44; 49])%N 10 = Ret (Err InvalidRuleDimension) /\
  parse_nonogram_rules (Mode Debug W64) [49; 44; 50; 59; 51]%N 4 = Ret (Ok [[1; 2]; [3]])%N /\ min_length [1; 2]%N = 4%N.
Proof. split_and!; try (vm_compute; reflexivity); reflexivity. Qed.

(** C33: printing and parsing again. *)
Theorem C33_roundtrip : forall (m : mode) vss bound, (bound < limit m)%N -> vss <> [] ->
  Forall (fun vs => vs <> []) vss -> Forall (fun vs => min_length vs <= bound)%N vss ->
  parse_nonogram_rules m (print_rules vss) bound = Ret (Ok vss).
Proof. exact NonogramParseProofs.print_parse. Qed.
Print Assumptions C33_roundtrip.

Example C33_example :
  print_rules [[10; 0]; [7]]%N = [49; 48; 44; 48; 59; 55]%N /\
  Forall (fun vs => min_length vs <= 11)%N [[10; 0]; [7]]%N.
Proof. split; [reflexivity|]. repeat constructor; by vm_compute. Qed.
