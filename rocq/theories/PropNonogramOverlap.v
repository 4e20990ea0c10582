(** Properties C70 and C71. *)
From Verif Require Import Base Nonogram SpecNonogram SpecNonogramDeduce SpecNonogramOverlap.
From Verif Require NonogramOverlap.

(** C70: the deduction on a single line is a closure operator: it only adds
    information, loses no filling, a second application changes nothing, and
    knowing more beforehand never yields less. *)
Theorem C70_fillings : forall rule line changed line', proper rule ->
  line_right_left (machine_new rule) line = Ret (Ok (changed, line')) ->
  refines line line' /\ forall b, fits rule line b <-> fits rule line' b.
Proof.
  exact (fun rule line changed line' Hp E => conj (NonogramOverlap.deduced_refines rule Hp line changed line' E)
    (fun b => NonogramOverlap.deduced_fits rule Hp line changed line' b E)).
Qed.
Print Assumptions C70_fillings.
Theorem C70_idempotent : forall rule line changed line', proper rule ->
  line_right_left (machine_new rule) line = Ret (Ok (changed, line')) ->
  line_right_left (machine_new rule) line' = Ret (Ok (false, line')).
Proof. exact (fun rule line changed line' Hp => NonogramOverlap.deduced_idempotent rule Hp line changed line'). Qed.
Print Assumptions C70_idempotent.
Theorem C70_monotone : forall rule line more, proper rule -> refines line more ->
  (forall c1 c2 line' more',
     line_right_left (machine_new rule) line = Ret (Ok (c1, line')) ->
     line_right_left (machine_new rule) more = Ret (Ok (c2, more')) -> refines line' more') /\
  (line_right_left (machine_new rule) line = Ret (Err NoSolution) ->
     line_right_left (machine_new rule) more = Ret (Err NoSolution)).
Proof.
  exact (fun rule line more Hp Hr => conj
    (fun c1 c2 line' more' => NonogramOverlap.deduced_monotone rule Hp line more c1 c2 line' more' Hr)
    (NonogramOverlap.deduced_no_solution rule Hp line more Hr)).
Qed.
Print Assumptions C70_monotone.

(** With the third square known as well, the last one is decided too. *)
Example C70_example :
  line_right_left (machine_new [1; 2]) [Blank; Blank; Blank; Filled; Blank; Blank] =
    Ret (Ok (true, [Blank; Blank; Blank; Filled; Blank; Blocked])) /\
  line_right_left (machine_new [1; 2]) [Blank; Blank; Filled; Filled; Blank; Blank] =
    Ret (Ok (true, [Filled; Blocked; Filled; Filled; Blocked; Blocked])) /\
  refines [Blank; Blank; Blank; Filled; Blank; Blank] [Blank; Blank; Filled; Filled; Blank; Blank].
Proof. split_and!; [vm_compute; reflexivity..|]. repeat (constructor; [by auto|]). constructor. Qed.

(** C71: on a blank line the deduction is the overlap rule.  With [s] squares to
    spare, a square is filled if it belongs to the same block both when all
    blocks are pushed to the left and when they are pushed to the right.
    Squares are crossed out only if there is nothing to spare. *)
Theorem C71_overlap : forall rule s, positive rule -> rule <> [] ->
  exists changed line',
    line_right_left (machine_new rule) (replicate (room rule + s) Blank) = Ret (Ok (changed, line')) /\
    (changed = true <-> exists v, v ∈ rule /\ s < v) /\
    length line' = room rule + s /\ forall i, i < room rule + s ->
      (line' !! i = Some Filled <-> exists k, in_block rule 0 k i /\ in_block rule s k i) /\
      (line' !! i = Some Blocked <-> s = 0 /\ forall k, ~ in_block rule 0 k i).
Proof. exact (fun rule s Hpos Hne => NonogramOverlap.overlap rule s (room rule + s) Hpos Hne eq_refl). Qed.
Print Assumptions C71_overlap.
Theorem C71_too_long : forall rule n, positive rule -> rule <> [] -> n < room rule ->
  line_right_left (machine_new rule) (replicate n Blank) = Ret (Err NoSolution).
Proof. exact NonogramOverlap.overlap_too_long. Qed.
Print Assumptions C71_too_long.

(** The block of 3 overlaps itself in one square. *)
Example C71_example : positive [1; 3] /\ room [1; 3] = 5 /\
  line_right_left (machine_new [1; 3]) (replicate 7 Blank) =
    Ret (Ok (true, [Blank; Blank; Blank; Blank; Filled; Blank; Blank])) /\
  in_block [1; 3] 0 1 4 /\ in_block [1; 3] 2 1 4.
Proof.
  split_and!; [by repeat constructor|reflexivity|vm_compute; reflexivity|..]; exists 3; cbn; (split; [done|lia]).
Qed.
