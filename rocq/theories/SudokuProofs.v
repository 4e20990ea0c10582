(** The Sudoku solver: clue insertion and search. *)
From Verif Require Import Base Dlx Sudoku SpecDlx SpecSudoku DlxSets DlxReady DlxProofs SudokuTable.
From stdpp Require Import sorting.
From Coq Require Import ZifyNat.
Ltac Zify.zify_post_hook ::= Z.div_mod_to_equations.

Local Opaque SUDOKU_CONSTRAINTS.

Lemma bind_Ret {A B} (x : res A) (k : A -> res B) b : bind x k = Ret b -> exists a, x = Ret a /\ k a = Ret b.
Proof. destruct x; cbn; [eauto|done]. Qed.

(** Rows selected by the clues. *)
Definition clue_row (iv : nat * nat) : option nat :=
  if decide (iv.2 = 0) then None else Some (iv.1 * 9 + iv.2 - 1).
Definition clue_rows (clues : list (nat * nat)) : list nat := omap clue_row clues.

Lemma clue_rows_app l1 l2 : clue_rows (l1 ++ l2) = clue_rows l1 ++ clue_rows l2.
Proof. unfold clue_rows. apply omap_app. Qed.

Lemma clue_rows_cons i v l :
  clue_rows ((i, v) :: l) = if decide (v = 0) then clue_rows l else (i * 9 + v - 1) :: clue_rows l.
Proof. unfold clue_rows. cbn [omap list_omap]. unfold clue_row at 1. cbn [fst snd]. by case_decide. Qed.

Lemma elem_of_clue_rows l r :
  r ∈ clue_rows l <-> exists i v, (i, v) ∈ l /\ v <> 0 /\ r = i * 9 + v - 1.
Proof.
  unfold clue_rows. rewrite elem_of_list_omap. split.
  - intros ([i v]&H1&H2). unfold clue_row in H2. cbn in H2. case_decide; [done|]. injection H2 as <-. eauto.
  - intros (i&v&H1&H2&->). exists (i, v). split; [done|]. unfold clue_row. cbn. by rewrite decide_False.
Qed.

Lemma enumerate_lookup {A} (l : list A) k : enumerate l !! k = pair k <$> l !! k.
Proof. unfold enumerate. by rewrite list_lookup_imap. Qed.
Lemma elem_of_enumerate {A} (l : list A) i v : (i, v) ∈ enumerate l <-> l !! i = Some v.
Proof.
  rewrite elem_of_list_lookup. setoid_rewrite enumerate_lookup. split.
  - intros (k&(x&Hx&[= -> ->])%fmap_Some). done.
  - intros H. exists i. by rewrite H.
Qed.
Lemma take_enumerate {A} (l : list A) k i v : (i, v) ∈ take k (enumerate l) <-> i < k /\ l !! i = Some v.
Proof.
  rewrite elem_of_take. setoid_rewrite enumerate_lookup. split.
  - intros (j&(x&Hx&[= -> ->])%fmap_Some&?). done.
  - intros [? H]. exists i. by rewrite H.
Qed.
Lemma enumerate_split {A} (l : list A) k v : l !! k = Some v ->
  enumerate l = take k (enumerate l) ++ (k, v) :: drop (S k) (enumerate l).
Proof. intros H. symmetry. apply take_drop_middle. by rewrite enumerate_lookup, H. Qed.

(** Inserting the clues. *)
Section clues.
  Context (fuel : nat).
  Notation SC := SUDOKU_CONSTRAINTS.
  Implicit Types (l rest : list (nat * nat)).

  Definition in_range l := forall i v, (i, v) ∈ l -> i < 81 /\ v <= 9.

  Lemma add_clues_ok l rest : in_range l -> forall added mx,
    Ready fuel SC added mx -> d_partial mx = added ->
    (forall (l1 : list nat) r (l2 : list nat), clue_rows l = l1 ++ r :: l2 -> ~ conflict SC (added ++ l1) r) ->
    exists mx', add_clues fuel (l ++ rest) mx = add_clues fuel rest mx' /\
      Ready fuel SC (added ++ clue_rows l) mx' /\ d_partial mx' = added ++ clue_rows l.
  Proof.
    induction l as [|[i v] l IH]; intros Hr added mx HR Hp Hc.
    - exists mx. cbn. rewrite app_nil_r. done.
    - assert (in_range l) as Hr' by (intros ???; apply Hr; by apply elem_of_list_further).
      specialize (IH Hr'). specialize (Hr i v (elem_of_list_here _ _)). cbn [app add_clues].
      rewrite clue_rows_cons in *. case_decide as Hv.
      + by apply IH.
      +        destruct (ready_ok fuel SC added mx (i * 9 + v - 1)) as (mx1&E&HR1&Hp1); [done|..].
        { apply occurs_sudoku. lia. }
        { specialize (Hc [] _ _ eq_refl). by rewrite app_nil_r in Hc. }
        rewrite E. cbn [bind]. destruct (IH (added ++ [i * 9 + v - 1]) mx1) as (mx2&E2&HR2&Hp2); [done|by rewrite Hp1, Hp|..].
        { intros l1 r l2 Heq. specialize (Hc ((i * 9 + v - 1) :: l1) r l2). rewrite <-app_assoc. apply Hc. by rewrite Heq. }
        rewrite <-app_assoc in HR2, Hp2. exists mx2. by split_and!.
  Qed.

  Lemma add_clues_invalid i v rest added mx :
    Ready fuel SC added mx -> i < 81 -> v <> 0 -> v <= 9 -> nulled SC added (i * 9 + v - 1) ->
    exists mx', add_clues fuel ((i, v) :: rest) mx = Ret (Err NoSolution, mx') /\ Ready fuel SC added mx'.
  Proof.
    intros HR Hi Hv0 Hv Hn. cbn [add_clues]. rewrite decide_False by done.
    rewrite (ready_invalid fuel SC added); [|done| |by right].
    - cbn [bind]. eexists. split; [done|]. by apply ready_partial.
    - exists (i * 9 + v - 1). split; [done|]. apply occurs_sudoku. lia.
  Qed.

  Lemma add_clues_ub i v rest added mx :
    Ready fuel SC added mx -> i < 81 -> v <> 0 -> v <= 9 -> conflict SC added (i * 9 + v - 1) ->
    ~ nulled SC added (i * 9 + v - 1) ->
    add_clues fuel ((i, v) :: rest) mx = Fault UB.
  Proof.
    intros HR Hi Hv0 Hv Hc Hn. cbn [add_clues]. rewrite decide_False by done.
    rewrite (ready_ub fuel SC added); [done|done| |done..]. apply occurs_sudoku. lia.
  Qed.
End clues.

(** The clue rows of a puzzle, in order. *)
Definition p_rows (p : list nat) : list nat := clue_rows (enumerate p).
Definition p_rows_to (p : list nat) (j : nat) : list nat := clue_rows (take j (enumerate p)).

Lemma puzzle_range p : puzzle_ok p -> in_range (enumerate p).
Proof.
  intros [Hl Hv] i v H%elem_of_enumerate. split; [rewrite <-Hl; by eapply lookup_lt_Some|].
  rewrite Forall_lookup in Hv. by apply (Hv i).
Qed.

Lemma in_range_take l k : in_range l -> in_range (take k l).
Proof. intros H i v (j&Hj&_)%elem_of_take. apply H. by eapply elem_of_list_lookup_2. Qed.

Lemma elem_of_p_rows_to p j r :
  r ∈ p_rows_to p j <-> exists i v, i < j /\ p !! i = Some v /\ v <> 0 /\ r = i * 9 + v - 1.
Proof.
  unfold p_rows_to. rewrite elem_of_clue_rows. setoid_rewrite take_enumerate. naive_solver.
Qed.
Lemma elem_of_p_rows p r :
  r ∈ p_rows p <-> exists i v, p !! i = Some v /\ v <> 0 /\ r = i * 9 + v - 1.
Proof.
  unfold p_rows. rewrite elem_of_clue_rows. setoid_rewrite elem_of_enumerate. naive_solver.
Qed.
Lemma p_rows_split p j v : p !! j = Some v -> v <> 0 ->
  p_rows p = p_rows_to p j ++ (j * 9 + v - 1) :: clue_rows (drop (S j) (enumerate p)).
Proof.
  intros Hj Hv. unfold p_rows, p_rows_to. rewrite (enumerate_split p j v Hj) at 1. rewrite clue_rows_app.
  f_equal. rewrite clue_rows_cons. by rewrite decide_False.
Qed.
Lemma p_rows_to_split p j i v : i < j -> p !! i = Some v -> v <> 0 ->
  exists rest, p_rows_to p j = p_rows_to p i ++ (i * 9 + v - 1) :: rest.
Proof.
  intros Hij Hi Hv. unfold p_rows_to.
  exists (clue_rows (drop (S i) (take j (enumerate p)))).
  rewrite <-(take_drop_middle (take j (enumerate p)) i (i, v)) at 1.
  2:{ rewrite lookup_take by done. by rewrite enumerate_lookup, Hi. }
  rewrite clue_rows_app, take_take, Nat.min_l by lia. f_equal.
  rewrite clue_rows_cons. by rewrite decide_False.
Qed.

(** Every split of the rows is at some clue. *)
Lemma p_rows_inv p : puzzle_ok p -> forall l1 r l2, p_rows p = l1 ++ r :: l2 ->
  exists j v, p !! j = Some v /\ v <> 0 /\ r = j * 9 + v - 1 /\ l1 = p_rows_to p j.
Proof.
  intros Hp. assert (forall (l : list (nat * nat)) l1 r l2, clue_rows l = l1 ++ r :: l2 ->
    exists k i v, l !! k = Some (i, v) /\ v <> 0 /\ r = i * 9 + v - 1 /\ l1 = clue_rows (take k l)) as Hgen.
  { intros l. induction l as [|[i v] l IH]; intros l1 r l2.
    - destruct l1; done.
    - rewrite clue_rows_cons. case_decide as Hv.
      + intros (k&i'&v'&?&?&?&?)%IH. exists (S k), i', v'. split_and!; try done. cbn [take].
        by rewrite clue_rows_cons, decide_True.
      + destruct l1 as [|a l1]; cbn [app]; intros [= <- Heq].
        * exists 0, i, v. by split_and!.
        * apply IH in Heq as (k&i'&v'&?&?&?&?). exists (S k), i', v'. split_and!; try done.
          cbn [take]. rewrite clue_rows_cons, decide_False by done. by subst. }
  intros l1 r l2 (k&i&v&H1&H2&H3&H4)%Hgen. rewrite enumerate_lookup in H1.
  apply fmap_Some in H1 as (x&Hx&[= -> ->]). eauto 10.
Qed.

(** Clashing clues are exactly conflicting rows. *)
Lemma conflict_one cs l r : conflict cs l r <-> exists a, a ∈ l /\ conflict cs [a] r.
Proof.
  unfold conflict. setoid_rewrite elem_of_list_singleton. naive_solver.
Qed.
Lemma clash_conflict p i j vi vj : puzzle_ok p -> i < j ->
  p !! i = Some vi -> vi <> 0 -> p !! j = Some vj -> vj <> 0 ->
  conflict SUDOKU_CONSTRAINTS [i * 9 + vi - 1] (j * 9 + vj - 1) <-> clash p i j.
Proof.
  intros Hp Hij Hi Hvi Hj Hvj.
  destruct (puzzle_range p Hp i vi) as [? ?]; [by apply elem_of_enumerate|].
  destruct (puzzle_range p Hp j vj) as [? ?]; [by apply elem_of_enumerate|].
  replace (i * 9 + vi - 1) with (i * 9 + (vi - 1)) by lia. replace (j * 9 + vj - 1) with (j * 9 + (vj - 1)) by lia.
  rewrite conflict_sudoku by lia. unfold clash. split.
  - intros [->|[Heq Hu]]; [lia|]. assert (vi = vj) as -> by lia. split; [done|]. exists vj. done.
  - intros (_&v&_&Ha&Hb&Hu). rewrite Hi in Ha. rewrite Hj in Hb. injection Ha as ->. injection Hb as ->. auto.
Qed.
Lemma clash_lookup p i j : clash p i j -> i < j /\ exists v, p !! i = Some v /\ p !! j = Some v /\ v <> 0.
Proof. intros (?&v&?&?&?&_). eauto 10. Qed.

Lemma conflict_clash p j v : puzzle_ok p -> p !! j = Some v -> v <> 0 ->
  conflict SUDOKU_CONSTRAINTS (p_rows_to p j) (j * 9 + v - 1) <-> exists i, clash p i j.
Proof.
  intros Hp Hj Hv. rewrite conflict_one. split.
  - intros (a&(i&vi&Hij&Hi&Hvi&->)%elem_of_p_rows_to&Hc). exists i. by eapply clash_conflict in Hc.
  - intros (i&Hc). destruct (clash_lookup p i j Hc) as (Hij&w&Hi&Hj'&Hw). exists (i * 9 + w - 1). split.
    + apply elem_of_p_rows_to. eauto 10.
    + assert (w = v) as -> by congruence. by eapply clash_conflict.
Qed.

(** Being nulled is sharing the box with the first clashing clue. *)
Lemma shares_last_box i vi j vj : i < 81 -> j < 81 -> vi <> 0 -> vi <= 9 -> vj <> 0 -> vj <= 9 ->
  shares_last SUDOKU_CONSTRAINTS (i * 9 + vi - 1) (j * 9 + vj - 1) <-> vi = vj /\ same_box i j.
Proof.
  intros Hi Hj H1 H2 H3 H4. replace (i * 9 + vi - 1) with (i * 9 + (vi - 1)) by lia.
  replace (j * 9 + vj - 1) with (j * 9 + (vj - 1)) by lia.
  unfold shares_last. rewrite last_box by lia. assert (box_of i < 9) as Hb by (unfold box_of; lia).
  split.
  - intros (k&Hk&Hin). apply (inj Some) in Hk. subst k. apply elem_of_unit_constraint in Hin as (c&Hc&Heq). apply code_inj in Heq as [<- Heq]; [|lia..].
    split; [lia|]. exists (box_of i). split_and!; [done| |done]. by apply elem_of_box.
  - intros [-> (u&Hu&[_ <-]%elem_of_box&Hju)]; [|done]. eexists. split; [done|]. apply elem_of_unit_constraint. eauto.
Qed.
Lemma same_box_unit i j : same_box i j -> exists u, u ∈ units /\ i ∈ u /\ j ∈ u.
Proof. intros (u&Hu&?&?). exists (box_cells u). split; [apply elem_of_units; eauto|done]. Qed.

Lemma p_rows_to_sorted p j : puzzle_ok p -> StronglySorted lt (p_rows_to p j).
Proof.
  intros Hp. unfold p_rows_to. assert (forall l : list (nat * nat), in_range l -> StronglySorted (fun a b => a.1 < b.1) l ->
    StronglySorted lt (clue_rows l)) as Hgen.
  { intros l Hr Hs. induction Hs as [|[i v] l Hs IH Hall]; [constructor|].
    assert (in_range l) as Hr' by (intros ???; apply Hr; by apply elem_of_list_further).
    specialize (IH Hr'). rewrite clue_rows_cons. case_decide; [done|].
    constructor; [done|]. apply Forall_forall. intros r (i'&v'&Hin&Hv'&->)%elem_of_clue_rows.
    destruct (Hr i v) as [_ ?]; [apply elem_of_list_here|].
    rewrite Forall_forall in Hall. specialize (Hall _ Hin). cbn in Hall. lia. }
  apply Hgen; [apply in_range_take, puzzle_range, Hp|].
  unfold enumerate. assert (forall (l : list nat) (f : nat -> nat) k, (forall a b, a < b -> f a < f b) ->
    StronglySorted (fun a b => a.1 < b.1) (take k (imap (fun n x => (f n, x)) l)) /\
    Forall (fun a => f 0 <= a.1) (take k (imap (fun n x => (f n, x)) l))) as Hi.
  { clear. induction l as [|x l IH]; intros f k Hf.
    - cbn. rewrite take_nil. split; constructor.
    - destruct k as [|k]; [split; constructor|]. cbn [imap take].
      destruct (IH (f ∘ S) k) as [I1 I2]; [intros; apply Hf; lia|].
      split; (constructor; [|try done]); try done.
      + eapply Forall_impl; [exact I2|]. intros a. cbn. pose proof (Hf 0 1 ltac:(lia)). lia.
      + eapply Forall_impl; [exact I2|]. intros a. cbn. pose proof (Hf 0 1 ltac:(lia)). lia. }
  apply (Hi p (fun n => n)). done.
Qed.
Lemma sorted_before (l1 l2 : list nat) a x :
  StronglySorted lt (l1 ++ a :: l2) -> x ∈ l1 ++ a :: l2 -> x < a -> x ∈ l1.
Proof.
  intros Hs [?|[->|Hx]%elem_of_cons]%elem_of_app Hlt; [done|lia|].
  induction l1 as [|y l1 IH]; cbn in Hs; apply StronglySorted_inv in Hs as [Hs Hall].
  - rewrite Forall_forall in Hall. apply Hall in Hx. lia.
  - apply elem_of_list_further. by apply IH.
Qed.

Lemma nulled_first p i j v : puzzle_ok p -> first_clash p i j -> p !! j = Some v ->
  nulled SUDOKU_CONSTRAINTS (p_rows_to p j) (j * 9 + v - 1) <-> same_box i j.
Proof.
  intros Hp [Hc Hmin] Hj. destruct (clash_lookup p i j Hc) as (Hij&w&Hi&Hj'&Hv).
  assert (w = v) as -> by congruence. clear Hj'.
  destruct (puzzle_range p Hp i v) as [? ?]; [by apply elem_of_enumerate|].
  destruct (puzzle_range p Hp j v) as [? _]; [by apply elem_of_enumerate|].
  split.
  - intros (l1&a&l2&Hl&Hn&Hs).
    assert (a ∈ p_rows_to p j) as (i'&v'&Hij'&Hi'&Hv'&->)%elem_of_p_rows_to.
    { rewrite Hl. apply elem_of_app. right. apply elem_of_list_here. }
    destruct (puzzle_range p Hp i' v') as [? ?]; [by apply elem_of_enumerate|].
    pose proof (shares_last_conflict _ _ _ Hs) as Hc'. apply (clash_conflict p) in Hc'; [|done..].
    apply Hmin in Hc' as Hle. assert (i <= i') as Hii by lia.
    apply shares_last_box in Hs as [-> Hb]; [|done..].
    destruct (decide (i = i')) as [->|]; [done|]. exfalso. apply Hn. apply conflict_one. exists (i * 9 + v - 1).
    split; [|by apply (clash_conflict p)].
    apply (sorted_before l1 l2 (i' * 9 + v - 1)); [rewrite <-Hl; by apply p_rows_to_sorted| |lia].
    rewrite <-Hl. apply elem_of_p_rows_to. eauto 10.
  - intros Hb. destruct (p_rows_to_split p j i v) as [rest Hr]; [done..|]. exists (p_rows_to p i), (i * 9 + v - 1), rest.
    split_and!; [done| |by apply shares_last_box].
    intros (a&(i'&v'&Hi'&Hl&Hv'&->)%elem_of_p_rows_to&Hc')%conflict_one. apply (clash_conflict p) in Hc'; [|done|lia|done..].
    apply Hmin in Hc'. lia.
Qed.

(** Either some pair clashes first, or none does. *)
Lemma clash_dec p i j : Decision (clash p i j).
Proof.
  unfold clash. apply and_dec; [apply _|].
  destruct (p !! i) as [v|] eqn:Ei; [|right; naive_solver].
  destruct (p !! j) as [w|] eqn:Ej; [|right; naive_solver].
  destruct (decide (v = w /\ v <> 0 /\ Exists (fun u => i ∈ u /\ j ∈ u) units)) as [(->&H1&H2)|H].
  - left. exists w. split_and!; [done..|]. by apply Exists_exists in H2.
  - right. intros (x&H0&[= <-]&[= <-]&Hu). apply H. split_and!; [done..|]. by apply Exists_exists.
Qed.
Lemma clash_bound p i j : clash p i j -> i < j < length p.
Proof. intros (?&v&_&_&H&_). apply lookup_lt_Some in H. lia. Qed.

Lemma least (P : nat -> Prop) (HD : forall n, Decision (P n)) n : P n -> exists k, P k /\ forall m, P m -> k <= m.
Proof.
  induction (lt_wf n) as [n _ IH]. intros Hn.
  destruct (decide (Exists P (seq 0 n))) as [(m&Hm%elem_of_seq&HPm)%Exists_exists|Hno].
  - apply (IH m); [lia|done].
  - exists n. split; [done|]. intros m Hm. destruct (decide (n <= m)); [done|]. exfalso. apply Hno.
    apply Exists_exists. exists m. split; [apply elem_of_seq; lia|done].
Qed.

Lemma first_clash_cases p : (exists i j, first_clash p i j) \/ forall i j, ~ clash p i j.
Proof.
  pose proof (clash_dec p) as HD.
  assert (forall j, Decision (exists i, clash p i j)) as HDj.
  { intros j. destruct (decide (Exists (fun i => clash p i j) (seq 0 j))) as [H|H].
    - left. apply Exists_exists in H as (i&_&?). eauto.
    - right. intros (i&Hi). apply H, Exists_exists. exists i. split; [|done]. destruct Hi as [? _]. apply elem_of_seq. lia. }
  destruct (decide (Exists (fun j => exists i, clash p i j) (seq 0 (length p)))) as [(j0&_&Hj0)%Exists_exists|H].
  - left. destruct (least _ HDj j0 Hj0) as (j&(i0&Hi0)&Hj).
    destruct (least _ (fun i => HD i j) i0 Hi0) as (i&Hi&Hmin).
    exists i, j. split; [done|]. intros i' j' Hc. assert (j <= j') as Hle by (apply Hj; eauto).
    destruct (decide (j = j')) as [->|]; [|lia]. right. split; [done|]. by apply Hmin.
  - right. intros i j Hc. apply H, Exists_exists. exists j. split; [|eauto]. apply clash_bound in Hc. apply elem_of_seq. lia.
Qed.

(** The choices of a grid, sorted. *)
Lemma choices_sorted g : Forall (fun v => 1 <= v <= 9) g -> StronglySorted le (choices g).
Proof.
  unfold choices. assert (forall (f : nat -> nat), (forall a b, a < b -> f a < f b) ->
    Forall (fun v => 1 <= v <= 9) g ->
    StronglySorted le (imap (fun c v => f c * 9 + (v - 1)) g) /\
    Forall (fun r => f 0 * 9 <= r) (imap (fun c v => f c * 9 + (v - 1)) g)) as Hgen.
  { induction g as [|v g IH]; intros f Hf Hg; [split; constructor|].
    apply Forall_cons in Hg as [Hv Hg]. destruct (IH (f ∘ S)) as [I1 I2]; [intros; apply Hf; lia|done|].
    cbn [imap]. pose proof (Hf 0 1 ltac:(lia)). split; constructor; try done; [|lia|];
      (eapply Forall_impl; [exact I2|]); intros r; cbn; lia. }
  apply (Hgen (fun n => n)). done.
Qed.
Lemma sort_choices g rows : Forall (fun v => 1 <= v <= 9) g -> rows ≡ₚ choices g -> sort_rows rows = choices g.
Proof.
  intros Hg Hp. apply (StronglySorted_unique le).
  - apply (StronglySorted_merge_sort le).
  - by apply choices_sorted.
  - unfold sort_rows. rewrite merge_sort_Permutation. done.
Qed.
Lemma read_choices g : Forall (fun v => 1 <= v <= 9) g -> (fun num => num `mod` 9 + 1) <$> choices g = g.
Proof.
  intros Hg. unfold choices.
  apply list_eq. intros i. rewrite list_lookup_fmap, list_lookup_imap. destruct (g !! i) as [v|] eqn:E; [|done].
  change (Some ((i * 9 + (v - 1)) `mod` 9 + 1) = Some v). f_equal.
  rewrite Forall_lookup in Hg. specialize (Hg _ _ E). cbn beta in Hg. lia.
Qed.

(** A completion picks all clue rows. *)
Lemma completes_rows p g : puzzle_ok p -> complete_grid g -> completes p g <-> p_rows p ⊆ choices g.
Proof.
  intros Hp Hg. pose proof Hg as (_&Hr&_). split.
  - intros [_ Hc] r (i&v&Hi&Hv&->)%elem_of_p_rows.
    apply elem_of_choices. exists i, v. split; [by apply Hc|lia].
  - intros Hs. split; [done|]. intros i v Hi Hv.
    destruct (puzzle_range p Hp i v) as [_ ?]; [by apply elem_of_enumerate|].
    assert (i * 9 + v - 1 ∈ choices g) as H1 by (apply Hs, elem_of_p_rows; eauto).
    replace (i * 9 + v - 1) with (i * 9 + (v - 1)) in H1 by lia. apply choices_lookup in H1; [|done|lia].
    rewrite H1. f_equal. lia.
Qed.

Lemma p_rows_NoDup p : puzzle_ok p -> NoDup (p_rows p).
Proof.
  intros Hp. assert (p_rows p = p_rows_to p (length p)) as ->.
  { unfold p_rows, p_rows_to. rewrite take_ge; [done|]. unfold enumerate. by rewrite imap_length. }
  pose proof (p_rows_to_sorted p (length p) Hp) as Hs.
  induction Hs as [|x l Hs IH Hall]; constructor; [|done].
  rewrite Forall_forall in Hall. intros Hx%Hall. lia.
Qed.

Lemma clash_unsolvable p i j g : clash p i j -> ~ completes p g.
Proof.
  intros (Hij&v&Hv&Hi&Hj&u&Hu&Hiu&Hju) [(_&Hr&Hex) Hc].
  apply Hc in Hi; [|done]. apply Hc in Hj; [|done]. rewrite Forall_lookup in Hr.
  destruct (Hex u v Hu (Hr _ _ Hi)) as (c&_&Huniq).
  pose proof (Huniq i (conj Hiu Hi)). pose proof (Huniq j (conj Hju Hj)). lia.
Qed.

Notation enough fuel := (matrix_size SUDOKU_CONSTRAINTS < fuel).

Lemma prefix_ready fuel p j rest mx : puzzle_ok p -> Ready fuel SUDOKU_CONSTRAINTS [] mx -> d_partial mx = [] ->
  (forall i' j', clash p i' j' -> j <= j') -> 
  exists mx', add_clues fuel (take j (enumerate p) ++ rest) mx = add_clues fuel rest mx' /\
    Ready fuel SUDOKU_CONSTRAINTS (p_rows_to p j) mx' /\ d_partial mx' = p_rows_to p j.
Proof.
  intros Hp HR Hpar Hno.
  destruct (add_clues_ok fuel (take j (enumerate p)) rest (in_range_take _ _ (puzzle_range _ Hp)) [] mx HR Hpar)
    as (mx'&E&HR'&Hp'); [|by exists mx'].
  intros l1 r l2 Heq Hc. cbn [app] in Hc. fold (p_rows_to p j) in Heq.
  assert (exists tl, p_rows p = p_rows_to p j ++ tl) as [tl Ht].
  { exists (clue_rows (drop j (enumerate p))). unfold p_rows, p_rows_to. by rewrite <-clue_rows_app, take_drop. }
  rewrite Heq, <-app_assoc in Ht. cbn [app] in Ht. apply p_rows_inv in Ht as (k&v&Hk&Hv&->&->); [|done].
  assert (k < j) as Hkj.
  { assert (k * 9 + v - 1 ∈ p_rows_to p j) as Hin by (rewrite Heq; apply elem_of_app; right; apply elem_of_list_here).
    apply elem_of_p_rows_to in Hin as (k'&v'&?&Hk'&?&He).
    destruct (puzzle_range p Hp k v) as [_ ?]; [by apply elem_of_enumerate|].
    destruct (puzzle_range p Hp k' v') as [_ ?]; [by apply elem_of_enumerate|]. lia. }
  apply conflict_clash in Hc as (i&Hc); [|done..]. apply Hno in Hc. lia.
Qed.

Lemma solve_no_clash fuel p : puzzle_ok p -> enough fuel -> (forall i j, ~ clash p i j) ->
  (exists g, solve_sudoku fuel p = Ret (Ok g, ∅) /\ completes p g) \/
  (solve_sudoku fuel p = Ret (Err NoSolution, ∅) /\ forall g, ~ completes p g).
Proof.
  intros Hp Hf Hno. unfold solve_sudoku. rewrite decide_False by (destruct Hp as [-> _]; intros H; by apply H).
  destruct (ready_new _ constraints_NoDup) as (mx&->&Hpar&HR). specialize (HR fuel Hf). cbn [bind].
  destruct (prefix_ready fuel p (length p) [] mx Hp HR Hpar) as (mx'&E&HR'&Hp').
  { intros i j Hc. by apply Hno in Hc. }
  assert (take (length p) (enumerate p) = enumerate p) as Ht.
  { rewrite take_ge; [done|]. unfold enumerate. by rewrite imap_length. }
  assert (p_rows_to p (length p) = p_rows p) as Hrows by (unfold p_rows_to; by rewrite Ht).
  rewrite Ht, app_nil_r in E. rewrite E. rewrite Hrows in HR', Hp'. clear E Hrows Ht. cbn [add_clues bind].
  destruct (ready_solve _ _ _ _ HR') as [(sol&->&Hec)|[-> Hnone]]; cbn [bind].
  - left. rewrite Hp'. apply exact_cover_sudoku in Hec as (g&Hg&Hperm). pose proof Hg as (_&Hr&_).
    exists g. rewrite (sort_choices g) by done. rewrite read_choices by done. split; [done|].
    apply completes_rows; [done..|]. intros r Hin. rewrite <-Hperm. apply elem_of_app. by left.
  - right. split; [done|]. intros g Hg. pose proof Hg as [Hcg _]. apply completes_rows in Hg; [|done..].
    destruct (submseteq_Permutation (p_rows p) (choices g)) as [k Hk].
    { apply NoDup_submseteq; [by apply p_rows_NoDup|done]. }
    apply (Hnone k). apply exact_cover_sudoku. exists g. by split.
Qed.

Lemma solve_first_clash fuel p i j : puzzle_ok p -> enough fuel -> first_clash p i j ->
  (same_box i j -> solve_sudoku fuel p = Ret (Err NoSolution, ∅)) /\
  (~ same_box i j -> solve_sudoku fuel p = Fault UB).
Proof.
  intros Hp Hf Hfc. pose proof Hfc as [Hc Hmin]. destruct (clash_lookup p i j Hc) as (Hij&v&Hi&Hj&Hv).
  destruct (puzzle_range p Hp j v) as [? ?]; [by apply elem_of_enumerate|].
  unfold solve_sudoku. rewrite decide_False by (destruct Hp as [-> _]; intros H'; by apply H').
  destruct (ready_new _ constraints_NoDup) as (mx&->&Hpar&HR). specialize (HR fuel Hf). cbn [bind].
  rewrite (enumerate_split p j v Hj).
  destruct (prefix_ready fuel p j ((j, v) :: drop (S j) (enumerate p)) mx Hp HR Hpar) as (mx'&E&HR'&Hp').
  { intros i' j' Hc'%Hmin. lia. }
  rewrite E. clear E.
  assert (conflict SUDOKU_CONSTRAINTS (p_rows_to p j) (j * 9 + v - 1)) as Hconf by (apply conflict_clash; eauto).
  pose proof (nulled_first p i j v Hp Hfc Hj) as Hnull. split; intros Hb.
  - apply Hnull in Hb. destruct (add_clues_invalid fuel j v (drop (S j) (enumerate p)) _ _ HR') as (mx2&->&HR2); [done..|].
    cbn [bind]. by rewrite (ready_drop _ _ _ _ HR2).
  - rewrite <-Hnull in Hb. by rewrite (add_clues_ub fuel j v (drop (S j) (enumerate p)) _ _ HR').
Qed.

Lemma same_box_dec i j : Decision (same_box i j).
Proof.
  destruct (decide (Exists (fun u => i ∈ box_cells u /\ j ∈ box_cells u) (seq 0 9))) as [H|H].
  - left. apply Exists_exists in H as (u&Hu%elem_of_seq&?). exists u. split; [lia|done].
  - right. intros (u&Hu&?). apply H, Exists_exists. exists u. split; [apply elem_of_seq; lia|done].
Qed.

(** All cases. *)
Lemma solve_cases fuel p : puzzle_ok p -> enough fuel ->
  (exists g, solve_sudoku fuel p = Ret (Ok g, ∅) /\ completes p g) \/
  (solve_sudoku fuel p = Ret (Err NoSolution, ∅) /\ forall g, ~ completes p g) \/
  (solve_sudoku fuel p = Fault UB /\ forall g, ~ completes p g).
Proof.
  intros Hp Hf. destruct (first_clash_cases p) as [(i&j&Hc)|Hno].
  - assert (forall g, ~ completes p g) as Hns by (intros g; eapply clash_unsolvable; apply Hc).
    destruct (solve_first_clash fuel p i j Hp Hf Hc) as [H1 H2].
    destruct (same_box_dec i j) as [Hb|Hb]; auto.
  - destruct (solve_no_clash fuel p Hp Hf Hno); auto.
Qed.

(** Properties. *)
Lemma sudoku_sound fuel p g h : puzzle_ok p -> enough fuel -> solve_sudoku fuel p = Ret (Ok g, h) ->
  completes p g.
Proof.
  intros Hp Hf E. destruct (solve_cases fuel p Hp Hf) as [(g'&E'&Hg)|[[E' _]|[E' _]]]; congruence.
Qed.
Lemma sudoku_complete fuel p : puzzle_ok p -> enough fuel -> (exists g, completes p g) ->
  exists g, solve_sudoku fuel p = Ret (Ok g, ∅) /\ completes p g.
Proof.
  intros Hp Hf (g&Hg). destruct (solve_cases fuel p Hp Hf) as [?|[[_ H]|[_ H]]]; [done|by apply H in Hg..].
Qed.
Lemma sudoku_no_solution fuel p h : puzzle_ok p -> enough fuel -> solve_sudoku fuel p = Ret (Err NoSolution, h) ->
  ~ exists g, completes p g.
Proof.
  intros Hp Hf E (g&Hg). destruct (sudoku_complete fuel p Hp Hf) as (g'&E'&_); [by exists g|]. congruence.
Qed.
Lemma sudoku_memory fuel p : puzzle_ok p -> enough fuel -> (forall i j, ~ clash p i j) ->
  exists r, solve_sudoku fuel p = Ret (r, ∅).
Proof. intros Hp Hf Hc. destruct (solve_no_clash fuel p Hp Hf Hc) as [(g&E&_)|[E _]]; eauto. Qed.
Lemma sudoku_box_clash fuel p i j : puzzle_ok p -> enough fuel -> first_clash p i j -> same_box i j ->
  solve_sudoku fuel p = Ret (Err NoSolution, ∅).
Proof. intros ????. by eapply solve_first_clash. Qed.
Lemma sudoku_use_after_free fuel p i j : puzzle_ok p -> enough fuel -> first_clash p i j -> ~ same_box i j ->
  solve_sudoku fuel p = Fault UB.
Proof. intros ????. by eapply solve_first_clash. Qed.

(** A grid is its own only completion. *)
Lemma complete_self g g' : complete_grid g -> completes g g' <-> g' = g.
Proof.
  intros Hg. pose proof Hg as (Hl&Hr&_). split.
  - intros [(Hl'&_) Hc]. apply list_eq. intros i. destruct (g !! i) as [v|] eqn:E.
    + apply Hc; [done|]. rewrite Forall_lookup in Hr. specialize (Hr _ _ E). cbn beta in Hr. lia.
    + apply lookup_ge_None in E. apply lookup_ge_None. lia.
  - intros ->. split; [done|]. done.
Qed.
Lemma complete_puzzle g : complete_grid g -> puzzle_ok g.
Proof. intros (Hl&Hr&_). split; [done|]. eapply Forall_impl; [done|]. cbn. lia. Qed.
Lemma sudoku_unique fuel p g : puzzle_ok p -> enough fuel -> completes p g ->
  (forall g', completes p g' -> g' = g) -> solve_sudoku fuel p = Ret (Ok g, ∅).
Proof.
  intros Hp Hf Hg Hu. destruct (sudoku_complete fuel p Hp Hf) as (g'&E&Hg'); [by exists g|].
  apply Hu in Hg' as ->. done.
Qed.
Lemma sudoku_fixpoint fuel g : enough fuel -> complete_grid g -> solve_sudoku fuel g = Ret (Ok g, ∅).
Proof.
  intros Hf Hg. apply sudoku_unique; [by apply complete_puzzle|done|by apply complete_self|].
  intros g'. by apply complete_self.
Qed.
Lemma sudoku_idempotent fuel p g h : puzzle_ok p -> enough fuel -> solve_sudoku fuel p = Ret (Ok g, h) ->
  solve_sudoku fuel g = Ret (Ok g, ∅).
Proof. intros Hp Hf E. apply sudoku_fixpoint; [done|]. eapply sudoku_sound in E as [? _]; eauto. Qed.

(** Size errors, whatever the entries. *)
Lemma add_clues_error fuel l mx e mx' : add_clues fuel l mx = Ret (Err e, mx') -> e = NoSolution.
Proof.
  revert mx. induction l as [|[i v] l IH]; intros mx; cbn [add_clues]; [done|]. case_decide; [apply IH|].
  intros E. apply bind_Ret in E as ([r mx1]&E1&E). destruct r as [|[]]; try (by eapply IH). congruence.
Qed.
Lemma sudoku_size fuel p n h : solve_sudoku fuel p = Ret (Err (InvalidSize n), h) <->
  length p = n /\ n <> 81 /\ h = ∅.
Proof.
  unfold solve_sudoku. change (GRID_SIZE * GRID_SIZE) with 81. split.
  - case_decide as Hl; [intros [= <- <-]; done|]. intros E. apply bind_Ret in E as (mx&_&E).
    apply bind_Ret in E as ([[mx2|e] mx1]&E1&E).
    + apply bind_Ret in E as ([[s|e] h']&_&E); congruence.
    + apply add_clues_error in E1 as ->. apply bind_Ret in E as (h'&_&E). congruence.
  - intros (<-&Hn&->). by rewrite decide_True.
Qed.

(** Entries whose row number is out of range are ignored. *)
Lemma for_from_invariant {S} (I : S -> Prop) fuel heap_of dir original cur body (s s' : S) b :
  (forall x s s' b, I s -> body x s = Ret (s', b) -> I s') ->
  I s -> for_from fuel heap_of dir original cur body s = Ret (s', b) -> I s'.
Proof.
  intros HI. revert cur s. induction fuel as [|fuel IH]; intros cur s Hs; cbn [for_from].
  - case_decide; [by intros [= <- _]|done].
  - case_decide; [by intros [= <- _]|]. intros E. apply bind_Ret in E as (n&_&E).
    apply bind_Ret in E as ([s1 [|]]&E1&E).
    + injection E as <- _. by eapply HI.
    + eapply IH; [|done]. by eapply HI.
Qed.
Lemma add_solution_rows fuel mx r x mx' : add_solution fuel mx r = Ret (x, mx') ->
  length (d_rows mx') = length (d_rows mx).
Proof.
  unfold add_solution. case_decide; [by intros [= _ <-]|]. intros E. apply bind_Ret in E as (p&_&E).
  case_decide; [by injection E as _ <-|]. apply bind_Ret in E as (rows&E1&E).
  assert (length rows = length (d_rows mx)) as Hlen.
  { unfold clear_rows in E1. apply bind_Ret in E1 as (n&_&E1). apply bind_Ret in E1 as ([[h1 rows1] b]&E1&[= <-]).
    unfold for_skip1 in E1. apply bind_Ret in E1 as (n'&_&E1). cbn [snd].
    eapply (for_from_invariant (fun s => length s.2 = length (d_rows mx))) in E1; [done| |done].
    intros y [h2 rows2] s' b' Hs E2. apply bind_Ret in E2 as (ny&_&E2). apply bind_Ret in E2 as (rows3&E3&[= <- <-]).
    unfold vec_set in E3. case_decide; [|done]. injection E3 as <-. cbn [snd] in *. by rewrite insert_length. }
  repeat (apply bind_Ret in E as (?&_&E); try (match type of E with (let '(_, _) := ?q in _) = _ => destruct q end)).
  injection E as _ <-. done.
Qed.
Lemma add_clues_ignore fuel l1 i v l2 mx : length (d_rows mx) <= i * 9 + v - 1 ->
  add_clues fuel (l1 ++ (i, v) :: l2) mx = add_clues fuel (l1 ++ (i, 0) :: l2) mx.
Proof.
  revert mx. induction l1 as [|[i' v'] l1 IH]; intros mx Hr; cbn [app add_clues].
  - rewrite (decide_True (P := 0 = 0)) by done. case_decide; [done|]. unfold add_solution. by rewrite decide_True.
  - case_decide; [by apply IH|]. destruct (add_solution fuel mx (i' * 9 + v' - 1)) as [[r mx1]|f] eqn:E; [|done].
    cbn [bind]. apply add_solution_rows in E. destruct r as [|[]]; try done; apply IH; lia.
Qed.
Lemma ready_rows fuel cs added mx r : Ready fuel cs added mx ->
  r < length (d_rows mx) <-> exists r', r <= r' /\ occurs cs r'.
Proof. intros (_&_&G&st0&_&_&_&(T1&_)&_). apply T1. Qed.
Lemma enumerate_insert {A} (l : list A) i v w : l !! i = Some v ->
  enumerate (<[i := w]> l) = take i (enumerate l) ++ (i, w) :: drop (S i) (enumerate l).
Proof.
  intros H. rewrite (enumerate_split (<[i:=w]> l) i w).
  2:{ apply list_lookup_insert. by eapply lookup_lt_Some. }
  f_equal; [|f_equal].
  - apply list_eq. intros k. destruct (decide (k < i)).
    + rewrite !lookup_take, !enumerate_lookup by done. rewrite list_lookup_insert_ne by lia. done.
    + rewrite !lookup_take_ge by lia. done.
  - apply list_eq. intros k. rewrite !lookup_drop, !enumerate_lookup. rewrite list_lookup_insert_ne by lia. done.
Qed.
Lemma sudoku_ignored fuel p i v : enough fuel -> p !! i = Some v -> 729 <= i * 9 + v - 1 ->
  solve_sudoku fuel p = solve_sudoku fuel (<[i := 0]> p).
Proof.
  intros Hf Hi Hv. unfold solve_sudoku. rewrite insert_length. case_decide; [done|].
  destruct (ready_new _ constraints_NoDup) as (mx&->&Hpar&HR). specialize (HR fuel Hf). cbn [bind].
  rewrite (enumerate_split p i v Hi), (enumerate_insert p i v 0 Hi).
  rewrite add_clues_ignore; [done|]. destruct (decide (length (d_rows mx) <= i * 9 + v - 1)) as [|Hn]; [done|].
  apply Nat.nle_gt in Hn. apply (ready_rows _ _ _ _ _ HR) in Hn as (r'&?&?%occurs_sudoku). lia.
Qed.

(** Checking concrete grids. *)
Definition grid_check (g : list nat) : bool :=
  bool_decide (length g = 81) && forallb (fun v => (1 <=? v) && (v <=? 9)) g &&
  forallb (fun u => forallb (fun v => length (filter (fun c => g !! c = Some v) u) =? 1) (seq 1 9)) units.
Lemma grid_check_ok g : grid_check g = true -> complete_grid g.
Proof.
  unfold grid_check. rewrite !andb_true_iff, bool_decide_eq_true, !forallb_forall. intros [[H1 H2] H3].
  split_and!; [done| |].
  - apply Forall_forall. intros v Hv. specialize (H2 v). rewrite andb_true_iff in H2.
    rewrite elem_of_list_In in Hv. apply H2 in Hv as [?%Nat.leb_le ?%Nat.leb_le]. lia.
  - intros u v Hu Hv. rewrite elem_of_list_In in Hu. apply H3 in Hu. rewrite forallb_forall in Hu.
    specialize (Hu v). rewrite in_seq in Hu. specialize (Hu ltac:(lia)). apply Nat.eqb_eq in Hu.
    destruct (filter (fun c => g !! c = Some v) u) as [|c [|]] eqn:E; try done.
    exists c. assert (c ∈ filter (fun c => g !! c = Some v) u) as Hc by (rewrite E; apply elem_of_list_here).
    apply elem_of_list_filter in Hc as [Hc1 Hc2]. split; [done|]. intros c' [Hc1' Hc2'].
    assert (c' ∈ filter (fun c => g !! c = Some v) u) as Hc' by (by apply elem_of_list_filter).
    rewrite E in Hc'. by apply elem_of_list_singleton in Hc'.
Qed.
Definition sample_grid : list nat :=
  [2;1;3; 4;5;6; 7;8;9;  4;5;6; 7;8;9; 2;1;3;  7;8;9; 2;1;3; 4;5;6;
   1;2;4; 3;6;5; 8;9;7;  3;6;5; 8;9;7; 1;2;4;  8;9;7; 1;2;4; 3;6;5;
   5;3;1; 6;4;2; 9;7;8;  6;4;2; 9;7;8; 5;3;1;  9;7;8; 5;3;1; 6;4;2].
Lemma sample_complete : complete_grid sample_grid.
Proof. apply grid_check_ok. vm_compute. reflexivity. Qed.

(** The entry 10 in cell 0 acts as the digit 1 in cell 1. *)
Lemma ten_is_one fuel :
  solve_sudoku fuel (10 :: replicate 80 0) = solve_sudoku fuel (0 :: 1 :: replicate 79 0).
Proof.
  unfold solve_sudoku. cbn [length]. rewrite !replicate_length. rewrite !decide_False by (intros H; by apply H).
  destruct (matrix_new SUDOKU_CONSTRAINTS) as [mx|f]; cbn [bind]; [|reflexivity].
  assert (forall l mx, Forall (fun iv => iv.2 = 0) l -> add_clues fuel l mx = Ret (Ok mx, mx)) as Hz.
  { intros l. induction l as [|[i v] l IH]; intros mx' Hl; [done|]. apply Forall_cons in Hl as [Hv Hl].
    cbn [snd] in Hv. cbn [add_clues]. rewrite decide_True by done. by apply IH. }
  assert (forall n k, Forall (fun iv => iv.2 = 0) (imap (fun i x => (n + i, x)) (replicate k 0))) as Hr.
  { intros n k. apply Forall_lookup. intros i [a b]. rewrite list_lookup_imap.
    intros (x&[-> _]%lookup_replicate&[= _ ->])%fmap_Some. done. }
  assert (forall (x : nat) l, enumerate (x :: l) = (0, x) :: imap (fun i x => (1 + i, x)) l) as He1 by done.
  assert (forall (x y : nat) l, enumerate (x :: y :: l) = (0, x) :: (1, y) :: imap (fun i x => (2 + i, x)) l) as He2 by done.
  rewrite He1, He2. cbn [add_clues]. rewrite (decide_True (P := 0 = 0)) by done. rewrite !decide_False by done.
  change (0 * 9 + 10 - 1) with 9. change (1 * 9 + 1 - 1) with 9.
  destruct (add_solution fuel mx 9) as [[r mx']|f]; cbn [bind]; [|reflexivity].
  destruct r as [|[]]; rewrite ?Hz by apply Hr; done.
Qed.
Lemma sudoku_not_rejected : exists p, length p = 81 /\ p !! 0 = Some 10 /\
  forall fuel, enough fuel -> exists g, solve_sudoku fuel p = Ret (Ok g, ∅) /\ complete_grid g.
Proof.
  exists (10 :: replicate 80 0). split_and!; [done|done|]. intros fuel Hf.
  destruct (sudoku_complete fuel (0 :: 1 :: replicate 79 0)) as (g&E&Hg&_); [by split; [|repeat constructor]|done|..].
  - exists sample_grid. split; [apply sample_complete|]. intros i v H Hv.
    destruct i as [|[|i]]; cbn [lookup list_lookup] in H; [congruence|injection H as <-; done|].
    exfalso. change (replicate 79 0 !! i = Some v) in H. apply lookup_replicate in H as [-> _]. done.
  - exists g. rewrite ten_is_one. split; [exact E|exact Hg].
Qed.

(** Concrete puzzles. *)
Definition one_clue : list nat := 0 :: 1 :: replicate 79 0.
Lemma one_clue_ok : puzzle_ok one_clue.
Proof. split; [done|]. repeat constructor. Qed.
Lemma one_clue_completes : completes one_clue sample_grid.
Proof.
  split; [apply sample_complete|]. intros i v H Hv.
  destruct i as [|[|i]]; cbn [lookup list_lookup one_clue] in H; [congruence|injection H as <-; done|].
  exfalso. change (replicate 79 0 !! i = Some v) in H. apply lookup_replicate in H as [-> _]. done.
Qed.
Lemma one_clue_solved fuel : enough fuel -> exists g, solve_sudoku fuel one_clue = Ret (Ok g, ∅).
Proof.
  intros Hf. destruct (sudoku_complete fuel one_clue one_clue_ok Hf) as (g&E&_); [|by exists g].
  exists sample_grid. apply one_clue_completes.
Qed.
(** Two equal clues [j] cells apart at the start of the first row. *)
Definition two_clues (j : nat) : list nat := 1 :: replicate (j - 1) 0 ++ 1 :: replicate (80 - j) 0.
Lemma two_clues_lookup j i v : 0 < j -> two_clues j !! i = Some v -> v <> 0 -> v = 1 /\ (i = 0 \/ i = j).
Proof.
  intros Hj. unfold two_clues. destruct i as [|i]; cbn [lookup list_lookup]; [naive_solver|].
  change (list_lookup i ?l) with (l !! i). rewrite lookup_app_Some, replicate_length.
  intros [[-> _]%lookup_replicate|[Hi H]] Hv; [done|]. destruct (i - (j - 1)) as [|k] eqn:E; cbn [lookup list_lookup] in H.
  - injection H as <-. split; [done|]. lia.
  - change (replicate (80 - j) 0 !! k = Some v) in H. apply lookup_replicate in H as [-> _]. done.
Qed.
Lemma two_clues_ok j : 0 < j < 81 -> puzzle_ok (two_clues j).
Proof.
  intros Hj. unfold two_clues. split.
  - cbn [length]. rewrite app_length. cbn [length]. rewrite !replicate_length. lia.
  - apply Forall_cons. split; [lia|]. apply Forall_app. split; [apply Forall_replicate; lia|].
    apply Forall_cons. split; [lia|]. apply Forall_replicate. lia.
Qed.
Lemma two_clues_first_clash j : 0 < j < 9 -> first_clash (two_clues j) 0 j.
Proof.
  intros Hj. split.
  - split; [lia|]. exists 1. split_and!; [done|done| |].
    + unfold two_clues. destruct j as [|j]; [lia|].
      change ((replicate (S j - 1) 0 ++ 1 :: replicate (80 - S j) 0) !! j = Some 1).
      rewrite lookup_app_r; rewrite replicate_length; [|lia]. by replace (j - (S j - 1)) with 0 by lia.
    + exists (row_cells 0). split; [apply elem_of_units; exists 0; split; [lia|by left]|].
      split; apply elem_of_row; lia.
  - intros i' j' (Hij&v&Hv&H1&H2&_). apply two_clues_lookup in H1 as [_ H1]; [|lia|done].
    apply two_clues_lookup in H2 as [_ H2]; [|lia|done]. lia.
Qed.
Lemma two_clues_box : same_box 0 1 /\ ~ same_box 0 3.
Proof.
  split.
  - exists 0. rewrite !elem_of_box by lia. unfold box_of. lia.
  - intros (u&Hu&[_ <-]%elem_of_box&[_ H]%elem_of_box); [|done..]. unfold box_of in H. lia.
Qed.
Lemma sudoku_uaf_witness : exists p, puzzle_ok p /\ forall fuel, enough fuel -> solve_sudoku fuel p = Fault UB.
Proof.
  exists (two_clues 3). split; [apply two_clues_ok; lia|]. intros fuel Hf.
  apply (sudoku_use_after_free fuel _ 0 3); [apply two_clues_ok; lia|done|apply two_clues_first_clash; lia|apply two_clues_box].
Qed.
