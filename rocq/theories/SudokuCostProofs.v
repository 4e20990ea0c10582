(** Sudokus that need no search. *)
From Verif Require Import Base Dlx Sudoku SpecDlx SpecDlxSearch SpecSudoku SpecSudokuSearch DlxCost SpecDlxCost.
From Verif Require Import DlxSets DlxKnuth DlxReady DlxCostProofs SudokuTable SudokuProofs SudokuSearch.
From Coq Require Import ZifyNat.

Lemma sudoku_same fuel p : (let! (r, h, _) := sudoku_calls fuel p in Ret (r, h)) = solve_sudoku fuel p.
Proof.
  unfold sudoku_calls, solve_sudoku. destruct (decide _); [done|].
  destruct (matrix_new SUDOKU_CONSTRAINTS) as [mx|]; cbn [bind]; [|done].
  destruct (add_clues fuel (enumerate p) mx) as [[[mx'|e] mx2]|]; cbn [bind]; [| |done].
  - rewrite <-(solve_same fuel mx'). destruct (solve_calls fuel mx') as [[[[sol|] h] k]|]; done.
  - destruct (matrix_drop _ _ _); done.
Qed.
Lemma clues_ready fuel p : puzzle_ok p -> enough fuel -> (forall i j, ~ clash p i j) ->
  exists mx mx' mx2, matrix_new SUDOKU_CONSTRAINTS = Ret mx /\ add_clues fuel (enumerate p) mx = Ret (Ok mx', mx2) /\
    Ready fuel SUDOKU_CONSTRAINTS (p_rows p) mx' /\ d_partial mx' = p_rows p.
Proof.
  intros Hp Hf Hno. destruct (ready_new _ constraints_NoDup) as (mx&E0&Hpar&HR). specialize (HR fuel Hf).
  destruct (prefix_ready fuel p (length p) [] mx Hp HR Hpar) as (mx'&E&HR'&Hp').
  { intros i j Hc. destruct (Hno i j Hc). }
  assert (take (length p) (enumerate p) = enumerate p) as Ht.
  { rewrite take_ge; [done|]. unfold enumerate. by rewrite imap_length. }
  assert (p_rows_to p (length p) = p_rows p) as Hrows by (unfold p_rows_to; by rewrite Ht).
  rewrite Ht, app_nil_r in E. rewrite Hrows in HR', Hp'. cbn [add_clues bind] in E.
  exists mx, mx'. eexists. split_and!; [done|exact E|done|done].
Qed.
Lemma sudoku_branches fuel p : puzzle_ok p -> enough fuel -> (forall i j, ~ clash p i j) ->
  exists r, sudoku_calls fuel p = Ret (r, ∅, knuth_branches (enc (open_questions p))) /\
    forall sol, knuth (enc (open_questions p)) = Some sol -> exists g, r = Ok g.
Proof.
  intros Hp Hf Hno. unfold sudoku_calls. rewrite decide_False by (destruct Hp as [-> _]; intros H; by apply H).
  destruct (clues_ready fuel p Hp Hf Hno) as (mx&mx'&mx2&->&E&HR&Hpar). cbn [bind]. rewrite E. cbn [bind].
  rewrite (ready_calls _ _ _ _ HR), open_puzzle by done.
  destruct (knuth (enc (open_questions p))) as [sol|]; cbn [bind]; eexists; (split; [done|]); intros ? [=]; eauto.
Qed.
Lemma sum_until_code (s1 : nat -> bool) (s2 : nat * nat -> bool) (f1 : nat -> nat) (f2 : nat * nat -> nat) l :
  (forall x, x ∈ l -> s1 (code x) = s2 x /\ f1 (code x) = f2 x) -> sum_until s1 f1 (code <$> l) = sum_until s2 f2 l.
Proof.
  induction l as [|x l IH]; intros H; [done|]. rewrite fmap_cons. cbn [sum_until].
  destruct (H x (elem_of_list_here _ _)) as [-> ->]. f_equal. destruct (s2 x); [done|].
  apply IH. intros y Hy. by apply H, elem_of_list_further.
Qed.
Lemma grids_knuth n : forall p, puzzle_ok p -> zeros p <= n -> knuth_branches (enc (open_questions p)) = grids n p.
Proof.
  induction n as [|n IH]; intros p Hp Hz; destruct (open_questions p) as [|q qs] eqn:Eo.
  - cbn [grids]. by rewrite Eo.
  - rewrite enc_cons, branches_cons, shortest_enc. cbn [grids]. rewrite Eo.
    assert (shortest q qs ∈ open_questions p) as (q0&_&_&Hq)%elem_of_open by (rewrite Eo; apply shortest_elem).
    destruct (shortest q qs) as [|x l]; [done|]. exfalso.
    assert (x ∈ filter (legal p) q0) as [[Hx _] _]%elem_of_list_filter by (rewrite <-Hq; apply elem_of_list_here).
    apply (zeros_0 p x.1); [lia|done].
  - cbn [grids]. by rewrite Eo.
  - rewrite enc_cons, branches_cons, shortest_enc, <-enc_cons. cbn [grids]. rewrite Eo.
    assert (shortest q qs ∈ open_questions p) as (q0&Hq0&_&Hq)%elem_of_open by (rewrite Eo; apply shortest_elem).
    cbn [Nat.add]. f_equal. apply sum_until_code. intros x Hx. rewrite Hq in Hx. apply elem_of_list_filter in Hx as [Hlx Hx].
    destruct (question_range q0 x Hq0 Hx). unfold solvable. rewrite <-Eo, open_step by done.
    pose proof Hlx as [Hx0 _].
    assert (puzzle_ok (<[x.1 := x.2]> p)) as Hp' by (apply puzzle_insert; [done|lia]).
    assert (zeros (<[x.1 := x.2]> p) <= n) as Hz' by (pose proof (zeros_insert p x.1 x.2 Hx0); lia).
    split; [|by apply IH]. pose proof (search_knuth n _ Hp' Hz') as Hs.
    destruct (knuth (enc (open_questions (<[x.1 := x.2]> p)))) as [sol|].
    + destruct Hs as (g&->&_). rewrite !bool_decide_eq_true_2; eauto.
    + rewrite Hs. done.
Qed.
Lemma Ret_pair {A B} (a a' : A) (b b' : B) : Ret (a, b) = Ret (a', b') -> a = a'.
Proof. by intros [=]. Qed.
Lemma sudoku_grids fuel p : puzzle_ok p -> enough fuel -> (forall i j, ~ clash p i j) ->
  sudoku_calls fuel p = Ret (match sudoku_search 81 p with Some g => Ok g | None => Err NoSolution end, ∅, grids 81 p).
Proof.
  intros Hp Hf Hno. destruct (sudoku_branches fuel p Hp Hf Hno) as (r&E&_).
  rewrite (grids_knuth 81 p Hp) in E by (unfold zeros; destruct Hp as [<- _]; apply filter_length).
  pose proof (sudoku_same fuel p) as Es. rewrite E in Es |- *. cbn [bind] in Es.
  rewrite (sudoku_is_search fuel p Hp Hf Hno) in Es. apply Ret_pair in Es. rewrite Es. reflexivity.
Qed.

(** Filling in a single keeps clues apart. *)
Lemma no_clash_insert p x : legal p x -> (forall i j, ~ clash p i j) -> forall i j, ~ clash (<[x.1 := x.2]> p) i j.
Proof.
  intros [Hx0 Hl]%legal_iff Hno i j (Hij&v&Hv&Hi&Hj&u&Hu&Hiu&Hju).
  pose proof (lookup_lt_Some _ _ _ Hx0) as Hlt.
  destruct (decide (x.1 = i)) as [E|Hni]; [|destruct (decide (x.1 = j)) as [E|Hnj]].
  - subst i. rewrite list_lookup_insert in Hi by done. injection Hi as <-. rewrite list_lookup_insert_ne in Hj by lia.
    apply (Hl j); [by exists u|done].
  - subst j. rewrite list_lookup_insert in Hj by done. injection Hj as <-. rewrite list_lookup_insert_ne in Hi by lia.
    apply (Hl i); [by exists u|done].
  - rewrite list_lookup_insert_ne in Hi, Hj by done. apply (Hno i j). split; [done|]. exists v. split_and!; try done. by exists u.
Qed.
Lemma unit_NoDup u : u ∈ units -> NoDup u /\ length u = 9.
Proof. revert u. apply (proj1 (Forall_forall (fun u => NoDup u /\ length u = 9) units)). apply (bool_decide_unpack _). vm_compute. exact I. Qed.
Lemma full_no_open p : puzzle_ok p -> (forall i j, ~ clash p i j) -> 0 ∉ p -> open_questions p = [].
Proof.
  intros [Hlen H9] Hno H0. unfold open_questions.
  destruct (filter (fun q => ~ answered p q) questions) as [|q qs] eqn:Eq; [done|]. exfalso.
  assert (q ∈ filter (fun q => ~ answered p q) questions) as [Ha Hq]%elem_of_list_filter by (rewrite Eq; apply elem_of_list_here).
  apply Ha. unfold answered. apply Exists_exists. clear Eq qs Ha.
  assert (forall c, c < 81 -> exists v, p !! c = Some v /\ 1 <= v <= 9) as Hval.
  { intros c Hc. destruct (lookup_lt_is_Some_2 p c) as [v Hv]; [lia|]. exists v. split; [done|].
    pose proof (proj1 (Forall_lookup _ _) H9 _ _ Hv) as Hv9. cbn in Hv9. split; [|done].
    destruct v; [|lia]. exfalso. apply H0. by eapply elem_of_list_lookup_2. }
  apply elem_of_questions in Hq as [(c&Hc&->)|(u&v&Hu&Hv&->)].
  - destruct (Hval c Hc) as (v&Hv&?). exists (c, v). split; [by apply elem_of_cell_question|done].
  - destruct (unit_NoDup u Hu) as [Hnd Hu9].
    assert (v ∈ (fun c => default 0 (p !! c)) <$> u) as (c&->&Hc)%elem_of_list_fmap.
    { assert ((fun c => default 0 (p !! c)) <$> u ≡ₚ seq 1 9) as ->; [|apply elem_of_seq; lia].
      apply submseteq_Permutation_length_eq; [by rewrite fmap_length, Hu9|].
      apply NoDup_submseteq.
      - apply NoDup_fmap_2_strong; [|done]. intros a b Ha Hb E.
        destruct (Hval a) as (va&Eva&?); [by eapply unit_cell|]. destruct (Hval b) as (vb&Evb&?); [by eapply unit_cell|].
        rewrite Eva, Evb in E. cbn in E. subst vb.
        destruct (Nat.lt_trichotomy a b) as [Hab|[->|Hab]]; [|done|]; exfalso.
        + apply (Hno a b). split; [done|]. exists va. split_and!; [lia|done|done|]. by exists u.
        + apply (Hno b a). split; [done|]. exists va. split_and!; [lia|done|done|]. by exists u.
      - intros w (c&->&Hc)%elem_of_list_fmap. destruct (Hval c) as (vc&->&?); [by eapply unit_cell|].
        cbn [default]. apply elem_of_seq. unfold id. lia. }
    destruct (Hval c) as (vc&Evc&?); [by eapply unit_cell|]. rewrite Evc. cbn.
    exists (c, vc). split; [|done]. apply elem_of_unit_question. done.
Qed.

(** A single is the only answer of an open question. *)
Lemma filter_only {A} (P : A -> Prop) `{!forall x, Decision (P x)} (l : list A) x :
  NoDup l -> x ∈ l -> P x -> (forall y, y ∈ l -> P y -> y = x) -> filter P l = [x].
Proof.
  intros Hnd Hx Hp Hu. assert (filter P l ≡ₚ [x]) as H1.
  { apply NoDup_Permutation; [by apply NoDup_filter|apply NoDup_singleton|]. intros y.
    rewrite elem_of_list_filter, elem_of_list_singleton. naive_solver. }
  by apply Permutation_singleton_r in H1.
Qed.
Lemma single_open p x : puzzle_ok p -> single p x -> [code x] ∈ enc (open_questions p).
Proof.
  intros [Hlen _] (Hl&Hx2&Hs). pose proof (proj1 (legal_iff _ _) Hl) as [H0 Hsee].
  pose proof (lookup_lt_Some _ _ _ H0) as Hx1. rewrite Hlen in Hx1.
  unfold enc. apply elem_of_list_fmap. exists [x]. split; [done|]. apply elem_of_open. destruct Hs as [Hs|(u&Hu&Hxu&Hs)].
  - exists (cell_question x.1). split_and!.
    + apply elem_of_questions. left. by exists x.1.
    + intros (a&[E1 ?]%elem_of_cell_question&E2)%Exists_exists. rewrite E1, H0 in E2. injection E2 as E2. lia.
    + symmetry. apply filter_only; [|by apply elem_of_cell_question|done|].
      * apply NoDup_fmap_2; [|apply NoDup_seq]. by intros a b [=].
      * intros [a b] [E ?]%elem_of_cell_question Hy. cbn in *. subst a. rewrite (Hs b) by done. by destruct x.
  - exists (unit_question u x.2). split_and!.
    + apply elem_of_questions. right. by exists u, x.2.
    + intros (a&[E1 E2]%elem_of_unit_question&E3)%Exists_exists. apply (Hsee a.1); [by exists u|]. by rewrite E3, E2.
    + symmetry. apply filter_only; [|by apply elem_of_unit_question|done|].
      * apply NoDup_fmap_2; [|by apply unit_NoDup]. by intros a b [=].
      * intros [a b] [E ?]%elem_of_unit_question Hy. cbn in *. subst b. rewrite (Hs a) by done. by destruct x.
Qed.
Lemma legal_completes p g c v : completes p g -> p !! c = Some 0 -> g !! c = Some v -> 1 <= v <= 9 -> legal p (c, v).
Proof.
  intros [(_&_&Hu) Hk] H0 Hc Hv. apply legal_iff. split; [done|]. cbn. intros d (u&Hin&H1&H2) E.
  destruct (Hu u v Hin Hv) as (e&_&Heq). pose proof (Hk _ _ E ltac:(lia)) as Hd.
  assert (e = c) as -> by (by apply Heq). assert (c = d) as <- by (by apply Heq). rewrite H0 in E. injection E as E. lia.
Qed.
Lemma single_completes p g x : length p = 81 -> completes p g -> single p x -> g !! x.1 = Some x.2.
Proof.
  intros Hp Hg (Hl&Hx2&Hs). pose proof (proj1 (legal_iff _ _) Hl) as [H0 Hsee].
  pose proof Hg as [(Hlen&Hval&Hu) Hk]. destruct Hs as [Hs|(u&Hin&Hxu&Hs)].
  - destruct (lookup_lt_is_Some_2 g x.1) as [v Hv]; [rewrite Hlen, <-Hp; by eapply lookup_lt_Some|].
    pose proof (proj1 (Forall_lookup _ _) Hval _ _ Hv) as Hv9. cbn in Hv9.
    rewrite Hv, (Hs v); [done|done|]. by eapply legal_completes.
  - destruct (Hu u x.2 Hin Hx2) as (c&[Hc Hgc]&_). rewrite <-(Hs c Hc); [done|].
    destruct (p !! c) as [w|] eqn:Ew; [|apply lookup_ge_None in Ew; pose proof (unit_cell u c Hin Hc); lia]. destruct (decide (w = 0)) as [->|Hw].
    + by eapply legal_completes.
    + exfalso. rewrite (Hk c w Ew Hw) in Hgc. apply (Hsee c); [by exists u|congruence].
Qed.
Lemma singles_forced p g : singles p g -> puzzle_ok p -> (forall i j, ~ clash p i j) ->
  (exists rows, forced (enc (open_questions p)) rows /\ length rows = zeros p) /\
  forall g', completes p g' -> g' = g.
Proof.
  induction 1 as [p H0|p x g Hs Hg IH]; intros Hp Hno.
  - split.
    + exists []. rewrite full_no_open by done. split; [constructor|]. unfold zeros.
      destruct (filter (fun v => v = 0) p) as [|z l] eqn:E; [done|].
      assert (z ∈ filter (fun v => v = 0) p) as [-> ?]%elem_of_list_filter by (rewrite E; apply elem_of_list_here). done.
    + intros g' [(Hlen&_) Hk]. apply list_eq_same_length with 81; [by destruct Hp|exact Hlen|].
      intros i a b _ Ha Hb. rewrite (Hk i b Hb) in Ha; [congruence|]. intros ->. apply H0. by eapply elem_of_list_lookup_2.
  - destruct Hp as [Hlen H9]. pose proof Hs as (Hl&Hx2&_). pose proof Hl as [H0 _].
    pose proof (lookup_lt_Some _ _ _ H0) as Hx1. rewrite Hlen in Hx1.
    destruct IH as [(rows&Hf&Hr) Hu]; [apply puzzle_insert; [done|lia]|by apply no_clash_insert|]. split.
    + exists (code x :: rows). split; [|cbn; rewrite Hr; apply zeros_insert; [done|lia]].
      constructor; [by apply single_open|]. by rewrite open_step.
    + intros g' Hg'. apply Hu. split; [by destruct Hg'|]. intros i v Hi Hv. destruct (decide (x.1 = i)) as [<-|Hne].
      * rewrite list_lookup_insert in Hi by lia. injection Hi as <-. apply (single_completes p); [exact Hlen|exact Hg'|exact Hs].
      * rewrite list_lookup_insert_ne in Hi by done. destruct Hg' as [_ Hk]. by apply Hk.
Qed.
(** C89. *)
Lemma singles_calls fuel p g : puzzle_ok p -> enough fuel -> (forall i j, ~ clash p i j) -> singles p g ->
  sudoku_calls fuel p = Ret (Ok g, ∅, S (length (filter (fun v => v = 0) p))) /\
  completes p g /\ forall g', completes p g' -> g' = g.
Proof.
  intros Hp Hf Hno Hs. destruct (singles_forced p g Hs Hp Hno) as [(rows&Hfo&Hr) Hu].
  destruct (forced_knuth _ _ _ eq_refl Hfo) as (sol&Hk&_&Hb).
  destruct (sudoku_branches fuel p Hp Hf Hno) as (r&E&Hok). destruct (Hok sol Hk) as [g1 ->].
  rewrite Hb, Hr in E. pose proof (sudoku_same fuel p) as Es. rewrite E in Es. cbn [bind] in Es.
  pose proof (sudoku_sound fuel p g1 ∅ Hp Hf (eq_sym Es)) as Hc. pose proof (Hu g1 Hc) as ->. done.
Qed.

(** Puzzles that are rejected before the search. *)
Lemma rejected_calls fuel p :
  (length p <> 81 -> sudoku_calls fuel p = Ret (Err (InvalidSize (length p)), ∅, 0)) /\
  (forall i j, puzzle_ok p -> enough fuel -> first_clash p i j -> same_box i j ->
   sudoku_calls fuel p = Ret (Err NoSolution, ∅, 0)).
Proof.
  split; [intros H; unfold sudoku_calls; by rewrite decide_True|].
  intros i j Hp Hf Hfc Hb. pose proof Hfc as [Hc Hmin]. destruct (clash_lookup p i j Hc) as (Hij&v&Hi&Hj&Hv).
  destruct (puzzle_range p Hp j v) as [? ?]; [by apply elem_of_enumerate|].
  unfold sudoku_calls. rewrite decide_False by (destruct Hp as [-> _]; intros H'; by apply H').
  destruct (ready_new _ constraints_NoDup) as (mx&->&Hpar&HR). specialize (HR fuel Hf). cbn [bind].
  rewrite (enumerate_split p j v Hj).
  destruct (prefix_ready fuel p j ((j, v) :: drop (S j) (enumerate p)) mx Hp HR Hpar) as (mx'&E&HR'&Hp').
  { intros i' j' Hc'%Hmin. lia. }
  rewrite E. clear E.
  assert (conflict SUDOKU_CONSTRAINTS (p_rows_to p j) (j * 9 + v - 1)) as Hconf by (apply conflict_clash; eauto).
  pose proof (nulled_first p i j v Hp Hfc Hj) as Hnull.
  apply Hnull in Hb. destruct (add_clues_invalid fuel j v (drop (S j) (enumerate p)) _ _ HR') as (mx2&->&HR2); [done..|].
  cbn [bind]. by rewrite (ready_drop _ _ _ _ HR2).
Qed.

(** Concrete puzzles. *)
Fixpoint singles_check (steps : list (nat * nat)) (p : list nat) : option (list nat) :=
  match steps with
  | [] => if bool_decide (0 ∉ p) then Some p else None
  | x :: steps =>
      if bool_decide (legal p x /\ 1 <= x.2 <= 9 /\
        (Forall (fun v => legal p (x.1, v) -> v = x.2) (seq 1 9) \/
         Exists (fun u => x.1 ∈ u /\ Forall (fun c => legal p (c, x.2) -> c = x.1) u) units))
      then singles_check steps (<[x.1 := x.2]> p) else None
  end.
Lemma singles_checked steps : forall p g, singles_check steps p = Some g -> singles p g.
Proof.
  induction steps as [|x steps IH]; intros p g; cbn [singles_check].
  - case_bool_decide; [|done]. intros [= <-]. by constructor.
  - case_bool_decide as H; [|done]. destruct H as (Hl&Hx&Hs). intros Hg. apply (singles_step p x); [|by apply IH].
    split_and!; [done|lia|lia|]. destruct Hs as [Hs|Hs].
    + left. intros v Hv. rewrite Forall_forall in Hs. apply Hs, elem_of_seq. lia.
    + right. apply Exists_exists in Hs as (u&Hu&Hxu&Hs). exists u. split_and!; [done|done|]. exact (proj1 (Forall_forall _ _) Hs).
Qed.
