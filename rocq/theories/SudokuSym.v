(** Solving commutes with symmetries. *)
From Verif Require Import Base Dlx Sudoku SpecDlx SpecSudoku SpecSudokuSym SudokuTable SudokuProofs.
From Coq Require Import ZifyNat.

Section sym.
Context (pi pi' rho rho' : nat -> nat) (Hsym : symmetry pi pi' rho rho').

Lemma moved_lookup p c : c < 81 -> moved pi' rho p !! c = Some (rho (p !!! pi' c)).
Proof. intros Hc. unfold moved. rewrite list_lookup_fmap, lookup_seq_lt by done. done. Qed.
Lemma moved_length p : length (moved pi' rho p) = 81.
Proof. unfold moved. by rewrite fmap_length, seq_length. Qed.
Lemma moved_at p c v : length p = 81 -> p !! c = Some v -> moved pi' rho p !! pi c = Some (rho v).
Proof.
  intros Hl Hc. destruct Hsym as (Hpi&_). assert (c < 81) as Hlt by (apply lookup_lt_Some in Hc; lia).
  destruct (Hpi c Hlt) as (H1&_&H2&_). rewrite moved_lookup, H2 by done. f_equal. f_equal.
  by apply list_lookup_total_correct.
Qed.
Lemma moved_from p c w : length p = 81 -> moved pi' rho p !! c = Some w ->
  c < 81 /\ exists v, p !! pi' c = Some v /\ w = rho v.
Proof.
  intros Hl Hc. assert (c < 81) as Hlt by (apply lookup_lt_Some in Hc; by rewrite moved_length in Hc).
  rewrite moved_lookup in Hc by done. injection Hc as <-. split; [done|].
  destruct Hsym as (Hpi&_). destruct (Hpi c Hlt) as (_&H1&_).
  destruct (lookup_lt_is_Some_2 p (pi' c)) as [v Hv]; [lia|]. exists v. split; [done|]. f_equal.
  by apply list_lookup_total_correct.
Qed.

Lemma moved_puzzle p : puzzle_ok p -> puzzle_ok (moved pi' rho p).
Proof.
  intros [Hl Hv]. split; [apply moved_length|]. apply Forall_lookup. intros c w Hc.
  apply moved_from in Hc as (_&v&Hp&->); [|done]. rewrite Forall_lookup in Hv. specialize (Hv _ _ Hp). cbn in Hv.
  destruct Hsym as (_&Hr&H0&_). destruct (decide (v = 0)) as [->|]; [lia|]. specialize (Hr v ltac:(lia)). lia.
Qed.

Lemma moved_complete g : complete_grid g -> complete_grid (moved pi' rho g).
Proof.
  intros (Hl&Hv&Hu). split_and!; [apply moved_length| |].
  - apply Forall_lookup. intros c w Hc. apply moved_from in Hc as (_&v&Hp&->); [|done].
    rewrite Forall_lookup in Hv. specialize (Hv _ _ Hp). cbn in Hv.
    destruct Hsym as (_&Hr&_). specialize (Hr v Hv). lia.
  - intros u w Hin Hw. pose proof Hsym as (Hpi&Hr&_&_&_&Hm). destruct (Hm u Hin) as (u'&Hin'&Hc).
    destruct (Hr w Hw) as (_&Hr1&_&Hr2). destruct (Hu u' (rho' w) Hin' Hr1) as (c&[Hcu Hcg]&Huniq).
    assert (c < 81) as Hlt by (apply lookup_lt_Some in Hcg; lia). destruct (Hpi c Hlt) as (H1&_&H2&_).
    exists (pi c). split; [split|].
    + apply Hc; [done|]. by rewrite H2.
    + rewrite <-Hr2. by apply moved_at.
    + intros c' [Hc'u Hc'g]. apply moved_from in Hc'g as (Hlt'&v&Hp&Ew); [|done].
      destruct (Hpi c' Hlt') as (_&_&_&H4). rewrite <-H4. f_equal. apply Huniq. split; [by apply Hc|].
      rewrite Hp. f_equal. rewrite Forall_lookup in Hv. specialize (Hv _ _ Hp). cbn in Hv.
      destruct (Hr v Hv) as (_&_&H5&_). congruence.
Qed.

Lemma moved_completes p g : puzzle_ok p -> completes p g -> completes (moved pi' rho p) (moved pi' rho g).
Proof.
  intros [Hl Hv] [Hg Hk]. split; [by apply moved_complete|]. intros c w Hc Hw0.
  apply moved_from in Hc as (Hlt&v&Hp&->); [|done]. pose proof Hsym as (Hpi&_&H0&_).
  destruct (Hpi c Hlt) as (_&_&_&H4). rewrite <-H4. apply moved_at; [by destruct Hg|]. apply Hk; [done|].
  intros ->. by destruct Hw0.
Qed.
End sym.

Lemma symmetry_back pi pi' rho rho' : symmetry pi pi' rho rho' -> symmetry pi' pi rho' rho.
Proof.
  intros (H1&H2&H3&H4&H5&H6). split_and!; try done.
  - intros c Hc. destruct (H1 c Hc) as (?&?&?&?). done.
  - intros v Hv. destruct (H2 v Hv) as (?&?&?&?). done.
Qed.

Lemma moved_back pi pi' rho rho' p : symmetry pi pi' rho rho' -> puzzle_ok p ->
  moved pi rho' (moved pi' rho p) = p.
Proof.
  intros Hs [Hl Hv]. pose proof (symmetry_back _ _ _ _ Hs) as Hb.
  apply list_eq_same_length with 81; [done|apply moved_length|]. intros c x y Hc Hx Hy.
  rewrite (moved_lookup pi rho') in Hx by done. injection Hx as <-.
  pose proof Hs as (Hpi&Hr&_&H0&_). destruct (Hpi c Hc) as (H1&_).
  assert (moved pi' rho p !! pi c = Some (rho y)) as E by (by eapply moved_at).
  apply list_lookup_total_correct in E. rewrite E.
  rewrite Forall_lookup in Hv. specialize (Hv _ _ Hy). cbn in Hv.
  destruct (decide (y = 0)) as [->|Hy0]; [destruct Hs as (_&_&->&_); done|]. apply Hr. lia.
Qed.

Lemma complete_puzzle g : complete_grid g -> puzzle_ok g.
Proof. intros (H1&H2&_). split; [done|]. eapply Forall_impl; [exact H2|]. cbn. lia. Qed.

Lemma symmetry_completes pi pi' rho rho' p g : symmetry pi pi' rho rho' -> puzzle_ok p -> puzzle_ok g ->
  completes p g <-> completes (moved pi' rho p) (moved pi' rho g).
Proof.
  intros Hs Hp Hg. split; [by eapply moved_completes|]. intros H.
  pose proof (moved_completes _ _ _ _ (symmetry_back _ _ _ _ Hs) _ _ (moved_puzzle _ _ _ _ Hs p Hp) H) as H'.
  by rewrite !(moved_back _ _ _ _ _ Hs) in H'.
Qed.

Lemma sudoku_solved fuel p : puzzle_ok p -> matrix_size SUDOKU_CONSTRAINTS < fuel ->
  (exists g, solve_sudoku fuel p = Ret (Ok g, ∅)) <-> exists g, completes p g.
Proof.
  intros Hp Hf. split.
  - intros [g E]. exists g. by eapply sudoku_sound.
  - intros H. destruct (sudoku_complete fuel p Hp Hf H) as (g&E&_). by exists g.
Qed.

Lemma solve_symmetric fuel pi pi' rho rho' p : symmetry pi pi' rho rho' -> puzzle_ok p ->
  matrix_size SUDOKU_CONSTRAINTS < fuel ->
  ((exists g, solve_sudoku fuel p = Ret (Ok g, ∅)) <-> exists g, solve_sudoku fuel (moved pi' rho p) = Ret (Ok g, ∅)) /\
  forall g, completes p g -> (forall g', completes p g' -> g' = g) ->
    solve_sudoku fuel p = Ret (Ok g, ∅) /\ solve_sudoku fuel (moved pi' rho p) = Ret (Ok (moved pi' rho g), ∅).
Proof.
  intros Hs Hp Hf. pose proof (moved_puzzle _ _ _ _ Hs p Hp) as Hq. pose proof (symmetry_back _ _ _ _ Hs) as Hb.
  assert (forall g', completes (moved pi' rho p) g' -> completes p (moved pi rho' g')) as Hback.
  { intros g' H. pose proof (moved_completes _ _ _ _ Hb _ _ Hq H) as H'. by rewrite (moved_back _ _ _ _ _ Hs Hp) in H'. }
  split.
  - rewrite (sudoku_solved fuel p Hp Hf), (sudoku_solved fuel _ Hq Hf). split.
    + intros [g Hg]. exists (moved pi' rho g). by eapply moved_completes.
    + intros [g Hg]. exists (moved pi rho' g). by apply Hback.
  - intros g Hg Hun. split; [by apply sudoku_unique|]. apply sudoku_unique; [done|done|by eapply moved_completes|].
    intros g' Hg'. rewrite <-(Hun _ (Hback g' Hg')). symmetry. apply (moved_back _ _ _ _ _ Hb).
    apply complete_puzzle. apply Hg'.
Qed.

(** * Instances *)

Lemma seq81 (P : nat -> bool) : forallb P (seq 0 81) = true -> forall c, c < 81 -> P c = true.
Proof. intros H c Hc. rewrite forallb_forall in H. apply H. apply in_seq. lia. Qed.

Lemma maps_units_intro f : (forall c, c < 81 -> f c < 81) ->
  (forall i, i < 9 ->
    (exists u', u' ∈ units /\ forall c, c < 81 -> (c `div` 9 = i <-> f c ∈ u')) /\
    (exists u', u' ∈ units /\ forall c, c < 81 -> (c `mod` 9 = i <-> f c ∈ u')) /\
    (exists u', u' ∈ units /\ forall c, c < 81 -> (box_of c = i <-> f c ∈ u'))) -> maps_units f.
Proof.
  intros Hf H u Hu. apply elem_of_units in Hu as (i&Hi&[->|[->| ->]]); destruct (H i Hi) as ((u1&U1&E1)&(u2&U2&E2)&(u3&U3&E3)).
  - exists u1. split; [done|]. intros c Hc. rewrite <-E1, elem_of_row by done. tauto.
  - exists u2. split; [done|]. intros c Hc. rewrite <-E2, elem_of_col by done. tauto.
  - exists u3. split; [done|]. intros c Hc. rewrite <-E3, elem_of_box by done. tauto.
Qed.
Lemma row_unit i : i < 9 -> row_cells i ∈ units.
Proof. intros Hi. apply elem_of_units. exists i. auto. Qed.
Lemma col_unit i : i < 9 -> col_cells i ∈ units.
Proof. intros Hi. apply elem_of_units. exists i. auto. Qed.
Lemma box_unit i : i < 9 -> box_cells i ∈ units.
Proof. intros Hi. apply elem_of_units. exists i. auto. Qed.

Lemma cell_div c x y : x < 9 -> y < 9 -> c = x * 9 + y -> c `div` 9 = x /\ c `mod` 9 = y /\ c < 81.
Proof.
  intros Hx Hy ->. split_and!; [|rewrite Nat.add_comm, Nat.mod_add by lia; by apply Nat.mod_small|lia].
  rewrite Nat.div_add_l by lia. rewrite Nat.div_small by done. lia.
Qed.
Lemma cell_split c : c < 81 -> c `div` 9 < 9 /\ c `mod` 9 < 9 /\ c = c `div` 9 * 9 + c `mod` 9.
Proof.
  intros Hc. split_and!; [apply Nat.div_lt_upper_bound; lia|apply Nat.mod_upper_bound; lia|].
  rewrite Nat.mul_comm. by apply Nat.div_mod.
Qed.

Lemma box_of_div c : box_of c = c `div` 9 `div` 3 * 3 + c `mod` 9 `div` 3.
Proof. unfold box_of. rewrite Nat.div_div by lia. done. Qed.

Lemma flip_units : maps_units flip_cell.
Proof.
  apply maps_units_intro.
  { intros c Hc. destruct (cell_split c Hc) as (H1&H2&_). unfold flip_cell. lia. }
  assert (forall c, c < 81 -> flip_cell c < 81 /\ flip_cell c `div` 9 = c `mod` 9 /\ flip_cell c `mod` 9 = c `div` 9) as Hfl.
  { intros c Hc. destruct (cell_split c Hc) as (H1&H2&_). destruct (cell_div (flip_cell c) _ _ H2 H1 eq_refl) as (?&?&?). done. }
  intros i Hi. split_and!.
  - exists (col_cells i). split; [by apply col_unit|]. intros c Hc. destruct (Hfl c Hc) as (H1&H2&H3). rewrite elem_of_col by done. rewrite H3. tauto.
  - exists (row_cells i). split; [by apply row_unit|]. intros c Hc. destruct (Hfl c Hc) as (H1&H2&H3). rewrite elem_of_row by done. rewrite H2. tauto.
  - exists (box_cells (i `mod` 3 * 3 + i `div` 3)). 
    assert (i `mod` 3 < 3) by (apply Nat.mod_upper_bound; lia). assert (i `div` 3 < 3) by (apply Nat.div_lt_upper_bound; lia).
    split; [apply box_unit; lia|]. intros c Hc. destruct (Hfl c Hc) as (H1&H2&H3). rewrite elem_of_box by lia.
    rewrite !box_of_div, H2, H3.
    pose proof (Nat.div_mod i 3 ltac:(done)).
    destruct (cell_split c Hc) as (Q1&Q2&_).
    assert (c `div` 9 `div` 3 < 3) by (apply Nat.div_lt_upper_bound; lia).
    assert (c `mod` 9 `div` 3 < 3) by (apply Nat.div_lt_upper_bound; lia).
    split; [intros E; split; [done|]|intros [_ E]]; lia.
Qed.
Lemma flip_inverse c : c < 81 -> flip_cell c < 81 /\ flip_cell (flip_cell c) = c.
Proof.
  intros Hc. destruct (cell_split c Hc) as (H1&H2&E). destruct (cell_div (flip_cell c) _ _ H2 H1 eq_refl) as (D1&D2&D3).
  split; [done|]. unfold flip_cell at 1. rewrite D1, D2. done.
Qed.

Lemma permute_units r s r' s' : block_permutation r r' -> block_permutation s s' -> maps_units (permute_cells r s).
Proof.
  intros [Hr Hrb] [Hs Hsb].
  assert (forall c, c < 81 -> permute_cells r s c < 81 /\ permute_cells r s c `div` 9 = r (c `div` 9) /\
    permute_cells r s c `mod` 9 = s (c `mod` 9)) as Hp.
  { intros c Hc. destruct (cell_split c Hc) as (H1&H2&_). destruct (Hr _ H1) as (R1&_). destruct (Hs _ H2) as (S1&_).
    destruct (cell_div (permute_cells r s c) _ _ R1 S1 eq_refl) as (?&?&?). done. }
  apply maps_units_intro; [intros c Hc; by apply Hp|]. intros i Hi. split_and!.
  - exists (row_cells (r i)). split; [apply row_unit; by apply Hr|]. intros c Hc. destruct (Hp c Hc) as (H1&H2&H3).
    destruct (cell_split c Hc) as (Q1&Q2&_). rewrite elem_of_row by (by apply Hr). rewrite H2. split; [intros ->; done|].
    intros [_ E]. destruct (Hr _ Q1) as (_&_&<-&_). rewrite E. by apply Hr.
  - exists (col_cells (s i)). split; [apply col_unit; by apply Hs|]. intros c Hc. destruct (Hp c Hc) as (H1&H2&H3).
    destruct (cell_split c Hc) as (Q1&Q2&_). rewrite elem_of_col by (by apply Hs). rewrite H3. split; [intros ->; done|].
    intros [_ E]. destruct (Hs _ Q2) as (_&_&<-&_). rewrite E. by apply Hs.
  - assert (i `mod` 3 < 3) by (apply Nat.mod_upper_bound; lia). assert (i `div` 3 < 3) by (apply Nat.div_lt_upper_bound; lia).
    pose proof (Nat.div_mod i 3 ltac:(done)) as Hdm.
    set (x := i `div` 3 * 3). set (y := i `mod` 3 * 3). assert (x < 9 /\ y < 9) as [Hx Hy] by lia.
    assert (x `div` 3 = i `div` 3) as Ex by (by apply Nat.div_mul). assert (y `div` 3 = i `mod` 3) as Ey by (by apply Nat.div_mul).
    destruct (Hr _ Hx) as (Rx&_). destruct (Hs _ Hy) as (Sy&_).
    assert (forall n, n < 9 -> n `div` 3 < 3) as H3 by (intros n Hn; apply Nat.div_lt_upper_bound; lia).
    exists (box_cells (r x `div` 3 * 3 + s y `div` 3)). pose proof (H3 _ Rx). pose proof (H3 _ Sy).
    split; [apply box_unit; lia|]. intros c Hc. destruct (Hp c Hc) as (P1&P2&P3).
    destruct (cell_split c Hc) as (Q1&Q2&_). rewrite elem_of_box by lia. rewrite !box_of_div, P2, P3.
    pose proof (Hrb _ x Q1 Hx) as Br. pose proof (Hsb _ y Q2 Hy) as Bs.
    destruct (Hr _ Q1) as (Rc&_). destruct (Hs _ Q2) as (Sc&_).
    pose proof (H3 _ Rc). pose proof (H3 _ Sc). pose proof (H3 _ Q1). pose proof (H3 _ Q2).
    assert (forall a b a' b', b < 3 -> b' < 3 -> a * 3 + b = a' * 3 + b' <-> a = a' /\ b = b') as Hab by (clear; lia).
    replace i with (x `div` 3 * 3 + y `div` 3) at 1 by (rewrite Ex, Ey; lia).
    rewrite !Hab by (done || by apply H3). rewrite Br, Bs. tauto.
Qed.

Lemma block_back r r' : block_permutation r r' -> block_permutation r' r.
Proof.
  intros [Hr Hb]. split.
  - intros i Hi. destruct (Hr i Hi) as (?&?&?&?). done.
  - intros i j Hi Hj. destruct (Hr i Hi) as (_&H1&_&H2). destruct (Hr j Hj) as (_&H3&_&H4).
    rewrite (Hb (r' i) (r' j) H1 H3), H2, H4. done.
Qed.
Lemma permute_inverse r r' s s' c : block_permutation r r' -> block_permutation s s' -> c < 81 ->
  permute_cells r s c < 81 /\ permute_cells r' s' (permute_cells r s c) = c.
Proof.
  intros [Hr _] [Hs _] Hc. destruct (cell_split c Hc) as (H1&H2&E). destruct (Hr _ H1) as (R1&_&R2&_). destruct (Hs _ H2) as (S1&_&S2&_).
  destruct (cell_div (permute_cells r s c) _ _ R1 S1 eq_refl) as (D1&D2&D3). split; [done|].
  unfold permute_cells at 1. rewrite D1, D2, R2, S2. done.
Qed.

Lemma flip_symmetry rho rho' :
  (forall v, 1 <= v <= 9 -> 1 <= rho v <= 9 /\ 1 <= rho' v <= 9 /\ rho' (rho v) = v /\ rho (rho' v) = v) ->
  rho 0 = 0 -> rho' 0 = 0 -> symmetry flip_cell flip_cell rho rho'.
Proof.
  intros H1 H2 H3. split_and!; try done; try apply flip_units.
  intros c Hc. destruct (flip_inverse c Hc). done.
Qed.
Lemma permute_symmetry r r' s s' rho rho' : block_permutation r r' -> block_permutation s s' ->
  (forall v, 1 <= v <= 9 -> 1 <= rho v <= 9 /\ 1 <= rho' v <= 9 /\ rho' (rho v) = v /\ rho (rho' v) = v) ->
  rho 0 = 0 -> rho' 0 = 0 -> symmetry (permute_cells r s) (permute_cells r' s') rho rho'.
Proof.
  intros Hr Hs H1 H2 H3. pose proof (block_back _ _ Hr) as Hr'. pose proof (block_back _ _ Hs) as Hs'.
  split_and!; try done; [|by eapply permute_units..].
  intros c Hc. destruct (permute_inverse _ _ _ _ c Hr Hs Hc). destruct (permute_inverse _ _ _ _ c Hr' Hs' Hc). done.
Qed.
