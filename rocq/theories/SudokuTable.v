(** The constraint table is Sudoku. *)
From Verif Require Import Base Dlx Sudoku SpecDlx SpecSudoku DlxSets.
From Coq Require Import ZifyNat.
Ltac Zify.zify_post_hook ::= Z.div_mod_to_equations.

Lemma code_inj c d c' d' : d < 9 -> d' < 9 -> c * 9 + d = c' * 9 + d' -> c = c' /\ d = d'.
Proof. lia. Qed.

Definition cell_constraint (c : nat) : list nat := (fun d => c * 9 + d) <$> seq 0 9.
Definition unit_constraint (u : list nat) (d : nat) : list nat := (fun c => c * 9 + d) <$> u.

Lemma elem_of_cell_constraint c r : r ∈ cell_constraint c <-> exists d, d < 9 /\ r = c * 9 + d.
Proof.
  unfold cell_constraint. rewrite elem_of_list_fmap. setoid_rewrite elem_of_seq.
  split; intros (d&?&?); exists d; lia.
Qed.
Lemma elem_of_unit_constraint u d r : r ∈ unit_constraint u d <-> exists c, c ∈ u /\ r = c * 9 + d.
Proof. unfold unit_constraint. rewrite elem_of_list_fmap. naive_solver. Qed.

Lemma elem_of_family f k : k ∈ family f <-> exists i, i < 81 /\ k = f i <$> seq 0 9.
Proof.
  unfold family. rewrite elem_of_list_fmap. setoid_rewrite elem_of_seq.
  split; intros (i&?&?); exists i; split; try done; lia.
Qed.

Lemma seq_fmap_ext (f g : nat -> nat) :
  (forall k, k < 9 -> f k = g k) -> f <$> seq 0 9 = g <$> seq 0 9.
Proof. intros H. apply list_fmap_ext. intros i x [-> Hi]%lookup_seq. by apply H. Qed.

Lemma unit_fmap (f : nat -> nat) d : unit_constraint (f <$> seq 0 9) d = (fun k => f k * 9 + d) <$> seq 0 9.
Proof. unfold unit_constraint. by rewrite <-list_fmap_compose. Qed.

Lemma row_index u d : u < 9 -> d < 9 ->
  (fun inner => (u * 9 + d) `mod` 9 + inner * 9 + ((u * 9 + d) `div` 9) * 81) <$> seq 0 9 = unit_constraint (row_cells u) d.
Proof. intros Hu Hd. unfold row_cells. rewrite unit_fmap. apply seq_fmap_ext. intros k Hk. lia. Qed.
Lemma col_index u d : u < 9 -> d < 9 ->
  (fun inner => (u * 9 + d) + inner * 81) <$> seq 0 9 = unit_constraint (col_cells u) d.
Proof. intros Hu Hd. unfold col_cells. rewrite unit_fmap. apply seq_fmap_ext. intros k Hk. lia. Qed.
Definition box_index_fun (index inner : nat) : nat :=
  index `mod` 9 + (inner `mod` 3) * 9 + (inner `div` 3) * 81
    + ((index `mod` 27) `div` 9) * 27 + (index `div` 27) * 243.
Lemma box_index u d : u < 9 -> d < 9 ->
  box_index_fun (u * 9 + d) <$> seq 0 9 = unit_constraint (box_cells u) d.
Proof.
  intros Hu Hd. unfold box_cells. rewrite unit_fmap. apply seq_fmap_ext. intros k Hk. unfold box_index_fun.
  assert ((u * 9 + d) `mod` 9 = d) as -> by lia.
  assert ((u * 9 + d) `div` 27 = u `div` 3) as -> by lia.
  assert (((u * 9 + d) `mod` 27) `div` 9 = u `mod` 3) as -> by lia. lia.
Qed.

Lemma elem_of_units u : u ∈ units <-> exists i, i < 9 /\ (u = row_cells i \/ u = col_cells i \/ u = box_cells i).
Proof.
  unfold units. rewrite !elem_of_app, !elem_of_list_fmap. setoid_rewrite elem_of_seq. split.
  - intros [(i&?&?)|[(i&?&?)|(i&?&?)]]; exists i; (split; [lia|]); auto.
  - intros (i&?&[?|[?|?]]); [left|right; left|right; right]; exists i; (split; [done|lia]).
Qed.

Lemma elem_of_constraints k :
  k ∈ SUDOKU_CONSTRAINTS <->
  (exists c, c < 81 /\ k = cell_constraint c) \/
  (exists u d, u ∈ units /\ d < 9 /\ k = unit_constraint u d).
Proof.
  unfold SUDOKU_CONSTRAINTS. rewrite !elem_of_app, !elem_of_family. fold box_index_fun.
  assert (forall i, i < 81 -> i `div` 9 < 9 /\ i `mod` 9 < 9 /\ i = i `div` 9 * 9 + i `mod` 9) as Hi by (intros; lia).
  split.
  - intros [(i&Hlt&->)|[(i&Hlt&->)|[(i&Hlt&->)|(i&Hlt&->)]]]; [left; by exists i|right..];
      destruct (Hi i Hlt) as (H1&H2&H3); rewrite H3.
    + exists (row_cells (i `div` 9)), (i `mod` 9). rewrite elem_of_units. split_and!; [eauto|done|]. by apply row_index.
    + exists (col_cells (i `div` 9)), (i `mod` 9). rewrite elem_of_units. split_and!; [eauto|done|]. by apply col_index.
    + exists (box_cells (i `div` 9)), (i `mod` 9). rewrite elem_of_units. split_and!; [eauto|done|]. by apply box_index.
  - intros [(c&Hc&->)|(u&d&(i&Hlt&Hu)%elem_of_units&Hd&->)].
    + left. by exists c.
    + right. destruct Hu as [->|[->| ->]].
      * left. exists (i * 9 + d). split; [lia|]. symmetry. by apply row_index.
      * right. left. exists (i * 9 + d). split; [lia|]. symmetry. by apply col_index.
      * right. right. exists (i * 9 + d). split; [lia|]. symmetry. by apply box_index.
Qed.

(** Units have 9 distinct cells below 81, and every cell is in a row, a column
    and a box. *)
Lemma elem_of_row u c : u < 9 -> c ∈ row_cells u <-> c < 81 /\ c `div` 9 = u.
Proof.
  intros Hu. unfold row_cells. rewrite elem_of_list_fmap. setoid_rewrite elem_of_seq. split.
  - intros (k&->&?). lia.
  - intros []. exists (c `mod` 9). lia.
Qed.
Lemma elem_of_col u c : u < 9 -> c ∈ col_cells u <-> c < 81 /\ c `mod` 9 = u.
Proof.
  intros Hu. unfold col_cells. rewrite elem_of_list_fmap. setoid_rewrite elem_of_seq. split.
  - intros (k&->&?). lia.
  - intros []. exists (c `div` 9). lia.
Qed.
Definition box_of (c : nat) : nat := c `div` 27 * 3 + c `mod` 9 `div` 3.
Lemma elem_of_box u c : u < 9 -> c ∈ box_cells u <-> c < 81 /\ box_of c = u.
Proof.
  intros Hu. unfold box_cells, box_of. rewrite elem_of_list_fmap. setoid_rewrite elem_of_seq. split.
  - intros (k&->&?). 
    assert (k `div` 3 < 3 /\ k `mod` 3 < 3) as [H1 H2] by lia. generalize dependent (k `div` 3). generalize dependent (k `mod` 3).
    intros b Hb a Ha. assert (u `div` 3 < 3 /\ u `mod` 3 < 3 /\ u = u `div` 3 * 3 + u `mod` 3) as (H3&H4&H5) by lia.
    generalize dependent (u `div` 3). generalize dependent (u `mod` 3). intros x Hx y Hy Hxy. lia.
  - intros [H1 H2]. exists (c `div` 9 `mod` 3 * 3 + c `mod` 3). split; [|lia].
    lia.
Qed.

Lemma unit_cell u c : u ∈ units -> c ∈ u -> c < 81.
Proof. intros (i&Hi&[->|[->| ->]])%elem_of_units; [rewrite elem_of_row|rewrite elem_of_col|rewrite elem_of_box]; tauto. Qed.

Lemma constraints_NoDup : Forall NoDup SUDOKU_CONSTRAINTS.
Proof.
  apply Forall_forall. intros k [(c&_&->)|(u&d&(i&Hi&Hu)%elem_of_units&_&->)]%elem_of_constraints.
  - apply NoDup_fmap_2_strong; [|apply NoDup_seq]. intros x y _ _. lia.
  - destruct Hu as [->|[->| ->]]; unfold row_cells, col_cells, box_cells; rewrite unit_fmap;
      (apply NoDup_fmap_2_strong; [|apply NoDup_seq]); intros x y Hx%elem_of_seq Hy%elem_of_seq; lia.
Qed.

Lemma occurs_sudoku r : occurs SUDOKU_CONSTRAINTS r <-> r < 729.
Proof.
  split.
  - intros (k&[(c&Hc&->)|(u&d&Hu&Hd&->)]%elem_of_constraints&Hr).
    + apply elem_of_cell_constraint in Hr as (d&Hd&->). lia.
    + apply elem_of_unit_constraint in Hr as (c&Hc&->). apply (unit_cell u c Hu) in Hc. lia.
  - intros Hr. exists (cell_constraint (r `div` 9)). rewrite elem_of_constraints, elem_of_cell_constraint. split.
    + left. exists (r `div` 9). split; [lia|done].
    + exists (r `mod` 9). lia.
Qed.

Lemma elem_of_choices g r : r ∈ choices g <-> exists c v, g !! c = Some v /\ r = c * 9 + (v - 1).
Proof.
  unfold choices. rewrite elem_of_lookup_imap. naive_solver.
Qed.
Lemma choices_NoDup g : Forall (fun v => 1 <= v <= 9) g -> NoDup (choices g).
Proof.
  intros Hg. apply NoDup_alt. intros i j r. unfold choices. rewrite !list_lookup_imap.
  intros (v&Hv&->)%fmap_Some (w&Hw&Heq)%fmap_Some.
  rewrite Forall_lookup in Hg. apply Hg in Hv, Hw. lia.
Qed.
Lemma choices_lookup g c d : Forall (fun v => 1 <= v <= 9) g -> d < 9 ->
  c * 9 + d ∈ choices g <-> g !! c = Some (S d).
Proof.
  intros Hg Hd. rewrite elem_of_choices. split.
  - intros (c'&v&Hv&Heq). rewrite Forall_lookup in Hg. pose proof (Hg _ _ Hv). apply code_inj in Heq as [-> ->]; [|lia..].
    rewrite Hv. f_equal. lia.
  - intros H. exists c, (S d). split; [done|]. lia.
Qed.

Lemma Forall_choice {A B} (P : A -> B -> Prop) (l : list A) :
  (forall x, x ∈ l -> exists y, P x y) -> exists k, Forall2 P l k.
Proof.
  induction l as [|x l IH]; intros H; [by exists []|].
  destruct (H x) as [y Hy]; [apply elem_of_list_here|]. destruct IH as [k Hk].
  { intros z Hz. apply H. by apply elem_of_list_further. }
  exists (y :: k). by constructor.
Qed.

Lemma exact_cover_sudoku sel :
  exact_cover SUDOKU_CONSTRAINTS sel <-> exists g, complete_grid g /\ sel ≡ₚ choices g.
Proof.
  split.
  - intros (Hnd&Hcov&Hocc).
    assert (forall r, r ∈ sel -> r < 729) as Hlt.
    { intros r Hr. apply occurs_sudoku. destruct (Hocc r Hr) as (k&Hk&Hrk). by exists k. }
    destruct (Forall_choice (fun c v => 1 <= v <= 9 /\ c * 9 + (v - 1) ∈ sel) (seq 0 81)) as [g Hg].
    { intros c Hc%elem_of_seq. destruct (Hcov (cell_constraint c)) as (r&[Hr Hrk]&_).
      - apply elem_of_constraints. left. exists c. split; [lia|done].
      - apply elem_of_cell_constraint in Hrk as (d&Hd&->). exists (S d). split; [lia|].
        by replace (S d - 1) with d by lia. }
    assert (length g = 81) as Hlen.
    { apply Forall2_length in Hg. by rewrite seq_length in Hg. }
    assert (forall c v, g !! c = Some v -> c < 81 /\ 1 <= v <= 9 /\ c * 9 + (v - 1) ∈ sel) as Hgc.
    { intros c v Hv. destruct (Forall2_lookup_r _ _ _ _ _ Hg Hv) as (c'&Hc'&Hv'&Hin).
      apply lookup_seq in Hc' as [-> Hc']. done. }
    assert (forall r, r ∈ sel <-> r ∈ choices g) as Hmem.
    { intros r. rewrite elem_of_choices. split.
      - intros Hr. pose proof (Hlt r Hr) as Hr9.
        assert (is_Some (g !! (r `div` 9))) as [v Hv] by (apply lookup_lt_is_Some; lia).
        exists (r `div` 9), v. split; [done|]. destruct (Hgc _ _ Hv) as (Hc&Hv9&Hin).
        destruct (Hcov (cell_constraint (r `div` 9))) as (t&_&Hu).
        { apply elem_of_constraints. left. exists (r `div` 9). split; [done|done]. }
        transitivity t; [symmetry|]; apply Hu.
        + split; [done|]. apply elem_of_cell_constraint. exists (r `mod` 9). lia.
        + split; [done|]. apply elem_of_cell_constraint. exists (v - 1). split; [lia|done].
      - intros (c&v&Hv&->). by apply Hgc. }
    assert (Forall (fun v => 1 <= v <= 9) g) as Hg9.
    { apply Forall_lookup. intros c v Hv. by apply Hgc in Hv as (_&?&_). }
    exists g. split.
    + split_and!; [done|done|]. intros u v Hu Hv.
      destruct (Hcov (unit_constraint u (v - 1))) as (r&[Hr Hrk]&Hun).
      { apply elem_of_constraints. right. exists u, (v - 1). split_and!; [done|lia|done]. }
      apply elem_of_unit_constraint in Hrk as (c&Hc&->). exists c. split.
      * split; [done|]. apply Hmem, choices_lookup in Hr; [|done|lia]. rewrite Hr. f_equal. lia.
      * intros c' [Hc' Hgv]. assert (c * 9 + (v - 1) = c' * 9 + (v - 1)); [|lia]. apply Hun. split.
        -- by apply Hgc.
        -- apply elem_of_unit_constraint. eauto.
    + apply NoDup_Permutation; [done|by apply choices_NoDup|]. done.
  - intros (g&(Hlen&Hg9&Hu)&Hsel). apply (exact_cover_perm _ (choices g)); [by rewrite Hsel|]. split_and!.
    + by apply choices_NoDup.
    + intros k [(c&Hc&->)|(u&d&Huu&Hd&->)]%elem_of_constraints.
      * assert (is_Some (g !! c)) as [v Hv] by (apply lookup_lt_is_Some; lia).
        pose proof (proj1 (Forall_lookup _ _) Hg9 _ _ Hv) as Hv9. cbn in Hv9.
        exists (c * 9 + (v - 1)). split.
        -- split; [apply elem_of_choices; eauto|]. apply elem_of_cell_constraint. exists (v - 1). split; [lia|done].
        -- intros r [Hr (d&Hd&->)%elem_of_cell_constraint]. apply choices_lookup in Hr; [|done|done].
           rewrite Hv in Hr. injection Hr as ->. lia.
      * destruct (Hu u (S d) Huu) as (c&[Hc Hgc]&Hun); [lia|]. exists (c * 9 + d). split.
        -- split; [by apply choices_lookup|]. apply elem_of_unit_constraint. eauto.
        -- intros r [Hr (c'&Hc'&->)%elem_of_unit_constraint]. apply choices_lookup in Hr; [|done|done].
           by rewrite (Hun c').
    + intros r (c&v&Hv&->)%elem_of_choices. apply occurs_sudoku.
      pose proof (proj1 (Forall_lookup _ _) Hg9 _ _ Hv) as Hv9. cbn in Hv9. apply lookup_lt_Some in Hv. lia.
Qed.

Lemma conflict_sudoku c d c' d' : c < 81 -> c' < 81 -> d < 9 -> d' < 9 ->
  conflict SUDOKU_CONSTRAINTS [c * 9 + d] (c' * 9 + d') <->
  c = c' \/ d = d' /\ exists u, u ∈ units /\ c ∈ u /\ c' ∈ u.
Proof.
  intros Hc Hc' Hd Hd'. split.
  - intros (k&a&[(x&Hx&->)|(u&e&Hu&He&->)]%elem_of_constraints&->%elem_of_list_singleton&H1&H2).
    + apply elem_of_cell_constraint in H1 as (d1&?&[]%code_inj); [|done..].
      apply elem_of_cell_constraint in H2 as (d2&?&[]%code_inj); [|done..]. left. congruence.
    + apply elem_of_unit_constraint in H1 as (c1&?&[]%code_inj); [|done..].
      apply elem_of_unit_constraint in H2 as (c2&?&[]%code_inj); [|done..]. right. subst. eauto.
  - intros [->|[-> (u&Hu&H1&H2)]].
    + exists (cell_constraint c'), (c' * 9 + d). rewrite elem_of_constraints, !elem_of_cell_constraint, elem_of_list_singleton.
      split_and!; [left; eauto|done|eauto|eauto].
    + exists (unit_constraint u d'), (c * 9 + d'). rewrite elem_of_constraints, !elem_of_unit_constraint, elem_of_list_singleton.
      split_and!; [right; eauto|done|eauto|eauto].
Qed.

Lemma filter_single (P : list nat -> Prop) `{forall k, Decision (P k)} (f : nat -> list nat) l i :
  NoDup l -> i ∈ l -> (forall j, j ∈ l -> P (f j) <-> j = i) -> filter P (f <$> l) = [f i].
Proof.
  intros Hnd Hi HP. apply elem_of_list_split in Hi as (l1&l2&->).
  apply NoDup_app in Hnd as (_&H1&[H2 _]%NoDup_cons).
  assert (forall l', (forall j, j ∈ l' -> j ∈ l1 ++ i :: l2 /\ j <> i) -> filter P (f <$> l') = []) as Hnil.
  { intros l' Hl'. apply elem_of_nil_inv. intros k [Hk (j&->&Hj)%elem_of_list_fmap]%elem_of_list_filter.
    apply Hl' in Hj as [Hj Hne]. by apply HP in Hk. }
  rewrite fmap_app, fmap_cons, filter_app, filter_cons, (Hnil l1), (Hnil l2), decide_True; [done|..].
  - apply HP; [|done]. rewrite elem_of_app. right. apply elem_of_list_here.
  - intros j Hj. split; [rewrite elem_of_app; right; by apply elem_of_list_further|]. by intros ->.
  - intros j Hj. split; [rewrite elem_of_app; by left|]. intros ->. eapply H1; [done|apply elem_of_list_here].
Qed.

Lemma last_box c d : c < 81 -> d < 9 ->
  last (filter (fun k => c * 9 + d ∈ k) SUDOKU_CONSTRAINTS) = Some (unit_constraint (box_cells (box_of c)) d).
Proof.
  intros Hc Hd. unfold SUDOKU_CONSTRAINTS. fold box_index_fun. rewrite !app_assoc, filter_app.
  set (i := box_of c * 9 + d). assert (box_of c < 9) as Hb by (unfold box_of; lia).
  assert (forall j, j < 81 -> c * 9 + d ∈ box_index_fun j <$> seq 0 9 <-> j = i) as Hmem.
  { intros j Hj. replace j with (j `div` 9 * 9 + j `mod` 9) at 1 by lia.
    rewrite box_index, elem_of_unit_constraint by lia. split.
    - intros (c'&Hc'&[-> ->]%code_inj); [|lia..]. apply elem_of_box in Hc' as [_ Hc']; [|lia]. unfold i. rewrite Hc'. lia.
    - intros ->. exists c. rewrite elem_of_box by lia. unfold i.
      replace ((box_of c * 9 + d) `div` 9) with (box_of c) by lia. replace ((box_of c * 9 + d) `mod` 9) with d by lia. done. }
  assert (filter (fun k => c * 9 + d ∈ k) (family box_index_fun) = [unit_constraint (box_cells (box_of c)) d]) as ->.
  2:{ by rewrite last_snoc. }
  rewrite <-box_index by lia. fold i. unfold family.
  apply (filter_single (fun k => c * 9 + d ∈ k) (fun j => box_index_fun j <$> seq 0 9) (seq 0 81) i); [apply NoDup_seq|apply elem_of_seq; unfold i; lia|].
  intros j Hj%elem_of_seq. apply Hmem. lia.
Qed.
