(** The Sudoku solver is the search of [SpecSudokuSearch]. *)
From Verif Require Import Base Dlx Sudoku SpecDlx SpecDlxSearch SpecSudoku SpecSudokuSearch.
From Verif Require Import DlxSets DlxKnuth DlxReady SudokuTable SudokuProofs.
From Coq Require Import ZifyNat.
Ltac Zify.zify_post_hook ::= Z.div_mod_to_equations.

Definition code (x : nat * nat) : nat := x.1 * 9 + (x.2 - 1).
Definition enc (qs : list (list (nat * nat))) : list (list nat) := (fun q : list (nat * nat) => code <$> q) <$> qs.

Lemma enc_cons q qs : enc (q :: qs) = (code <$> q) :: enc qs.
Proof. done. Qed.
Lemma fmap_mjoin {A B} (f : A -> B) (ls : list (list A)) : f <$> mjoin ls = mjoin ((fun l : list A => f <$> l) <$> ls).
Proof.
  induction ls as [|l ls IH]; [done|]. rewrite fmap_cons. change (mjoin (l :: ls)) with (l ++ mjoin ls).
  rewrite fmap_app, IH. done.
Qed.
Lemma mjoin_app {A} (l1 l2 : list (list A)) : mjoin (l1 ++ l2) = mjoin l1 ++ mjoin l2.
Proof.
  induction l1 as [|x l1 IH]; [done|]. cbn [app]. change (mjoin (x :: l1 ++ l2)) with (x ++ mjoin (l1 ++ l2)).
  rewrite IH, app_assoc. done.
Qed.
Lemma family_units f (cells : nat -> list nat) :
  (forall u d, u < 9 -> d < 9 -> f (u * 9 + d) <$> seq 0 9 = unit_constraint (cells u) d) ->
  family f = enc (mjoin ((fun u => unit_question u <$> seq 1 9) <$> (cells <$> seq 0 9))).
Proof.
  intros H. unfold family, enc.
  assert (seq 0 81 = mjoin ((fun u => (fun d => u * 9 + d) <$> seq 0 9) <$> seq 0 9)) as -> by reflexivity.
  rewrite !fmap_mjoin. f_equal. rewrite <-!list_fmap_compose. apply list_fmap_ext. intros i u [-> Hi]%lookup_seq.
  cbn [compose]. rewrite <-(fmap_S_seq 0 9). unfold compose. rewrite <-!list_fmap_compose. apply list_fmap_ext.
  intros j d [-> Hj]%lookup_seq. cbn [compose]. rewrite !Nat.add_0_l. unfold compose. rewrite H by done.
  unfold unit_question, unit_constraint. rewrite <-list_fmap_compose. apply list_fmap_ext. intros ? c _. unfold compose, code. cbn. lia.
Qed.
Lemma enc_questions : enc questions = SUDOKU_CONSTRAINTS.
Proof.
  unfold questions, SUDOKU_CONSTRAINTS, units. rewrite !fmap_app. rewrite !mjoin_app. unfold enc. rewrite !fmap_app. apply (f_equal2 app); [|apply (f_equal2 app); [|apply (f_equal2 app)]].
  - unfold family. rewrite <-list_fmap_compose. apply list_fmap_ext. intros ? c _. unfold compose, cell_question.
    rewrite <-(fmap_S_seq 0 9), <-!list_fmap_compose. apply list_fmap_ext.
    intros ? d _. unfold compose, code. cbn. lia.
  - symmetry. apply family_units. exact row_index.
  - symmetry. apply family_units. exact col_index.
  - symmetry. apply family_units. exact box_index.
Qed.

Lemma elem_of_mjoin {A} (x : A) (ls : list (list A)) : x ∈ mjoin ls <-> exists l, x ∈ l /\ l ∈ ls.
Proof. apply elem_of_list_join. Qed.
Lemma elem_of_questions q : q ∈ questions <->
  (exists c, c < 81 /\ q = cell_question c) \/ (exists u v, u ∈ units /\ 1 <= v <= 9 /\ q = unit_question u v).
Proof.
  unfold questions. rewrite elem_of_app, elem_of_list_fmap, elem_of_mjoin. setoid_rewrite elem_of_seq. split.
  - intros [(c&->&?)|(l&Hq&(u&->&Hu)%elem_of_list_fmap)]; [left; exists c; split; [lia|done]|].
    right. apply elem_of_list_fmap in Hq as (v&->&Hv%elem_of_seq). exists u, v. split_and!; [done|lia..|done].
  - intros [(c&?&->)|(u&v&Hu&Hv&->)]; [left; exists c; split; [done|lia]|].
    right. eexists. split; [|apply elem_of_list_fmap; by exists u]. apply elem_of_list_fmap. exists v.
    split; [done|]. apply elem_of_seq. lia.
Qed.
Lemma elem_of_cell_question c x : x ∈ cell_question c <-> x.1 = c /\ 1 <= x.2 <= 9.
Proof.
  unfold cell_question. rewrite elem_of_list_fmap. setoid_rewrite elem_of_seq. destruct x as [a b]. cbn. split.
  - intros (v&[= -> ->]&?). lia.
  - intros [-> ?]. exists b. split; [done|lia].
Qed.
Lemma elem_of_unit_question u v x : x ∈ unit_question u v <-> x.1 ∈ u /\ x.2 = v.
Proof.
  unfold unit_question. rewrite elem_of_list_fmap. destruct x as [a b]. cbn. split.
  - intros (c&[= -> ->]&?). done.
  - intros [? ->]. by exists a.
Qed.
Lemma question_range q x : q ∈ questions -> x ∈ q -> x.1 < 81 /\ 1 <= x.2 <= 9.
Proof.
  intros [(c&Hc&->)|(u&v&Hu&Hv&->)]%elem_of_questions.
  - intros [-> ?]%elem_of_cell_question. done.
  - intros [Hx ->]%elem_of_unit_question. split; [|done]. by eapply unit_cell.
Qed.
Lemma code_eq x y : 1 <= x.2 <= 9 -> 1 <= y.2 <= 9 -> code x = code y -> x = y.
Proof. destruct x as [a b], y as [c d]. unfold code. cbn. intros ? ? H. f_equal; lia. Qed.

Definition sees (c c' : nat) : Prop := exists u, u ∈ units /\ c ∈ u /\ c' ∈ u.
Lemma legal_iff p x : legal p x <-> p !! x.1 = Some 0 /\ forall c, sees x.1 c -> p !! c <> Some x.2.
Proof.
  unfold legal, sees. rewrite Forall_forall. setoid_rewrite Forall_forall. naive_solver.
Qed.
Lemma legal_insert p x y : legal p x -> x.1 < length p -> x.2 <> 0 -> y.2 <> 0 ->
  legal (<[x.1 := x.2]> p) y <-> legal p y /\ ~ (x.1 = y.1 \/ x.2 = y.2 /\ sees x.1 y.1).
Proof.
  rewrite !legal_iff. intros [Hx0 Hx] Hl Hv Hv'. split.
  - intros [H0 H]. assert (x.1 <> y.1) as Hne by (intros E; rewrite <-E, list_lookup_insert in H0 by done; congruence).
    rewrite list_lookup_insert_ne in H0 by done. split_and!; [done| |].
    + intros c Hc E. apply (H c Hc). rewrite list_lookup_insert_ne; [done|]. intros <-. congruence.
    + intros [?|[E (u&Hu&H1&H2)]]; [done|]. apply (H x.1); [by exists u|]. rewrite list_lookup_insert by done. by rewrite E.
  - intros [[H0 H] Hn]. assert (x.1 <> y.1) as Hne by tauto. rewrite list_lookup_insert_ne by done. split; [done|].
    intros c Hc E. destruct (decide (x.1 = c)) as [<-|Hne'].
    + rewrite list_lookup_insert in E by done. injection E as E. apply Hn. right. split; [done|].
      destruct Hc as (u&?&?&?). by exists u.
    + rewrite list_lookup_insert_ne in E by done. by apply (H c).
Qed.
Lemma answered_insert p x q : p !! x.1 = Some 0 -> q ∈ questions ->
  answered (<[x.1 := x.2]> p) q <-> answered p q \/ x ∈ q.
Proof.
  intros Hx Hq. pose proof (lookup_lt_Some _ _ _ Hx) as Hl. unfold answered. rewrite !Exists_exists. split.
  - intros (y&Hy&E). destruct (decide (x.1 = y.1)) as [Heq|Hne].
    + right. rewrite Heq, list_lookup_insert in E by (by rewrite <-Heq). injection E as E.
      destruct x as [a b], y as [c d]. cbn in *. by subst.
    + rewrite list_lookup_insert_ne in E by done. left. by exists y.
  - intros [(y&Hy&E)|H].
    + exists y. split; [done|]. rewrite list_lookup_insert_ne; [done|]. intros Heq. rewrite Heq, E in Hx.
      injection Hx as Hx. destruct (question_range q y Hq Hy). lia.
    + exists x. split; [done|]. by rewrite list_lookup_insert.
Qed.
Lemma elem_of_open p q : q ∈ open_questions p <-> exists q0, q0 ∈ questions /\ ~ answered p q0 /\ q = filter (legal p) q0.
Proof.
  unfold open_questions. rewrite elem_of_list_fmap. setoid_rewrite elem_of_list_filter. naive_solver.
Qed.
Lemma meets_open p x y : legal p x -> legal p y -> x.1 < 81 -> 1 <= x.2 <= 9 -> 1 <= y.2 <= 9 ->
  meets (enc (open_questions p)) (code x) (code y) <-> x.1 = y.1 \/ x.2 = y.2 /\ sees x.1 y.1.
Proof.
  intros Hx Hy Hx1 Hx2 Hy2. unfold meets. rewrite Exists_exists. split.
  - intros (k&(q&->&(q0&Hq&_&->)%elem_of_open)%elem_of_list_fmap&(a&Ea&[_ Ha]%elem_of_list_filter)%elem_of_list_fmap&
      (b&Eb&[_ Hb]%elem_of_list_filter)%elem_of_list_fmap).
    destruct (question_range q0 a Hq Ha). destruct (question_range q0 b Hq Hb).
    apply code_eq in Ea; [|done..]. apply code_eq in Eb; [|done..]. subst a b.
    apply elem_of_questions in Hq as [(c&Hc&->)|(u&v&Hu&Hv&->)].
    + apply elem_of_cell_question in Ha as [-> _], Hb as [-> _]. by left.
    + apply elem_of_unit_question in Ha as [? ->], Hb as [? ->]. right. split; [done|]. by exists u.
  - assert (forall q0, q0 ∈ questions -> ~ answered p q0 -> x ∈ q0 -> y ∈ q0 ->
      exists k, k ∈ enc (open_questions p) /\ code x ∈ k /\ code y ∈ k) as Hk.
    { intros q0 Hq Ha H1 H2. exists (code <$> filter (legal p) q0). split_and!.
      - apply elem_of_list_fmap. eexists. split; [done|]. apply elem_of_open. eauto.
      - apply elem_of_list_fmap. exists x. split; [done|]. by apply elem_of_list_filter.
      - apply elem_of_list_fmap. exists y. split; [done|]. by apply elem_of_list_filter. }
    intros [E|[E (u&Hu&H1&H2)]].
    + apply (Hk (cell_question x.1)).
      * apply elem_of_questions. left. by exists x.1.
      * intros (a&[E1 ?]%elem_of_cell_question&E2)%Exists_exists. destruct Hx as [Hx _]. rewrite E1, Hx in E2.
        injection E2 as E2. lia.
      * by apply elem_of_cell_question.
      * apply elem_of_cell_question. split; [done|lia].
    + apply (Hk (unit_question u x.2)).
      * apply elem_of_questions. right. by exists u, x.2.
      * intros (a&[E1 E2]%elem_of_unit_question&E3)%Exists_exists. apply legal_iff in Hx as [_ Hx].
        apply (Hx a.1); [by exists u|]. by rewrite E3, E2.
      * by apply elem_of_unit_question.
      * by apply elem_of_unit_question.
Qed.

Lemma filter_code (P : nat -> Prop) `{!forall n, Decision (P n)} (Q : nat * nat -> Prop) `{!forall x, Decision (Q x)}
    (R : nat * nat -> Prop) `{!forall x, Decision (R x)} (q : list (nat * nat)) :
  (forall x, x ∈ q -> Q x /\ P (code x) <-> R x) -> filter P (code <$> filter Q q) = code <$> filter R q.
Proof.
  induction q as [|x q IH]; intros HR; [done|]. specialize (IH (fun y Hy => HR y (elem_of_list_further _ _ _ Hy))).
  specialize (HR x (elem_of_list_here _ _)). rewrite (filter_cons Q), (filter_cons R). destruct (decide (Q x)) as [HQ|HQ].
  - rewrite fmap_cons, filter_cons. destruct (decide (P (code x))); destruct (decide (R x)); try tauto; cbn [fmap]; by rewrite ?fmap_cons, IH.
  - rewrite (decide_False (P := R x)) by tauto. done.
Qed.
Lemma open_step p x : legal p x -> x.1 < 81 -> 1 <= x.2 <= 9 ->
  choose (enc (open_questions p)) (code x) = enc (open_questions (<[x.1 := x.2]> p)).
Proof.
  intros Hx H1 H2. unfold choose.
  assert (forall y, 1 <= y.2 <= 9 -> legal p y /\ ~ meets (enc (open_questions p)) (code x) (code y) <->
    legal (<[x.1 := x.2]> p) y) as Hm.
  { intros y Hy. rewrite legal_insert; [|done|destruct Hx as [Hx _]; by apply lookup_lt_Some in Hx|lia|lia].
    split; intros [Hl Hn]; (split; [done|]); revert Hn; rewrite meets_open by done; tauto. }
  assert (forall q, q ∈ questions -> ~ answered (<[x.1 := x.2]> p) q <-> ~ answered p q /\ code x ∉ code <$> filter (legal p) q) as Ha.
  { intros q Hq. rewrite answered_insert by (done || apply Hx). split.
    - intros Hn. split; [tauto|]. intros (y&E&[_ Hy]%elem_of_list_filter)%elem_of_list_fmap.
      apply code_eq in E; [|done|by eapply question_range]. subst. tauto.
    - intros [Hn Hc] [?|Hin]; [done|]. apply Hc, elem_of_list_fmap. exists x. split; [done|]. by apply elem_of_list_filter. }
  assert (forall qs, (forall q, q ∈ qs -> q ∈ questions) ->
    (fun k : list nat => filter (fun s => ~ meets (enc (open_questions p)) (code x) s) k) <$> filter (fun k => code x ∉ k)
      (enc ((fun q : list (nat * nat) => filter (legal p) q) <$> filter (fun q => ~ answered p q) qs)) =
    enc ((fun q : list (nat * nat) => filter (legal (<[x.1 := x.2]> p)) q) <$> filter (fun q => ~ answered (<[x.1 := x.2]> p) q) qs)) as Hqs.
  { induction qs as [|q qs IH]; intros Hq; [done|]. specialize (IH (fun q Hin => Hq q (elem_of_list_further _ _ _ Hin))).
    specialize (Hq q (elem_of_list_here _ _)). specialize (Ha q Hq).
    rewrite (filter_cons (fun q => ~ answered p q)). destruct (decide (~ answered p q)) as [Hp|Hp].
    - rewrite fmap_cons, enc_cons, filter_cons.
      destruct (decide (code x ∉ code <$> filter (legal p) q)) as [Hc|Hc].
      + rewrite filter_cons, decide_True by tauto. rewrite !fmap_cons, IH, enc_cons. f_equal.
        apply filter_code. intros y Hy. apply Hm. by eapply question_range.
      + rewrite filter_cons, decide_False by tauto. exact IH.
    - rewrite filter_cons, decide_False by tauto. exact IH. }
  apply (Hqs questions). done.
Qed.

(** The empty grid. *)
Lemma filter_all {A} (P : A -> Prop) `{!forall x, Decision (P x)} (l : list A) : (forall x, x ∈ l -> P x) -> filter P l = l.
Proof.
  induction l as [|x l IH]; intros Hl; [done|]. rewrite filter_cons, decide_True by (apply Hl, elem_of_list_here).
  f_equal. apply IH. intros y Hy. by apply Hl, elem_of_list_further.
Qed.
Lemma open_empty : open_questions (replicate 81 0) = questions.
Proof.
  assert (forall c v, replicate 81 0 !! c = Some v -> v = 0) as H0 by (intros c v [-> _]%lookup_replicate; done).
  unfold open_questions. rewrite (filter_all (fun q => ~ answered _ q)).
  - rewrite <-(list_fmap_id questions) at 2. apply list_fmap_ext. intros i q Hq%elem_of_list_lookup_2.
    apply filter_all. intros x Hx. destruct (question_range q x Hq Hx). apply legal_iff. split.
    + apply lookup_replicate. split; [done|lia].
    + intros c _ E%H0. lia.
  - intros q Hq (x&Hx&E%H0)%Exists_exists. destruct (question_range q x Hq Hx). lia.
Qed.

(** The clues. *)
Definition pre (p : list nat) (k : nat) : list nat := take k p ++ replicate (81 - k) 0.
Lemma pre_lookup p k c : length p = 81 -> k <= 81 -> pre p k !! c = if decide (c < k) then p !! c else
  if decide (c < 81) then Some 0 else None.
Proof.
  intros Hl Hk. unfold pre. destruct (decide (c < k)).
  - rewrite lookup_app_l by (rewrite take_length; lia). by apply lookup_take.
  - rewrite lookup_app_r by (rewrite take_length; lia). rewrite take_length. destruct (decide (c < 81)).
    + apply lookup_replicate. split; [done|lia].
    + apply lookup_ge_None. rewrite replicate_length. lia.
Qed.
Lemma pre_S p k v : length p = 81 -> p !! k = Some v -> pre p (S k) = <[k := v]> (pre p k).
Proof.
  intros Hl Hv. pose proof (lookup_lt_Some _ _ _ Hv) as Hk. apply list_eq. intros c.
  rewrite pre_lookup by lia. destruct (decide (c = k)) as [->|Hne].
  - rewrite list_lookup_insert, decide_True by (lia || (unfold pre; rewrite app_length, take_length, replicate_length; lia)). done.
  - rewrite list_lookup_insert_ne by done. rewrite pre_lookup by lia.
    destruct (decide (c < S k)), (decide (c < k)); try lia; done.
Qed.
Lemma p_rows_to_S p k v : p !! k = Some v ->
  p_rows_to p (S k) = p_rows_to p k ++ if decide (v = 0) then [] else [k * 9 + v - 1].
Proof.
  intros Hv. unfold p_rows_to. rewrite (take_S_r _ _ (k, v)) by (by rewrite enumerate_lookup, Hv).
  rewrite clue_rows_app. f_equal. rewrite clue_rows_cons. by destruct (decide _).
Qed.
Lemma open_clues p : puzzle_ok p -> (forall i j, ~ clash p i j) ->
  forall k, k <= 81 -> foldl choose SUDOKU_CONSTRAINTS (p_rows_to p k) = enc (open_questions (pre p k)).
Proof.
  intros Hp Hno. pose proof Hp as [Hl H9]. induction k as [|k IH]; intros Hk.
  - change (pre p 0) with (replicate 81 0). rewrite open_empty, enc_questions. unfold p_rows_to. by rewrite take_0.
  - destruct (lookup_lt_is_Some_2 p k) as [v Hv]; [lia|]. rewrite (p_rows_to_S p k v Hv), foldl_app, IH by lia.
    rewrite (pre_S p k v) by done. destruct (decide (v = 0)) as [->|H0].
    + cbn [foldl]. rewrite list_insert_id; [done|]. rewrite pre_lookup by lia. rewrite decide_False, decide_True by lia. done.
    + cbn [foldl]. replace (k * 9 + v - 1) with (code (k, v)) by (unfold code; cbn; lia).
      pose proof (proj1 (Forall_lookup _ _) H9 _ _ Hv) as Hv9. cbn in Hv9.
      rewrite (open_step _ (k, v)); cbn [fst snd]; [done| |lia|lia].
      apply legal_iff. cbn [fst snd]. split.
      * rewrite pre_lookup by lia. rewrite decide_False, decide_True by lia. done.
      * intros c (u&Hu&H1&H2) E. rewrite pre_lookup in E by lia. destruct (decide (c < k)).
        -- apply (Hno c k). split; [done|]. exists v. split_and!; try done. by exists u.
        -- destruct (decide (c < 81)); congruence.
Qed.
Lemma open_puzzle p : puzzle_ok p -> (forall i j, ~ clash p i j) ->
  foldl choose SUDOKU_CONSTRAINTS (p_rows p) = enc (open_questions p).
Proof.
  intros Hp Hno. pose proof Hp as [Hl _]. pose proof (open_clues p Hp Hno 81 ltac:(lia)) as H.
  unfold pre in H. cbn [Nat.sub replicate] in H. rewrite app_nil_r, take_ge in H by lia.
  unfold p_rows_to in H. rewrite take_ge in H by (unfold enumerate; rewrite imap_length; lia). exact H.
Qed.

(** The search. *)
Lemma shortest_enc q qs : shortest (code <$> q) (enc qs) = code <$> shortest q qs.
Proof.
  revert q. induction qs as [|q' qs IH]; intros q; [done|]. rewrite enc_cons. cbn [shortest]. rewrite !fmap_length.
  rewrite <-IH. by destruct (decide _).
Qed.
Definition zeros (p : list nat) : nat := length (filter (fun v => v = 0) p).
Lemma zeros_insert p c v : p !! c = Some 0 -> v <> 0 -> S (zeros (<[c := v]> p)) = zeros p.
Proof.
  intros Hc Hv. unfold zeros. rewrite <-(take_drop_middle p c 0 Hc) at 2.
  rewrite (insert_take_drop p c v) by (by eapply lookup_lt_Some).
  rewrite !filter_app, !app_length, !filter_cons. rewrite decide_False, decide_True by done. cbn. lia.
Qed.
Lemma zeros_0 p c : zeros p = 0 -> p !! c <> Some 0.
Proof.
  unfold zeros. intros H Hc. apply nil_length_inv in H. assert (0 ∈ filter (fun v => v = 0) p) as Hin.
  { apply elem_of_list_filter. split; [done|]. by eapply elem_of_list_lookup_2. }
  rewrite H in Hin. by apply elem_of_nil in Hin.
Qed.
Lemma puzzle_insert p c v : puzzle_ok p -> v <= 9 -> puzzle_ok (<[c := v]> p).
Proof. intros [Hl H9] Hv. split; [by rewrite insert_length|]. by apply Forall_insert. Qed.
Lemma p_rows_insert p x : puzzle_ok p -> p !! x.1 = Some 0 -> 1 <= x.2 <= 9 ->
  p_rows (<[x.1 := x.2]> p) ≡ₚ code x :: p_rows p.
Proof.
  intros Hp Hc Hv. pose proof (lookup_lt_Some _ _ _ Hc) as Hlt.
  assert (forall r, r ∈ p_rows p -> r <> code x) as Hr.
  { intros r (i&v&Hi&H0&->)%elem_of_p_rows E.
    destruct (puzzle_range p Hp i v) as [? ?]; [by apply elem_of_enumerate|].
    unfold code in E. assert (i = x.1) as -> by lia. congruence. }
  apply NoDup_Permutation.
  - apply p_rows_NoDup, puzzle_insert; [done|lia].
  - apply NoDup_cons. split; [|by apply p_rows_NoDup]. intros H%Hr. done.
  - intros r. rewrite elem_of_cons, !elem_of_p_rows. split.
    + intros (i&v&Hi&H0&->). destruct (decide (x.1 = i)) as [<-|Hne].
      * rewrite list_lookup_insert in Hi by done. injection Hi as <-. left. unfold code. lia.
      * rewrite list_lookup_insert_ne in Hi by done. right. eauto.
    + intros [->|(i&v&Hi&H0&->)].
      * exists x.1, x.2. rewrite list_lookup_insert by done. split_and!; [done|lia|unfold code; lia].
      * exists i, v. rewrite list_lookup_insert_ne; [done|]. intros <-. congruence.
Qed.

Lemma first_some_search (F : nat -> option (list nat)) (G : nat * nat -> option (list nat)) (R : list nat -> list nat -> Prop) l :
  (forall x, x ∈ l -> match F (code x) with Some s => exists g, G x = Some g /\ R s g | None => G x = None end) ->
  match first_some F (code <$> l) with Some s => exists g, first_some G l = Some g /\ R s g | None => first_some G l = None end.
Proof.
  induction l as [|x l IH]; intros H; [done|]. rewrite fmap_cons. cbn [first_some].
  pose proof (H x (elem_of_list_here _ _)) as Hx. destruct (F (code x)) as [s|].
  - destruct Hx as (g&->&HR). eauto.
  - rewrite Hx. apply IH. intros y Hy. by apply H, elem_of_list_further.
Qed.
Lemma search_knuth n : forall p, puzzle_ok p -> zeros p <= n ->
  match knuth (enc (open_questions p)) with
  | Some sol => exists g, sudoku_search n p = Some g /\ puzzle_ok g /\ open_questions g = [] /\ p_rows p ++ sol ≡ₚ p_rows g
  | None => sudoku_search n p = None
  end.
Proof.
  induction n as [|n IH]; intros p Hp Hz; destruct (open_questions p) as [|q qs] eqn:Eo.
  - exists p. cbn [sudoku_search]. rewrite Eo, app_nil_r. done.
  - rewrite enc_cons, knuth_cons, shortest_enc. cbn [sudoku_search]. rewrite Eo.
    assert (shortest q qs ∈ open_questions p) as (q0&_&_&Hq)%elem_of_open by (rewrite Eo; apply shortest_elem).
    destruct (shortest q qs) as [|x l]; [done|]. exfalso.
    assert (x ∈ filter (legal p) q0) as [[Hx _] _]%elem_of_list_filter by (rewrite <-Hq; apply elem_of_list_here).
    apply (zeros_0 p x.1); [lia|done].
  - exists p. cbn [sudoku_search]. rewrite Eo, app_nil_r. done.
  - rewrite enc_cons, knuth_cons, shortest_enc, <-enc_cons. cbn [sudoku_search]. rewrite Eo.
    assert (shortest q qs ∈ open_questions p) as (q0&Hq0&_&Hq)%elem_of_open by (rewrite Eo; apply shortest_elem).
    apply first_some_search. intros x Hx. rewrite Hq in Hx. apply elem_of_list_filter in Hx as [Hlx Hx].
    destruct (question_range q0 x Hq0 Hx). rewrite <-Eo, open_step by done.
    pose proof Hlx as [Hx0 _]. specialize (IH (<[x.1 := x.2]> p)).
    destruct (knuth (enc (open_questions (<[x.1 := x.2]> p)))) as [sol|]; cbn [fmap option_fmap option_map].
    + destruct IH as (g&Hg&Hok&Ho&Hperm); [apply puzzle_insert; [done|lia]|pose proof (zeros_insert p x.1 x.2 Hx0); lia|].
      exists g. split_and!; try done. rewrite <-Hperm, p_rows_insert by done.
      rewrite <-Permutation_middle. done.
    + apply IH; [apply puzzle_insert; [done|lia]|pose proof (zeros_insert p x.1 x.2 Hx0); lia].
Qed.

Lemma open_nil_full g : puzzle_ok g -> open_questions g = [] -> Forall (fun v => 1 <= v <= 9) g.
Proof.
  intros [Hl H9] Ho. apply Forall_lookup. intros c v Hv. pose proof (proj1 (Forall_lookup _ _) H9 _ _ Hv) as Hv9. cbn in Hv9.
  split; [|done]. destruct v as [|v]; [|lia]. exfalso.
  assert (filter (legal g) (cell_question c) ∈ open_questions g) as H.
  { apply elem_of_open. exists (cell_question c). split_and!; [|intros (x&[E ?]%elem_of_cell_question&E2)%Exists_exists|done].
    - apply elem_of_questions. left. exists c. split; [|done]. rewrite <-Hl. by eapply lookup_lt_Some.
    - rewrite E, Hv in E2. injection E2 as E2. lia. }
  rewrite Ho in H. by apply elem_of_nil in H.
Qed.
Lemma full_rows g : Forall (fun v => 1 <= v <= 9) g -> p_rows g ≡ₚ choices g.
Proof.
  intros Hg. assert (p_rows g = choices g) as ->; [|done]. unfold p_rows, clue_rows, enumerate, choices.
  assert (forall f : nat -> nat, omap clue_row (imap (fun n x => (f n, x)) g) = imap (fun c v => f c * 9 + (v - 1)) g) as H.
  { induction Hg as [|v g Hv Hg IH]; intros f; [done|].
    rewrite !imap_cons. cbn [omap list_omap]. unfold clue_row at 1. cbn [fst snd]. rewrite decide_False by lia.
    f_equal; [lia|]. apply (IH (f ∘ S)). }
  apply (H (fun n => n)).
Qed.
(** C69. *)
Lemma sudoku_is_search fuel p : puzzle_ok p -> enough fuel -> (forall i j, ~ clash p i j) ->
  solve_sudoku fuel p = Ret (match sudoku_search 81 p with Some g => Ok g | None => Err NoSolution end, ∅).
Proof.
  intros Hp Hf Hno. unfold solve_sudoku. rewrite decide_False by (destruct Hp as [-> _]; intros H; by apply H).
  destruct (ready_new _ constraints_NoDup) as (mx&->&Hpar&HR). specialize (HR fuel Hf). cbn [bind].
  destruct (prefix_ready fuel p (length p) [] mx Hp HR Hpar) as (mx'&E&HR'&Hp').
  { intros i j Hc. by apply Hno in Hc. }
  assert (take (length p) (enumerate p) = enumerate p) as Ht.
  { rewrite take_ge; [done|]. unfold enumerate. by rewrite imap_length. }
  assert (p_rows_to p (length p) = p_rows p) as Hrows by (unfold p_rows_to; by rewrite Ht).
  rewrite Ht, app_nil_r in E. rewrite E. rewrite Hrows in HR', Hp'. clear E Hrows Ht. cbn [add_clues bind].
  rewrite (ready_knuth _ _ _ _ HR'), Hp', open_puzzle by done.
  pose proof (search_knuth 81 p Hp) as Hs. destruct (knuth (enc (open_questions p))) as [sol|].
  - destruct Hs as (g&->&Hok&Ho&Hperm).
    { unfold zeros. destruct Hp as [<- _]. apply filter_length. }
    apply open_nil_full in Ho; [|done]. rewrite (full_rows g) in Hperm by done. cbn [bind].
    rewrite (sort_choices g) by done. by rewrite read_choices.
  - rewrite Hs; [done|]. unfold zeros. destruct Hp as [<- _]. apply filter_length.
Qed.

(** Concrete puzzles. *)
Lemma no_clash_check p :
  bool_decide (Forall (fun u => Forall (fun i => Forall (fun j => p !! i = p !! j -> i < j -> p !! i = Some 0 \/ p !! i = None) u) u) units) = true ->
  forall i j, ~ clash p i j.
Proof.
  intros H%bool_decide_eq_true i j (Hij&v&Hv&Hi&Hj&u&Hu&Hiu&Hju).
  rewrite Forall_forall in H. specialize (H u Hu). rewrite Forall_forall in H. specialize (H i Hiu).
  rewrite Forall_forall in H. destruct (H j Hju); congruence || lia.
Qed.
Lemma completes_check p g : length p = 81 -> grid_check g = true ->
  bool_decide (Forall (fun i => p !! i = Some 0 \/ p !! i = g !! i) (seq 0 81)) = true -> completes p g.
Proof.
  intros Hl Hg H%bool_decide_eq_true. split; [by apply grid_check_ok|]. intros i v Hi Hv.
  rewrite Forall_forall in H. destruct (H i); [|congruence..].
  apply elem_of_seq. apply lookup_lt_Some in Hi. lia.
Qed.
