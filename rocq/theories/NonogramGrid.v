(** Whole-grid deduction: rounds of line deductions reach the least stable
    refinement of the starting grid. *)
From Verif Require Import Base Nonogram SpecNonogram NonogramStates NonogramLine NonogramDeduce SudokuProofs.

(** * One line *)

Notation gle := (Forall2 sqle).
Lemma sqle_refl a : sqle a a. Proof. by right. Qed.
Lemma gle_refl g : gle g g.
Proof. induction g; constructor; [apply sqle_refl|done]. Qed.
Lemma sqle_trans a b c : sqle a b -> sqle b c -> sqle a c.
Proof. unfold sqle. intros [H1|H1] [H2|H2]; subst; auto. Qed.
Lemma gle_trans g1 g2 g3 : gle g1 g2 -> gle g2 g3 -> gle g1 g3.
Proof. intros H. revert g3. induction H; intros g3 H3; inversion H3; subst; constructor; [by eapply sqle_trans|eauto]. Qed.
Lemma sqle_antisym a b : sqle a b -> sqle b a -> a = b.
Proof. unfold sqle. intros [H1|H1] [H2|H2]; congruence. Qed.
Lemma gle_antisym g1 g2 : gle g1 g2 -> gle g2 g1 -> g1 = g2.
Proof. induction 1; intros H3; inversion H3; subst; [done|]. f_equal; [by apply sqle_antisym|auto]. Qed.
Lemma gle_agrees g h b : gle g h -> Forall2 agrees h b -> Forall2 agrees g b.
Proof.
  intros H. revert b. induction H as [|s t g h Hs H IH]; intros b Hb; inversion Hb; subst; constructor; [|auto].
  by destruct Hs as [->| ->].
Qed.

Lemma list_eq_Forall2 {A} (l k : list A) : l = k <-> Forall2 eq l k.
Proof. split; [intros ->; by apply Reflexive_instance_0|]. induction 1; congruence. Qed.

(** The automaton of a rule beginning with zero. *)
Lemma zero_states r : exists x st, rule_states (0 :: r) = Start :: End :: x :: st /\ x <> Fill.
Proof.
  rewrite rule_states_eq. pose proof (gap_length_pos r) as Hl. rewrite gap_length_cons.
  unfold descs. rewrite gap_cons. cbn [seq fmap list_fmap app]. 
  assert (exists l, gap r = (0, r) :: l) as [l ->] by (destruct r; eexists; reflexivity).
  cbn [length fmap list_fmap node_of] in *. destruct l as [|d l].
  - eexists _, _. split; [reflexivity|]. done.
  - eexists _, _. split; [reflexivity|]. done.
Qed.
Lemma find_left_zero r line : find_left (rule_states (0 :: r)) line = Fault Panic.
Proof.
  destruct (zero_states r) as (x&st&->&Hx). unfold find_left. cbn [length replicate Nat.add].
  unfold vec_set at 1. cbn [length]. rewrite decide_True by lia. cbn [bind insert list_insert].
  destruct line; cbn [match_loop match_pass vec_get expect lookup list_lookup Nat.add bind]; cbv zeta;
    cbn [match_pass]; unfold vec_get; cbn; by destruct x.
Qed.

(** A rule beginning or ending with zero. *)
Lemma line_improper rule g : ~ proper rule ->
  line_right_left (machine_new rule) g = Fault Panic \/
  (line_right_left (machine_new rule) g = Ret (Err NoSolution) /\ forall b, ~ fits rule g b).
Proof.
  intros Hp. unfold line_right_left, machine_new. cbn [left_states right_states].
  destruct (decide (head rule = Some 0)) as [Hz|Hz].
  { left. destruct rule as [|v r]; [done|]. injection Hz as ->. by rewrite find_left_zero. }
  assert (last rule = Some 0) as Hl.
  { destruct (decide (last rule = Some 0)) as [|Hl]; [done|]. by destruct Hp. }
  destruct (find_left_spec rule g Hz) as [(b&E&_&_)|[E Hno]]; rewrite E; cbn [bind]; [|by right].
  left. apply last_Some in Hl as [l ->]. rewrite rev_app_distr. cbn [rev app]. by rewrite find_left_zero.
Qed.
Global Instance proper_dec rule : Decision (proper rule).
Proof. unfold proper. apply _. Defined.

Definition line_stable (rule : list nat) (s : list square) : Prop :=
  line_right_left (machine_new rule) s = Ret (Ok (false, s)).

Lemma refine_sound rule g L R b : extremes rule g L R -> fits rule g b ->
  Forall2 agrees (refine g (lv L) (lv R)) b.
Proof.
  intros (HL&HR&Hb) Hf. destruct (Hb b Hf) as [H1 H2]. apply Forall2_same_length_lookup. split.
  { rewrite refine_length. by rewrite (fits_length _ _ _ Hf). }
  intros i s x Hs Hx. assert (i < length b) as Hi by (by apply lookup_lt_Some in Hx).
  pose proof (fits_length _ _ _ Hf). pose proof (fits_length _ _ _ HL). pose proof (fits_length _ _ _ HR).
  destruct (lookup_lt_is_Some_2 g i) as [sq Hsq]; [lia|].
  destruct (lookup_lt_is_Some_2 (lv L) i) as [a Ha]; [rewrite lv_length; lia|].
  destruct (lookup_lt_is_Some_2 (lv R) i) as [c Hc]; [rewrite lv_length; lia|].
  destruct (lookup_lt_is_Some_2 (lv b) i) as [d Hd]; [rewrite lv_length; lia|].
  rewrite (refine_lookup _ _ _ _ _ _ _ Hsq Ha Hc) in Hs. injection Hs as <-.
  pose proof (Forall2_lookup_lr _ _ _ _ _ _ H1 Hc Hd) as Hle1.
  pose proof (Forall2_lookup_lr _ _ _ _ _ _ H2 Hd Ha) as Hle2.
  destruct Hf as [_ Hag]. pose proof (Forall2_lookup_lr _ _ _ _ _ _ Hag Hsq Hx) as Hax.
  destruct sq; cbn [refine_cell]; [|done..]. case_decide as He; [|done].
  assert (d = a) as -> by lia. rewrite <-(lv_parity _ _ _ _ Hx Hd). by destruct (Nat.odd a).
Qed.

Lemma refine_mono rule g h L R L' R' : gle g h -> extremes rule g L R -> extremes rule h L' R' ->
  gle (refine g (lv L) (lv R)) (refine h (lv L') (lv R')).
Proof.
  intros Hgh (HL&HR&Hb) (HL'&HR'&Hb'). pose proof (Forall2_length _ _ _ Hgh) as Hlen.
  assert (fits rule g L') as Hg1 by (destruct HL' as [? ?]; split; [done|by eapply gle_agrees]).
  assert (fits rule g R') as Hg2 by (destruct HR' as [? ?]; split; [done|by eapply gle_agrees]).
  destruct (Hb _ Hg1) as [_ Ha]. destruct (Hb _ Hg2) as [Hc _]. destruct (Hb' _ HL') as [Hd _].
  apply Forall2_same_length_lookup. rewrite !refine_length. split; [done|].
  intros i s t Hs Ht. assert (i < length g) as Hi by (apply lookup_lt_Some in Hs; by rewrite refine_length in Hs).
  pose proof (fits_length _ _ _ HL). pose proof (fits_length _ _ _ HR).
  pose proof (fits_length _ _ _ HL'). pose proof (fits_length _ _ _ HR').
  destruct (lookup_lt_is_Some_2 g i) as [sq Hsq]; [lia|].
  destruct (lookup_lt_is_Some_2 h i) as [sq' Hsq']; [lia|].
  destruct (lookup_lt_is_Some_2 (lv L) i) as [a E1]; [rewrite lv_length; lia|].
  destruct (lookup_lt_is_Some_2 (lv R) i) as [c E2]; [rewrite lv_length; lia|].
  destruct (lookup_lt_is_Some_2 (lv L') i) as [a' E3]; [rewrite lv_length; lia|].
  destruct (lookup_lt_is_Some_2 (lv R') i) as [c' E4]; [rewrite lv_length; lia|].
  destruct (lookup_lt_is_Some_2 L' i) as [x Hx]; [lia|].
  rewrite (refine_lookup _ _ _ _ _ _ _ Hsq E1 E2) in Hs. injection Hs as <-.
  rewrite (refine_lookup _ _ _ _ _ _ _ Hsq' E3 E4) in Ht. injection Ht as <-.
  pose proof (Forall2_lookup_lr _ _ _ _ _ _ Hgh Hsq Hsq') as Hsqle.
  pose proof (Forall2_lookup_lr _ _ _ _ _ _ Ha E3 E1) as Hle1.
  pose proof (Forall2_lookup_lr _ _ _ _ _ _ Hc E2 E4) as Hle2.
  pose proof (Forall2_lookup_lr _ _ _ _ _ _ Hd E4 E3) as Hle3.
  destruct HL' as [_ Hag]. pose proof (Forall2_lookup_lr _ _ _ _ _ _ Hag Hsq' Hx) as Hax.
  pose proof (lv_parity _ _ _ _ Hx E3) as Hpar.
  destruct Hsqle as [->| ->].
  - cbn [refine_cell]. case_decide as He; [|by left]. assert (a' = a) as -> by lia. assert (c' = a) as -> by lia.
    right. destruct sq'; cbn [refine_cell agrees] in *.
    + by rewrite decide_True.
    + rewrite Hpar, Hax. done.
    + rewrite Hpar, Hax. done.
  - destruct sq'; cbn [refine_cell]; [|by right..]. case_decide as He; [|by left].
    rewrite decide_True by lia. right. by replace a' with a by lia.
Qed.

Lemma stable_proper rule h : line_stable rule h -> proper rule.
Proof.
  intros Hs. destruct (decide (proper rule)) as [|Hp]; [done|]. unfold line_stable in Hs.
  destruct (line_improper rule h Hp) as [E|[E _]]; by rewrite E in Hs.
Qed.
Lemma stable_refine rule h : line_stable rule h ->
  exists L R, extremes rule h L R /\ refine h (lv L) (lv R) = h.
Proof.
  intros Hs. pose proof (stable_proper _ _ Hs) as Hp. unfold line_stable in Hs. destruct (line_spec rule h Hp) as [(L&R&Hx&E)|[E _]]; rewrite E in Hs; [|done].
  exists L, R. split; [done|]. by injection Hs.
Qed.

(** * Selecting the squares of a line *)

Definition sel {A} (ps : list nat) (g : list A) : list A := omap (fun p => g !! p) ps.
Notation bounded n := (Forall (fun p => p < n)).
Lemma sel_cons {A} p ps (g : list A) v : g !! p = Some v -> sel (p :: ps) g = v :: sel ps g.
Proof. intros E. unfold sel. cbn. by rewrite E. Qed.
Lemma sel_lookup {A} ps (g : list A) k : bounded (length g) ps -> sel ps g !! k = p ← ps !! k; g !! p.
Proof.
  intros H. revert k. induction H as [|p ps Hp H IH]; intros k; [by rewrite lookup_nil|].
  destruct (lookup_lt_is_Some_2 g p Hp) as [v Hv]. rewrite (sel_cons _ _ _ _ Hv).
  destruct k; [done|]. apply IH.
Qed.
Lemma sel_length {A} ps (g : list A) : bounded (length g) ps -> length (sel ps g) = length ps.
Proof.
  induction 1 as [|p ps Hp H IH]; [done|]. destruct (lookup_lt_is_Some_2 g p Hp) as [v Hv].
  rewrite (sel_cons _ _ _ _ Hv). cbn. by f_equal.
Qed.
Lemma sel_Forall2 {A B} (P : A -> B -> Prop) ps g h : bounded (length g) ps -> Forall2 P g h -> Forall2 P (sel ps g) (sel ps h).
Proof.
  intros H HF. induction H as [|p ps Hp H IH]; [constructor|].
  destruct (lookup_lt_is_Some_2 g p Hp) as [v Hv]. destruct (Forall2_lookup_l _ _ _ _ _ HF Hv) as (w&Hw&Hvw).
  rewrite (sel_cons _ _ _ _ Hv), (sel_cons _ _ _ _ Hw). by constructor.
Qed.
Lemma mapM_vec_get (g : list square) ps : bounded (length g) ps -> mapM (vec_get g) ps = Ret (sel ps g).
Proof.
  induction 1 as [|p ps Hp H IH]; [done|]. destruct (lookup_lt_is_Some_2 g p Hp) as [v Hv].
  rewrite (sel_cons _ _ _ _ Hv). cbn [mapM]. unfold vec_get at 1. rewrite Hv. cbn [expect bind]. by rewrite IH.
Qed.

Lemma write_back ps : NoDup ps -> forall (vs : list square) g, bounded (length g) ps -> length vs = length ps ->
  exists g', foldM (fun '(p, v) g => vec_set g p v) (zip ps vs) g = Ret g' /\ length g' = length g /\
    sel ps g' = vs /\ (forall p, p ∉ ps -> g' !! p = g !! p).
Proof.
  induction 1 as [|p ps Hnin Hnd IH]; intros vs g Hb Hl.
  - destruct vs; [|done]. exists g. done.
  - destruct vs as [|v vs]; [done|]. inversion Hb as [|? ? Hp Hb']; subst. cbn [zip zip_with foldM].
    unfold vec_set at 1. rewrite decide_True by done. cbn [bind].
    destruct (IH vs (<[p:=v]> g)) as (g'&E&Hlen&Hsel&Hout); [by rewrite insert_length|by injection Hl|].
    rewrite insert_length in Hlen. exists g'. split_and!; [done|done| |].
    + rewrite <-Hsel. apply sel_cons. rewrite (Hout p Hnin). by rewrite list_lookup_insert.
    + intros q Hq. apply not_elem_of_cons in Hq as [Hq1 Hq2]. rewrite (Hout q Hq2). by rewrite list_lookup_insert_ne.
Qed.

(** Comparing grids through a line and the rest. *)
Lemma sel_inj_Forall2 {A B} (P : A -> B -> Prop) (ps : list nat) (g : list A) (h : list B) :
  length g = length h -> bounded (length g) ps -> Forall2 P (sel ps g) (sel ps h) ->
  (forall p a b, p ∉ ps -> g !! p = Some a -> h !! p = Some b -> P a b) -> Forall2 P g h.
Proof.
  intros Hl Hb HF Hout. apply Forall2_same_length_lookup. split; [done|]. intros p a b Ha Hb'.
  destruct (decide (p ∈ ps)) as [Hin|Hin]; [|by eapply Hout].
  apply elem_of_list_lookup in Hin as [k Hk].
  eapply (Forall2_lookup_lr _ _ _ k); [exact HF|..].
  - rewrite sel_lookup by done. rewrite Hk. done.
  - rewrite sel_lookup by (by rewrite <-Hl). by rewrite Hk.
Qed.

(** * Passes over families of lines *)

Notation gline := (list nat * list nat)%type.
Definition good_line (n : nat) (l : gline) : Prop := NoDup l.2 /\ bounded n l.2.
(** A grid of cells meets the clue of a line. *)
Definition meets (b : list bool) (l : gline) : Prop := spells l.1 (sel l.2 b).
Definition stable (g : list square) (l : gline) : Prop := line_stable l.1 (sel l.2 g).

Definition pass_ok (lines : list gline) (g g' : list square) : Prop :=
  gle g g' /\
  (forall b, Forall2 agrees g b -> Forall (meets b) lines -> Forall2 agrees g' b) /\
  (forall h, gle g h -> Forall (stable h) lines -> gle g' h) /\
  (g' = g -> Forall (stable g) lines).
Definition pass_err (lines : list gline) (g : list square) : Prop :=
  (forall b, Forall2 agrees g b -> ~ Forall (meets b) lines) /\
  (forall h, gle g h -> ~ Forall (stable h) lines).

(** Some clue begins or ends with zero. *)
Definition improper (lines : list gline) : Prop := Exists (fun l => ~ proper l.1) lines.

Lemma run_line_spec rule ps g : good_line (length g) (rule, ps) ->
  (exists g', run_line (machine_new rule) ps g = Ret (Ok (bool_decide (g' <> g), g')) /\ pass_ok [(rule, ps)] g g') \/
  (run_line (machine_new rule) ps g = Ret (Err NoSolution) /\ pass_err [(rule, ps)] g) \/
  (run_line (machine_new rule) ps g = Fault Panic /\ improper [(rule, ps)]).
Proof.
  intros (Hnd&Hb). cbn in *. unfold run_line. rewrite mapM_vec_get by done. cbn [bind].
  destruct (decide (proper rule)) as [Hp|Hp].
  2:{ right. destruct (line_improper rule (sel ps g) Hp) as [E|[E Hno]]; rewrite E; [right; split; [done|by constructor]|left].
      split; [done|]. split.
      - intros b Hag Hm. inversion Hm as [|? ? Hm1 _]; subst. unfold meets in Hm1. cbn [fst snd] in Hm1.
        apply (Hno (sel ps b)). split; [done|]. by apply sel_Forall2.
      - intros h Hgh Hs. inversion Hs as [|? ? Hs1 _]; subst. by apply stable_proper in Hs1. }
  destruct (line_spec rule (sel ps g) Hp) as [(L&R&Hx&E)|[E Hno]]; rewrite E; cbn [bind].
  - set (line := refine (sel ps g) (lv L) (lv R)) in *. left.
    assert (length line = length ps) as Hll by (unfold line; rewrite refine_length; by apply sel_length).
    destruct (write_back ps Hnd line g Hb Hll) as (g'&E'&Hlen&Hsel&Hout). rewrite E'. cbn [bind].
    assert (g' = g <-> line = sel ps g) as Heq.
    { split; [intros ->; by rewrite Hsel|]. intros Hs.
      apply list_eq_Forall2, (sel_inj_Forall2 _ ps); [done|by rewrite Hlen| |].
      - rewrite Hsel, Hs. by apply list_eq_Forall2.
      - intros p a b Hp' H1 H2. rewrite Hout in H1 by done. congruence. }
    exists g'. split.
    { do 3 f_equal. apply bool_decide_ext. rewrite Heq. done. }
    split_and!.
    + apply (sel_inj_Forall2 _ ps); [done|done| |].
      * rewrite Hsel. apply refine_le.
      * intros p a b Hp' H1 H2. rewrite Hout in H2 by done. right. congruence.
    + intros b Hag Hm. inversion Hm as [|? ? Hm1 _]; subst. unfold meets in Hm1. cbn [fst snd] in Hm1.
      apply (sel_inj_Forall2 _ ps); [rewrite Hlen; by apply Forall2_length in Hag|by rewrite Hlen| |].
      * rewrite Hsel. apply (refine_sound rule); [done|]. split; [done|]. by apply sel_Forall2.
      * intros p a x Hp' H1 H2. rewrite Hout in H1 by done. by eapply Forall2_lookup_lr.
    + intros h Hgh Hs. inversion Hs as [|? ? Hs1 _]; subst. unfold stable in Hs1. cbn [fst snd] in Hs1.
      destruct (stable_refine _ _ Hs1) as (L'&R'&Hx'&Heqh).
      apply (sel_inj_Forall2 _ ps); [rewrite Hlen; by apply Forall2_length in Hgh|by rewrite Hlen| |].
      * rewrite Hsel, <-Heqh. unfold line. apply (refine_mono rule); [|done|done]. by apply sel_Forall2.
      * intros p a x Hp' H1 H2. rewrite Hout in H1 by done. by eapply Forall2_lookup_lr.
    + intros Hg. apply Heq in Hg. constructor; [|constructor]. unfold stable, line_stable. cbn [fst snd]. rewrite E, Hg.
      rewrite bool_decide_eq_false_2; [done|]. intros H. by apply H.
  - right. left. split; [done|]. split.
    + intros b Hag Hm. inversion Hm as [|? ? Hm1 _]; subst. unfold meets in Hm1. cbn [fst snd] in Hm1.
      apply (Hno (sel ps b)). split; [done|]. by apply sel_Forall2.
    + intros h Hgh Hs. inversion Hs as [|? ? Hs1 _]; subst. unfold stable in Hs1. cbn [fst snd] in Hs1.
      destruct (stable_refine _ _ Hs1) as (L'&R'&(HfL&_)&_). apply (Hno L'). destruct HfL as [H1 H2].
      split; [done|]. eapply gle_agrees; [|done]. by apply sel_Forall2.
Qed.

Lemma pass_ok_app l1 l2 g g1 g2 : pass_ok l1 g g1 -> pass_ok l2 g1 g2 -> pass_ok (l1 ++ l2) g g2.
Proof.
  intros (H1&H2&H3&H4) (K1&K2&K3&K4). split_and!.
  - by eapply gle_trans.
  - intros b Hb Hm. apply Forall_app in Hm as [Hm1 Hm2]. apply K2; [|done]. by apply H2.
  - intros h Hh Hm. apply Forall_app in Hm as [Hm1 Hm2]. apply K3; [|done]. by apply H3.
  - intros ->. assert (g1 = g) as -> by (by apply gle_antisym). apply Forall_app. auto.
Qed.
Lemma pass_err_app l1 l2 g g1 : pass_ok l1 g g1 -> pass_err l2 g1 -> pass_err (l1 ++ l2) g.
Proof.
  intros (H1&H2&H3&H4) (K1&K2). split.
  - intros b Hb Hm. apply Forall_app in Hm as [Hm1 Hm2]. apply (K1 b); [|done]. by apply H2.
  - intros h Hh Hm. apply Forall_app in Hm as [Hm1 Hm2]. apply (K2 h); [|done]. by apply H3.
Qed.
Lemma pass_err_l l1 l2 g : pass_err l1 g -> pass_err (l1 ++ l2) g.
Proof.
  intros (K1&K2). split.
  - intros b Hb Hm. apply Forall_app in Hm as [Hm1 Hm2]. by apply (K1 b).
  - intros h Hh Hm. apply Forall_app in Hm as [Hm1 Hm2]. by apply (K2 h).
Qed.
Lemma pass_ok_changed l1 l2 g g1 g2 : pass_ok l1 g g1 -> pass_ok l2 g1 g2 ->
  bool_decide (g2 <> g) = bool_decide (g1 <> g) || bool_decide (g2 <> g1).
Proof.
  intros (H1&_) (K1&_). destruct (decide (g1 = g)) as [->|Hne].
  - rewrite (bool_decide_eq_false_2 (g <> g)); [done|]. intros H. by apply H.
  - rewrite (bool_decide_eq_true_2 (g1 <> g)) by done. cbn. apply bool_decide_eq_true_2. intros ->.
    apply Hne. by apply gle_antisym.
Qed.

Lemma run_lines_spec positions ms lines : forall c g,
  Forall2 (fun im l => im.2 = machine_new l.1 /\ positions im.1 = Ret l.2) ms lines ->
  Forall (good_line (length g)) lines ->
  (exists g', run_lines positions ms c g = Ret (Ok (c || bool_decide (g' <> g), g')) /\ pass_ok lines g g') \/
  (run_lines positions ms c g = Ret (Err NoSolution) /\ pass_err lines g) \/
  (run_lines positions ms c g = Fault Panic /\ improper lines).
Proof.
  intros c g H. revert c g. induction H as [|[i mc] [rule ps] ms lines [Hm Hpos] H IH]; intros c g Hg.
  - left. exists g. split.
    + cbn. rewrite bool_decide_eq_false_2; [by rewrite orb_false_r|]. intros H. by apply H.
    + split_and!; try done; try apply gle_refl.
  - cbn in Hm, Hpos. subst mc. inversion Hg as [|? ? Hg1 Hg2]; subst. cbn [run_lines]. rewrite Hpos. cbn [bind].
    destruct (run_line_spec rule ps g Hg1) as [(g1&E&Hok)|[[E Herr]|[E Hex]]]; rewrite E; cbn [bind].
    + assert (length g1 = length g) as Hlen by (destruct Hok as [Hle _]; symmetry; by apply Forall2_length in Hle).
      destruct (IH (c || bool_decide (g1 <> g)) g1) as [(g2&E2&Hok2)|[[E2 Herr2]|[E2 Hex]]]; [by rewrite Hlen|..]; rewrite E2.
      * left. exists g2. split; [|by apply (pass_ok_app [(rule, ps)] _ _ g1)].
        do 3 f_equal. rewrite <-orb_assoc. f_equal. symmetry. by eapply pass_ok_changed.
      * right. left. split; [done|]. by apply (pass_err_app [(rule, ps)] _ _ g1).
      * right. right. split; [done|]. by apply Exists_cons_tl.
    + right. left. split; [done|]. by apply (pass_err_l [(rule, ps)]).
    + right. right. split; [done|]. inversion Hex as [? ? Hx|? ? Hx]; [by apply Exists_cons_hd|inversion Hx].
Qed.

(** * Positions *)

Definition col_ps (w h x : nat) : list nat := (fun k => x + k * w) <$> seq 0 h.
Definition row_ps (w y : nat) : list nat := seq (w * y) w.
Definition col_lines (col : list (list nat)) (h : nat) : list gline :=
  imap (fun x rule => (rule, col_ps (length col) h x)) col.
Definition row_lines (w : nat) (row : list (list nat)) : list gline :=
  imap (fun y rule => (rule, row_ps w y)) row.
Definition all_lines (col row : list (list nat)) : list gline :=
  col_lines col (length row) ++ row_lines (length col) row.

From Coq Require Import ZifyNat.
Ltac Zify.zify_post_hook ::= Z.div_mod_to_equations.

Lemma column_positions_spec w h x : x < w -> 1 <= h \/ w <= 1 ->
  column_positions (w * h) x w = Ret (col_ps w h x).
Proof.
  intros Hx Hh. unfold column_positions, col_ps. rewrite decide_False by nia. rewrite decide_False by lia.
  replace ((w * h - x + w - 1) `div` w) with h; [done|].
  destruct (decide (h = 0)) as [->|Hne].
  - assert (w = 1) as -> by lia. assert (x = 0) as -> by lia. done.
  - apply (Nat.div_unique _ _ _ (w - 1 - x)); [lia|]. nia.
Qed.
Lemma arith_small m size z : (z < size)%N -> arith m size z = Ret z.
Proof. intros H. unfold arith. apply N.ltb_lt in H as ->. done. Qed.
Lemma n_mul_small (m : mode) x y : (N.of_nat (x * y) < usize_size m)%N -> n_mul m x y = Ret (x * y).
Proof.
  intros H. unfold n_mul, usize_mul. replace (N.of_nat x * N.of_nat y)%N with (N.of_nat (x * y)) by lia.
  rewrite arith_small by done. cbn [bind]. by rewrite Nat2N.id.
Qed.
Lemma row_positions_spec (m : mode) w h y : y < h -> (N.of_nat (w * h) < usize_size m)%N ->
  row_positions m (w * h) y w = Ret (row_ps w y).
Proof.
  intros Hy Hn. unfold row_positions, row_ps.
  assert (w * y <= w * h) by (apply Nat.mul_le_mono_l; lia).
  assert (w * (y + 1) <= w * h) by (apply Nat.mul_le_mono_l; lia).
  rewrite !n_mul_small by lia. cbn [bind]. rewrite decide_False by lia. do 2 f_equal. lia.
Qed.

Lemma col_ps_good w h x : x < w -> NoDup (col_ps w h x) /\ bounded (w * h) (col_ps w h x).
Proof.
  intros Hx. unfold col_ps. split.
  - apply NoDup_fmap_2_strong; [|apply NoDup_seq]. intros a b _ _ He. nia.
  - apply Forall_fmap, Forall_forall. intros k Hk. apply elem_of_seq in Hk. cbn. nia.
Qed.
Lemma row_ps_good w h y : y < h -> NoDup (row_ps w y) /\ bounded (w * h) (row_ps w y).
Proof.
  intros Hy. unfold row_ps. split; [apply NoDup_seq|].
  apply Forall_forall. intros k Hk. apply elem_of_seq in Hk. nia.
Qed.

Lemma sel_col_ps {A} w h x (g : list A) : sel (col_ps w h x) g = grid_col w h g x.
Proof.
  unfold sel, col_ps, grid_col. induction (seq 0 h) as [|k l IH]; [done|].
  cbn. replace (w * k + x) with (x + k * w) by lia. by rewrite IH.
Qed.
Lemma sel_seq {A} (g : list A) : forall n i, i + n <= length g -> sel (seq i n) g = take n (drop i g).
Proof.
  induction n as [|n IH]; intros i Hi; [done|]. destruct (lookup_lt_is_Some_2 g i) as [v Hv]; [lia|].
  cbn [seq]. rewrite (sel_cons _ _ _ _ Hv), (drop_S _ _ _ Hv). cbn [take]. f_equal. apply IH. lia.
Qed.
Lemma sel_row_ps {A} w h y (g : list A) : y < h -> length g = w * h -> sel (row_ps w y) g = grid_row w g y.
Proof. intros Hy Hg. apply sel_seq. nia. Qed.

(** * Rounds *)

Section rounds.
Context (m : mode) (col row : list (list nat)).
Local Notation w := (length col).
Local Notation h := (length row).
Context (Hov : (N.of_nat (w * h) < usize_size m)%N) (Hdim : 1 <= h \/ w <= 1).
Local Notation lines := (all_lines col row).

Lemma all_lines_good : Forall (good_line (w * h)) lines.
Proof.
  apply Forall_app. split; apply Forall_lookup; intros i l Hl; apply list_lookup_imap_Some in Hl as (rule&Hr&->);
    pose proof (lookup_lt_Some _ _ _ Hr).
  - by apply col_ps_good.
  - by apply row_ps_good.
Qed.

Lemma enumerate_machines rules (f : nat -> list nat -> gline) positions :
  (forall i rule, rules !! i = Some rule -> (f i rule).1 = rule /\ positions i = Ret (f i rule).2) ->
  Forall2 (fun im l => im.2 = machine_new l.1 /\ positions im.1 = Ret l.2) (enumerate (machine_new <$> rules)) (imap f rules).
Proof.
  intros H. apply Forall2_same_length_lookup. split.
  { unfold enumerate. rewrite !imap_length, fmap_length. done. }
  intros i [j mc] l H1 H2. rewrite enumerate_lookup, list_lookup_fmap in H1.
  apply list_lookup_imap_Some in H2 as (rule&Hr&->). rewrite Hr in H1. injection H1 as <- <-.
  destruct (H _ _ Hr) as [E1 E2]. cbn [fst snd]. by rewrite E1.
Qed.

Lemma one_round_spec g : length g = w * h ->
  (exists g', one_round m w (machine_new <$> col) (machine_new <$> row) g = Ret (Ok (bool_decide (g' <> g), g')) /\
     pass_ok lines g g') \/
  (one_round m w (machine_new <$> col) (machine_new <$> row) g = Ret (Err NoSolution) /\ pass_err lines g) \/
  (one_round m w (machine_new <$> col) (machine_new <$> row) g = Fault Panic /\ improper lines).
Proof.
  intros Hlen. unfold one_round. rewrite Hlen. pose proof all_lines_good as Hgood. apply Forall_app in Hgood as [Hg1 Hg2].
  destruct (run_lines_spec (fun index => column_positions (w * h) index w) (enumerate (machine_new <$> col))
    (col_lines col h) false g) as [(g1&E&Hok)|[[E Herr]|[E Hex]]];
    [..|rewrite E; cbn [bind]; right; left; split; [done|by apply pass_err_l]
       |rewrite E; cbn [bind]; right; right; split; [done|apply Exists_app; by left]].
  { apply (enumerate_machines col (fun x rule => (rule, col_ps w h x)) (fun index => column_positions (w * h) index w)).
    intros i rule Hr. split; [done|]. apply column_positions_spec; [|done].
    by apply lookup_lt_Some in Hr. }
  { by rewrite Hlen. }
  rewrite E. cbn [bind orb].
  assert (length g1 = w * h) as Hlen1.
  { rewrite <-Hlen. destruct Hok as [Hle _]. symmetry. by apply Forall2_length in Hle. }
  rewrite Hlen1.
  destruct (run_lines_spec (fun index => row_positions m (w * h) index w) (enumerate (machine_new <$> row))
    (row_lines w row) (bool_decide (g1 <> g)) g1) as [(g2&E2&Hok2)|[[E2 Herr2]|[E2 Hex]]].
  { apply (enumerate_machines row (fun y rule => (rule, row_ps w y)) (fun index => row_positions m (w * h) index w)).
    intros i rule Hr. split; [done|]. apply row_positions_spec; [|done].
    by apply lookup_lt_Some in Hr. }
  { by rewrite Hlen1. }
  - left. exists g2. rewrite E2. split; [|by eapply pass_ok_app]. do 3 f_equal. symmetry. by eapply pass_ok_changed.
  - right. left. rewrite E2. split; [done|]. by eapply pass_err_app.
  - right. right. rewrite E2. split; [done|]. apply Exists_app. by right.
Qed.

Definition blanks (g : list square) : nat := length (filter (fun s => s = Blank) g).
Lemma blanks_le g g' : gle g g' -> blanks g' <= blanks g /\ (g' <> g -> blanks g' < blanks g).
Proof.
  unfold blanks. induction 1 as [|s t g g' Hs H [IH1 IH2]]; [done|]. rewrite !filter_cons.
  destruct Hs as [->| ->].
  - rewrite (decide_True (P := Blank = Blank)) by done. case_decide as Ht; cbn [length].
    + subst t. split; [lia|]. intros Hne. assert (g' <> g) as Hne' by congruence. apply IH2 in Hne'. lia.
    + split; [lia|]. lia.
  - case_decide; cbn [length]; (split; [lia|]); intros Hne; assert (g' <> g) as Hne' by congruence; apply IH2 in Hne'; lia.
Qed.

(** The fixed point: all lines stable. *)
Definition final_ok (g g' : list square) : Prop :=
  gle g g' /\ (forall b, Forall2 agrees g b -> Forall (meets b) lines -> Forall2 agrees g' b) /\
  (forall k, gle g k -> Forall (stable k) lines -> gle g' k) /\ Forall (stable g') lines.

Lemma rounds_spec : forall fuel g, length g = w * h -> blanks g < fuel ->
  (exists g', rounds fuel m w (machine_new <$> col) (machine_new <$> row) g = Ret (Ok g') /\ final_ok g g') \/
  (rounds fuel m w (machine_new <$> col) (machine_new <$> row) g = Ret (Err NoSolution) /\ pass_err lines g) \/
  (rounds fuel m w (machine_new <$> col) (machine_new <$> row) g = Fault Panic /\ improper lines).
Proof.
  induction fuel as [|fuel IH]; intros g Hlen Hb; [lia|]. cbn [rounds].
  destruct (one_round_spec g Hlen) as [(g1&E&Hok)|[[E Herr]|[E Hex]]]; rewrite E; cbn [bind]; [|by right; left|by right; right].
  pose proof Hok as (Hle&Hs&Hleast&Hst).
  destruct (decide (g1 = g)) as [->|Hne].
  - rewrite bool_decide_eq_false_2 by (intros H; by apply H). left. exists g. split; [done|].
    split_and!; [done|done|done|by apply Hst].
  - rewrite bool_decide_eq_true_2 by done. destruct (blanks_le _ _ Hle) as [_ Hlt]. specialize (Hlt Hne).
    assert (length g1 = w * h) as Hlen1 by (rewrite <-Hlen; symmetry; by apply Forall2_length in Hle).
    destruct (IH g1 Hlen1) as [(g2&E2&Hle2&Hs2&Hleast2&Hst2)|[[E2 [Herr1 Herr2]]|[E2 Hex]]]; [lia|..].
    + left. exists g2. split; [done|]. split_and!; [by eapply gle_trans|..|done].
      * intros b Hb1 Hb2. apply Hs2; [|done]. by apply Hs.
      * intros k Hk1 Hk2. apply Hleast2; [|done]. by apply Hleast.
    + right. left. split; [done|]. split.
      * intros b Hb1 Hb2. apply (Herr1 b); [|done]. by apply Hs.
      * intros k Hk1 Hk2. apply (Herr2 k); [|done]. by apply Hleast.
    + right. right. by split.
Qed.

Lemma blanks_bound g : blanks g <= length g.
Proof. unfold blanks. apply filter_length. Qed.

Definition start : list square := replicate (w * h) Blank.
Definition shown (g : list square) : list bool := (fun s => match s with Filled => true | _ => false end) <$> g.

Lemma grid_right_left_spec :
  (exists g', grid_right_left m start col row = Ret (Ok g') /\ final_ok start g') \/
  (grid_right_left m start col row = Ret (Err NoSolution) /\ pass_err lines start) \/
  (grid_right_left m start col row = Fault Panic /\ improper lines).
Proof.
  assert (length start = w * h) as Hl by (unfold start; by rewrite replicate_length).
  apply rounds_spec; [done|]. pose proof (blanks_bound start). lia.
Qed.

Lemma solve_nonogram_spec :
  (exists g', grid_right_left m start col row = Ret (Ok g') /\ solve_nonogram m col row = Ret (Ok (shown g')) /\ final_ok start g') \/
  (solve_nonogram m col row = Ret (Err NoSolution) /\ pass_err lines start) \/
  (solve_nonogram m col row = Fault Panic /\ improper lines).
Proof.
  unfold solve_nonogram. rewrite n_mul_small by done. cbn [bind]. fold start.
  destruct grid_right_left_spec as [(g'&E&Hf)|[[E Herr]|[E Hex]]]; rewrite E; cbn [bind]; [|by right; left|by right; right].
  left. exists g'. done.
Qed.

Lemma solution_meets b : solution col row b <-> length b = w * h /\ Forall (meets b) lines.
Proof.
  unfold solution, all_lines. split.
  - intros (Hl&Hc&Hr). split; [done|]. apply Forall_app. split; apply Forall_lookup; intros i l Hi;
      apply list_lookup_imap_Some in Hi as (rule&Hi&->); unfold meets; cbn [fst snd].
    + rewrite sel_col_ps. by apply Hc.
    + rewrite (sel_row_ps _ h) by (done || by apply lookup_lt_Some in Hi). by apply Hr.
  - intros [Hl HF]. apply Forall_app in HF as [Hc Hr]. split_and!; [done|..].
    + intros x rule Hx. rewrite <-sel_col_ps. rewrite Forall_lookup in Hc.
      apply (Hc x (rule, col_ps w h x)). apply list_lookup_imap_Some. eauto.
    + intros y rule Hy. rewrite <-(sel_row_ps _ h) by (done || by apply lookup_lt_Some in Hy). rewrite Forall_lookup in Hr.
      apply (Hr y (rule, row_ps w y)). apply list_lookup_imap_Some. eauto.
Qed.
Lemma lines_rules (P : list nat -> Prop) : Forall (fun l => P l.1) lines <-> Forall P col /\ Forall P row.
Proof.
  unfold all_lines. rewrite Forall_app, !Forall_lookup. split.
  - intros [Hc Hr]. split; intros i rule Hi.
    + apply (Hc i (rule, col_ps w h i)). apply list_lookup_imap_Some. eauto.
    + apply (Hr i (rule, row_ps w i)). apply list_lookup_imap_Some. eauto.
  - intros [Hc Hr]. split; intros i l Hi; apply list_lookup_imap_Some in Hi as (rule&Hi&->); eauto.
Qed.
Lemma proper_lines : ~ improper lines <-> Forall proper col /\ Forall proper row.
Proof.
  rewrite <-lines_rules. unfold improper. split.
  - intros Hn. apply Forall_forall. intros l Hl. destruct (decide (proper l.1)) as [|Hp]; [done|].
    destruct Hn. apply Exists_exists. eauto.
  - intros Hf (l&Hl&Hp)%Exists_exists. rewrite Forall_forall in Hf. by apply Hp, Hf.
Qed.
Lemma final_proper g g' : final_ok g g' -> Forall proper col /\ Forall proper row.
Proof.
  intros (_&_&_&Hst). apply lines_rules. eapply Forall_impl; [exact Hst|]. intros l Hl. by eapply stable_proper.
Qed.
Lemma start_agrees b : length b = w * h -> Forall2 agrees start b.
Proof.
  intros Hl. apply Forall2_same_length_lookup. unfold start. rewrite replicate_length. split; [done|].
  intros i s x Hs _. apply lookup_replicate in Hs as [-> _]. done.
Qed.
Lemma start_least g : length g = w * h -> gle start g.
Proof.
  intros Hl. apply Forall2_same_length_lookup. unfold start. rewrite replicate_length. split; [done|].
  intros i s x Hs _. apply lookup_replicate in Hs as [-> _]. by left.
Qed.
End rounds.
