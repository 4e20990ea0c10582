(** The rule automaton of the line matcher. *)
From Verif Require Import Base Nonogram SpecNonogram.

(** State [(c, q)]: [c] cells of the current block have been read (0 outside a
    block) and the clues [q], starting with the current block, remain. *)
Fixpoint gap (rule : list nat) : list (nat * list nat) :=
  (0, rule) ::
  match rule with
  | [] => []
  | v :: rule' => ((fun j => (S j, rule)) <$> seq 0 v) ++ gap rule'
  end.
Definition descs (rule : list nat) : list (nat * list nat) := (0, rule) :: gap rule.

Lemma gap_cons v r : gap (v :: r) = (0, v :: r) :: ((fun j => (S j, v :: r)) <$> seq 0 v) ++ gap r.
Proof. done. Qed.
Lemma gap_length_cons v r : length (gap (v :: r)) = S (v + length (gap r)).
Proof. rewrite gap_cons. cbn [length]. by rewrite app_length, fmap_length, seq_length. Qed.
Lemma gap_length_pos r : 0 < length (gap r).
Proof. destruct r; [cbn; lia|rewrite gap_length_cons; lia]. Qed.

Lemma gap_cons_lookup v r i :
  gap (v :: r) !! i =
  if decide (i = 0) then Some (0, v :: r)
  else if decide (i <= v) then Some (i, v :: r) else gap r !! (i - S v).
Proof.
  rewrite gap_cons. destruct i as [|i]; [done|]. rewrite decide_False by done.
  change (((0, v :: r) :: ?l) !! S i) with (l !! i).
  case_decide.
  - rewrite lookup_app_l by (rewrite fmap_length, seq_length; lia).
    rewrite list_lookup_fmap, lookup_seq_lt by lia. done.
  - rewrite lookup_app_r by (rewrite fmap_length, seq_length; lia). rewrite fmap_length, seq_length. done.
Qed.

Lemma gap_index r i c q : gap r !! i = Some (c, q) -> i + length (gap q) = length (gap r) + c.
Proof.
  revert i. induction r as [|v r IH]; intros i.
  - destruct i as [|i]; [|done]. by intros [= <- <-].
  - rewrite gap_cons_lookup. case_decide; [intros [= <- <-]; lia|]. case_decide; [intros [= <- <-]; lia|].
    intros Hgi%IH. rewrite gap_length_cons. lia.
Qed.
Lemma gap_bound r i c q : gap r !! i = Some (c, q) ->
  (last r <> Some 0 -> last q <> Some 0) /\ (c = 0 \/ exists v q', q = v :: q' /\ 0 < c <= v).
Proof.
  revert i. induction r as [|v r IH]; intros i.
  - destruct i as [|i]; [|done]. intros [= <- <-]. split; [done|by left].
  - rewrite gap_cons_lookup. case_decide; [intros [= <- <-]; split; [done|by left]|].
    case_decide.
    + intros [= <- <-]. split; [done|]. right. exists v, r. split; [done|lia].
    + intros [H1 H2]%IH. split; [|done]. intros Hl. apply H1. destruct r; [done|]. exact Hl.
Qed.
(** The successor of a state. *)
Lemma gap_next r i c q : gap r !! i = Some (c, q) ->
  (c = 0 /\ q = [] /\ S i = length (gap r)) \/
  (exists v q', q = v :: q' /\ c < v /\ gap r !! S i = Some (S c, q)) \/
  (exists q', q = c :: q' /\ gap r !! S i = Some (0, q')).
Proof.
  revert i. induction r as [|v r IH]; intros i.
  - destruct i as [|i]; [|done]. intros [= <- <-]. auto.
  - rewrite (gap_cons_lookup v r i). case_decide as Hi.
    { intros [= <- <-]. subst. destruct (decide (v = 0)) as [->|Hv].
      - right; right. exists r. split; [done|]. rewrite gap_cons_lookup, !decide_False by lia. by destruct r.
      - right; left. exists v, r. split_and!; [done|lia|]. rewrite gap_cons_lookup.
        rewrite decide_False by done. by rewrite decide_True by lia. }
    case_decide as Hiv.
    { intros [= <- <-]. destruct (decide (i = v)) as [->|].
      - right; right. exists r. split; [done|]. rewrite gap_cons_lookup, !decide_False by lia.
        rewrite Nat.sub_diag. by destruct r.
      - right; left. exists v, r. split_and!; [done|lia|]. rewrite gap_cons_lookup.
        rewrite decide_False by done. by rewrite decide_True by lia. }
    intros H. apply IH in H. replace (S (i - S v)) with (S i - S v) in H by lia.
    rewrite gap_length_cons. rewrite gap_cons_lookup, !decide_False by lia.
    destruct H as [(?&?&?)|[?|?]]; [left; split_and!; [done|done|lia]|right; by left|right; by right].
Qed.

(** Kinds of states, as in the Rust vector. *)
Definition kind (rule : list nat) (s : nat) : option rnode :=
  match descs rule !! s with
  | None => None
  | Some (c, _) =>
      if decide (s = 0) then Some Start
      else if decide (s = 1) then Some End
      else if decide (S s = length (descs rule)) then Some End
      else if decide (c = 0) then Some Space else Some Fill
  end.

Definition node_of (d : nat * list nat) : rnode := if decide (d.1 = 0) then Space else Fill.
Lemma flat_states rule st :
  fold_left (fun st value => st ++ replicate value Fill ++ [Space]) rule st = st ++ (node_of <$> tail (gap rule)).
Proof.
  revert st. induction rule as [|v rule IH]; intros st; [cbn; by rewrite app_nil_r|].
  cbn [fold_left]. rewrite IH. rewrite <-!app_assoc. f_equal. rewrite gap_cons. cbn [tail]. rewrite fmap_app.
  f_equal.
  - rewrite <-list_fmap_compose. change (node_of ∘ (fun j => (S j, v :: rule))) with (fun _ : nat => Fill).
    generalize 0. clear. induction v as [|v IH]; intros k; [done|]. cbn. f_equal. apply IH.
  - by destruct rule.
Qed.
Lemma rule_states_eq rule :
  rule_states rule = <[length (gap rule) := End]> (Start :: End :: (node_of <$> tail (gap rule))).
Proof.
  unfold rule_states. rewrite flat_states. f_equal. pose proof (gap_length_pos rule).
  cbn [app length]. rewrite fmap_length. destruct (gap rule); cbn in *; lia.
Qed.
Lemma rule_states_length rule : length (rule_states rule) = length (descs rule).
Proof.
  rewrite rule_states_eq, insert_length. cbn [length descs]. rewrite fmap_length.
  pose proof (gap_length_pos rule). destruct (gap rule); cbn in *; lia.
Qed.
Lemma descs_length rule : length (descs rule) = S (length (gap rule)).
Proof. done. Qed.
Lemma rule_states_lookup rule s : rule_states rule !! s = kind rule s.
Proof.
  rewrite rule_states_eq. unfold kind. pose proof (gap_length_pos rule) as Hl.
  destruct (decide (s = length (gap rule))) as [->|Hs].
  - rewrite list_lookup_insert by (cbn [length]; rewrite fmap_length; destruct (gap rule); cbn in *; lia).
    destruct (descs rule !! length (gap rule)) as [[c q]|] eqn:E.
    + rewrite decide_False by lia. case_decide; [done|]. by rewrite decide_True by done.
    + apply lookup_ge_None in E. rewrite descs_length in E. lia.
  - rewrite list_lookup_insert_ne by done. destruct s as [|[|s]].
    + done.
    + cbn. destruct (gap rule) as [|[c q] ?] eqn:E; cbn in *; [lia|]. done.
    + change ((Start :: End :: ?l) !! S (S s)) with (l !! s).
      change (descs rule !! S (S s)) with (gap rule !! S s). rewrite list_lookup_fmap, lookup_tail.
      destruct (gap rule !! S s) as [[c q]|] eqn:E; [|done]. cbn [fmap option_fmap option_map].
      rewrite !decide_False by (rewrite ?descs_length; lia). unfold node_of. cbn [fst]. by case_decide.
Qed.

(** Readings of a line from a state. *)
Inductive reads : nat -> list nat -> list bool -> Prop :=
| reads_done : reads 0 [] []
| reads_last c : reads c [c] []
| reads_stay q b : reads 0 q b -> reads 0 q (false :: b)
| reads_fill c v q b : c < v -> reads (S c) (v :: q) b -> reads c (v :: q) (true :: b)
| reads_next c q b : reads 0 q b -> reads c (c :: q) (false :: b).

Lemma reads_bound c v q b : reads c (v :: q) b -> c <= v.
Proof. inversion 1; subst; lia. Qed.
Lemma one_block_0 b : one_block 0 b <-> exists k, b = replicate k false.
Proof.
  unfold one_block. split.
  - intros (i&j&->). exists (i + j). by rewrite replicate_add.
  - intros [k ->]. exists k, 0. cbn. by rewrite app_nil_r.
Qed.
Lemma reads_none b : reads 0 [] b <-> exists k, b = replicate k false.
Proof.
  split.
  - remember 0 as c. remember [] as q. induction 1; subst; try done; [by exists 0|]. destruct IHreads as [k ->]; [done..|].
    by exists (S k).
  - intros [k ->]. induction k; [constructor|]. by constructor.
Qed.
Lemma reads_block v q b c : 0 < c -> reads c (v :: q) b <->
  exists k b', b = replicate k true ++ b' /\ c + k = v /\
    match b' with [] => q = [] | true :: _ => False | false :: b'' => reads 0 q b'' end.
Proof.
  intros Hc. split.
  - intros H. remember (v :: q) as r. revert Hc v q Heqr. induction H; intros Hc v' q' Er; subst; try done.
    + injection Er as <- <-. exists 0, []. split_and!; [done|lia|done].
    + lia.
    + injection Er as <- <-. destruct (IHreads ltac:(lia) v q eq_refl) as (k&b'&->&Hk&Hb). exists (S k), b'.
      split_and!; [done|lia|done].
    + injection Er as <- <-. exists 0, (false :: b). split_and!; [done|lia|done].
  - intros (k&b'&->&<-&Hb). clear Hc. revert c. induction k as [|k IH]; intros c; cbn [replicate app].
    + rewrite Nat.add_0_r. destruct b' as [|[] b'']; [subst q; constructor|done|by constructor].
    + constructor; [lia|]. replace (c + S k) with (S c + k) by lia. apply IH.
Qed.
(** From outside a block. *)
Lemma reads_gap v q b : reads 0 (v :: q) b <->
  exists i b', b = replicate i false ++ replicate v true ++ b' /\
    match b' with [] => q = [] | true :: _ => False | false :: b'' => reads 0 q b'' end.
Proof.
  split.
  - intros H. remember (v :: q) as r. remember 0 as c. revert v q Heqr. induction H; intros v' q' Er; subst; try done.
    + injection Er as <- <-. by exists 0, [].
    + destruct (IHreads eq_refl v' q' eq_refl) as (i&b'&->&Hb). by exists (S i), b'.
    + injection Er as <- <-. apply reads_block in H0 as (k&b'&->&<-&Hb); [|lia]. exists 0, b'. by split.
    + injection Er as <- <-. by exists 0, (false :: b).
  - intros (i&b'&->&Hb). induction i as [|i IH]; cbn [replicate app]; [|by constructor].
    destruct v as [|v].
    + cbn [replicate app]. destruct b' as [|[] b'']; [subst q; constructor|done|by constructor].
    + cbn [replicate app]. constructor; [lia|]. apply reads_block; [lia|]. by exists v, b'.
Qed.
Lemma spells_cons v w r b : spells (v :: w :: r) b <->
  exists b1 b2, b = b1 ++ false :: b2 /\ one_block v b1 /\ spells (w :: r) b2.
Proof. done. Qed.
Lemma reads_spells rule b : reads 0 rule b <-> spells rule b.
Proof.
  revert b. induction rule as [|v r IH]; intros b.
  { cbn [spells]. by rewrite one_block_0, reads_none. }
  rewrite reads_gap. destruct r as [|w r].
  - cbn [spells]. unfold one_block. split.
    + intros (i&b'&->&Hb). exists i. destruct b' as [|[] b'']; [by exists 0|done|].
      apply reads_none in Hb as [k ->]. by exists (S k).
    + intros (i&j&->). exists i, (replicate j false). split; [done|]. destruct j; [done|]. cbn [replicate].
      apply reads_none. by exists j.
  - rewrite spells_cons. split.
    + intros (i&[|[] b'']&->&Hb); [done..|]. exists (replicate i false ++ replicate v true), b''. 
      split_and!; [by rewrite <-app_assoc|exists i, 0; by rewrite app_nil_r|by apply IH].
    + intros (b1&b2&->&(i&j&->)&Hb%IH). exists i, (replicate j false ++ false :: b2). split; [by rewrite <-!app_assoc|].
      destruct j as [|j]; [done|]. cbn [replicate app]. clear -Hb.
      induction j as [|j IHj]; cbn [replicate app]; by constructor.
Qed.

(** Number of blocks. *)
Definition nz (rule : list nat) : nat := length (filter (fun v => v <> 0) rule).
Lemma nz_cons v r : nz (v :: r) = (if decide (v = 0) then 0 else 1) + nz r.
Proof.
  unfold nz. case_decide; [rewrite filter_cons_False by (intros H'; by apply H')|rewrite filter_cons_True by done]; done.
Qed.
Lemma reads_blocks c q b : reads c q b -> blocks c b = filter (fun v => v <> 0) q.
Proof.
  induction 1 as [|c|q b Hr IH|c v q b Hc Hr IH|c q b Hr IH]; cbn [blocks]; [done| |by rewrite decide_True|done|].
  all: case_decide; [rewrite filter_cons_False by (intros H'; by apply H')|rewrite filter_cons_True by done]; by rewrite ?IH.
Qed.
Lemma spells_clue rule b : spells rule b -> clue_of b = filter (fun v => v <> 0) rule.
Proof. intros H%reads_spells. by apply reads_blocks. Qed.
Lemma filter_positive rule : positive rule -> filter (fun v => v <> 0) rule = rule.
Proof. induction 1; [done|]. rewrite filter_cons_True by lia. by f_equal. Qed.
Lemma blocks_reads b : forall c, reads c (blocks c b) b.
Proof.
  assert (forall b c, 0 < c -> exists v r, blocks c b = v :: r /\ c <= v) as Hge.
  { clear b. intros b. induction b as [|[] b IH]; intros c Hc; cbn [blocks].
    - rewrite decide_False by lia. eauto.
    - destruct (IH (S c)) as (v&r&->&?); [lia|]. exists v, r. split; [done|lia].
    - rewrite decide_False by lia. eauto. }
  induction b as [|[] b IH]; intros c; cbn [blocks].
  - case_decide; [subst|]; constructor.
  - specialize (IH (S c)). destruct (Hge b (S c)) as (v&r&E&Hv); [lia|]. rewrite E in *. by constructor.
  - case_decide; [subst|]; constructor; apply IH.
Qed.
Lemma clue_spells b : spells (clue_of b) b.
Proof. apply reads_spells, blocks_reads. Qed.
(** C34: what the clues mean. *)
Lemma spells_positive rule b : positive rule -> spells rule b <-> clue_of b = rule.
Proof.
  intros Hp. split; [|intros <-; apply clue_spells]. intros H%spells_clue. by rewrite filter_positive in H.
Qed.

Lemma solution_clues col row g : length g = length col * length row ->
  (forall x rule, col !! x = Some rule -> clue_of (grid_col (length col) (length row) g x) = rule) ->
  (forall y rule, row !! y = Some rule -> clue_of (grid_row (length col) g y) = rule) -> solution col row g.
Proof.
  intros Hl Hc Hr. split_and!; [done|..].
  - intros x rule H. rewrite <-(Hc x rule H) at 1. apply clue_spells.
  - intros y rule H. rewrite <-(Hr y rule H) at 1. apply clue_spells.
Qed.
Lemma solution_positive col row g : Forall positive col -> Forall positive row ->
  solution col row g <-> length g = length col * length row /\
    (forall x rule, col !! x = Some rule -> clue_of (grid_col (length col) (length row) g x) = rule) /\
    (forall y rule, row !! y = Some rule -> clue_of (grid_row (length col) g y) = rule).
Proof.
  intros Hc Hr. split.
  - intros (H1&H2&H3). split_and!; [done|..].
    + intros x rule Hx. apply spells_positive; [exact (Forall_lookup_1 _ _ _ _ Hc Hx)|by apply H2].
    + intros x rule Hx. apply spells_positive; [exact (Forall_lookup_1 _ _ _ _ Hr Hx)|by apply H3].
  - intros (H1&H2&H3). by apply solution_clues.
Qed.

(** Runs. *)
Section runs.
  Context (rule : list nat) (Hhd : head rule <> Some 0).
  Notation n := (length (descs rule)).
  Notation K := (kind rule).

  Definition edge (s t : nat) : Prop :=
    (t = s /\ (K s = Some Space \/ K s = Some End)) \/ (t = S s /\ t < n) \/ (s = 0 /\ t = 2 /\ 2 < n).
  Definition isfill (t : nat) : bool := match K t with Some Fill => true | _ => false end.
  Fixpoint chain (s : nat) (p : list nat) : Prop :=
    match p with [] => True | t :: p => edge s t /\ chain t p end.
  Definition endst (s : nat) (p : list nat) : nat := default s (last p).
  Definition accepting (s : nat) : Prop := n - 2 <= s.

  Lemma n_ge : 2 <= n.
  Proof. rewrite descs_length. pose proof (gap_length_pos rule). lia. Qed.
  Lemma endst_cons s t p : endst s (t :: p) = endst t p.
  Proof. unfold endst. destruct (last p) eqn:E; cbn; [|].
    - destruct p; [done|]. cbn in *. by rewrite E.
    - apply last_None in E as ->. done.
  Qed.
  Lemma endst_snoc s p t : endst s (p ++ [t]) = t.
  Proof. unfold endst. by rewrite last_snoc. Qed.
  Lemma chain_snoc s p t : chain s (p ++ [t]) <-> chain s p /\ edge (endst s p) t.
  Proof.
    revert s. induction p as [|u p IH]; intros s; cbn [app chain].
    - unfold endst. cbn. tauto.
    - rewrite IH, endst_cons. tauto.
  Qed.

  (** Descriptor of every state. *)
  Lemma desc_lookup s : s < n -> exists c q, descs rule !! s = Some (c, q).
  Proof. intros [[c q] H]%lookup_lt_is_Some. eauto. Qed.
  Lemma desc_gap s c q : s <> 0 -> descs rule !! s = Some (c, q) -> gap rule !! (s - 1) = Some (c, q).
  Proof. destruct s as [|s]; [done|]. intros _ H. cbn in H. by rewrite Nat.sub_1_r. Qed.
  Lemma desc_zero c q : descs rule !! 0 = Some (c, q) -> c = 0 /\ q = rule.
  Proof. by intros [= <- <-]. Qed.
  Lemma desc_one : descs rule !! 1 = Some (0, rule).
  Proof. cbn. by destruct rule. Qed.
  Lemma desc_two v r : rule = v :: r -> descs rule !! 2 = Some (1, rule).
  Proof.
    intros Er. pose proof Hhd as Hp. rewrite Er in Hp |- *. change (descs (v :: r) !! 2) with (gap (v :: r) !! 1).
    assert (v <> 0) by (intros ->; by apply Hp).
    rewrite gap_cons_lookup, decide_False by done. by rewrite decide_True by lia.
  Qed.
  Lemma desc_index s c q : s <> 0 -> descs rule !! s = Some (c, q) -> s + length (gap q) = n + c.
  Proof. intros Hs H%desc_gap%gap_index; [|done]. rewrite descs_length. lia. Qed.
  Lemma desc_bound s c q : descs rule !! s = Some (c, q) ->
    c = 0 \/ exists v q', q = v :: q' /\ 0 < c <= v.
  Proof.
    destruct (decide (s = 0)) as [->|]; [intros [-> ->]%desc_zero; auto|].
    intros H%desc_gap; [|done]. by apply gap_bound in H as [_ ?].
  Qed.
  Lemma desc_next s c q : s <> 0 -> descs rule !! s = Some (c, q) ->
    (c = 0 /\ q = [] /\ S s = n) \/
    (exists v q', q = v :: q' /\ c < v /\ descs rule !! S s = Some (S c, q)) \/
    (exists q', q = c :: q' /\ descs rule !! S s = Some (0, q')).
  Proof.
    intros Hs H%desc_gap; [|done]. apply gap_next in H.
    replace (descs rule !! S s) with (gap rule !! S (s - 1)) by (replace (S (s - 1)) with s by lia; done).
    rewrite descs_length. destruct H as [(?&?&?)|[?|?]]; [left; split_and!; [done|done|lia]|right; by left|right; by right].
  Qed.

  Lemma rule_nil_n : rule = [] <-> n = 2.
  Proof.
    split; [by intros ->|]. destruct rule as [|v r]; [done|]. rewrite descs_length, gap_length_cons.
    pose proof (gap_length_pos r). assert (v <> 0) by (intros ->; by apply Hhd). lia.
  Qed.

  Lemma isfill_desc s c q : descs rule !! s = Some (c, q) -> isfill s = true <-> c <> 0.
  Proof.
    intros H. unfold isfill, kind. rewrite H. case_decide as H0.
    { subst. apply desc_zero in H as [-> _]. done. }
    case_decide as H1. { subst. rewrite desc_one in H. injection H as <- <-. done. }
    case_decide as H2.
    { destruct (desc_next s c q H0 H) as [(->&_)|[(v&q'&_&_&H3)|(q'&_&H3)]]; [done|..];
        apply lookup_lt_Some in H3; lia. }
    by case_decide.
  Qed.
  Lemma isfill_false s c q : descs rule !! s = Some (c, q) -> isfill s = false <-> c = 0.
  Proof. intros [H1 H2]%isfill_desc. destruct (isfill s), (decide (c = 0)); split; try done; intuition done. Qed.

  Lemma stay_desc s c q : descs rule !! s = Some (c, q) ->
    (K s = Some Space \/ K s = Some End) <-> s <> 0 /\ c = 0.
  Proof.
    intros H. pose proof (isfill_desc s c q H) as Hf. unfold isfill in Hf. unfold kind in *. rewrite H in *.
    case_decide as H0; [split; [intros [?|?]; done|intros [? _]; done]|].
    case_decide as H1; [|case_decide as H2; [|case_decide as H3]].
    - split; [|auto]. intros _. split; [done|]. destruct (decide (c = 0)) as [|Hc]; [done|]. by apply Hf in Hc.
    - split; [|auto]. intros _. split; [done|]. destruct (decide (c = 0)) as [|Hc]; [done|]. by apply Hf in Hc.
    - split; [|auto]. done.
    - split; [intros [?|?]; done|]. intros [_ ?]. done.
  Qed.

  Lemma edge_bound s t : edge s t -> s < n -> s <= t < n /\ t <> 0.
  Proof.
    intros [[-> H]|[[-> ?]|(->&->&?)]] Hs; [|lia..]. destruct (desc_lookup s Hs) as (c&q&E).
    apply (stay_desc s c q E) in H. lia.
  Qed.

  (** A step reads one cell. *)
  Lemma edge_step s c q t c' q' : descs rule !! s = Some (c, q) -> descs rule !! t = Some (c', q') ->
    edge s t ->
    (c' = 0 /\ c = 0 /\ q' = q) \/ (c' = 0 /\ q = c :: q') \/
    (c' = S c /\ q' = q /\ exists v r, q = v :: r /\ c < v).
  Proof.
    intros Hs Ht [[-> H]|[[-> Hn]|(->&->&Hn)]].
    - apply (stay_desc s c q Hs) in H as [? ->]. rewrite Hs in Ht. injection Ht as <- <-. auto.
    - destruct (decide (s = 0)) as [->|H0].
      { rewrite desc_one in Ht. injection Ht as <- <-. apply desc_zero in Hs as [-> ->]. auto. }
      destruct (desc_next s c q H0 Hs) as [(_&_&?)|[(v&r&->&Hv&Hd)|(r&->&Hd)]]; [lia|..];
        rewrite Ht in Hd; injection Hd as -> ->; eauto 10.
    - apply desc_zero in Hs as [-> ->]. destruct rule as [|v r] eqn:Er; [cbn in Hn; lia|]. rewrite <-Er in *.
      rewrite (desc_two v r Er) in Ht. injection Ht as <- <-. right; right. split_and!; [done..|].
      exists v, r. split; [done|]. destruct (decide (v = 0)) as [->|]; [|lia]. by rewrite Er in Hhd.
  Qed.
  (** Every admissible cell can be read. *)
  Lemma step_exists s c q x c' q' : descs rule !! s = Some (c, q) ->
    (x = true /\ c' = S c /\ q' = q /\ (exists v r, q = v :: r /\ c < v)) \/
    (x = false /\ c' = 0 /\ (c = 0 /\ q' = q \/ q = c :: q')) ->
    exists t, edge s t /\ descs rule !! t = Some (c', q').
  Proof.
    intros Hs Hx. destruct (decide (s = 0)) as [->|H0].
    - apply desc_zero in Hs as [-> ->]. destruct Hx as [(->&->&->&v&r&Er&Hv)|(->&->&[[_ ->]|Er])].
      + exists 2. pose proof (desc_two v r Er) as H2. split; [|done].
        right; right. apply lookup_lt_Some in H2. auto.
      + exists 1. split; [|apply desc_one]. right; left. pose proof n_ge. lia.
      + by rewrite Er in Hhd.
    - pose proof (desc_next s c q H0 Hs) as Hn. destruct Hx as [(->&->&->&v&r&->&Hv)|(->&->&[[-> ->]| ->])].
      + destruct Hn as [(_&?&_)|[(v'&r'&[= <- <-]&_&Hd)|(r'&[= -> ->]&_)]]; [done| |lia].
        exists (S s). split; [|done]. right; left. split; [done|]. by eapply lookup_lt_Some.
      + exists s. split; [|done]. left. split; [done|]. by apply (stay_desc s 0 q Hs).
      + destruct Hn as [(_&?&_)|[(v'&r'&[= <- <-]&?&Hd)|(r'&[= <-]&Hd)]]; [done|lia|].
        exists (S s). split; [|done]. right; left. split; [done|]. by eapply lookup_lt_Some.
  Qed.

  Lemma accepting_desc s c q : descs rule !! s = Some (c, q) -> accepting s <-> (c = 0 /\ q = []) \/ q = [c].
  Proof.
    intros Hs. unfold accepting. pose proof n_ge as Hn. destruct (decide (s = 0)) as [->|H0].
    - pose proof Hs as Hs'. apply desc_zero in Hs' as [-> ->]. split.
      + intros Ha. left. split; [done|]. apply rule_nil_n. lia.
      + intros [[_ E%rule_nil_n]|E]; [lia|]. by rewrite E in Hhd.
    - pose proof (desc_index s c q H0 Hs) as Hi. pose proof (gap_length_pos q).
      destruct (desc_bound s c q Hs) as [->|(v&q'&->&Hv)].
      + destruct q as [|w q'].
        * split; [auto|]. intros _. change (length (gap [])) with 1 in Hi. lia.
        * rewrite gap_length_cons in Hi. pose proof (gap_length_pos q'). split.
          -- intros Ha. right. assert (length (gap q') = 1 /\ w = 0) as [Hl ->] by lia. f_equal.
             destruct q' as [|u q']; [done|]. rewrite gap_length_cons in Hl. pose proof (gap_length_pos q'). lia.
          -- intros [[_ ?]|[= -> ->]]; [done|]. change (length (gap [])) with 1 in Hi. lia.
      + rewrite gap_length_cons in Hi. split.
        * intros Ha. right. assert (length (gap q') = 1 /\ c = v) as [Hl ->] by (pose proof (gap_length_pos q'); lia).
          f_equal. destruct q' as [|w q']; [done|]. rewrite gap_length_cons in Hl. pose proof (gap_length_pos q'). lia.
        * intros [[? _]|[= -> ->]]; [lia|]. change (length (gap [])) with 1 in Hi. lia.
  Qed.

  (** Runs are exactly the readings. *)
  Lemma run_reads p s c q : descs rule !! s = Some (c, q) -> chain s p ->
    accepting (endst s p) -> reads c q (isfill <$> p).
  Proof.
    revert s c q. induction p as [|t p IH]; intros s c q Hs Hch Ha.
    - apply (accepting_desc s c q Hs) in Ha as [[-> ->]| ->]; constructor.
    - destruct Hch as [He Hch]. rewrite endst_cons in Ha.
      destruct (edge_bound s t He) as [Ht _]; [by eapply lookup_lt_Some|].
      destruct (desc_lookup t) as (c'&q'&Ht'); [lia|]. specialize (IH t c' q' Ht' Hch Ha). rewrite fmap_cons.
      destruct (edge_step s c q t c' q' Hs Ht' He) as [(->&->&->)|[(->&->)|(->&->&v&r&->&Hv)]].
      + rewrite (proj2 (isfill_false t 0 q Ht') eq_refl). by constructor.
      + rewrite (proj2 (isfill_false t 0 q' Ht') eq_refl). by constructor.
      + rewrite (proj2 (isfill_desc t (S c) _ Ht')) by done. by constructor.
  Qed.
  Lemma reads_run c q b : reads c q b -> forall s, descs rule !! s = Some (c, q) ->
    exists p, chain s p /\ accepting (endst s p) /\ isfill <$> p = b.
  Proof.
    induction 1 as [|c|q b Hr IH|c v q b Hc Hr IH|c q b Hr IH]; intros s Hs.
    1, 2: exists []; split_and!; [done| |done]; apply (accepting_desc s _ _ Hs); auto.
    - destruct (step_exists s 0 q false 0 q Hs) as (t&He&Ht); [right; auto|]. destruct (IH t Ht) as (p&Hch&Ha&<-).
      exists (t :: p). split_and!; [done|by rewrite endst_cons|]. rewrite fmap_cons. f_equal. by apply (isfill_false t _ _ Ht).
    - destruct (step_exists s c (v :: q) true (S c) (v :: q) Hs) as (t&He&Ht); [left; split_and!; eauto|].
      destruct (IH t Ht) as (p&Hch&Ha&<-).
      exists (t :: p). split_and!; [done|by rewrite endst_cons|]. rewrite fmap_cons. f_equal. by apply (isfill_desc t _ _ Ht).
    - destruct (step_exists s c (c :: q) false 0 q Hs) as (t&He&Ht); [right; auto|]. destruct (IH t Ht) as (p&Hch&Ha&<-).
      exists (t :: p). split_and!; [done|by rewrite endst_cons|]. rewrite fmap_cons. f_equal. by apply (isfill_false t _ _ Ht).
  Qed.

  (** Block counter of a state: twice the number of finished blocks, plus one
      inside a block. *)
  Definition level (s : nat) : nat :=
    match descs rule !! s with
    | None => 0
    | Some (c, q) => 2 * (nz rule - nz q) + (if decide (c = 0) then 0 else 1)
    end.
  Lemma desc_nz s c q : descs rule !! s = Some (c, q) -> nz q <= nz rule.
  Proof.
    assert (forall r i c q, gap r !! i = Some (c, q) -> nz q <= nz r) as Hg.
    { clear. intros r. induction r as [|v r IH]; intros i c q.
      - destruct i; [|done]. by intros [= _ <-].
      - rewrite gap_cons_lookup. case_decide; [by intros [= _ <-]|]. case_decide; [by intros [= _ <-]|].
        intros Hgi%IH. rewrite nz_cons. lia. }
    destruct (decide (s = 0)) as [->|]; [by intros [_ ->]%desc_zero|]. intros H%desc_gap; [|done]. by eapply Hg.
  Qed.
  Lemma level_S s : S s < n -> level s <= level (S s).
  Proof.
    intros Hs. destruct (decide (s = 0)) as [->|H0].
    { unfold level. rewrite desc_one. cbn. lia. }
    destruct (desc_lookup s) as (c&q&E); [lia|].
    pose proof (desc_nz s c q E). unfold level. rewrite E.
    destruct (desc_next s c q H0 E) as [(_&_&?)|[(v&r&->&Hv&->)|(r&->&->)]]; [lia|..].
    - rewrite (decide_False (P := S c = 0)) by done. case_decide; lia.
    - rewrite (decide_True (P := 0 = 0)) by done. rewrite nz_cons in *. case_decide; lia.
  Qed.
  Lemma level_mono s t : s <= t < n -> level s <= level t.
  Proof.
    intros [H Ht]. induction H as [|t H IH]; [done|]. etrans; [apply IH; lia|]. by apply level_S.
  Qed.
End runs.
