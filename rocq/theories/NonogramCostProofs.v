(** Proofs for C87: how often the solver looks at a line. *)
From Verif Require Import Base Nonogram NonogramCost.
From Verif Require Import NonogramGrid.

Definition forget {A B} (r : res (A * B)) : res A := let! (a, _) := r in Ret a.

Lemma run_lines_same positions : forall machines changed grid k,
  forget (run_lines_cost positions machines changed grid k) = run_lines positions machines changed grid.
Proof.
  induction machines as [|[index mc] machines IH]; intros changed grid k; cbn [run_lines_cost run_lines]; [done|].
  destruct (positions index) as [ps|f]; cbn [bind]; [|done]. destruct (run_line mc ps grid) as [[[c g]|e]|f]; cbn [bind]; [|done|done].
  apply IH.
Qed.
Lemma one_round_same m w cols rows grid k : forget (one_round_cost m w cols rows grid k) = one_round m w cols rows grid.
Proof.
  unfold one_round_cost, one_round. rewrite <-(run_lines_same _ _ _ _ k).
  destruct (run_lines_cost _ (enumerate cols) _ _ _) as [[[[c g]|e] k']|f]; cbn [bind forget]; [|done|done]. apply run_lines_same.
Qed.
Lemma rounds_same m w cols rows : forall fuel grid k l,
  forget (rounds_cost fuel m w cols rows grid k l) = rounds fuel m w cols rows grid.
Proof.
  induction fuel as [|fuel IH]; intros grid k l; cbn [rounds_cost rounds]; [done|]. rewrite <-(one_round_same _ _ _ _ _ l).
  destruct (one_round_cost m w cols rows grid l) as [[[[c g]|e] l']|f]; cbn [bind forget]; [|done|done].
  destruct c; [apply IH|done].
Qed.
Lemma solve_same m col row :
  (let! (r, _) := solve_cost m col row in
   Ret (match r with Err e => Err e | Ok g => Ok ((fun s => match s with Filled => true | _ => false end) <$> g) end)) =
  solve_nonogram m col row.
Proof.
  unfold solve_cost, solve_nonogram, grid_right_left. destruct (n_mul m (length col) (length row)) as [n|f]; cbn [bind]; [|done]. cbv zeta.
  rewrite <-(rounds_same _ _ _ _ _ _ 0 0). by destruct (rounds_cost _ _ _ _ _ _ _ _) as [[[g|e] k]|f].
Qed.

Lemma run_lines_count positions : forall machines changed grid k r k',
  run_lines_cost positions machines changed grid k = Ret (r, k') ->
  k' <= k + length machines /\ (forall x, r = Ok x -> k' = k + length machines) /\ (forall e, r = Err e -> k < k').
Proof.
  induction machines as [|[index mc] machines IH]; intros changed grid k r k'; cbn [run_lines_cost length].
  - intros [= <- <-]. split; [lia|]. split; [intros; lia|done].
  - destruct (positions index) as [ps|f]; cbn [bind]; [|done]. destruct (run_line mc ps grid) as [[[c g]|e]|f]; cbn [bind]; [|..|done].
    + intros (H1&H2&H3)%IH. split; [lia|]. split; [intros x Hx; apply H2 in Hx; lia|intros e' He; apply H3 in He; lia].
    + intros [= <- <-]. split; [lia|]. split; [done|]. intros; lia.
Qed.
Lemma enumerate_length {A} (l : list A) : length (enumerate l) = length l.
Proof. unfold enumerate. apply imap_length. Qed.
Lemma one_round_count m w cols rows grid k r k' : one_round_cost m w cols rows grid k = Ret (r, k') ->
  k' <= k + (length cols + length rows) /\ (forall x, r = Ok x -> k' = k + (length cols + length rows)) /\
  (forall e, r = Err e -> k < k').
Proof.
  unfold one_round_cost. destruct (run_lines_cost _ (enumerate cols) _ _ _) as [[[[c g]|e] k1]|f] eqn:E1; cbn [bind]; [|..|done];
    apply run_lines_count in E1 as (H1&H2&H5); rewrite enumerate_length in *.
  - intros (H3&H4&H6)%run_lines_count. rewrite enumerate_length in *. specialize (H2 _ eq_refl). split; [lia|].
    split; [intros x Hx; apply H4 in Hx; lia|intros e' He; apply H6 in He; lia].
  - intros [= <- <-]. split; [lia|]. split; [done|]. intros e' _. exact (H5 _ eq_refl).
Qed.

Section rounds.
Context (m : mode) (col row : list (list nat)).
Local Notation w := (length col).
Local Notation h := (length row).
Context (Hov : (N.of_nat (w * h) < usize_size m)%N) (Hdim : 1 <= h \/ w <= 1).

Lemma rounds_count : forall fuel g k l r k' l', length g = w * h -> l = k * (w + h) ->
  rounds_cost fuel m w (machine_new <$> col) (machine_new <$> row) g k l = Ret (r, (k', l')) ->
  l' <= k' * (w + h) /\ match r with
    | Ok g' => length g' = w * h /\ l' = k' * (w + h) /\ k' + blanks g' <= S (k + blanks g)
    | Err _ => k' <= S (k + blanks g) /\ k' * (w + h) < l' + (w + h)
    end.
Proof.
  induction fuel as [|fuel IH]; intros g k l r k' l' Hlen Hl; cbn [rounds_cost]; [done|].
  pose proof (one_round_same m w (machine_new <$> col) (machine_new <$> row) g l) as Hsame.
  destruct (one_round_cost m w _ _ g l) as [[r1 l1]|f] eqn:E1; cbn [bind]; [|done]. cbn [forget bind] in Hsame.
  apply one_round_count in E1 as (Hc1&Hc2&Hc3). rewrite !fmap_length in *.
  destruct (one_round_spec m col row Hov Hdim g Hlen) as [(g1&E&Hok)|[[E Herr]|[E Hex]]]; rewrite E in Hsame; [..|done];
    injection Hsame as ->.
  - specialize (Hc2 _ eq_refl). pose proof Hok as (Hle&_). destruct (blanks_le m col row Hov Hdim g g1 Hle) as [_ Hlt].
    destruct (decide (g1 = g)) as [->|Hne].
    + rewrite bool_decide_eq_false_2 by (intros H; by apply H). intros [= <- <- <-]. split_and!; nia.
    + rewrite bool_decide_eq_true_2 by done. specialize (Hlt Hne). intros Hr. apply IH in Hr as [H1 H2].
      * split; [done|]. destruct r; lia.
      * rewrite <-Hlen. symmetry. by apply Forall2_length in Hle.
      * nia.
  - intros [= <- <- <-]. specialize (Hc3 _ eq_refl). split; [nia|]. split; [lia|nia].
Qed.

Lemma solve_count r k l : solve_cost m col row = Ret (r, (k, l)) ->
  l <= k * (w + h) /\ k <= w * h + 1 /\
  (forall g, r = Ok g -> l = k * (w + h) /\ k <= length (filter (fun s => s <> Blank) g) + 1) /\
  (forall e, r = Err e -> k * (w + h) < l + (w + h)).
Proof.
  unfold solve_cost. rewrite n_mul_small by done. cbn [bind]. cbv zeta.
  rewrite replicate_length. intros Hr. apply rounds_count in Hr as [H1 H2]; [|apply replicate_length|done].
  pose proof (blanks_bound (replicate (w * h) Blank)) as Hb. rewrite replicate_length in Hb.
  split; [done|]. split; [destruct r; lia|]. split; [|intros e ->; apply H2]. intros g ->. destruct H2 as (H2&H3&H4). split; [done|].
  assert (length (filter (fun s => s <> Blank) g) + blanks g = length g); [|lia].
  unfold blanks. clear. induction g as [|s g IH]; [done|]. rewrite !filter_cons. destruct (decide (s = Blank)) as [->|Hne].
  - rewrite decide_False by (intros H; by apply H). cbn [length]. lia.
  - rewrite decide_True by done. cbn [length]. lia.
Qed.
End rounds.
