(** Clues that are zero. *)
From Verif Require Import Base Nonogram SpecNonogram SpecNonogramZero NonogramStates NonogramLine NonogramDeduce NonogramGrid.

Definition stops {A} (r : res (result A nonogram_error)) : Prop :=
  r = Fault Panic \/ r = Ret (Err NoSolution).
(** The only fault is a panic. *)
Definition pan {A} (r : res A) : Prop := forall f, r = Fault f -> f = Panic.
(** The only fault is a panic, the only error [NoSolution]. *)
Definition tame {A} (r : res (result A nonogram_error)) : Prop :=
  pan r /\ forall e, r = Ret (Err e) -> e = NoSolution.

Lemma pan_ret {A} (a : A) : pan (Ret a).
Proof. intros f E. done. Qed.
Lemma pan_panic {A} : pan (A := A) (Fault Panic).
Proof. intros f E. by injection E. Qed.
Lemma pan_bind {A B} (x : res A) (k : A -> res B) : pan x -> (forall a, x = Ret a -> pan (k a)) -> pan (let! a := x in k a).
Proof. intros H1 H2. destruct x as [a|f]; cbn [bind]; [by apply H2|]. rewrite (H1 f) by done. apply pan_panic. Qed.
Lemma pan_expect {A} (o : option A) : pan (expect o).
Proof. destruct o; [apply pan_ret|apply pan_panic]. Qed.
Lemma pan_set {A} (l : list A) i x : pan (vec_set l i x).
Proof. unfold vec_set. case_decide; [apply pan_ret|apply pan_panic]. Qed.
Lemma pan_mapM {A B} (f : A -> res B) l : (forall x, pan (f x)) -> pan (mapM f l).
Proof.
  intros H. induction l as [|x l IH]; cbn [mapM]; [apply pan_ret|].
  apply pan_bind; [done|intros y _]. apply pan_bind; [done|intros ys _]. apply pan_ret.
Qed.
Lemma pan_foldM {A S} (f : A -> S -> res S) l : (forall x s, pan (f x s)) -> forall s, pan (foldM f l s).
Proof.
  intros H. induction l as [|x l IH]; intros s; cbn [foldM]; [apply pan_ret|].
  apply pan_bind; [done|intros y _]. apply IH.
Qed.
Lemma pan_match_pass states sq rest old : forall i new, pan (match_pass states sq rest i old new).
Proof.
  induction old as [|[path|] old IH]; intros i new; cbn [match_pass]; [apply pan_ret| |apply IH].
  apply pan_bind; [apply pan_expect|intros c _]. apply pan_bind; [apply pan_expect|intros n _].
  apply pan_bind.
  { destruct c; [apply pan_ret..| |]; (destruct (not_filled sq); [apply pan_set|apply pan_ret]). }
  intros new1 _. destruct n.
  - apply pan_panic.
  - apply pan_bind; [destruct (not_blocked sq); [apply pan_set|apply pan_ret]|intros; apply IH].
  - apply pan_bind; [destruct (not_filled sq); [apply pan_set|apply pan_ret]|intros; apply IH].
  - destruct (states !! (i + 2)) as [[]|]; try apply pan_panic.
    + apply pan_bind; [destruct (not_filled sq); [apply pan_set|apply pan_ret]|intros new2 _].
      apply pan_bind; [destruct (not_blocked sq); [apply pan_set|apply pan_ret]|intros; apply IH].
    + cbv zeta. destruct (push_tail _ _ _); [|apply IH]. apply pan_bind; [apply pan_set|intros; apply pan_ret].
Qed.
Lemma pan_match_loop states squares : forall old, pan (match_loop states squares old).
Proof.
  induction squares as [|sq rest IH]; intros old; cbn [match_loop]; cbv zeta;
    (apply pan_bind; [apply pan_match_pass|intros [new stop] _]); [apply pan_ret|].
  destruct stop; [apply pan_ret|apply IH].
Qed.
Lemma pan_find_left states squares : pan (find_left states squares).
Proof.
  unfold find_left. apply pan_bind; [apply pan_set|intros old _].
  apply pan_bind; [apply pan_match_loop|intros new _]. apply pan_bind; [apply pan_expect|intros [path|] _]; [|apply pan_ret].
  apply pan_bind; [|intros; apply pan_ret]. apply pan_mapM. intros x. unfold state_filled.
  apply pan_bind; [apply pan_expect|intros [] _]; try apply pan_ret. apply pan_panic.
Qed.
Lemma pan_rl_step lft rgt i s : pan (rl_step lft rgt i s).
Proof.
  unfold rl_step. apply pan_bind; [apply pan_expect|intros l _].
  apply pan_bind; [destruct (decide _); [apply pan_panic|apply pan_expect]|intros r _]. cbv zeta.
  apply pan_bind; [apply pan_expect|intros [] _]; try apply pan_ret.
  destruct (_ && _); [|apply pan_ret]. apply pan_bind; [apply pan_set|intros; apply pan_ret].
Qed.
Lemma tame_line mc grid : tame (line_right_left mc grid).
Proof.
  unfold line_right_left. pose proof (pan_find_left (left_states mc) grid) as H1.
  destruct (find_left (left_states mc) grid) as [[lft|]|f]; cbn [bind].
  - pose proof (pan_find_left (right_states mc) (rev grid)) as H2.
    destruct (find_left (right_states mc) (rev grid)) as [[rgt|]|f]; cbn [bind].
    + split.
      * apply pan_bind; [|intros; apply pan_ret]. apply pan_foldM. intros. apply pan_rl_step.
      * intros e. by destruct (foldM _ _ _).
    + split; [apply pan_ret|]. intros e E. by injection E.
    + rewrite (H2 f) by done. split; [apply pan_panic|done].
  - split; [apply pan_ret|]. intros e E. by injection E.
  - rewrite (H1 f) by done. split; [apply pan_panic|done].
Qed.
Lemma tame_run_line mc ps g : tame (run_line mc ps g).
Proof.
  unfold run_line. pose proof (pan_mapM (vec_get g) ps (fun p => pan_expect _)) as Hm.
  destruct (mapM (vec_get g) ps) as [line|f]; cbn [bind]; [|rewrite (Hm f) by done; split; [apply pan_panic|done]].
  destruct (tame_line mc line) as [H1 H2]. destruct (line_right_left mc line) as [[[c line']|e]|f]; cbn [bind].
  - split.
    + apply pan_bind; [|intros; apply pan_ret]. apply pan_foldM. intros [p v] s. apply pan_set.
    + intros e. by destruct (foldM _ _ _).
  - rewrite (H2 e) by done. split; [apply pan_ret|]. intros e' E. by injection E.
  - rewrite (H1 f) by done. split; [apply pan_panic|done].
Qed.

Lemma find_left_zero_head rule line : head rule = Some 0 -> find_left (rule_states rule) line = Fault Panic.
Proof. intros H. destruct rule as [|v r]; [done|]. injection H as ->. apply find_left_zero. Qed.

Definition edge_zero (rule : list nat) : Prop := head rule = Some 0 \/ last rule = Some 0.
Lemma line_zero_head rule line : head rule = Some 0 -> line_right_left (machine_new rule) line = Fault Panic.
Proof.
  intros H. destruct rule as [|v r]; [done|]. injection H as ->.
  unfold line_right_left, machine_new. cbn [left_states]. by rewrite find_left_zero.
Qed.
Lemma line_zero rule line : edge_zero rule -> stops (line_right_left (machine_new rule) line).
Proof.
  intros [H|H]; [left; by apply line_zero_head|].
  unfold line_right_left, machine_new. cbn [left_states right_states].
  pose proof (pan_find_left (rule_states rule) line) as Hp.
  destruct (find_left (rule_states rule) line) as [[lft|]|f]; cbn [bind]; [|by right|left; by rewrite (Hp f)].
  apply last_Some in H as [l ->]. rewrite rev_app_distr. cbn [rev app]. left. by rewrite find_left_zero.
Qed.
Lemma run_line_zero rule ps g : edge_zero rule -> stops (run_line (machine_new rule) ps g).
Proof.
  intros Hz. unfold run_line. pose proof (pan_mapM (vec_get g) ps (fun p => pan_expect _)) as Hm.
  destruct (mapM (vec_get g) ps) as [line|f]; cbn [bind]; [|left; by rewrite (Hm f)].
  destruct (line_zero rule line Hz) as [E|E]; rewrite E; [by left|by right].
Qed.
Lemma run_line_zero_head rule ps g : head rule = Some 0 -> run_line (machine_new rule) ps g = Fault Panic.
Proof.
  intros Hz. unfold run_line. pose proof (pan_mapM (vec_get g) ps (fun p => pan_expect _)) as Hm.
  destruct (mapM (vec_get g) ps) as [line|f]; cbn [bind]; [|by rewrite (Hm f)].
  by rewrite line_zero_head.
Qed.

Lemma tame_run_lines positions ms : (forall i, pan (positions i)) -> forall c g, tame (run_lines positions ms c g).
Proof.
  intros Hpos. induction ms as [|[i mc] ms IH]; intros c g; cbn [run_lines]; [split; [apply pan_ret|done]|].
  pose proof (Hpos i) as Hi. destruct (positions i) as [ps|f]; cbn [bind]; [|rewrite (Hi f) by done; split; [apply pan_panic|done]].
  destruct (tame_run_line mc ps g) as [H1 H2]. destruct (run_line mc ps g) as [[[c' g']|e]|f]; cbn [bind].
  - apply IH.
  - rewrite (H2 e) by done. split; [apply pan_ret|]. intros e' E. by injection E.
  - rewrite (H1 f) by done. split; [apply pan_panic|done].
Qed.
Lemma run_lines_zero positions ms i rule : (forall i, pan (positions i)) -> edge_zero rule -> (i, machine_new rule) ∈ ms ->
  forall c g, stops (run_lines positions ms c g).
Proof.
  intros Hpos Hz Hin. induction ms as [|[j mc] ms IH]; [by apply elem_of_nil in Hin|]. intros c g. cbn [run_lines].
  pose proof (Hpos j) as Hi. destruct (positions j) as [ps|f]; cbn [bind]; [|left; by rewrite (Hi f)].
  apply elem_of_cons in Hin as [He|Hin].
  - apply (f_equal snd) in He. cbn [snd] in He. rewrite <-He. destruct (run_line_zero rule ps g Hz) as [E|E]; rewrite E; cbn [bind]; [by left|by right].
  - destruct (tame_run_line mc ps g) as [H1 H2]. destruct (run_line mc ps g) as [[[c' g']|e]|f]; cbn [bind].
    + by apply IH.
    + right. by rewrite (H2 e).
    + left. by rewrite (H1 f).
Qed.

Lemma pan_column len i w : pan (column_positions len i w).
Proof. unfold column_positions. repeat case_decide; [apply pan_panic..|apply pan_ret]. Qed.
Lemma pan_n_mul m x y : pan (n_mul m x y).
Proof.
  unfold n_mul, usize_mul, arith. destruct (_ <? _)%N; [apply pan_ret|]. destruct (profile_of m); [apply pan_panic|apply pan_ret].
Qed.
Lemma pan_row m len i w : pan (row_positions m len i w).
Proof.
  unfold row_positions. apply pan_bind; [apply pan_n_mul|intros a _]. apply pan_bind; [apply pan_n_mul|intros b _].
  case_decide; [apply pan_panic|apply pan_ret].
Qed.

Lemma enumerate_elem {A B} (f : A -> B) l x : x ∈ l -> exists i, (i, f x) ∈ enumerate (f <$> l).
Proof.
  intros Hx. apply elem_of_list_lookup in Hx as [i Hi]. exists i. apply elem_of_list_lookup. exists i.
  unfold enumerate. rewrite list_lookup_imap, list_lookup_fmap, Hi. done.
Qed.

(** A clue beginning or ending with zero: never an answer. *)
Lemma solve_zero m col row rule : rule ∈ col ++ row -> head rule = Some 0 \/ last rule = Some 0 ->
  solve_nonogram m col row = Fault Panic \/ solve_nonogram m col row = Ret (Err NoSolution).
Proof.
  intros Hin Hz. unfold solve_nonogram. pose proof (pan_n_mul m (length col) (length row)) as Hn.
  destruct (n_mul m (length col) (length row)) as [n|f]; cbn [bind]; [|left; by rewrite (Hn f)].
  unfold grid_right_left. cbn [rounds]. 
  assert (stops (one_round m (length col) (machine_new <$> col) (machine_new <$> row) (replicate n Blank))) as [E|E];
    [|rewrite E; by left|rewrite E; by right].
  set (g := replicate n Blank). unfold one_round.
  apply elem_of_app in Hin as [Hin|Hin]; apply (enumerate_elem machine_new) in Hin as [i Hi].
  - destruct (run_lines_zero (fun index => column_positions (length g) index (length col)) _ i rule
      (fun i => pan_column _ _ _) Hz Hi false g) as [E|E]; rewrite E; cbn [bind]; [by left|by right].
  - destruct (tame_run_lines (fun index => column_positions (length g) index (length col)) (enumerate (machine_new <$> col))
      (fun i => pan_column _ _ _) false g) as [H1 H2].
    destruct (run_lines _ (enumerate (machine_new <$> col)) false g) as [[[c g1]|e]|f]; cbn [bind].
    + apply (run_lines_zero _ _ i rule); [|done|done]. intros. apply pan_row.
    + right. by rewrite (H2 e).
    + left. by rewrite (H1 f).
Qed.

(** * Zero clues as empty lines *)

Lemma no_zeros_positive rule : positive rule -> no_zeros rule = rule.
Proof.
  unfold no_zeros. induction 1 as [|v r Hv H IH]; [done|]. rewrite filter_cons_True by lia. by rewrite IH.
Qed.

Lemma run_lines_app positions ms1 ms2 : forall c g, run_lines positions (ms1 ++ ms2) c g =
  let! r := run_lines positions ms1 c g in
  match r with Err e => Ret (Err e) | Ok (c, g) => run_lines positions ms2 c g end.
Proof.
  induction ms1 as [|[i mc] ms1 IH]; intros c g; [done|]. cbn [app run_lines].
  destruct (positions i) as [ps|]; cbn [bind]; [|done]. destruct (run_line mc ps g) as [[[c' g']|e]|f]; cbn [bind]; [|done..].
  apply IH.
Qed.

Lemma first_zero (l : list (list nat)) : Forall (fun rule => positive rule \/ head rule = Some 0) l ->
  Forall positive l \/ exists pre rule post, l = pre ++ rule :: post /\ Forall positive pre /\ head rule = Some 0.
Proof.
  induction 1 as [|rule l [Hr|Hr] H IH]; [by left| |].
  - destruct IH as [IH|(pre&rule'&post&->&Hp&Hz)]; [left; by constructor|].
    right. exists (rule :: pre), rule', post. split_and!; [done|by constructor|done].
  - right. exists [], rule, l. by split_and!.
Qed.

(** Lines before the first zero are passed, if a filling meets them. *)
Lemma run_lines_first positions (f : nat -> list nat -> gline) pre rule post b c g :
  (forall i, pan (positions i)) ->
  (forall i r, pre !! i = Some r -> (f i r).1 = r /\ positions i = Ret (f i r).2) ->
  Forall (good_line (length g)) (imap f pre) -> Forall2 agrees g b -> Forall (meets b) (imap f pre) ->
  head rule = Some 0 ->
  run_lines positions (enumerate (machine_new <$> (pre ++ rule :: post))) c g = Fault Panic.
Proof.
  intros Hpos Hf Hgood Hag Hm Hz. unfold enumerate. rewrite fmap_app, imap_app, run_lines_app.
  destruct (run_lines_spec positions (enumerate (machine_new <$> pre)) (imap f pre) c g) as [(g1&E&_)|[[E [Herr _]]|[E _]]];
    [by apply enumerate_machines|done|..].
  - unfold enumerate in E. rewrite E. cbn [bind fmap list_fmap imap run_lines]. cbn. 
    set (j := length (machine_new <$> pre) + 0). pose proof (Hpos j) as Hj.
    destruct (positions j) as [ps|x]; cbn [bind]; [|by rewrite (Hj x)]. by rewrite run_line_zero_head.
  - by destruct (Herr b Hag).
  - unfold enumerate in E. by rewrite E.
Qed.

Lemma solve_empty (m : mode) col row b :
  Forall (fun rule => positive rule \/ head rule = Some 0) (col ++ row) ->
  (exists rule, rule ∈ col ++ row /\ head rule = Some 0) ->
  (N.of_nat (length col * length row) < usize_size m)%N -> 1 <= length row \/ length col <= 1 ->
  solution (no_zeros <$> col) (no_zeros <$> row) b -> solve_nonogram m col row = Fault Panic.
Proof.
  intros Hall (z&Hin&Hz) Hn Hdim (Hlb&Hbc&Hbr). rewrite !fmap_length in *.
  set (w := length col) in *. set (h := length row) in *.
  assert (forall i r, col !! i = Some r -> positive r -> meets b (r, col_ps w h i)) as Hmc.
  { intros i r Hi Hp. unfold meets. cbn [fst snd]. rewrite sel_col_ps. apply Hbc. rewrite list_lookup_fmap, Hi. cbn.
    by rewrite no_zeros_positive. }
  assert (forall i r, row !! i = Some r -> positive r -> meets b (r, row_ps w i)) as Hmr.
  { intros i r Hi Hp. unfold meets. cbn [fst snd]. rewrite (sel_row_ps _ h) by (done || by apply lookup_lt_Some in Hi).
    apply Hbr. rewrite list_lookup_fmap, Hi. cbn. by rewrite no_zeros_positive. }
  unfold solve_nonogram. rewrite n_mul_small by done. cbn [bind]. unfold grid_right_left. cbn [rounds]. fold w h.
  set (g := replicate (w * h) Blank). assert (length g = w * h) as Hlg by (apply replicate_length).
  assert (Forall2 agrees g b) as Hag by (by apply (start_agrees col row)).
  enough (one_round m w (machine_new <$> col) (machine_new <$> row) g = Fault Panic) as -> by done.
  unfold one_round. rewrite Hlg.
  apply Forall_app in Hall as [Hc Hr].
  destruct (first_zero _ Hc) as [Hpc|(pre&rule&post&Ecol&Hpre&Hz')].
  - destruct (run_lines_spec (fun index => column_positions (w * h) index w) (enumerate (machine_new <$> col))
      (col_lines col h) false g) as [(g1&E&Hok)|[[E [Herr _]]|[E _]]]; [..|by rewrite E].
    { apply (enumerate_machines col (fun x rule => (rule, col_ps w h x)) (fun index => column_positions (w * h) index w)).
      intros i rule Hi. split; [done|]. apply column_positions_spec; [|done]. by apply lookup_lt_Some in Hi. }
    { rewrite Hlg. apply Forall_lookup. intros i l Hi. apply list_lookup_imap_Some in Hi as (r&Hi&->).
      apply col_ps_good. by apply lookup_lt_Some in Hi. }
    2: { destruct (Herr b Hag). apply Forall_lookup. intros i l Hi. apply list_lookup_imap_Some in Hi as (r&Hi&->).
         apply Hmc; [done|]. by eapply Forall_lookup_1 in Hi. }
    rewrite E. cbn [bind orb]. destruct Hok as (Hle&Hag1&_).
    assert (length g1 = w * h) as Hlg1 by (rewrite <-Hlg; symmetry; by apply Forall2_length in Hle).
    rewrite Hlg1.
    destruct (first_zero _ Hr) as [Hpr|(pre&rule&post&Erow&Hpre&Hz')].
    { exfalso. apply elem_of_app in Hin as [Hin|Hin].
      - rewrite Forall_forall in Hpc. specialize (Hpc z Hin). destruct z as [|v z]; [done|]. injection Hz as ->.
        inversion Hpc. lia.
      - rewrite Forall_forall in Hpr. specialize (Hpr z Hin). destruct z as [|v z]; [done|]. injection Hz as ->.
        inversion Hpr. lia. }
    assert (forall i r, pre !! i = Some r -> row !! i = Some r /\ i < h /\ positive r) as Hi.
    { intros i r Hi. assert (row !! i = Some r) as Hi' by (rewrite Erow; by apply lookup_app_l_Some).
      split; [done|]. split; [by apply lookup_lt_Some in Hi'|]. by eapply Forall_lookup_1 in Hi. }
    rewrite Erow. apply (run_lines_first _ (fun y rule => (rule, row_ps w y)) _ _ _ b); [..|done].
    + intros i. apply pan_row.
    + intros i r Hl. destruct (Hi _ _ Hl) as (_&Hlt&_). split; [done|]. by apply row_positions_spec.
    + rewrite Hlg1. apply Forall_lookup. intros i l Hl. apply list_lookup_imap_Some in Hl as (r&Hl&->).
      destruct (Hi _ _ Hl) as (_&Hlt&Hp). by apply row_ps_good.
    + apply Hag1; [done|]. apply Forall_lookup. intros i l Hl. apply list_lookup_imap_Some in Hl as (r&Hl&->).
      apply Hmc; [done|]. by eapply Forall_lookup_1 in Hl.
    + apply Forall_lookup. intros i l Hl. apply list_lookup_imap_Some in Hl as (r&Hl&->).
      destruct (Hi _ _ Hl) as (Hl'&_&Hp). by apply Hmr.
  - assert (forall i r, pre !! i = Some r -> col !! i = Some r /\ i < w /\ positive r) as Hi.
    { intros i r Hi. assert (col !! i = Some r) as Hi' by (rewrite Ecol; by apply lookup_app_l_Some).
      split; [done|]. split; [by apply lookup_lt_Some in Hi'|]. by eapply Forall_lookup_1 in Hi. }
    rewrite Ecol. rewrite (run_lines_first _ (fun x rule => (rule, col_ps w h x)) _ _ _ b); [done|..|done].
    + intros i. apply pan_column.
    + intros i r Hl. destruct (Hi _ _ Hl) as (_&Hlt&_). split; [done|]. by apply column_positions_spec.
    + rewrite Hlg. apply Forall_lookup. intros i l Hl. apply list_lookup_imap_Some in Hl as (r&Hl&->).
      destruct (Hi _ _ Hl) as (_&Hlt&Hp). by apply col_ps_good.
    + done.
    + apply Forall_lookup. intros i l Hl. apply list_lookup_imap_Some in Hl as (r&Hl&->).
      destruct (Hi _ _ Hl) as (Hl'&_&Hp). by apply Hmc.
Qed.

(** * From text *)

Lemma parse_rule_list_nonempty m bound rules : forall vss, parse_rule_list m bound rules = Ret (Ok vss) -> [] ∉ vss.
Proof.
  induction rules as [|rule rules IH]; intros vss E; cbn [parse_rule_list] in E; [injection E as <-; apply not_elem_of_nil|].
  destruct (parse_rule m bound rule) as [[vs|e]|f] eqn:E1; cbn [bind] in E; [|done..].
  destruct (parse_rule_list m bound rules) as [[vss'|e]|f] eqn:E2; cbn [bind] in E; [|done..]. injection E as <-.
  apply not_elem_of_cons. split; [|by apply IH]. intros <-. clear -E1. unfold parse_rule in E1.
  destruct (parse_items m (split_on 44 rule) 0) as [[[vs size]|e]|f]; cbn [bind] in E1; [|done..].
  destruct (n_sub m (length vs) 1) as [gaps|]; cbn [bind] in E1; [|done].
  destruct (usize_add m size (N.of_nat gaps)) as [size'|]; cbn [bind] in E1; [|done].
  destruct (decide (vs = [])) as [->|Hne].
  - by rewrite bool_decide_eq_true_2 in E1.
  - destruct (bool_decide (vs = []) || (bound <? size')%N); [done|]. congruence.
Qed.

Lemma solved_text m m1 m2 tc tr bc br cs rs g :
  parse_nonogram_rules m1 tc bc = Ret (Ok cs) -> parse_nonogram_rules m2 tr br = Ret (Ok rs) ->
  solve_nonogram m (map (map N.to_nat) cs) (map (map N.to_nat) rs) = Ret (Ok g) ->
  forall rule, rule ∈ map (map N.to_nat) cs ++ map (map N.to_nat) rs -> no_zeros rule <> [].
Proof.
  intros Ec Er Es rule Hin He. apply parse_rule_list_nonempty in Ec, Er.
  assert (head rule = Some 0) as Hz.
  { destruct rule as [|v rule].
    - exfalso. apply elem_of_app in Hin as [Hin|Hin]; apply elem_of_list_fmap in Hin as (vs&E&Hin);
        symmetry in E; apply map_eq_nil in E as ->; done.
    - cbn. f_equal. unfold no_zeros in He. destruct (decide (v = 0)) as [->|Hv]; [done|]. by rewrite filter_cons_True in He. }
  destruct (solve_zero m _ _ rule Hin (or_introl Hz)); congruence.
Qed.

Lemma zero_refuted ws : exists col row b,
  solution (no_zeros <$> col) (no_zeros <$> row) b /\ solve_nonogram (Mode Release ws) col row = Fault Panic.
Proof.
  exists [[1]; [0]], [[1]], [true; false]. split; [|by destruct ws; vm_compute].
  apply solution_clues; [done|..]; intros i rule H; repeat (destruct i as [|i]; [injection H as <-; reflexivity|]); by destruct i.
Qed.

Lemma inner_refuted ws : exists col row b, Forall proper col /\ Forall proper row /\
  solution (no_zeros <$> col) (no_zeros <$> row) b /\ solve_nonogram (Mode Release ws) col row = Ret (Err NoSolution).
Proof.
  exists [[1]; []; [1]], [[1; 0; 1]], [true; false; true]. split_and!; [repeat constructor; discriminate..| |by destruct ws; vm_compute].
  apply solution_clues; [done|..]; intros i rule H; repeat (destruct i as [|i]; [injection H as <-; reflexivity|]); by destruct i.
Qed.

Lemma solution_no_zeros col row b : solution col row b -> solution (no_zeros <$> col) (no_zeros <$> row) b.
Proof.
  intros (Hl&Hc&Hr). apply solution_clues; rewrite ?fmap_length; [done|..]; intros i rule H;
    rewrite list_lookup_fmap in H; apply fmap_Some in H as (rule'&H&->);
    [by apply spells_clue, Hc|by apply spells_clue, Hr].
Qed.
