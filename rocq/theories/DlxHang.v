(** A list of constraints with a repeated row for which the search never ends.
    More fuel never changes an answer; with the row 5 repeated, the search comes
    back to the same heap on the next level. *)
From Verif Require Import Base Dlx SpecDlx.

(** [y] has the answer of [x], unless [x] ran out of fuel. *)
Definition more {A} (x y : res A) : Prop := x = Fault OutOfFuel \/ x = y.
Lemma more_refl {A} (x : res A) : more x x.
Proof. by right. Qed.
Lemma more_bind {A B} (x y : res A) (f g : A -> res B) :
  more x y -> (forall a, more (f a) (g a)) -> more (let! a := x in f a) (let! a := y in g a).
Proof. intros [->| ->] H; [by left|]. destruct y; [apply H|by right]. Qed.
Lemma more_ret {A} (x y : res A) a : more x y -> x = Ret a -> y = Ret a.
Proof. intros [->| ->]; done. Qed.

Lemma for_from_more {S} heap_of dir original (b1 b2 : ptr -> S -> res (S * bool)) :
  (forall x s, more (b1 x s) (b2 x s)) -> forall f f' cur s, f <= f' ->
  more (for_from f heap_of dir original cur b1 s) (for_from f' heap_of dir original cur b2 s).
Proof.
  intros Hb. induction f as [|f IH]; intros f' cur s Hf.
  - cbn [for_from]. destruct (decide (cur = null)) as [->|?]; [|by left].
    destruct f'; right; cbn [for_from]; by rewrite decide_True by done.
  - destruct f' as [|f']; [lia|]. cbn [for_from]. destruct (decide (cur = null)) as [Hd0|Hd0]; [apply more_refl|].
    apply more_bind; [apply more_refl|]. intros n. apply more_bind; [apply Hb|].
    intros [s' [|]]; [apply more_refl|]. apply IH. lia.
Qed.
Lemma for_skip1_more {S} heap_of dir original (b1 b2 : ptr -> S -> res (S * bool)) f f' s :
  (forall x s, more (b1 x s) (b2 x s)) -> f <= f' ->
  more (for_skip1 f heap_of dir original b1 s) (for_skip1 f' heap_of dir original b2 s).
Proof. intros. apply more_bind; [apply more_refl|]. intros n. by apply for_from_more. Qed.
Lemma heap_loop_more dir original b1 b2 f f' h :
  (forall x h, more (b1 x h) (b2 x h)) -> f <= f' ->
  more (heap_loop f dir original b1 h) (heap_loop f' dir original b2 h).
Proof.
  intros Hb Hf. apply more_bind; [|intros []; apply more_refl].
  apply for_skip1_more; [|done]. intros x g. apply more_bind; [apply Hb|]. intros; apply more_refl.
Qed.
Lemma cover_column_more f f' p h : f <= f' -> more (cover_column f p h) (cover_column f' p h).
Proof.
  intros Hf. apply more_bind; [apply more_refl|]. intros c. apply more_bind; [apply more_refl|]. intros h1.
  apply heap_loop_more; [|done]. intros. apply heap_loop_more; [|done]. intros; apply more_refl.
Qed.
Lemma uncover_column_more f f' p h : f <= f' -> more (uncover_column f p h) (uncover_column f' p h).
Proof.
  intros Hf. apply more_bind; [apply more_refl|]. intros c. apply more_bind; [|intros; apply more_refl].
  apply heap_loop_more; [|done]. intros. apply heap_loop_more; [|done]. intros; apply more_refl.
Qed.
Lemma free_chain_more f f' p h : f <= f' -> more (free_chain f p h) (free_chain f' p h).
Proof.
  intros Hf. apply more_bind; [apply more_refl|]. intros c. apply more_bind; [|intros; apply more_refl].
  apply heap_loop_more; [|done]. intros. apply more_bind; [|intros; apply more_refl].
  apply heap_loop_more; [|done]. intros; apply more_refl.
Qed.
Lemma choose_column_more f f' root h : f <= f' -> more (choose_column f root h) (choose_column f' root h).
Proof.
  intros Hf. apply more_bind; [|intros []; apply more_refl]. apply for_skip1_more; [|done]. intros; apply more_refl.
Qed.

(** mod.rs:105-124: the body of the loop over the rows. *)
Definition row_body (fuel depth : nat) (root constraint : ptr) (row : ptr) (s : heap * list nat)
    : res (heap * list nat * bool) :=
  let '(h, partial) := s in
  let! n := load h row in
  let partial := partial ++ [n_row n] in
  let! h := heap_loop fuel n_right row (cover_column fuel) h in
  let! (h, partial, ok) := solve_helper fuel depth root h partial in
  if ok : bool then
    let! h := heap_loop fuel n_right row (free_chain fuel) h in
    let! h := free_chain fuel constraint h in
    Ret ((h, partial), true)
  else
    let! h := heap_loop fuel n_left row (uncover_column fuel) h in
    Ret ((h, take (length partial - 1) partial), false).
Lemma solve_helper_S fuel depth root h partial :
  solve_helper fuel (S depth) root h partial =
  let! e := is_empty root h in
  if e : bool then Ret (h, partial, true)
  else
    let! constraint := choose_column fuel root h in
    let! h := cover_column fuel constraint h in
    let! (s, found) := for_skip1 fuel fst n_down constraint (row_body fuel depth root constraint) (h, partial) in
    if found : bool then Ret (s.1, s.2, true)
    else
      let! h := uncover_column fuel constraint s.1 in
      Ret (h, s.2, false).
Proof. reflexivity. Qed.
Lemma solve_helper_more f f' : f <= f' -> forall d d' root h partial, d <= d' ->
  more (solve_helper f d root h partial) (solve_helper f' d' root h partial).
Proof.
  intros Hf. induction d as [|d IH]; intros d' root h partial Hd; [by left|].
  destruct d' as [|d']; [lia|]. rewrite !solve_helper_S.
  apply more_bind; [apply more_refl|]. intros [|]; [apply more_refl|].
  apply more_bind; [by apply choose_column_more|]. intros c.
  apply more_bind; [by apply cover_column_more|]. intros h1.
  apply more_bind.
  - apply for_skip1_more; [|done]. intros row [g p]. unfold row_body.
    apply more_bind; [apply more_refl|]. intros n.
    apply more_bind; [apply heap_loop_more; [|done]; intros; by apply cover_column_more|]. intros h2.
    apply more_bind; [apply IH; lia|]. intros [[h3 p3] [|]].
    + apply more_bind; [apply heap_loop_more; [|done]; intros; by apply free_chain_more|]. intros h4.
      apply more_bind; [by apply free_chain_more|]. intros; apply more_refl.
    + apply more_bind; [apply heap_loop_more; [|done]; intros; by apply uncover_column_more|].
      intros; apply more_refl.
  - intros [[h2 p2] [|]]; [apply more_refl|]. apply more_bind; [by apply uncover_column_more|]. intros; apply more_refl.
Qed.
Lemma row_body_more f f' d d' root c row s : f <= f' -> d <= d' ->
  more (row_body f d root c row s) (row_body f' d' root c row s).
Proof.
  intros Hf Hd. destruct s as [g p]. unfold row_body.
  apply more_bind; [apply more_refl|]. intros n.
  apply more_bind; [apply heap_loop_more; [|done]; intros; by apply cover_column_more|]. intros h2.
  apply more_bind; [by apply solve_helper_more|]. intros [[h3 p3] [|]].
  + apply more_bind; [apply heap_loop_more; [|done]; intros; by apply free_chain_more|]. intros h4.
    apply more_bind; [by apply free_chain_more|]. intros; apply more_refl.
  + apply more_bind; [apply heap_loop_more; [|done]; intros; by apply uncover_column_more|].
    intros; apply more_refl.
Qed.

(** The first [k] rows of the column fail. *)
Fixpoint skip_rows (k fuel depth : nat) (root c cur : ptr) (s : heap * list nat) : res (ptr * (heap * list nat)) :=
  match k with
  | 0 => Ret (cur, s)
  | S k =>
      if decide (cur = null) then Fault UB
      else
        let! n := load s.1 cur in
        let cur' := if decide (n_down n = c) then null else n_down n in
        let! (s, stop) := row_body fuel depth root c cur s in
        if stop : bool then Fault UB else skip_rows k fuel depth root c cur' s
  end.
(** From one level to the next, with the row after these. *)
Definition level (k fuel depth : nat) (root : ptr) (h : heap) (partial : list nat) : res (heap * list nat) :=
  let! e := is_empty root h in
  if e : bool then Fault UB
  else
    let! c := choose_column fuel root h in
    let! h := cover_column fuel c h in
    let! n := load h c in
    let! (cur, s) := skip_rows k fuel depth root c (if decide (n_down n = c) then null else n_down n) (h, partial) in
    if decide (cur = null) then Fault UB
    else
      let! n := load s.1 cur in
      let! h := heap_loop fuel n_right cur (cover_column fuel) s.1 in
      Ret (h, s.2 ++ [n_row n]).

Lemma skip_rows_more k f f' d d' root c : f <= f' -> d <= d' -> forall cur s,
  more (skip_rows k f d root c cur s) (skip_rows k f' d' root c cur s).
Proof.
  intros Hf Hd. induction k as [|k IH]; intros cur s; [apply more_refl|]. cbn [skip_rows].
  destruct (decide (cur = null)) as [Hd0|Hd0]; [apply more_refl|]. apply more_bind; [apply more_refl|]. intros n.
  apply more_bind; [by apply row_body_more|]. intros [s' [|]]; [apply more_refl|]. apply IH.
Qed.
Lemma level_more k f f' d d' root h p : f <= f' -> d <= d' ->
  more (level k f d root h p) (level k f' d' root h p).
Proof.
  intros Hf Hd. unfold level. apply more_bind; [apply more_refl|]. intros [|]; [apply more_refl|].
  apply more_bind; [by apply choose_column_more|]. intros c.
  apply more_bind; [by apply cover_column_more|]. intros h1.
  apply more_bind; [apply more_refl|]. intros n. apply more_bind; [by apply skip_rows_more|].
  intros [cur s]. destruct (decide (cur = null)) as [Hd0|Hd0]; [apply more_refl|]. apply more_bind; [apply more_refl|]. intros n'.
  apply more_bind; [|intros; apply more_refl]. apply heap_loop_more; [|done]. intros; by apply cover_column_more.
Qed.

Lemma skip_rows_diverges fuel depth root c : forall k f cur s cur' s',
  skip_rows k fuel depth root c cur s = Ret (cur', s') -> k < f -> cur' <> null ->
  (exists n, s'.1 !! cur' = Some n) ->
  row_body fuel depth root c cur' s' = Fault OutOfFuel ->
  for_from f fst n_down c cur (row_body fuel depth root c) s = Fault OutOfFuel.
Proof.
  induction k as [|k IH]; intros f cur s cur' s' E Hf Hne Hl Hb; cbn [skip_rows] in E.
  - injection E as -> ->. destruct f as [|f]; [lia|]. cbn [for_from]. rewrite decide_False by done.
    destruct Hl as [n Hn]. unfold load. rewrite Hn. cbn [bind]. rewrite Hb. done.
  - destruct f as [|f]; [lia|]. cbn [for_from]. destruct (decide (cur = null)) as [Hd0|Hd0]; [done|].
    destruct (load s.1 cur) as [n|]; [|done]. cbn [bind] in E |- *.
    destruct (row_body fuel depth root c cur s) as [[s2 [|]]|]; cbn [bind] in E |- *; [done| |done].
    eapply IH; [exact E|lia|done..].
Qed.
Lemma level_diverges k fuel depth root h p h' p' :
  level k fuel depth root h p = Ret (h', p') -> k < fuel ->
  solve_helper fuel depth root h' p' = Fault OutOfFuel ->
  solve_helper fuel (S depth) root h p = Fault OutOfFuel.
Proof.
  unfold level. rewrite solve_helper_S. intros E Hk Hd.
  destruct (is_empty root h) as [[|]|]; cbn [bind] in E |- *; [done| |done].
  destruct (choose_column fuel root h) as [c|]; cbn [bind] in E |- *; [|done].
  destruct (cover_column fuel c h) as [h1|]; cbn [bind] in E |- *; [|done].
  unfold for_skip1. cbn [fst]. destruct (load h1 c) as [n|]; cbn [bind] in E |- *; [|done].
  destruct (skip_rows _ _ _ _ _ _ _) as [[cur s]|] eqn:Es; cbn [bind] in E; [|done].
  destruct (decide (cur = null)) as [?|Hne]; [done|].
  destruct (load s.1 cur) as [n'|] eqn:El; cbn [bind] in E; [|done].
  destruct (heap_loop fuel n_right cur (cover_column fuel) s.1) as [h2|] eqn:Eh; cbn [bind] in E; [|done].
  injection E as <- <-. erewrite skip_rows_diverges; [done|exact Es|done|done| |].
  - unfold load in El. destruct (s.1 !! cur) eqn:E'; [eauto|done].
  - destruct s as [g q]. cbn [fst snd] in *. unfold row_body. rewrite El. cbn [bind]. rewrite Eh. cbn [bind].
    rewrite Hd. done.
Qed.

(** The rows 0 to 3 and 5 in four columns, row 5 twice in the third. *)
Definition endless : list (list nat) := [[1; 0]; [1; 3]; [0; 5; 5; 3]; [2; 3]].

Definition get {A} (d : A) (x : res A) : A := match x with Ret a => a | Fault _ => d end.
Definition returns {A} (x : res A) : bool := match x with Ret _ => true | Fault _ => false end.
Lemma returns_get {A} (d : A) x : returns x = true -> x = Ret (get d x).
Proof. by destruct x. Qed.

Definition mx0 : matrix := get (Matrix ∅ 0 0 [] []) (matrix_new endless).
Definition run1 := level 1 20 20 1 (d_heap mx0) [].
Definition run2 := level 0 20 20 1 (get (∅, []) run1).1 [0].
Definition run3 := level 0 20 20 1 (get (∅, []) run2).1 [0; 3].
Definition run4 := level 0 20 20 1 (get (∅, []) run3).1 [].

Lemma level_partial fuel depth root h p q h' r :
  level 0 fuel depth root h p = Ret (h', p ++ [r]) -> level 0 fuel depth root h q = Ret (h', q ++ [r]).
Proof.
  unfold level. destruct (is_empty root h) as [[|]|]; cbn [bind]; [done| |done].
  destruct (choose_column fuel root h) as [c|]; cbn [bind]; [|done].
  destruct (cover_column fuel c h) as [h1|]; cbn [bind]; [|done].
  destruct (load h1 c) as [n|]; cbn [bind skip_rows]; [|done].
  destruct (decide (_ = null)) as [Hd0|Hd0]; [done|]. cbn [fst snd].
  destruct (load h1 _) as [n'|]; cbn [bind]; [|done].
  destruct (heap_loop _ _ _ _ _) as [h2|]; cbn [bind]; [|done].
  intros H. injection H as <- H. apply app_inj_2 in H as [_ H]; [|done]. injection H as <-. done.
Qed.

Lemma level_depth fuel d d' root h p : level 0 fuel d root h p = level 0 fuel d' root h p.
Proof. reflexivity. Qed.
Lemma returns_pair {A B} (d : A * B) x a b : returns x = true -> a = (get d x).1 -> (get d x).2 = b -> x = Ret (a, b).
Proof. destruct x as [[]|]; cbn; [|done]. by intros _ -> ->. Qed.
Lemma run4_eq : run4 = Ret ((get (∅, []) run3).1, [2]).
Proof.
  assert (bool_decide ((get (∅, []) run3).1 = (get (∅, []) run4).1) = true) as H1 by (vm_compute; reflexivity).
  apply bool_decide_eq_true in H1.
  assert ((get (∅, []) run4).2 = [2]) as H2 by (vm_compute; reflexivity).
  assert (returns run4 = true) as H3 by (vm_compute; reflexivity).
  exact (returns_pair _ _ _ _ H3 H1 H2).
Qed.
Lemma same_level fuel d p : 20 <= fuel ->
  level 0 fuel d 1 (get (∅, []) run3).1 p = Ret ((get (∅, []) run3).1, p ++ [2]).
Proof.
  intros Hf. rewrite (level_depth _ _ 20). eapply more_ret; [by apply (level_more 0 20 fuel 20 20)|].
  apply (level_partial _ _ _ _ []). exact run4_eq.
Qed.
Lemma same_diverges fuel : 20 <= fuel -> forall d p,
  solve_helper fuel d 1 (get (∅, []) run3).1 p = Fault OutOfFuel.
Proof.
  intros Hf. induction d as [|d IH]; intros p; [reflexivity|].
  eapply level_diverges; [by apply same_level|lia|apply IH].
Qed.

Lemma endless_new : matrix_new endless = Ret mx0.
Proof.
  assert (returns (matrix_new endless) = true) as H by (vm_compute; reflexivity).
  exact (returns_get _ _ H).
Qed.
Lemma endless_root : d_root mx0 = 1%N /\ d_partial mx0 = [].
Proof. split; vm_compute; reflexivity. Qed.
Lemma run_fuel k n fuel h p p' x : level k 20 20 1 h p = x -> returns x = true -> (get (∅, []) x).2 = p' ->
  20 <= fuel -> 20 <= n -> level k fuel n 1 h p = Ret ((get (∅, []) x).1, p').
Proof.
  intros E Hr <- Hf Hn. eapply more_ret; [by apply (level_more k 20 fuel 20 n)|].
  rewrite E. apply (returns_pair (∅, [])); done.
Qed.
Lemma run1_ok : returns run1 = true /\ (get (∅, []) run1).2 = [0].
Proof. split; vm_compute; reflexivity. Qed.
Lemma run2_ok : returns run2 = true /\ (get (∅, []) run2).2 = [0; 3].
Proof. split; vm_compute; reflexivity. Qed.
Lemma run3_ok : returns run3 = true /\ (get (∅, []) run3).2 = [0; 3; 2].
Proof. split; vm_compute; reflexivity. Qed.
Lemma endless_diverges fuel : 30 <= fuel -> solve fuel mx0 = Fault OutOfFuel.
Proof.
  intros Hf. unfold solve. destruct endless_root as [E1 E2]. rewrite E1, E2. clear E1 E2.
  assert (solve_helper fuel fuel 1 (d_heap mx0) [] = Fault OutOfFuel) as E; [|rewrite E; reflexivity].
  assert (exists d, fuel = S (S (S d)) /\ 27 <= d) as (d&Hd&Hd') by (exists (fuel - 3); lia).
  rewrite Hd at 2.
  destruct run1_ok as [A1 B1], run2_ok as [A2 B2], run3_ok as [A3 B3].
  eapply level_diverges; [apply (run_fuel 1 _ _ _ _ _ run1 eq_refl A1 B1); lia|lia|].
  eapply level_diverges; [apply (run_fuel 0 _ _ _ _ _ run2 eq_refl A2 B2); lia|lia|].
  eapply level_diverges; [apply (run_fuel 0 _ _ _ _ _ run3 eq_refl A3 B3); lia|lia|].
  apply same_diverges. lia.
Qed.
Lemma endless_cover : exact_cover endless [1; 5; 2].
Proof.
  split_and!.
  - rewrite !NoDup_cons, !elem_of_cons, !elem_of_nil. split_and!; [lia..|apply NoDup_nil_2].
  - intros k Hk. unfold endless in Hk. rewrite !elem_of_cons, elem_of_nil in Hk.
    destruct Hk as [->|[->|[->|[->|[]]]]]; [exists 1|exists 1|exists 5|exists 2];
      (split; [split; rewrite !elem_of_cons; tauto|]);
      intros r [Hr Hk]; apply elem_of_list_In in Hr, Hk; cbn [In] in Hr, Hk; lia.
  - intros r Hr. rewrite !elem_of_cons, elem_of_nil in Hr. unfold endless.
    destruct Hr as [->|[->|[->|[]]]]; [exists [1; 0]|exists [0; 5; 5; 3]|exists [2; 3]];
      rewrite !elem_of_cons; tauto.
Qed.
Lemma hang : exists cs mx sel, matrix_new cs = Ret mx /\ exact_cover cs sel /\
  forall fuel, 30 <= fuel -> solve fuel mx = Fault OutOfFuel.
Proof. exists endless, mx0, [1; 5; 2]. split_and!; [apply endless_new|apply endless_cover|apply endless_diverges]. Qed.
