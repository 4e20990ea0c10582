(** The exact cover solver with and without overflow checks: a run of the model
    [Dlx], in which the column sizes are unbounded numbers, is imitated by
    [DlxRelease], in which they wrap around, as long as no size falls below zero
    and sizes are compared correctly. *)
From Verif Require Import Base Dlx Sudoku DlxAlloc WordProofs.
From Verif Require DlxRelease.

Definition rsim {A B} (R : A -> B -> Prop) (x : res A) (y : res B) : Prop :=
  match x, y with
  | Ret a, Ret b => R a b
  | Fault Panic, _ => True
  | Fault e, Fault f => e = f
  | _, _ => False
  end.
Lemma rsim_bind {A B A' B'} (R : A -> A' -> Prop) (Q : B -> B' -> Prop) x x' k k' :
  rsim R x x' -> (forall a a', R a a' -> rsim Q (k a) (k' a')) -> rsim Q (bind x k) (bind x' k').
Proof. destruct x as [|[]], x' as [|[]]; cbn; try done. intros H Hk. by apply Hk. Qed.

Notation rheap := (gmap N DlxRelease.node).

Section width.
Context (ws : word).


(** The size in a header is reduced; the number of a row is not. *)
Definition reduced (n : node) : N :=
  if decide (n_header n = null) then (N.of_nat (n_row n) mod usize_size ws)%N else N.of_nat (n_row n).
Notation red n := (N.to_nat (reduced n)).
Definition wrap (n : node) : DlxRelease.node :=
  DlxRelease.Node (n_header n) (n_left n) (n_right n) (n_up n) (n_down n) (reduced n).
(** Headers have no header. *)
Definition heads (h : heap) : Prop :=
  h !! null = None /\ forall p n hd, h !! p = Some n -> h !! n_header n = Some hd -> n_header hd = null.
Definition hsim (h : heap) (h' : rheap) : Prop := h' = wrap <$> h /\ heads h.

Lemma heads_alter h p n n' : heads h -> h !! p = Some n -> n_header n' = n_header n -> heads (<[p := n']> h).
Proof.
  intros [H0 H] Hp Hn. assert (p <> null) as Hne by (intros ->; congruence).
  split; [by rewrite lookup_insert_ne|].
  assert (forall q m, <[p := n']> h !! q = Some m -> exists m', h !! q = Some m' /\ n_header m = n_header m') as Hl.
  { intros q m. destruct (decide (q = p)) as [->|Hq].
    - rewrite lookup_insert. intros [= <-]. eauto.
    - rewrite lookup_insert_ne by done. eauto. }
  intros q m hd (m'&Hm&Em)%Hl (hd'&Hd&Ed)%Hl. rewrite Ed. rewrite Em in Hd. exact (H _ _ _ Hm Hd).
Qed.
Lemma heads_delete h p : heads h -> heads (delete p h).
Proof.
  intros [H0 H]. split.
  - destruct (decide (p = null)) as [->|Hne]; [by rewrite lookup_delete|by rewrite lookup_delete_ne].
  - intros q m hd (_&Hm)%lookup_delete_Some (_&Hd)%lookup_delete_Some. exact (H _ _ _ Hm Hd).
Qed.

Lemma load_sim h h' p : hsim h h' -> rsim (fun a b => b = wrap a /\ h !! p = Some a) (load h p) (DlxRelease.load h' p).
Proof. intros [-> _]. unfold load, DlxRelease.load. rewrite lookup_fmap. by destruct (h !! p). Qed.
Lemma modify_sim f f' h h' p : (forall n, n_header (f n) = n_header n) -> (forall n, wrap (f n) = f' (wrap n)) ->
  hsim h h' -> rsim hsim (modify f p h) (DlxRelease.modify f' p h').
Proof.
  intros Hf Hw [-> H]. unfold modify, DlxRelease.modify. rewrite lookup_fmap.
  destruct (h !! p) as [n|] eqn:E; cbn; [|done]. split.
  - by rewrite fmap_insert, Hw.
  - by eapply heads_alter.
Qed.
Lemma dealloc_sim h h' p : hsim h h' -> rsim hsim (dealloc p h) (DlxRelease.dealloc p h').
Proof.
  intros [-> H]. unfold dealloc, DlxRelease.dealloc. rewrite lookup_fmap. destruct (h !! p) as [n|]; cbn; [|done].
  split; [by rewrite fmap_delete|by apply heads_delete].
Qed.

(** * Loops *)

Section loop.
Context {S S' : Type} (RS : S -> S' -> Prop) (heap_of : S -> heap) (heap_of' : S' -> rheap).
Context (Hheap : forall s s', RS s s' -> hsim (heap_of s) (heap_of' s')).
Context (dir : node -> N) (dir' : DlxRelease.node -> N) (Hdir : forall n, dir' (wrap n) = dir n).
Definition stop_sim (x : S * bool) (y : S' * bool) : Prop := RS x.1 y.1 /\ x.2 = y.2.

Lemma for_from_sim body body' : (forall p s s', RS s s' -> rsim stop_sim (body p s) (body' p s')) ->
  forall fuel original cur s s', RS s s' ->
  rsim stop_sim (for_from fuel heap_of dir original cur body s)
    (DlxRelease.for_from fuel heap_of' dir' original cur body' s').
Proof.
  intros Hb. induction fuel as [|fuel IH]; intros original cur s s' H; cbn [for_from DlxRelease.for_from];
    destruct (decide (cur = null)) as [?Hd|?Hd]; [done|done|done|].
  eapply rsim_bind; [by apply load_sim, Hheap|]. intros n ? [-> _].
  eapply rsim_bind; [by apply Hb|]. intros [s1 b1] [s1' b1'] [H1 H2]. cbn in H1, H2. subst b1'.
  destruct b1; [done|]. rewrite Hdir. by apply IH.
Qed.
Lemma for_skip1_sim body body' : (forall p s s', RS s s' -> rsim stop_sim (body p s) (body' p s')) ->
  forall fuel original s s', RS s s' ->
  rsim stop_sim (for_skip1 fuel heap_of dir original body s) (DlxRelease.for_skip1 fuel heap_of' dir' original body' s').
Proof.
  intros Hb fuel original s s' H. unfold for_skip1, DlxRelease.for_skip1.
  eapply rsim_bind; [by apply load_sim, Hheap|]. intros n ? [-> _]. rewrite Hdir. by apply for_from_sim.
Qed.
End loop.

Lemma heap_loop_sim dir dir' : (forall n, dir' (wrap n) = dir n) -> forall body body',
  (forall p h h', hsim h h' -> rsim hsim (body p h) (body' p h')) -> forall fuel original h h', hsim h h' ->
  rsim hsim (heap_loop fuel dir original body h) (DlxRelease.heap_loop fuel dir' original body' h').
Proof.
  intros Hdir body body' Hb fuel original h h' H. unfold heap_loop, DlxRelease.heap_loop.
  eapply rsim_bind; [eapply (for_skip1_sim hsim); [done|done| |done]|].
  - intros p s s' Hs. eapply rsim_bind; [by apply Hb|]. intros a a' Ha. done.
  - intros [a b] [a' b'] [Ha _]. done.
Qed.
Lemma to_header_sim h h' p : hsim h h' -> rsim (fun a b => b = a) (to_header h p) (DlxRelease.to_header h' p).
Proof.
  intros H. unfold to_header, DlxRelease.to_header. eapply rsim_bind; [by apply load_sim|]. intros n ? [-> _].
  cbn [wrap DlxRelease.n_header]. by destruct (decide (n_header n = null)).
Qed.
Ltac links := intros H; eapply rsim_bind; [by apply load_sim|]; intros n ? [-> _];
  cbn [wrap DlxRelease.n_left DlxRelease.n_right DlxRelease.n_up DlxRelease.n_down];
  (eapply rsim_bind; [by apply modify_sim|]); intros ? ? ?; by apply modify_sim.
Lemma cover_horizontal_sim h h' p : hsim h h' -> rsim hsim (cover_horizontal p h) (DlxRelease.cover_horizontal p h').
Proof. unfold cover_horizontal, DlxRelease.cover_horizontal. links. Qed.
Lemma cover_vertical_sim h h' p : hsim h h' -> rsim hsim (cover_vertical p h) (DlxRelease.cover_vertical p h').
Proof. unfold cover_vertical, DlxRelease.cover_vertical. links. Qed.
Lemma uncover_horizontal_sim h h' p : hsim h h' -> rsim hsim (uncover_horizontal p h) (DlxRelease.uncover_horizontal p h').
Proof. unfold uncover_horizontal, DlxRelease.uncover_horizontal. links. Qed.
Lemma uncover_vertical_sim h h' p : hsim h h' -> rsim hsim (uncover_vertical p h) (DlxRelease.uncover_vertical p h').
Proof. unfold uncover_vertical, DlxRelease.uncover_vertical. links. Qed.

Lemma dec_mod k m : (0 < m)%N -> ((N.of_nat (S k) mod m + m - 1) mod m = N.of_nat k mod m)%N.
Proof.
  intros Hm. rewrite <-N.add_sub_assoc by lia.
  rewrite N.add_mod_idemp_l by lia. replace (N.of_nat (S k) + (m - 1))%N with (N.of_nat k + 1 * m)%N by lia.
  apply N.mod_add. lia.
Qed.
Lemma inc_mod k m : (0 < m)%N -> ((N.of_nat k mod m + 1) mod m = N.of_nat (S k) mod m)%N.
Proof.
  intros Hm. rewrite N.add_mod_idemp_l by lia. f_equal. lia.
Qed.
Lemma dec_size_sim h h' p : hsim h h' -> rsim hsim (dec_size p h) (DlxRelease.dec_size ws p h').
Proof.
  intros H. unfold dec_size, DlxRelease.dec_size. eapply rsim_bind; [by apply load_sim|]. intros n ? [-> Hn].
  cbn [wrap DlxRelease.n_header]. eapply rsim_bind; [by apply load_sim|]. intros hd ? [-> Hhd].
  pose proof (proj2 (proj2 H) _ _ _ Hn Hhd) as Hnull. destruct (n_row hd) as [|k] eqn:Er; [done|].
  unfold modify, DlxRelease.modify. destruct H as [-> H]. rewrite lookup_fmap, Hhd. cbn. split.
  - rewrite fmap_insert. f_equal. unfold wrap, DlxRelease.set_row, set_row, reduced. cbn.
    rewrite Hnull, !decide_True by done. rewrite Er. f_equal. apply dec_mod, usize_pos.
  - by eapply heads_alter.
Qed.
Lemma inc_size_sim h h' p : hsim h h' -> rsim hsim (inc_size p h) (DlxRelease.inc_size ws p h').
Proof.
  intros H. unfold inc_size, DlxRelease.inc_size. eapply rsim_bind; [by apply load_sim|]. intros n ? [-> Hn].
  cbn [wrap DlxRelease.n_header]. eapply rsim_bind; [by apply load_sim|]. intros hd ? [-> Hhd].
  pose proof (proj2 (proj2 H) _ _ _ Hn Hhd) as Hnull.
  unfold modify, DlxRelease.modify. destruct H as [-> H]. rewrite lookup_fmap, Hhd. cbn. split.
  - rewrite fmap_insert. f_equal. unfold wrap, DlxRelease.set_row, set_row, reduced. cbn.
    rewrite Hnull, !decide_True by done. f_equal. apply inc_mod, usize_pos.
  - by eapply heads_alter.
Qed.
Lemma hide_sim h h' p : hsim h h' -> rsim hsim (hide p h) (DlxRelease.hide ws p h').
Proof. intros H. unfold hide, DlxRelease.hide. eapply rsim_bind; [by apply cover_vertical_sim|]. intros. by apply dec_size_sim. Qed.
Lemma unhide_sim h h' p : hsim h h' -> rsim hsim (unhide p h) (DlxRelease.unhide ws p h').
Proof. intros H. unfold unhide, DlxRelease.unhide. eapply rsim_bind; [by apply inc_size_sim|]. intros. by apply uncover_vertical_sim. Qed.

(** * The search *)

(** [choose_column] comparing the reduced sizes, and the search with it. *)
Definition choose_reduced (fuel : nat) (root : ptr) (h : heap) : res ptr :=
  let! (s, _) := for_skip1 fuel fst n_right root
    (fun x '(h, best) =>
       let! nx := load h x in
       match best with
       | None => Ret ((h, Some (x, red nx)), false)
       | Some (_, k) =>
           if decide (red nx < k) then Ret ((h, Some (x, red nx)), false)
           else Ret ((h, best), false)
       end) (h, None) in
  let! best := expect (snd s) in
  Ret (fst best).
Fixpoint solve_reduced (fuel depth : nat) (root : ptr) (h : heap) (partial : list nat)
    : res (heap * list nat * bool) :=
  match depth with
  | 0 => Fault OutOfFuel
  | S depth =>
      let! e := is_empty root h in
      if e : bool then Ret (h, partial, true)
      else
        let! constraint := choose_reduced fuel root h in
        let! h := cover_column fuel constraint h in
        let! (s, found) := for_skip1 fuel fst n_down constraint
          (fun row '(h, partial) =>
             let! n := load h row in
             let partial := partial ++ [red n] in
             let! h := heap_loop fuel n_right row (cover_column fuel) h in
             let! (h, partial, ok) := solve_reduced fuel depth root h partial in
             if ok : bool then
               let! h := heap_loop fuel n_right row (free_chain fuel) h in
               let! h := free_chain fuel constraint h in
               Ret ((h, partial), true)
             else
               let! h := heap_loop fuel n_left row (uncover_column fuel) h in
               Ret ((h, take (length partial - 1) partial), false)) (h, partial) in
        if found : bool then Ret (s.1, s.2, true)
        else
          let! h := uncover_column fuel constraint s.1 in
          Ret (h, s.2, false)
  end.

Section fuelled.
Context (fuel : nat).
Lemma cover_column_sim h h' p : hsim h h' -> rsim hsim (cover_column fuel p h) (DlxRelease.cover_column ws fuel p h').
Proof.
  intros H. unfold cover_column, DlxRelease.cover_column. eapply rsim_bind; [by apply to_header_sim|]. intros c ? ->.
  eapply rsim_bind; [by apply cover_horizontal_sim|]. intros h1 h1' H1. apply heap_loop_sim; [done| |done].
  intros q h2 h2' H2. apply heap_loop_sim; [done| |done]. intros. by apply hide_sim.
Qed.
Lemma uncover_column_sim h h' p : hsim h h' -> rsim hsim (uncover_column fuel p h) (DlxRelease.uncover_column ws fuel p h').
Proof.
  intros H. unfold uncover_column, DlxRelease.uncover_column. eapply rsim_bind; [by apply to_header_sim|]. intros c ? ->.
  eapply rsim_bind; [|intros; by apply uncover_horizontal_sim]. apply heap_loop_sim; [done| |done].
  intros q h2 h2' H2. apply heap_loop_sim; [done| |done]. intros. by apply unhide_sim.
Qed.
Lemma free_chain_sim h h' p : hsim h h' -> rsim hsim (free_chain fuel p h) (DlxRelease.free_chain fuel p h').
Proof.
  intros H. unfold free_chain, DlxRelease.free_chain. eapply rsim_bind; [by apply to_header_sim|]. intros c ? ->.
  eapply rsim_bind; [|intros; by apply dealloc_sim]. apply heap_loop_sim; [done| |done].
  intros q h2 h2' H2. eapply rsim_bind; [|intros; by apply dealloc_sim]. apply heap_loop_sim; [done| |done].
  intros. by apply dealloc_sim.
Qed.
Lemma is_empty_sim h h' p : hsim h h' -> rsim (fun a b => a = b) (is_empty p h) (DlxRelease.is_empty p h').
Proof.
  intros H. unfold is_empty, DlxRelease.is_empty. eapply rsim_bind; [by apply load_sim|]. intros n ? [-> _]. done.
Qed.
Lemma choose_column_sim h h' p : hsim h h' ->
  rsim (fun a b => b = a) (choose_reduced fuel p h) (DlxRelease.choose_column fuel p h').
Proof.
  intros H. unfold choose_reduced, DlxRelease.choose_column.
  eapply rsim_bind; [eapply (for_skip1_sim (fun s s' => hsim s.1 s'.1 /\ s'.2 = (fun x => (x.1, N.of_nat x.2)) <$> s.2))|].
  - by intros s s' [? _].
  - done.
  - intros q [h1 b1] [h1' b1'] [H1 H2]. cbn in H1, H2. subst b1'.
    eapply rsim_bind; [by apply load_sim|]. intros nx ? [-> _]. cbn [wrap DlxRelease.n_row].
    destruct b1 as [[b k]|]; cbn [fmap option_fmap option_map fst snd].
    + destruct (decide (red nx < k)) as [Hk|Hk].
      * rewrite decide_True by lia. repeat split; [apply H1..|]. cbn. by rewrite N2Nat.id.
      * rewrite decide_False by lia. done.
    + repeat split; [apply H1..|]. cbn. by rewrite N2Nat.id.
  - done.
  - intros [[h1 b1] b2] [[h1' b1'] b2'] [[_ H1] _]. cbn in H1. subst b1'. cbn. by destruct b1 as [[b k]|].
Qed.
Lemma solve_helper_sim depth : forall root h h' partial, hsim h h' ->
  rsim (fun x y => hsim x.1.1 y.1.1 /\ x.1.2 = y.1.2 /\ x.2 = y.2)
    (solve_reduced fuel depth root h partial) (DlxRelease.solve_helper ws fuel depth root h' partial).
Proof.
  induction depth as [|depth IH]; intros root h h' partial H; cbn [solve_reduced DlxRelease.solve_helper]; [done|].
  eapply rsim_bind; [by apply is_empty_sim|]. intros e ? <-. destruct e; [done|].
  eapply rsim_bind; [by apply choose_column_sim|]. intros c ? ->.
  eapply rsim_bind; [by apply cover_column_sim|]. intros h1 h1' H1.
  eapply rsim_bind; [eapply (for_skip1_sim (fun s s' => hsim s.1 s'.1 /\ s.2 = s'.2))|].
  - by intros s s' [? _].
  - done.
  - intros q [h2 p2] [h2' p2'] [H2 E2]. cbn in H2, E2. subst p2'.
    eapply rsim_bind; [by apply load_sim|]. intros n ? [-> _]. cbn [wrap DlxRelease.n_row].
    eapply rsim_bind; [apply heap_loop_sim; [done|intros; by apply cover_column_sim|done]|]. intros h3 h3' H3.
    eapply rsim_bind; [by apply IH|]. intros [[h4 p4] ok] [[h4' p4'] ok'] (H4&E4&E5). cbn in H4, E4, E5. subst p4' ok'.
    destruct ok.
    + eapply rsim_bind; [apply heap_loop_sim; [done|intros; by apply free_chain_sim|done]|]. intros h5 h5' H5.
      eapply rsim_bind; [by apply free_chain_sim|]. intros h6 h6' H6. done.
    + eapply rsim_bind; [apply heap_loop_sim; [done|intros; by apply uncover_column_sim|done]|]. intros h5 h5' H5. done.
  - done.
  - intros [[h2 p2] found] [[h2' p2'] found'] [[H2 E2] E3]. cbn in H2, E2, E3. subst p2' found'. cbn [fst snd].
    destruct found; [done|]. eapply rsim_bind; [by apply uncover_column_sim|]. intros h3 h3' H3. done.
Qed.
Lemma drop_column_sim h h' p : hsim h h' -> rsim hsim (drop_column fuel p h) (DlxRelease.drop_column fuel p h').
Proof.
  intros H. unfold drop_column, DlxRelease.drop_column. eapply rsim_bind; [by apply load_sim|]. intros n ? [-> _].
  cbn [wrap DlxRelease.n_down]. eapply rsim_bind; [by apply dealloc_sim|]. intros h1 h1' H1.
  eapply rsim_bind; [eapply (for_from_sim hsim); [done|done| |done]|].
  - intros q s s' Hs. eapply rsim_bind; [by apply dealloc_sim|]. intros a a' Ha. done.
  - intros [h2 b2] [h2' b2'] [H2 _]. done.
Qed.
Lemma matrix_drop_sim h h' p : hsim h h' -> rsim hsim (matrix_drop fuel p h) (DlxRelease.matrix_drop fuel p h').
Proof.
  intros H. unfold matrix_drop, DlxRelease.matrix_drop. eapply rsim_bind; [by apply load_sim|]. intros n ? [-> _].
  cbn [wrap DlxRelease.n_right]. eapply rsim_bind; [by apply drop_column_sim|]. intros h1 h1' H1.
  eapply rsim_bind; [eapply (for_from_sim hsim); [done|done| |done]|].
  - intros q s s' Hs. eapply rsim_bind; [by apply drop_column_sim|]. intros a a' Ha. done.
  - intros [h2 b2] [h2' b2'] [H2 _]. done.
Qed.

(** * Adding rows *)

Record msim (mx : matrix) (mx' : DlxRelease.matrix) : Prop := MkMsim {
  ms_heap : hsim (d_heap mx) (DlxRelease.d_heap mx');
  ms_root : DlxRelease.d_root mx' = d_root mx;
  ms_rows : DlxRelease.d_rows mx' = d_rows mx;
  ms_partial : DlxRelease.d_partial mx' = d_partial mx
}.
(** [add_solution] forgetting the rows by their reduced numbers. *)
Definition clear_reduced (row : ptr) (h : heap) (rows : list ptr) : res (list ptr) :=
  let! n := load h row in
  let! (s, _) := for_skip1 fuel fst n_down (n_header n)
    (fun x '(h, rows) =>
       let! nx := load h x in
       let! rows := vec_set rows (red nx) null in
       Ret ((h, rows), false)) (h, rows) in
  Ret (snd s).
Definition add_reduced (mx : matrix) (row : nat) : res (result unit dlx_error * matrix) :=
  if decide (length (d_rows mx) <= row) then Ret (Err IndexError, mx)
  else
    let partial := d_partial mx ++ [row] in
    let! p := vec_get (d_rows mx) row in
    if decide (p = null)
    then Ret (Err InvalidRow, Matrix (d_heap mx) (d_next mx) (d_root mx) (d_rows mx) partial)
    else
      let! rows := clear_reduced p (d_heap mx) (d_rows mx) in
      let h := d_heap mx in
      let! n := load h p in
      let first_next := if decide (n_right n = p) then null else n_right n in
      let! h := cover_column fuel p h in
      let! (h, _) := for_from fuel id n_right p first_next
                       (fun x h => let! h := cover_column fuel x h in Ret (h, false)) h in
      let! h := heap_loop fuel n_right p (free_chain fuel) h in
      let! h := free_chain fuel p h in
      Ret (Ok (), Matrix h (d_next mx) (d_root mx) rows partial).

Lemma clear_rows_sim h h' p rows : hsim h h' ->
  rsim (fun a b => b = a) (clear_reduced p h rows) (DlxRelease.clear_rows fuel p h' rows).
Proof.
  intros H. unfold clear_reduced, DlxRelease.clear_rows. eapply rsim_bind; [by apply load_sim|]. intros n ? [-> _].
  cbn [wrap DlxRelease.n_header].
  eapply rsim_bind; [eapply (for_skip1_sim (fun s s' => hsim s.1 s'.1 /\ s'.2 = s.2))|].
  - by intros s s' [? _].
  - done.
  - intros q [h1 r1] [h1' r1'] [H1 H2]. cbn in H1, H2. subst r1'.
    eapply rsim_bind; [by apply load_sim|]. intros nx ? [-> _]. cbn [wrap DlxRelease.n_row].
    unfold vec_set. destruct (decide (red nx < length r1)); cbn [bind]; [|done]. done.
  - done.
  - intros [[h1 b1] b2] [[h1' b1'] b2'] [[_ H1] _]. done.
Qed.
Lemma add_solution_sim mx mx' r : msim mx mx' ->
  rsim (fun a b => b.1 = a.1 /\ msim a.2 b.2) (add_reduced mx r) (DlxRelease.add_solution ws fuel mx' r).
Proof.
  intros [H1 H2 H3 H4]. unfold add_reduced, DlxRelease.add_solution. rewrite H2, H3, H4.
  destruct (decide (length (d_rows mx) <= r)) as [?Hd|?Hd]; [done|].
  destruct (vec_get (d_rows mx) r) as [p|[]]; cbn [bind]; [|done..].
  destruct (decide (p = null)) as [?Hd|?Hd]; [done|].
  eapply rsim_bind; [by apply clear_rows_sim|]. intros rows ? ->.
  eapply rsim_bind; [by apply load_sim|]. intros n ? [-> _]. cbn [wrap DlxRelease.n_right].
  eapply rsim_bind; [by apply cover_column_sim|]. intros h1 h1' G1.
  eapply rsim_bind; [eapply (for_from_sim hsim); [done|done| |done]|].
  { intros q s s' Hs. eapply rsim_bind; [by apply cover_column_sim|]. intros a a' Ha. done. }
  intros [h2 b2] [h2' b2'] [G2 _]. cbn [fst snd] in G2.
  eapply rsim_bind; [apply heap_loop_sim; [done|intros; by apply free_chain_sim|done]|]. intros h3 h3' G3.
  eapply rsim_bind; [by apply free_chain_sim|]. intros h4 h4' G4. done.
Qed.
End fuelled.

(** * Building *)

Definition bsim (m : gmap N N) (h : heap) (h' : rheap) : Prop := h' = wrap <$> h /\ n_header <$> h = m.
Definition shape (m : gmap N N) (next : N) : Prop :=
  m !! null = None /\ (forall p c d, m !! p = Some c -> m !! c = Some d -> d = null) /\
  (forall p c, m !! p = Some c -> p < next /\ c < next)%N /\ next <> null.
Lemma bload_sim m h h' p : bsim m h h' -> rsim (fun a b => b = wrap a) (load h p) (DlxRelease.load h' p).
Proof. intros [-> _]. unfold load, DlxRelease.load. rewrite lookup_fmap. by destruct (h !! p). Qed.
Lemma bmodify_sim m f f' h h' p : (forall n, n_header (f n) = n_header n) -> (forall n, wrap (f n) = f' (wrap n)) ->
  bsim m h h' -> rsim (bsim m) (modify f p h) (DlxRelease.modify f' p h').
Proof.
  intros Hf Hw [-> <-]. unfold modify, DlxRelease.modify. rewrite lookup_fmap.
  destruct (h !! p) as [n|] eqn:E; cbn; [|done]. split.
  - by rewrite fmap_insert, Hw.
  - rewrite fmap_insert, Hf. apply insert_id. by rewrite lookup_fmap, E.
Qed.
Lemma bsim_insert m h h' p n : bsim m h h' -> bsim (<[p := n_header n]> m) (<[p := n]> h) (<[p := wrap n]> h').
Proof. intros [-> <-]. split; by rewrite fmap_insert. Qed.

Definition nsim (m : gmap N N) (hd : N) (x : node * heap) (y : DlxRelease.node * rheap) : Prop :=
  y.1 = wrap x.1 /\ n_header x.1 = hd /\ bsim m x.2 y.2.
Lemma node_new_sim m h h' p hd rp cp r : bsim m h h' -> hd <> null ->
  rsim (bsim (<[p := hd]> m)) (node_new p hd rp cp r h) (DlxRelease.node_new p hd rp cp (N.of_nat r) h').
Proof.
  intros H Hhd. unfold node_new, DlxRelease.node_new.
  assert (wrap (Node hd p p p p r) = DlxRelease.Node hd p p p p (N.of_nat r)) as Hw.
  { unfold wrap, reduced. cbn. by rewrite decide_False. }
  apply rsim_bind with (R := nsim m hd).
  { destruct (decide (rp = null)) as [?Hd|?Hd]; [by rewrite <-Hw|].
    eapply rsim_bind; [by eapply bload_sim|]. intros n ? ->. cbn [wrap DlxRelease.n_right].
    eapply rsim_bind; [by apply bmodify_sim|]. intros h1 h1' H1.
    eapply rsim_bind; [by apply bmodify_sim|]. intros h2 h2' H2. split; [|done]. cbn. by rewrite <-Hw. }
  intros [n1 h1] [n1' h1'] (E1&E2&H1). cbn in E1, E2, H1. subst n1'.
  apply rsim_bind with (R := nsim m hd).
  { destruct (decide (cp = null)) as [?Hd|?Hd]; [done|].
    eapply rsim_bind; [by eapply bload_sim|]. intros n ? ->. cbn [wrap DlxRelease.n_down].
    eapply rsim_bind; [by apply bmodify_sim|]. intros h2 h2' H2.
    eapply rsim_bind; [by apply bmodify_sim|]. intros h3 h3' H3. done. }
  intros [n2 h2] [n2' h2'] (E3&E4&H2). cbn in E3, E4, H2. subst n2'. rewrite <-E4. by apply bsim_insert.
Qed.
Lemma node_new_header_sim m h h' p pv k : bsim m h h' -> (N.of_nat k < usize_size ws)%N ->
  rsim (bsim (<[p := null]> m)) (node_new_header p pv k h) (DlxRelease.node_new_header p pv (N.of_nat k) h').
Proof.
  intros H Hk. unfold node_new_header, DlxRelease.node_new_header.
  assert (wrap (Node null p p p p k) = DlxRelease.Node null p p p p (N.of_nat k)) as Hw.
  { unfold wrap, reduced. cbn [n_header n_row n_left n_right n_up n_down]. rewrite decide_True by done. by rewrite N.mod_small. }
  apply rsim_bind with (R := nsim m null).
  { destruct (decide (pv = null)) as [?Hd|?Hd]; [by rewrite <-Hw|].
    eapply rsim_bind; [by eapply bload_sim|]. intros n ? ->. cbn [wrap DlxRelease.n_right].
    eapply rsim_bind; [by apply bmodify_sim|]. intros h1 h1' H1.
    eapply rsim_bind; [by apply bmodify_sim|]. intros h2 h2' H2. split; [|done]. cbn [fst]. by rewrite <-Hw. }
  intros [n2 h2] [n2' h2'] (E3&E4&H2). cbn in E3, E4, H2. subst n2'. rewrite <-E4. by apply bsim_insert.
Qed.

Lemma shape_node m next hd : shape m next -> m !! hd = Some null -> shape (<[next := hd]> m) (next + 1) /\ <[next := hd]> m !! hd = Some null.
Proof.
  intros (H1&H2&H3&H4) Hhd. destruct (H3 _ _ Hhd) as [H5 H6]. split; [split_and!|].
  - rewrite lookup_insert_ne by done. done.
  - intros p c d. destruct (decide (p = next)) as [->|Hp].
    + rewrite lookup_insert. intros [= <-]. rewrite lookup_insert_ne by lia. congruence.
    + rewrite lookup_insert_ne by done. intros Hc. destruct (H3 _ _ Hc). rewrite lookup_insert_ne by lia. by apply (H2 p c).
  - intros p c. destruct (decide (p = next)) as [->|Hp].
    + rewrite lookup_insert. intros [= <-]. lia.
    + rewrite lookup_insert_ne by done. intros [? ?]%H3. lia.
  - unfold null. lia.
  - by rewrite lookup_insert_ne by lia.
Qed.
Lemma shape_header m next : shape m next -> shape (<[next := null]> m) (next + 1).
Proof.
  intros (H1&H2&H3&H4). split_and!.
  - by rewrite lookup_insert_ne.
  - intros p c d. destruct (decide (p = next)) as [->|Hp].
    + rewrite lookup_insert. intros [= <-]. rewrite lookup_insert_ne by done. congruence.
    + rewrite lookup_insert_ne by done. intros Hc. destruct (H3 _ _ Hc). rewrite lookup_insert_ne by lia. by apply (H2 p c).
  - intros p c. destruct (decide (p = next)) as [->|Hp].
    + rewrite lookup_insert. intros [= <-]. unfold null. lia.
    + rewrite lookup_insert_ne by done. intros [? ?]%H3. lia.
  - unfold null. lia.
Qed.
Lemma shape_hsim m next h h' : shape m next -> bsim m h h' -> hsim h h'.
Proof.
  intros (H1&H2&_) [-> Hm]. split; [done|]. split.
  - rewrite <-Hm, lookup_fmap in H1. by destruct (h !! null).
  - intros p n hd Hp Hh. apply (H2 p (n_header n) (n_header hd)); by rewrite <-Hm, lookup_fmap, ?Hp, ?Hh.
Qed.

Definition built (x : heap * ptr * list ptr) (y : rheap * ptr * list ptr) : Prop :=
  x.1.2 = y.1.2 /\ x.2 = y.2 /\ exists m, shape m x.1.2 /\ bsim m x.1.1 y.1.1.
Lemma add_nodes_sim hd l : hd <> null -> forall cp h h' next rows m, shape m next -> m !! hd = Some null -> bsim m h h' ->
  rsim built (add_nodes hd cp l h next rows) (DlxRelease.add_nodes hd cp l h' next rows).
Proof.
  intros Hhd. induction l as [|i l IH]; intros cp h h' next rows m Hs Hm H; cbn [add_nodes DlxRelease.add_nodes].
  { split_and!; [done|done|]. eauto. }
  destruct (vec_get (grow rows i) i) as [rp|[]]; cbn [bind]; [|done..].
  eapply rsim_bind; [by apply node_new_sim|]. intros h1 h1' H1.
  unfold vec_set. destruct (decide (i < length (grow rows i))) as [?Hd|?Hd]; cbn [bind]; [|done].
  destruct (shape_node _ _ _ Hs Hm). by eapply IH.
Qed.
Lemma add_columns_sim cs : Forall (fun l => N.of_nat (length l) < usize_size ws)%N cs -> forall curr h h' next rows m, shape m next -> bsim m h h' ->
  rsim built (add_columns curr cs h next rows) (DlxRelease.add_columns curr cs h' next rows).
Proof.
  induction 1 as [|l cs Hl _ IH]; intros curr h h' next rows m Hs H; cbn [add_columns DlxRelease.add_columns].
  { split_and!; [done|done|]. eauto. }
  eapply rsim_bind; [by apply node_new_header_sim|]. intros h1 h1' H1.
  eapply rsim_bind; [eapply add_nodes_sim; [apply Hs|by apply shape_header|by rewrite lookup_insert|done]|].
  intros [[h2 n2] r2] [[h2' n2'] r2'] (E1&E2&m2&Hs2&H2). cbn in E1, E2, Hs2, H2. subst n2' r2'. by eapply IH.
Qed.
Lemma matrix_new_sim cs : Forall (fun l => N.of_nat (length l) < usize_size ws)%N cs -> 
  rsim msim (matrix_new cs) (DlxRelease.matrix_new cs).
Proof.
  intros Hcs. unfold matrix_new, DlxRelease.matrix_new.
  eapply rsim_bind; [apply (node_new_header_sim ∅ ∅ ∅ 1%N null 0); [split; by rewrite fmap_empty|apply usize_pos]|]. intros h1 h1' H1.
  eapply rsim_bind; [eapply add_columns_sim; [done| |done]|].
  { split_and!.
    - by rewrite lookup_insert_ne.
    - intros p c d. rewrite !lookup_insert_Some, lookup_empty. naive_solver.
    - intros p c. rewrite !lookup_insert_Some, lookup_empty. unfold null. intros [[<- <-]|[_ ?]]; [lia|done].
    - done. }
  intros [[h2 n2] r2] [[h2' n2'] r2'] (E1&E2&m2&Hs2&H2). cbn in E1, E2, Hs2, H2. subst n2' r2'.
  split; cbn; [|done..]. by eapply shape_hsim.
Qed.

End width.
