(** Wrong lengths with overflow checks: a run of [Dlx] on the right sizes is
    imitated by one in which every header is off by a constant, as long as the
    latter does not panic and the former chooses its columns by the sizes the
    latter sees. *)
From Verif Require Import Base Dlx DlxReleaseSim DlxLook.
From Verif Require DlxLen.

(** The right sizes may panic, the wrong ones only unless [safe]. *)
Definition qsim (safe : Prop) {A B} (R : A -> B -> Prop) (x : res A) (y : res B) : Prop :=
  match x, y with
  | Ret a, Ret b => R a b
  | Fault Panic, _ => True
  | _, Fault Panic => ~ safe
  | Fault e, Fault f => e = f
  | _, _ => False
  end.
Lemma qsim_bind safe {A B A' B'} (R : A -> A' -> Prop) (Q : B -> B' -> Prop) x x' k k' :
  qsim safe R x x' -> (forall a a', R a a' -> qsim safe Q (k a) (k' a')) -> qsim safe Q (bind x k) (bind x' k').
Proof.
  destruct x as [a|[]], x' as [a'|[]]; cbn; try done; try (intros H Hk; by apply Hk).
  intros ? _. by destruct (k a) as [|[]].
Qed.

Section off.
(** By how much the size in the header at an address is wrong. *)
Context (off : N -> Z) (safe : Prop) (Hok : safe -> forall p, (0 <= off p)%Z).
Notation psim := (qsim safe).
Notation psim_bind := (qsim_bind safe).

(** What the other run finds in the node at [p]. *)
Definition seen (p : N) (n : node) : nat :=
  if decide (n_header n = null) then Z.to_nat (Z.of_nat (n_row n) + off p) else n_row n.
Definition wrap (p : N) (n : node) : node :=
  Node (n_header n) (n_left n) (n_right n) (n_up n) (n_down n) (seen p n).
Definition fine (h : heap) : Prop :=
  heads h /\ forall p n, h !! p = Some n -> n_header n = null -> (0 <= Z.of_nat (n_row n) + off p)%Z.
Definition hsim (h : heap) (h' : heap) : Prop := (forall p, h' !! p = wrap p <$> h !! p) /\ fine h.

Lemma fine_alter h p n n' : fine h -> h !! p = Some n -> n_header n' = n_header n ->
  (n_header n = null -> 0 <= Z.of_nat (n_row n') + off p)%Z -> fine (<[p := n']> h).
Proof.
  intros [H1 H2] Hp Hn Hr. split; [by eapply heads_alter|]. intros q m. destruct (decide (q = p)) as [->|Hq].
  - rewrite lookup_insert. intros [= <-] Hm. apply Hr. congruence.
  - rewrite lookup_insert_ne by done. apply H2.
Qed.
Lemma fine_delete h p : fine h -> fine (delete p h).
Proof. intros [H1 H2]. split; [by apply heads_delete|]. intros q n (_&Hq)%lookup_delete_Some. by apply H2. Qed.
Lemma look_insert (h : heap) (h' : heap) p n : (forall q, h' !! q = wrap q <$> h !! q) ->
  forall q, <[p := wrap p n]> h' !! q = wrap q <$> <[p := n]> h !! q.
Proof.
  intros H q. destruct (decide (q = p)) as [->|Hq]; [by rewrite !lookup_insert|by rewrite !lookup_insert_ne].
Qed.
Lemma load_sim h h' p : hsim h h' -> psim (fun a b => b = wrap p a /\ h !! p = Some a) (load h p) (load h' p).
Proof. intros [H _]. unfold load, load. rewrite H. by destruct (h !! p). Qed.
Lemma modify_sim f f' h h' p : (forall n, n_header (f n) = n_header n) -> (forall n, n_row (f n) = n_row n) -> (forall n, wrap p (f n) = f' (wrap p n)) ->
  hsim h h' -> psim hsim (modify f p h) (modify f' p h').
Proof.
  intros Hf Hr Hw [G H]. unfold modify. rewrite G.
  destruct (h !! p) as [n|] eqn:E; cbn; [|done]. split.
  - rewrite <-Hw. by apply look_insert.
  - eapply fine_alter; [done|exact E|apply Hf|]. intros Hh. rewrite Hr. by apply H.
Qed.
Lemma dealloc_sim h h' p : hsim h h' -> psim hsim (dealloc p h) (dealloc p h').
Proof.
  intros [G H]. unfold dealloc, dealloc. rewrite G. destruct (h !! p) as [n|]; cbn; [|done].
  split; [|by apply fine_delete]. intros q.
  destruct (decide (q = p)) as [->|Hq]; [by rewrite !lookup_delete|by rewrite !lookup_delete_ne].
Qed.

(** * Loops *)

Section loop.
Context {S S' : Type} (RS : S -> S' -> Prop) (heap_of : S -> heap) (heap_of' : S' -> heap).
Context (Hheap : forall s s', RS s s' -> hsim (heap_of s) (heap_of' s')).
Context (dir : node -> N) (dir' : node -> N) (Hdir : forall p n, dir' (wrap p n) = dir n).
Definition stop_sim (x : S * bool) (y : S' * bool) : Prop := RS x.1 y.1 /\ x.2 = y.2.

Lemma for_from_sim body body' : (forall p s s', RS s s' -> psim stop_sim (body p s) (body' p s')) ->
  forall fuel original cur s s', RS s s' ->
  psim stop_sim (for_from fuel heap_of dir original cur body s)
    (for_from fuel heap_of' dir' original cur body' s').
Proof.
  intros Hb. induction fuel as [|fuel IH]; intros original cur s s' H; cbn [for_from for_from];
    destruct (decide (cur = null)) as [?Hd|?Hd]; [done|done|done|].
  eapply psim_bind; [by apply load_sim, Hheap|]. intros n ? [-> _].
  eapply psim_bind; [by apply Hb|]. intros [s1 b1] [s1' b1'] [H1 H2]. cbn in H1, H2. subst b1'.
  destruct b1; [done|]. rewrite Hdir. by apply IH.
Qed.
Lemma for_skip1_sim body body' : (forall p s s', RS s s' -> psim stop_sim (body p s) (body' p s')) ->
  forall fuel original s s', RS s s' ->
  psim stop_sim (for_skip1 fuel heap_of dir original body s) (for_skip1 fuel heap_of' dir' original body' s').
Proof.
  intros Hb fuel original s s' H. unfold for_skip1, for_skip1.
  eapply psim_bind; [by apply load_sim, Hheap|]. intros n ? [-> _]. rewrite Hdir. by apply for_from_sim.
Qed.
End loop.

Lemma heap_loop_sim dir dir' : (forall p n, dir' (wrap p n) = dir n) -> forall body body',
  (forall p h h', hsim h h' -> psim hsim (body p h) (body' p h')) -> forall fuel original h h', hsim h h' ->
  psim hsim (heap_loop fuel dir original body h) (heap_loop fuel dir' original body' h').
Proof.
  intros Hdir body body' Hb fuel original h h' H. unfold heap_loop, heap_loop.
  eapply psim_bind; [eapply (for_skip1_sim hsim); [done|done| |done]|].
  - intros p s s' Hs. eapply psim_bind; [by apply Hb|]. intros a a' Ha. done.
  - intros [a b] [a' b'] [Ha _]. done.
Qed.
Lemma to_header_sim h h' p : hsim h h' -> psim (fun a b => b = a) (to_header h p) (to_header h' p).
Proof.
  intros H. unfold to_header, to_header. eapply psim_bind; [by apply load_sim|]. intros n ? [-> _].
  cbn [wrap n_header]. by destruct (decide (n_header n = null)).
Qed.
Ltac links := intros H; eapply psim_bind; [by apply load_sim|]; intros n ? [-> _];
  cbn [wrap n_left n_right n_up n_down];
  (eapply psim_bind; [by apply modify_sim|]); intros ? ? ?; by apply modify_sim.
Lemma cover_horizontal_sim h h' p : hsim h h' -> psim hsim (cover_horizontal p h) (cover_horizontal p h').
Proof. unfold cover_horizontal, cover_horizontal. links. Qed.
Lemma cover_vertical_sim h h' p : hsim h h' -> psim hsim (cover_vertical p h) (cover_vertical p h').
Proof. unfold cover_vertical, cover_vertical. links. Qed.
Lemma uncover_horizontal_sim h h' p : hsim h h' -> psim hsim (uncover_horizontal p h) (uncover_horizontal p h').
Proof. unfold uncover_horizontal, uncover_horizontal. links. Qed.
Lemma uncover_vertical_sim h h' p : hsim h h' -> psim hsim (uncover_vertical p h) (uncover_vertical p h').
Proof. unfold uncover_vertical, uncover_vertical. links. Qed.

Lemma dec_size_sim h h' p : hsim h h' -> psim hsim (dec_size p h) (dec_size p h').
Proof.
  intros H. unfold dec_size. eapply psim_bind; [by apply load_sim|]. intros n ? [-> Hn].
  cbn [wrap n_header]. eapply psim_bind; [by apply load_sim|]. intros hd ? [-> Hhd].
  pose proof H as (G&[H0 H1]&H2). pose proof (H1 _ _ _ Hn Hhd) as Hnull. destruct (n_row hd) as [|k] eqn:Er; [done|].
  pose proof (H2 _ _ Hhd Hnull) as Hpos. rewrite Er in Hpos.
  assert (n_row (wrap (n_header n) hd) = Z.to_nat (Z.of_nat (S k) + off (n_header n))) as Ew.
  { cbn [wrap n_row]. unfold seen. by rewrite decide_True, Er. }
  destruct (n_row (wrap (n_header n) hd)) as [|k'] eqn:Ek.
  { unfold modify. rewrite Hhd. intros Ho. specialize (Hok Ho (n_header n)). lia. }
  unfold modify. rewrite G, Hhd. cbn [fmap option_fmap option_map]. split.
  - assert (wrap (n_header n) (set_row k hd) = set_row k' (wrap (n_header n) hd)) as Hw.
    { unfold wrap, set_row, seen. cbn [n_header n_row n_left n_right n_up n_down].
      rewrite Hnull, !decide_True by done. f_equal. lia. }
    rewrite <-Hw. by apply look_insert.
  - eapply fine_alter; [apply H|exact Hhd|done|]. intros _. cbn [set_row n_row]. lia.
Qed.
Lemma inc_size_sim h h' p : hsim h h' -> psim hsim (inc_size p h) (inc_size p h').
Proof.
  intros H. unfold inc_size. eapply psim_bind; [by apply load_sim|]. intros n ? [-> Hn].
  cbn [wrap n_header]. eapply psim_bind; [by apply load_sim|]. intros hd ? [-> Hhd].
  pose proof H as (G&[H0 H1]&H2). pose proof (H1 _ _ _ Hn Hhd) as Hnull.
  pose proof (H2 _ _ Hhd Hnull) as Hpos.
  unfold modify. rewrite G, Hhd. cbn [fmap option_fmap option_map]. split.
  - assert (wrap (n_header n) (set_row (S (n_row hd)) hd) = set_row (S (n_row (wrap (n_header n) hd))) (wrap (n_header n) hd)) as Hw.
    { unfold wrap, set_row, seen. cbn [n_header n_row n_left n_right n_up n_down].
      rewrite Hnull, !decide_True by done. f_equal. lia. }
    rewrite <-Hw. by apply look_insert.
  - eapply fine_alter; [apply H|exact Hhd|done|]. intros _. cbn [set_row n_row]. lia.
Qed.
Lemma hide_sim h h' p : hsim h h' -> psim hsim (hide p h) (hide p h').
Proof. intros H. unfold hide, hide. eapply psim_bind; [by apply cover_vertical_sim|]. intros. by apply dec_size_sim. Qed.
Lemma unhide_sim h h' p : hsim h h' -> psim hsim (unhide p h) (unhide p h').
Proof. intros H. unfold unhide, unhide. eapply psim_bind; [by apply inc_size_sim|]. intros. by apply uncover_vertical_sim. Qed.

(** * The search *)

Section fuelled.
Context (fuel : nat).
Lemma cover_column_sim h h' p : hsim h h' -> psim hsim (cover_column fuel p h) (cover_column fuel p h').
Proof.
  intros H. unfold cover_column, cover_column. eapply psim_bind; [by apply to_header_sim|]. intros c ? ->.
  eapply psim_bind; [by apply cover_horizontal_sim|]. intros h1 h1' H1. apply heap_loop_sim; [done| |done].
  intros q h2 h2' H2. apply heap_loop_sim; [done| |done]. intros. by apply hide_sim.
Qed.
Lemma uncover_column_sim h h' p : hsim h h' -> psim hsim (uncover_column fuel p h) (uncover_column fuel p h').
Proof.
  intros H. unfold uncover_column, uncover_column. eapply psim_bind; [by apply to_header_sim|]. intros c ? ->.
  eapply psim_bind; [|intros; by apply uncover_horizontal_sim]. apply heap_loop_sim; [done| |done].
  intros q h2 h2' H2. apply heap_loop_sim; [done| |done]. intros. by apply unhide_sim.
Qed.
Lemma free_chain_sim h h' p : hsim h h' -> psim hsim (free_chain fuel p h) (free_chain fuel p h').
Proof.
  intros H. unfold free_chain, free_chain. eapply psim_bind; [by apply to_header_sim|]. intros c ? ->.
  eapply psim_bind; [|intros; by apply dealloc_sim]. apply heap_loop_sim; [done| |done].
  intros q h2 h2' H2. eapply psim_bind; [|intros; by apply dealloc_sim]. apply heap_loop_sim; [done| |done].
  intros. by apply dealloc_sim.
Qed.
Lemma is_empty_sim h h' p : hsim h h' -> psim (fun a b => a = b) (is_empty p h) (is_empty p h').
Proof.
  intros H. unfold is_empty, is_empty. eapply psim_bind; [by apply load_sim|]. intros n ? [-> _]. done.
Qed.
(** [cover] and [cover'] cover a column of the one and the other. *)
Context (cover cover' : ptr -> heap -> res heap) (Hcov : forall p h h', hsim h h' -> psim hsim (cover p h) (cover' p h')).
Notation plain := (fun _ n => n_row n).
Lemma choose_column_sim h h' p : hsim h h' ->
  psim (fun a b => b = a) (choose_look seen fuel p h) (choose_look plain fuel p h').
Proof.
  intros H. unfold choose_look.
  eapply psim_bind; [eapply (for_skip1_sim (fun s s' => hsim s.1 s'.1 /\ s'.2 = s.2))|].
  - by intros s s' [? _].
  - done.
  - intros q [h1 b1] [h1' b1'] [H1 H2]. cbn in H1, H2. subst b1'.
    eapply psim_bind; [by apply load_sim|]. intros nx ? [-> _]. cbn [wrap n_row].
    destruct b1 as [[b k]|]; [|done].
    by destruct (decide (seen q nx < k)) as [Hk|Hk].
  - done.
  - intros [[h1 b1] b2] [[h1' b1'] b2'] [[_ H1] _]. cbn in H1. subst b1'. cbn. by destruct b1 as [[b k]|].
Qed.
Lemma solve_helper_sim depth : forall root h h' partial, hsim h h' ->
  psim (fun x y => hsim x.1.1 y.1.1 /\ x.1.2 = y.1.2 /\ x.2 = y.2)
    (solve_look seen cover fuel depth root h partial) (solve_look plain cover' fuel depth root h' partial).
Proof.
  induction depth as [|depth IH]; intros root h h' partial H; cbn [solve_look]; [done|].
  eapply psim_bind; [by apply is_empty_sim|]. intros e ? <-. destruct e; [done|].
  eapply psim_bind; [by apply choose_column_sim|]. intros c ? ->.
  eapply psim_bind; [by apply Hcov|]. intros h1 h1' H1.
  eapply psim_bind; [eapply (for_skip1_sim (fun s s' => hsim s.1 s'.1 /\ s.2 = s'.2))|].
  - by intros s s' [? _].
  - done.
  - intros q [h2 p2] [h2' p2'] [H2 E2]. cbn in H2, E2. subst p2'.
    eapply psim_bind; [by apply load_sim|]. intros n ? [-> _]. cbn [wrap n_row].
    eapply psim_bind; [apply heap_loop_sim; [done|intros; by apply Hcov|done]|]. intros h3 h3' H3.
    eapply psim_bind; [by apply IH|]. intros [[h4 p4] ok] [[h4' p4'] ok'] (H4&E4&E5). cbn in H4, E4, E5. subst p4' ok'.
    destruct ok.
    + eapply psim_bind; [apply heap_loop_sim; [done|intros; by apply free_chain_sim|done]|]. intros h5 h5' H5.
      eapply psim_bind; [by apply free_chain_sim|]. intros h6 h6' H6. done.
    + eapply psim_bind; [apply heap_loop_sim; [done|intros; by apply uncover_column_sim|done]|]. intros h5 h5' H5. done.
  - done.
  - intros [[h2 p2] found] [[h2' p2'] found'] [[H2 E2] E3]. cbn in H2, E2, E3. subst p2' found'. cbn [fst snd].
    destruct found; [done|]. eapply psim_bind; [by apply uncover_column_sim|]. intros h3 h3' H3. done.
Qed.
Lemma drop_column_sim h h' p : hsim h h' -> psim hsim (drop_column fuel p h) (drop_column fuel p h').
Proof.
  intros H. unfold drop_column, drop_column. eapply psim_bind; [by apply load_sim|]. intros n ? [-> _].
  cbn [wrap n_down]. eapply psim_bind; [by apply dealloc_sim|]. intros h1 h1' H1.
  eapply psim_bind; [eapply (for_from_sim hsim); [done|done| |done]|].
  - intros q s s' Hs. eapply psim_bind; [by apply dealloc_sim|]. intros a a' Ha. done.
  - intros [h2 b2] [h2' b2'] [H2 _]. done.
Qed.
Lemma matrix_drop_sim h h' p : hsim h h' -> psim hsim (matrix_drop fuel p h) (matrix_drop fuel p h').
Proof.
  intros H. unfold matrix_drop, matrix_drop. eapply psim_bind; [by apply load_sim|]. intros n ? [-> _].
  cbn [wrap n_right]. eapply psim_bind; [by apply drop_column_sim|]. intros h1 h1' H1.
  eapply psim_bind; [eapply (for_from_sim hsim); [done|done| |done]|].
  - intros q s s' Hs. eapply psim_bind; [by apply drop_column_sim|]. intros a a' Ha. done.
  - intros [h2 b2] [h2' b2'] [H2 _]. done.
Qed.

(** * Adding rows *)

Record msim (mx : matrix) (mx' : matrix) : Prop := MkMsim {
  ms_heap : hsim (d_heap mx) (d_heap mx');
  ms_root : d_root mx' = d_root mx;
  ms_rows : d_rows mx' = d_rows mx;
  ms_partial : d_partial mx' = d_partial mx
}.
Lemma clear_rows_sim h h' p rows : hsim h h' ->
  psim (fun a b => b = a) (clear_look seen fuel p h rows) (clear_look plain fuel p h' rows).
Proof.
  intros H. unfold clear_look. eapply psim_bind; [by apply load_sim|]. intros n ? [-> _].
  cbn [wrap n_header].
  eapply psim_bind; [eapply (for_skip1_sim (fun s s' => hsim s.1 s'.1 /\ s'.2 = s.2))|].
  - by intros s s' [? _].
  - done.
  - intros q [h1 r1] [h1' r1'] [H1 H2]. cbn in H1, H2. subst r1'.
    eapply psim_bind; [by apply load_sim|]. intros nx ? [-> _]. cbn [wrap n_row].
    unfold vec_set. destruct (decide (seen q nx < length r1)); cbn [bind]; [|done]. done.
  - done.
  - intros [[h1 b1] b2] [[h1' b1'] b2'] [[_ H1] _]. done.
Qed.
Lemma add_solution_sim mx mx' r : msim mx mx' ->
  psim (fun a b => b.1 = a.1 /\ msim a.2 b.2) (add_look seen cover fuel mx r) (add_look plain cover' fuel mx' r).
Proof.
  intros [H1 H2 H3 H4]. unfold add_look. rewrite H2, H3, H4.
  destruct (decide (length (d_rows mx) <= r)) as [?Hd|?Hd]; [done|].
  destruct (vec_get (d_rows mx) r) as [p|[]]; cbn [bind]; [|done..].
  destruct (decide (p = null)) as [?Hd|?Hd]; [done|].
  eapply psim_bind; [by apply clear_rows_sim|]. intros rows ? ->.
  eapply psim_bind; [by apply load_sim|]. intros n ? [-> _]. cbn [wrap n_right].
  eapply psim_bind; [by apply Hcov|]. intros h1 h1' G1.
  eapply psim_bind; [eapply (for_from_sim hsim); [done|done| |done]|].
  { intros q s s' Hs. eapply psim_bind; [by apply Hcov|]. intros a a' Ha. done. }
  intros [h2 b2] [h2' b2'] [G2 _]. cbn [fst snd] in G2.
  eapply psim_bind; [apply heap_loop_sim; [done|intros; by apply free_chain_sim|done]|]. intros h3 h3' G3.
  eapply psim_bind; [by apply free_chain_sim|]. intros h4 h4' G4. done.
Qed.
End fuelled.

(** * Building *)

Definition bsim (m : gmap N N) (h : heap) (h' : heap) : Prop := (forall p, h' !! p = wrap p <$> h !! p) /\ n_header <$> h = m /\
  forall p n, h !! p = Some n -> n_header n = null -> (0 <= Z.of_nat (n_row n) + off p)%Z.
Lemma bload_sim m h h' p : bsim m h h' -> psim (fun a b => b = wrap p a) (load h p) (load h' p).
Proof. intros [H _]. unfold load. rewrite H. by destruct (h !! p). Qed.
Lemma bmodify_sim m f f' h h' p : (forall n, n_header (f n) = n_header n) -> (forall n, n_row (f n) = n_row n) -> (forall n, wrap p (f n) = f' (wrap p n)) ->
  bsim m h h' -> psim (bsim m) (modify f p h) (modify f' p h').
Proof.
  intros Hf Hr Hw (G&<-&HP). unfold modify. rewrite G.
  destruct (h !! p) as [n|] eqn:E; cbn; [|done]. split; [|split].
  - rewrite <-Hw. by apply look_insert.
  - rewrite fmap_insert, Hf. apply insert_id. by rewrite lookup_fmap, E.
  - intros q a. destruct (decide (q = p)) as [->|Hq].
    + rewrite lookup_insert. intros [= <-] Ha. rewrite Hr. rewrite Hf in Ha. by apply HP.
    + rewrite lookup_insert_ne by done. apply HP.
Qed.
Lemma bsim_insert m h h' p n : bsim m h h' -> (n_header n = null -> 0 <= Z.of_nat (n_row n) + off p)%Z ->
  bsim (<[p := n_header n]> m) (<[p := n]> h) (<[p := wrap p n]> h').
Proof.
  intros (G&<-&HP) Hn. split; [by apply look_insert|]. split; [by rewrite fmap_insert|].
  intros q a. destruct (decide (q = p)) as [->|Hq].
  - rewrite lookup_insert. by intros [= <-].
  - rewrite lookup_insert_ne by done. apply HP.
Qed.

Definition nsim (m : gmap N N) (p hd : N) (x : node * heap) (y : node * heap) : Prop :=
  y.1 = wrap p x.1 /\ n_header x.1 = hd /\ bsim m x.2 y.2 /\ (n_header x.1 = null -> 0 <= Z.of_nat (n_row x.1) + off p)%Z.
Lemma node_new_sim m h h' p hd rp cp r : bsim m h h' -> hd <> null ->
  psim (bsim (<[p := hd]> m)) (node_new p hd rp cp r h) (node_new p hd rp cp r h').
Proof.
  intros H Hhd. unfold node_new.
  assert (wrap p (Node hd p p p p r) = Node hd p p p p r) as Hw.
  { unfold wrap, seen. cbn. by rewrite decide_False. }
  apply psim_bind with (R := nsim m p hd).
  { destruct (decide (rp = null)) as [?Hd|?Hd]; [split_and!; cbn; done|].
    eapply psim_bind; [by eapply bload_sim|]. intros n ? ->. cbn [wrap n_right].
    eapply psim_bind; [by apply bmodify_sim|]. intros h1 h1' H1.
    eapply psim_bind; [by apply bmodify_sim|]. intros h2 h2' H2.
    split; [cbn; unfold wrap, seen; cbn; by rewrite decide_False|]. split_and!; cbn; done. }
  intros [n1 h1] [n1' h1'] (E1&E2&H1&Hp1). cbn in E1, E2, H1, Hp1. subst n1'.
  apply psim_bind with (R := nsim m p hd).
  { destruct (decide (cp = null)) as [?Hd|?Hd]; [done|].
    eapply psim_bind; [by eapply bload_sim|]. intros n ? ->. cbn [wrap n_down].
    eapply psim_bind; [by apply bmodify_sim|]. intros h2 h2' H2.
    eapply psim_bind; [by apply bmodify_sim|]. intros h3 h3' H3. split_and!; cbn; done. }
  intros [n2 h2] [n2' h2'] (E3&E4&H2&Hp2). cbn in E3, E4, H2, Hp2. subst n2'. rewrite <-E4. by apply bsim_insert.
Qed.
Lemma node_new_header_sim m h h' p pv k len : bsim m h h' -> (Z.of_nat k + off p = Z.of_nat len)%Z ->
  psim (bsim (<[p := null]> m)) (node_new_header p pv k h) (node_new_header p pv len h').
Proof.
  intros H Hk. unfold node_new_header.
  assert (wrap p (Node null p p p p k) = Node null p p p p len) as Hw.
  { unfold wrap, seen. cbn [n_header n_row n_left n_right n_up n_down]. rewrite decide_True by done. f_equal. lia. }
  apply psim_bind with (R := nsim m p null).
  { destruct (decide (pv = null)) as [?Hd|?Hd]; [split_and!; cbn; try done; lia|].
    eapply psim_bind; [by eapply bload_sim|]. intros n ? ->. cbn [wrap n_right].
    eapply psim_bind; [by apply bmodify_sim|]. intros h1 h1' H1.
    eapply psim_bind; [by apply bmodify_sim|]. intros h2 h2' H2. split; [cbn [fst]; by rewrite <-Hw|].
    split_and!; cbn; try done; lia. }
  intros [n2 h2] [n2' h2'] (E3&E4&H2&Hp2). cbn in E3, E4, H2, Hp2. subst n2'. rewrite <-E4. by apply bsim_insert.
Qed.
Lemma shape_hsim m next h h' : shape m next -> bsim m h h' -> hsim h h'.
Proof.
  intros (H1&H2&_) (G&Hm&HP). split; [done|]. split; [|done]. split.
  - rewrite <-Hm, lookup_fmap in H1. by destruct (h !! null).
  - intros p n hd Hp Hh. apply (H2 p (n_header n) (n_header hd)); by rewrite <-Hm, lookup_fmap, ?Hp, ?Hh.
Qed.

Definition built (x : heap * ptr * list ptr) (y : heap * ptr * list ptr) : Prop :=
  x.1.2 = y.1.2 /\ x.2 = y.2 /\ exists m, shape m x.1.2 /\ bsim m x.1.1 y.1.1.
Lemma add_nodes_sim hd l : hd <> null -> forall cp h h' next rows m, shape m next -> m !! hd = Some null -> bsim m h h' ->
  psim (fun x y => built x y /\ x.1.2 = next + N.of_nat (length l))%N (add_nodes hd cp l h next rows) (add_nodes hd cp l h' next rows).
Proof.
  intros Hhd. induction l as [|i l IH]; intros cp h h' next rows m Hs Hm H; cbn [add_nodes].
  { split; [split_and!; [done|done|]; eauto|cbn; lia]. }
  destruct (vec_get (grow rows i) i) as [rp|[]]; cbn [bind]; [|done..].
  eapply psim_bind; [by apply node_new_sim|]. intros h1 h1' H1.
  unfold vec_set. destruct (decide (i < length (grow rows i))) as [?Hd|?Hd]; cbn [bind]; [|done].
  destruct (shape_node _ _ _ Hs Hm) as [G1 G2].
  pose proof (IH next h1 h1' (next + 1)%N (<[i := next]> (grow rows i)) _ G1 G2 H1) as HI.
  destruct (add_nodes hd next l h1 _ _) as [[[a b] c]|[]], (add_nodes hd next l h1' _ _) as [[[a' b'] c']|[]]; cbn [psim] in *; try done.
  destruct HI as [HI1 HI2]. split; [done|]. rewrite HI2. cbn [length]. lia.
Qed.

(** The headers are wrong by the difference of the lengths. *)
Fixpoint fits (next : N) (constraints : list (N * list nat)) : Prop :=
  match constraints with
  | [] => True
  | (len, l) :: rest => (Z.of_nat (length l) + off next = Z.of_nat (N.to_nat len))%Z /\ fits (next + 1 + N.of_nat (length l))%N rest
  end.
Lemma add_columns_sim cs : forall curr h h' next rows m, fits next cs -> shape m next -> bsim m h h' ->
  psim built (add_columns curr cs.*2 h next rows) (DlxLen.checked_add_columns curr cs h' next rows).
Proof.
  induction cs as [|[len l] cs IH]; intros curr h h' next rows m Hf Hs H; cbn [fmap list_fmap add_columns DlxLen.checked_add_columns].
  { split_and!; [done|done|]. eauto. }
  destruct Hf as [Hf1 Hf2].
  eapply psim_bind; [by apply node_new_header_sim|]. intros h1 h1' H1.
  eapply psim_bind; [eapply add_nodes_sim; [apply Hs|by apply shape_header|by rewrite lookup_insert|done]|].
  intros [[h2 n2] r2] [[h2' n2'] r2'] [(E1&E2&m2&Hs2&H2) E3]. cbn in E1, E2, E3, Hs2, H2. subst n2' r2' n2. by eapply IH.
Qed.
Lemma matrix_new_sim cs : off 1%N = 0%Z -> fits 2%N cs ->
  psim msim (matrix_new cs.*2) (DlxLen.checked_matrix_new cs).
Proof.
  intros H0 Hcs. unfold matrix_new, DlxLen.checked_matrix_new.
  eapply psim_bind; [apply (node_new_header_sim ∅ ∅ ∅ 1%N null 0)|].
  { split; [|split; [by rewrite fmap_empty|]]; intros p; by rewrite !lookup_empty. }
  { by rewrite H0. }
  intros h1 h1' H1.
  eapply psim_bind; [eapply add_columns_sim; [done| |done]|].
  { split_and!.
    - by rewrite lookup_insert_ne.
    - intros p c d. rewrite !lookup_insert_Some, lookup_empty. naive_solver.
    - intros p c. rewrite !lookup_insert_Some, lookup_empty. unfold null. intros [[<- <-]|[_ ?]]; [lia|done].
    - done. }
  intros [[h2 n2] r2] [[h2' n2'] r2'] (E1&E2&m2&Hs2&H2). cbn in E1, E2, Hs2, H2. subst n2' r2'.
  split; cbn; [|done..]. by eapply shape_hsim.
Qed.
End off.

(** There is such a difference. *)
Fixpoint off_by (next : N) (constraints : list (N * list nat)) (p : N) : Z :=
  match constraints with
  | [] => 0%Z
  | (len, l) :: rest =>
      if decide (p = next) then (Z.of_nat (N.to_nat len) - Z.of_nat (length l))%Z
      else off_by (next + 1 + N.of_nat (length l))%N rest p
  end.
Lemma fits_ext f g cs : forall next, (forall p, next <= p -> f p = g p)%N -> fits f next cs -> fits g next cs.
Proof.
  induction cs as [|[len l] cs IH]; intros next H; cbn [fits]; [done|]. intros [H1 H2]. rewrite <-(H next) by lia. split; [done|].
  eapply IH; [|exact H2]. intros p Hp. apply H. lia.
Qed.
Lemma off_by_fits cs : forall next, fits (off_by next cs) next cs.
Proof.
  induction cs as [|[len l] cs IH]; intros next; cbn [fits]; [done|]. split.
  - cbn [off_by]. rewrite decide_True by done. lia.
  - eapply fits_ext; [|by apply IH]. intros p Hp. cbn [off_by]. rewrite decide_False by lia. done.
Qed.
Lemma off_by_low cs : forall next p, (p < next)%N -> off_by next cs p = 0%Z.
Proof.
  induction cs as [|[len l] cs IH]; intros next p Hp; cbn [off_by]; [done|]. rewrite decide_False by lia. apply IH. lia.
Qed.
