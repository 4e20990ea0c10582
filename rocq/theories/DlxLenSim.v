(** Wrong lengths: a run of [Dlx] on the right sizes is imitated by one of
    [DlxRelease] in which every header is off by a constant, as long as the
    former chooses its columns by the sizes the latter sees. *)
From Verif Require Import Base Dlx Sudoku DlxAlloc DlxReleaseSim DlxLook WordProofs.
From Verif Require DlxRelease DlxLen.

Section width.
Context (ws : word).


Section off.
(** By how much the size in the header at an address is wrong. *)
Context (off : N -> N).

(** What [DlxRelease] finds in the node at [p]. *)
Definition seen (p : N) (n : node) : N :=
  if decide (n_header n = null) then ((N.of_nat (n_row n) + off p) mod usize_size ws)%N else N.of_nat (n_row n).
Notation red p n := (N.to_nat (seen p n)).
Definition wrap (p : N) (n : node) : DlxRelease.node :=
  DlxRelease.Node (n_header n) (n_left n) (n_right n) (n_up n) (n_down n) (seen p n).
Definition hsim (h : heap) (h' : rheap) : Prop := (forall p, h' !! p = wrap p <$> h !! p) /\ heads h.

Lemma look_insert (h : heap) (h' : rheap) p n : (forall q, h' !! q = wrap q <$> h !! q) ->
  forall q, <[p := wrap p n]> h' !! q = wrap q <$> <[p := n]> h !! q.
Proof.
  intros H q. destruct (decide (q = p)) as [->|Hq]; [by rewrite !lookup_insert|by rewrite !lookup_insert_ne].
Qed.
Lemma load_sim h h' p : hsim h h' -> rsim (fun a b => b = wrap p a /\ h !! p = Some a) (load h p) (DlxRelease.load h' p).
Proof. intros [H _]. unfold load, DlxRelease.load. rewrite H. by destruct (h !! p). Qed.
Lemma modify_sim f f' h h' p : (forall n, n_header (f n) = n_header n) -> (forall n, wrap p (f n) = f' (wrap p n)) ->
  hsim h h' -> rsim hsim (modify f p h) (DlxRelease.modify f' p h').
Proof.
  intros Hf Hw [G H]. unfold modify, DlxRelease.modify. rewrite G.
  destruct (h !! p) as [n|] eqn:E; cbn; [|done]. split.
  - rewrite <-Hw. by apply look_insert.
  - by eapply heads_alter.
Qed.
Lemma dealloc_sim h h' p : hsim h h' -> rsim hsim (dealloc p h) (DlxRelease.dealloc p h').
Proof.
  intros [G H]. unfold dealloc, DlxRelease.dealloc. rewrite G. destruct (h !! p) as [n|]; cbn; [|done].
  split; [|by apply heads_delete]. intros q.
  destruct (decide (q = p)) as [->|Hq]; [by rewrite !lookup_delete|by rewrite !lookup_delete_ne].
Qed.

(** * Loops *)

Section loop.
Context {S S' : Type} (RS : S -> S' -> Prop) (heap_of : S -> heap) (heap_of' : S' -> rheap).
Context (Hheap : forall s s', RS s s' -> hsim (heap_of s) (heap_of' s')).
Context (dir : node -> N) (dir' : DlxRelease.node -> N) (Hdir : forall p n, dir' (wrap p n) = dir n).
Definition stop_sim (x : S * bool) (y : S' * bool) : Prop := RS x.1 y.1 /\ x.2 = y.2.

Lemma for_from_sim body body' : (forall p s s', RS s s' -> rsim stop_sim (body p s) (body' p s')) ->
  forall fuel original cur s s', RS s s' ->
  rsim stop_sim (for_from fuel heap_of dir original cur body s)
    (DlxRelease.for_from fuel heap_of' dir' original cur body' s').
Proof.
  intros Hb. induction fuel as [|fuel IH]; intros original cur s s' H; cbn [for_from DlxRelease.for_from];
    destruct (decide (cur = null)) as [?Hd|?Hd]; [done|done|done|].
  eapply rsim_bind; [by apply load_sim, Hheap|]. intros n ? [-> _].
  eapply rsim_bind; [by apply Hb|]. intros [s1 b1] [s1' b1'] [H1 H2]. cbn in H1, H2. subst b1'.
  destruct b1; [done|]. rewrite Hdir. by apply IH.
Qed.
Lemma for_skip1_sim body body' : (forall p s s', RS s s' -> rsim stop_sim (body p s) (body' p s')) ->
  forall fuel original s s', RS s s' ->
  rsim stop_sim (for_skip1 fuel heap_of dir original body s) (DlxRelease.for_skip1 fuel heap_of' dir' original body' s').
Proof.
  intros Hb fuel original s s' H. unfold for_skip1, DlxRelease.for_skip1.
  eapply rsim_bind; [by apply load_sim, Hheap|]. intros n ? [-> _]. rewrite Hdir. by apply for_from_sim.
Qed.
End loop.

Lemma heap_loop_sim dir dir' : (forall p n, dir' (wrap p n) = dir n) -> forall body body',
  (forall p h h', hsim h h' -> rsim hsim (body p h) (body' p h')) -> forall fuel original h h', hsim h h' ->
  rsim hsim (heap_loop fuel dir original body h) (DlxRelease.heap_loop fuel dir' original body' h').
Proof.
  intros Hdir body body' Hb fuel original h h' H. unfold heap_loop, DlxRelease.heap_loop.
  eapply rsim_bind; [eapply (for_skip1_sim hsim); [done|done| |done]|].
  - intros p s s' Hs. eapply rsim_bind; [by apply Hb|]. intros a a' Ha. done.
  - intros [a b] [a' b'] [Ha _]. done.
Qed.
Lemma to_header_sim h h' p : hsim h h' -> rsim (fun a b => b = a) (to_header h p) (DlxRelease.to_header h' p).
Proof.
  intros H. unfold to_header, DlxRelease.to_header. eapply rsim_bind; [by apply load_sim|]. intros n ? [-> _].
  cbn [wrap DlxRelease.n_header]. by destruct (decide (n_header n = null)).
Qed.
Ltac links := intros H; eapply rsim_bind; [by apply load_sim|]; intros n ? [-> _];
  cbn [wrap DlxRelease.n_left DlxRelease.n_right DlxRelease.n_up DlxRelease.n_down];
  (eapply rsim_bind; [by apply modify_sim|]); intros ? ? ?; by apply modify_sim.
Lemma cover_horizontal_sim h h' p : hsim h h' -> rsim hsim (cover_horizontal p h) (DlxRelease.cover_horizontal p h').
Proof. unfold cover_horizontal, DlxRelease.cover_horizontal. links. Qed.
Lemma cover_vertical_sim h h' p : hsim h h' -> rsim hsim (cover_vertical p h) (DlxRelease.cover_vertical p h').
Proof. unfold cover_vertical, DlxRelease.cover_vertical. links. Qed.
Lemma uncover_horizontal_sim h h' p : hsim h h' -> rsim hsim (uncover_horizontal p h) (DlxRelease.uncover_horizontal p h').
Proof. unfold uncover_horizontal, DlxRelease.uncover_horizontal. links. Qed.
Lemma uncover_vertical_sim h h' p : hsim h h' -> rsim hsim (uncover_vertical p h) (DlxRelease.uncover_vertical p h').
Proof. unfold uncover_vertical, DlxRelease.uncover_vertical. links. Qed.

Lemma dec_off k d m : (0 < m)%N -> (((N.of_nat (S k) + d) mod m + m - 1) mod m = (N.of_nat k + d) mod m)%N.
Proof.
  intros Hm. rewrite <-N.add_sub_assoc by lia.
  rewrite N.add_mod_idemp_l by lia. replace (N.of_nat (S k) + d + (m - 1))%N with (N.of_nat k + d + 1 * m)%N by lia.
  apply N.mod_add. lia.
Qed.
Lemma inc_off k d m : (0 < m)%N -> (((N.of_nat k + d) mod m + 1) mod m = (N.of_nat (S k) + d) mod m)%N.
Proof. intros Hm. rewrite N.add_mod_idemp_l by lia. f_equal. lia. Qed.
Lemma dec_size_sim h h' p : hsim h h' -> rsim hsim (dec_size p h) (DlxRelease.dec_size ws p h').
Proof.
  intros H. unfold dec_size, DlxRelease.dec_size. eapply rsim_bind; [by apply load_sim|]. intros n ? [-> Hn].
  cbn [wrap DlxRelease.n_header]. eapply rsim_bind; [by apply load_sim|]. intros hd ? [-> Hhd].
  pose proof (proj2 (proj2 H) _ _ _ Hn Hhd) as Hnull. destruct (n_row hd) as [|k] eqn:Er; [done|].
  unfold modify, DlxRelease.modify. destruct H as [G H]. rewrite G, Hhd. cbn [fmap option_fmap option_map]. split.
  - assert (wrap (n_header n) (set_row k hd) = DlxRelease.set_row ((seen (n_header n) hd + usize_size ws - 1) mod usize_size ws)%N (wrap (n_header n) hd)) as Hw.
    { unfold wrap, DlxRelease.set_row, set_row, seen. cbn [n_header n_row n_left n_right n_up n_down DlxRelease.n_header
        DlxRelease.n_left DlxRelease.n_right DlxRelease.n_up DlxRelease.n_down DlxRelease.n_row].
      rewrite Hnull, !decide_True by done. rewrite Er. f_equal. symmetry. apply dec_off, usize_pos. }
    change (DlxRelease.n_row (wrap (n_header n) hd)) with (seen (n_header n) hd). rewrite <-Hw. by apply look_insert.
  - by eapply heads_alter.
Qed.
Lemma inc_size_sim h h' p : hsim h h' -> rsim hsim (inc_size p h) (DlxRelease.inc_size ws p h').
Proof.
  intros H. unfold inc_size, DlxRelease.inc_size. eapply rsim_bind; [by apply load_sim|]. intros n ? [-> Hn].
  cbn [wrap DlxRelease.n_header]. eapply rsim_bind; [by apply load_sim|]. intros hd ? [-> Hhd].
  pose proof (proj2 (proj2 H) _ _ _ Hn Hhd) as Hnull.
  unfold modify, DlxRelease.modify. destruct H as [G H]. rewrite G, Hhd. cbn [fmap option_fmap option_map]. split.
  - assert (wrap (n_header n) (set_row (S (n_row hd)) hd) = DlxRelease.set_row ((seen (n_header n) hd + 1) mod usize_size ws)%N (wrap (n_header n) hd)) as Hw.
    { unfold wrap, DlxRelease.set_row, set_row, seen. cbn [n_header n_row n_left n_right n_up n_down DlxRelease.n_header
        DlxRelease.n_left DlxRelease.n_right DlxRelease.n_up DlxRelease.n_down DlxRelease.n_row].
      rewrite Hnull, !decide_True by done. f_equal. symmetry. apply inc_off, usize_pos. }
    change (DlxRelease.n_row (wrap (n_header n) hd)) with (seen (n_header n) hd). rewrite <-Hw. by apply look_insert.
  - by eapply heads_alter.
Qed.
Lemma hide_sim h h' p : hsim h h' -> rsim hsim (hide p h) (DlxRelease.hide ws p h').
Proof. intros H. unfold hide, DlxRelease.hide. eapply rsim_bind; [by apply cover_vertical_sim|]. intros. by apply dec_size_sim. Qed.
Lemma unhide_sim h h' p : hsim h h' -> rsim hsim (unhide p h) (DlxRelease.unhide ws p h').
Proof. intros H. unfold unhide, DlxRelease.unhide. eapply rsim_bind; [by apply inc_size_sim|]. intros. by apply uncover_vertical_sim. Qed.

(** * The search *)

Section fuelled.
Context (fuel : nat).
Lemma cover_column_sim h h' p : hsim h h' -> rsim hsim (cover_column fuel p h) (DlxRelease.cover_column ws fuel p h').
Proof.
  intros H. unfold cover_column, DlxRelease.cover_column. eapply rsim_bind; [by apply to_header_sim|]. intros c ? ->.
  eapply rsim_bind; [by apply cover_horizontal_sim|]. intros h1 h1' H1. apply heap_loop_sim; [done| |done].
  intros q h2 h2' H2. apply heap_loop_sim; [done| |done]. intros. by apply hide_sim.
Qed.
Lemma uncover_column_sim h h' p : hsim h h' -> rsim hsim (uncover_column fuel p h) (DlxRelease.uncover_column ws fuel p h').
Proof.
  intros H. unfold uncover_column, DlxRelease.uncover_column. eapply rsim_bind; [by apply to_header_sim|]. intros c ? ->.
  eapply rsim_bind; [|intros; by apply uncover_horizontal_sim]. apply heap_loop_sim; [done| |done].
  intros q h2 h2' H2. apply heap_loop_sim; [done| |done]. intros. by apply unhide_sim.
Qed.
Lemma free_chain_sim h h' p : hsim h h' -> rsim hsim (free_chain fuel p h) (DlxRelease.free_chain fuel p h').
Proof.
  intros H. unfold free_chain, DlxRelease.free_chain. eapply rsim_bind; [by apply to_header_sim|]. intros c ? ->.
  eapply rsim_bind; [|intros; by apply dealloc_sim]. apply heap_loop_sim; [done| |done].
  intros q h2 h2' H2. eapply rsim_bind; [|intros; by apply dealloc_sim]. apply heap_loop_sim; [done| |done].
  intros. by apply dealloc_sim.
Qed.
Lemma is_empty_sim h h' p : hsim h h' -> rsim (fun a b => a = b) (is_empty p h) (DlxRelease.is_empty p h').
Proof.
  intros H. unfold is_empty, DlxRelease.is_empty. eapply rsim_bind; [by apply load_sim|]. intros n ? [-> _]. done.
Qed.
Lemma choose_column_sim h h' p : hsim h h' ->
  rsim (fun a b => b = a) (choose_look (fun p n => red p n) fuel p h) (DlxRelease.choose_column fuel p h').
Proof.
  intros H. unfold choose_look, DlxRelease.choose_column.
  eapply rsim_bind; [eapply (for_skip1_sim (fun s s' => hsim s.1 s'.1 /\ s'.2 = (fun x => (x.1, N.of_nat x.2)) <$> s.2))|].
  - by intros s s' [? _].
  - done.
  - intros q [h1 b1] [h1' b1'] [H1 H2]. cbn in H1, H2. subst b1'.
    eapply rsim_bind; [by apply load_sim|]. intros nx ? [-> _]. cbn [wrap DlxRelease.n_row].
    destruct b1 as [[b k]|]; cbn [fmap option_fmap option_map fst snd].
    + destruct (decide (red q nx < k)) as [Hk|Hk].
      * rewrite decide_True by lia. repeat split; [apply H1..|]. cbn. by rewrite N2Nat.id.
      * rewrite decide_False by lia. done.
    + repeat split; [apply H1..|]. cbn. by rewrite N2Nat.id.
  - done.
  - intros [[h1 b1] b2] [[h1' b1'] b2'] [[_ H1] _]. cbn in H1. subst b1'. cbn. by destruct b1 as [[b k]|].
Qed.
Lemma solve_helper_sim depth : forall root h h' partial, hsim h h' ->
  rsim (fun x y => hsim x.1.1 y.1.1 /\ x.1.2 = y.1.2 /\ x.2 = y.2)
    (solve_look (fun p n => red p n) (cover_column fuel) fuel depth root h partial) (DlxRelease.solve_helper ws fuel depth root h' partial).
Proof.
  induction depth as [|depth IH]; intros root h h' partial H; cbn [solve_look DlxRelease.solve_helper]; [done|].
  eapply rsim_bind; [by apply is_empty_sim|]. intros e ? <-. destruct e; [done|].
  eapply rsim_bind; [by apply choose_column_sim|]. intros c ? ->.
  eapply rsim_bind; [by apply cover_column_sim|]. intros h1 h1' H1.
  eapply rsim_bind; [eapply (for_skip1_sim (fun s s' => hsim s.1 s'.1 /\ s.2 = s'.2))|].
  - by intros s s' [? _].
  - done.
  - intros q [h2 p2] [h2' p2'] [H2 E2]. cbn in H2, E2. subst p2'.
    eapply rsim_bind; [by apply load_sim|]. intros n ? [-> _]. cbn [wrap DlxRelease.n_row].
    eapply rsim_bind; [apply heap_loop_sim; [done|intros; by apply cover_column_sim|done]|]. intros h3 h3' H3.
    eapply rsim_bind; [by apply IH|]. intros [[h4 p4] ok] [[h4' p4'] ok'] (H4&E4&E5). cbn in H4, E4, E5. subst p4' ok'.
    destruct ok.
    + eapply rsim_bind; [apply heap_loop_sim; [done|intros; by apply free_chain_sim|done]|]. intros h5 h5' H5.
      eapply rsim_bind; [by apply free_chain_sim|]. intros h6 h6' H6. done.
    + eapply rsim_bind; [apply heap_loop_sim; [done|intros; by apply uncover_column_sim|done]|]. intros h5 h5' H5. done.
  - done.
  - intros [[h2 p2] found] [[h2' p2'] found'] [[H2 E2] E3]. cbn in H2, E2, E3. subst p2' found'. cbn [fst snd].
    destruct found; [done|]. eapply rsim_bind; [by apply uncover_column_sim|]. intros h3 h3' H3. done.
Qed.
Lemma drop_column_sim h h' p : hsim h h' -> rsim hsim (drop_column fuel p h) (DlxRelease.drop_column fuel p h').
Proof.
  intros H. unfold drop_column, DlxRelease.drop_column. eapply rsim_bind; [by apply load_sim|]. intros n ? [-> _].
  cbn [wrap DlxRelease.n_down]. eapply rsim_bind; [by apply dealloc_sim|]. intros h1 h1' H1.
  eapply rsim_bind; [eapply (for_from_sim hsim); [done|done| |done]|].
  - intros q s s' Hs. eapply rsim_bind; [by apply dealloc_sim|]. intros a a' Ha. done.
  - intros [h2 b2] [h2' b2'] [H2 _]. done.
Qed.
Lemma matrix_drop_sim h h' p : hsim h h' -> rsim hsim (matrix_drop fuel p h) (DlxRelease.matrix_drop fuel p h').
Proof.
  intros H. unfold matrix_drop, DlxRelease.matrix_drop. eapply rsim_bind; [by apply load_sim|]. intros n ? [-> _].
  cbn [wrap DlxRelease.n_right]. eapply rsim_bind; [by apply drop_column_sim|]. intros h1 h1' H1.
  eapply rsim_bind; [eapply (for_from_sim hsim); [done|done| |done]|].
  - intros q s s' Hs. eapply rsim_bind; [by apply drop_column_sim|]. intros a a' Ha. done.
  - intros [h2 b2] [h2' b2'] [H2 _]. done.
Qed.

(** * Adding rows *)

Record msim (mx : matrix) (mx' : DlxRelease.matrix) : Prop := MkMsim {
  ms_heap : hsim (d_heap mx) (DlxRelease.d_heap mx');
  ms_root : DlxRelease.d_root mx' = d_root mx;
  ms_rows : DlxRelease.d_rows mx' = d_rows mx;
  ms_partial : DlxRelease.d_partial mx' = d_partial mx
}.
Lemma clear_rows_sim h h' p rows : hsim h h' ->
  rsim (fun a b => b = a) (clear_look (fun p n => red p n) fuel p h rows) (DlxRelease.clear_rows fuel p h' rows).
Proof.
  intros H. unfold clear_look, DlxRelease.clear_rows. eapply rsim_bind; [by apply load_sim|]. intros n ? [-> _].
  cbn [wrap DlxRelease.n_header].
  eapply rsim_bind; [eapply (for_skip1_sim (fun s s' => hsim s.1 s'.1 /\ s'.2 = s.2))|].
  - by intros s s' [? _].
  - done.
  - intros q [h1 r1] [h1' r1'] [H1 H2]. cbn in H1, H2. subst r1'.
    eapply rsim_bind; [by apply load_sim|]. intros nx ? [-> _]. cbn [wrap DlxRelease.n_row].
    unfold vec_set. destruct (decide (red q nx < length r1)); cbn [bind]; [|done]. done.
  - done.
  - intros [[h1 b1] b2] [[h1' b1'] b2'] [[_ H1] _]. done.
Qed.
Lemma add_solution_sim mx mx' r : msim mx mx' ->
  rsim (fun a b => b.1 = a.1 /\ msim a.2 b.2) (add_look (fun p n => red p n) (cover_column fuel) fuel mx r) (DlxRelease.add_solution ws fuel mx' r).
Proof.
  intros [H1 H2 H3 H4]. unfold add_look, DlxRelease.add_solution. rewrite H2, H3, H4.
  destruct (decide (length (d_rows mx) <= r)) as [?Hd|?Hd]; [done|].
  destruct (vec_get (d_rows mx) r) as [p|[]]; cbn [bind]; [|done..].
  destruct (decide (p = null)) as [?Hd|?Hd]; [done|].
  eapply rsim_bind; [by apply clear_rows_sim|]. intros rows ? ->.
  eapply rsim_bind; [by apply load_sim|]. intros n ? [-> _]. cbn [wrap DlxRelease.n_right].
  eapply rsim_bind; [by apply cover_column_sim|]. intros h1 h1' G1.
  eapply rsim_bind; [eapply (for_from_sim hsim); [done|done| |done]|].
  { intros q s s' Hs. eapply rsim_bind; [by apply cover_column_sim|]. intros a a' Ha. done. }
  intros [h2 b2] [h2' b2'] [G2 _]. cbn [fst snd] in G2.
  eapply rsim_bind; [apply heap_loop_sim; [done|intros; by apply free_chain_sim|done]|]. intros h3 h3' G3.
  eapply rsim_bind; [by apply free_chain_sim|]. intros h4 h4' G4. done.
Qed.
End fuelled.

(** * Building *)

Definition bsim (m : gmap N N) (h : heap) (h' : rheap) : Prop := (forall p, h' !! p = wrap p <$> h !! p) /\ n_header <$> h = m.
Lemma bload_sim m h h' p : bsim m h h' -> rsim (fun a b => b = wrap p a) (load h p) (DlxRelease.load h' p).
Proof. intros [H _]. unfold load, DlxRelease.load. rewrite H. by destruct (h !! p). Qed.
Lemma bmodify_sim m f f' h h' p : (forall n, n_header (f n) = n_header n) -> (forall n, wrap p (f n) = f' (wrap p n)) ->
  bsim m h h' -> rsim (bsim m) (modify f p h) (DlxRelease.modify f' p h').
Proof.
  intros Hf Hw [G <-]. unfold modify, DlxRelease.modify. rewrite G.
  destruct (h !! p) as [n|] eqn:E; cbn; [|done]. split.
  - rewrite <-Hw. by apply look_insert.
  - rewrite fmap_insert, Hf. apply insert_id. by rewrite lookup_fmap, E.
Qed.
Lemma bsim_insert m h h' p n : bsim m h h' -> bsim (<[p := n_header n]> m) (<[p := n]> h) (<[p := wrap p n]> h').
Proof. intros [G <-]. split; [by apply look_insert|by rewrite fmap_insert]. Qed.

Definition nsim (m : gmap N N) (p hd : N) (x : node * heap) (y : DlxRelease.node * rheap) : Prop :=
  y.1 = wrap p x.1 /\ n_header x.1 = hd /\ bsim m x.2 y.2.
Lemma node_new_sim m h h' p hd rp cp r : bsim m h h' -> hd <> null ->
  rsim (bsim (<[p := hd]> m)) (node_new p hd rp cp r h) (DlxRelease.node_new p hd rp cp (N.of_nat r) h').
Proof.
  intros H Hhd. unfold node_new, DlxRelease.node_new.
  assert (wrap p (Node hd p p p p r) = DlxRelease.Node hd p p p p (N.of_nat r)) as Hw.
  { unfold wrap, seen. cbn. by rewrite decide_False. }
  apply rsim_bind with (R := nsim m p hd).
  { destruct (decide (rp = null)) as [?Hd|?Hd]; [by rewrite <-Hw|].
    eapply rsim_bind; [by eapply bload_sim|]. intros n ? ->. cbn [wrap DlxRelease.n_right].
    eapply rsim_bind; [by apply bmodify_sim|]. intros h1 h1' H1.
    eapply rsim_bind; [by apply bmodify_sim|]. intros h2 h2' H2. split; [|done]. cbn. by rewrite <-Hw. }
  intros [n1 h1] [n1' h1'] (E1&E2&H1). cbn in E1, E2, H1. subst n1'.
  apply rsim_bind with (R := nsim m p hd).
  { destruct (decide (cp = null)) as [?Hd|?Hd]; [done|].
    eapply rsim_bind; [by eapply bload_sim|]. intros n ? ->. cbn [wrap DlxRelease.n_down].
    eapply rsim_bind; [by apply bmodify_sim|]. intros h2 h2' H2.
    eapply rsim_bind; [by apply bmodify_sim|]. intros h3 h3' H3. done. }
  intros [n2 h2] [n2' h2'] (E3&E4&H2). cbn in E3, E4, H2. subst n2'. rewrite <-E4. by apply bsim_insert.
Qed.
Lemma node_new_header_sim m h h' p pv k len : bsim m h h' -> ((N.of_nat k + off p) mod usize_size ws = len)%N ->
  rsim (bsim (<[p := null]> m)) (node_new_header p pv k h) (DlxRelease.node_new_header p pv len h').
Proof.
  intros H Hk. unfold node_new_header, DlxRelease.node_new_header.
  assert (wrap p (Node null p p p p k) = DlxRelease.Node null p p p p len) as Hw.
  { unfold wrap, seen. cbn [n_header n_row n_left n_right n_up n_down]. by rewrite decide_True, Hk by done. }
  apply rsim_bind with (R := nsim m p null).
  { destruct (decide (pv = null)) as [?Hd|?Hd]; [by rewrite <-Hw|].
    eapply rsim_bind; [by eapply bload_sim|]. intros n ? ->. cbn [wrap DlxRelease.n_right].
    eapply rsim_bind; [by apply bmodify_sim|]. intros h1 h1' H1.
    eapply rsim_bind; [by apply bmodify_sim|]. intros h2 h2' H2. split; [|done]. cbn [fst]. by rewrite <-Hw. }
  intros [n2 h2] [n2' h2'] (E3&E4&H2). cbn in E3, E4, H2. subst n2'. rewrite <-E4. by apply bsim_insert.
Qed.
Lemma shape_hsim m next h h' : shape m next -> bsim m h h' -> hsim h h'.
Proof.
  intros (H1&H2&_) [G Hm]. split; [done|]. split.
  - rewrite <-Hm, lookup_fmap in H1. by destruct (h !! null).
  - intros p n hd Hp Hh. apply (H2 p (n_header n) (n_header hd)); by rewrite <-Hm, lookup_fmap, ?Hp, ?Hh.
Qed.

Definition built (x : heap * ptr * list ptr) (y : rheap * ptr * list ptr) : Prop :=
  x.1.2 = y.1.2 /\ x.2 = y.2 /\ exists m, shape m x.1.2 /\ bsim m x.1.1 y.1.1.
Lemma add_nodes_sim hd l : hd <> null -> forall cp h h' next rows m, shape m next -> m !! hd = Some null -> bsim m h h' ->
  rsim (fun x y => built x y /\ x.1.2 = next + N.of_nat (length l))%N (add_nodes hd cp l h next rows) (DlxRelease.add_nodes hd cp l h' next rows).
Proof.
  intros Hhd. induction l as [|i l IH]; intros cp h h' next rows m Hs Hm H; cbn [add_nodes DlxRelease.add_nodes].
  { split; [split_and!; [done|done|]; eauto|cbn; lia]. }
  destruct (vec_get (grow rows i) i) as [rp|[]]; cbn [bind]; [|done..].
  eapply rsim_bind; [by apply node_new_sim|]. intros h1 h1' H1.
  unfold vec_set. destruct (decide (i < length (grow rows i))) as [?Hd|?Hd]; cbn [bind]; [|done].
  destruct (shape_node _ _ _ Hs Hm) as [G1 G2].
  pose proof (IH next h1 h1' (next + 1)%N (<[i := next]> (grow rows i)) _ G1 G2 H1) as HI.
  destruct (add_nodes _ _ _ _ _ _) as [[[a b] c]|[]], (DlxRelease.add_nodes _ _ _ _ _ _) as [[[a' b'] c']|[]]; cbn [rsim] in *; try done.
  destruct HI as [HI1 HI2]. split; [done|]. rewrite HI2. cbn [length]. lia.
Qed.

(** The headers are wrong by the difference of the lengths. *)
Fixpoint fits (next : N) (constraints : list (N * list nat)) : Prop :=
  match constraints with
  | [] => True
  | (len, l) :: rest => ((N.of_nat (length l) + off next) mod usize_size ws = len)%N /\ fits (next + 1 + N.of_nat (length l))%N rest
  end.
Lemma add_columns_sim cs : forall curr h h' next rows m, fits next cs -> shape m next -> bsim m h h' ->
  rsim built (add_columns curr cs.*2 h next rows) (DlxLen.add_columns curr cs h' next rows).
Proof.
  induction cs as [|[len l] cs IH]; intros curr h h' next rows m Hf Hs H; cbn [fmap list_fmap add_columns DlxLen.add_columns].
  { split_and!; [done|done|]. eauto. }
  destruct Hf as [Hf1 Hf2].
  eapply rsim_bind; [by apply node_new_header_sim|]. intros h1 h1' H1.
  eapply rsim_bind; [eapply add_nodes_sim; [apply Hs|by apply shape_header|by rewrite lookup_insert|done]|].
  intros [[h2 n2] r2] [[h2' n2'] r2'] [(E1&E2&m2&Hs2&H2) E3]. cbn in E1, E2, E3, Hs2, H2. subst n2' r2' n2. by eapply IH.
Qed.
Lemma matrix_new_sim cs : off 1%N = 0%N -> fits 2%N cs ->
  rsim msim (matrix_new cs.*2) (DlxLen.matrix_new cs).
Proof.
  intros H0 Hcs. unfold matrix_new, DlxLen.matrix_new.
  eapply rsim_bind; [apply (node_new_header_sim ∅ ∅ ∅ 1%N null 0)|].
  { split; [|by rewrite fmap_empty]. intros p. by rewrite !lookup_empty. }
  { rewrite H0. done. }
  intros h1 h1' H1.
  eapply rsim_bind; [eapply add_columns_sim; [done| |done]|].
  { split_and!.
    - by rewrite lookup_insert_ne.
    - intros p c d. rewrite !lookup_insert_Some, lookup_empty. naive_solver.
    - intros p c. rewrite !lookup_insert_Some, lookup_empty. unfold null. intros [[<- <-]|[_ ?]]; [lia|done].
    - done. }
  intros [[h2 n2] r2] [[h2' n2'] r2'] (E1&E2&m2&Hs2&H2). cbn in E1, E2, Hs2, H2. subst n2' r2'.
  split; cbn; [|done..]. by eapply shape_hsim.
Qed.
End off.

(** There is such a difference. *)
Fixpoint off_by (next : N) (constraints : list (N * list nat)) (p : N) : N :=
  match constraints with
  | [] => 0%N
  | (len, l) :: rest =>
      if decide (p = next) then (len + usize_size ws - N.of_nat (length l) mod usize_size ws)%N
      else off_by (next + 1 + N.of_nat (length l))%N rest p
  end.
Lemma fits_ext f g cs : forall next, (forall p, next <= p -> f p = g p)%N -> fits f next cs -> fits g next cs.
Proof.
  induction cs as [|[len l] cs IH]; intros next H; cbn [fits]; [done|]. intros [H1 H2]. rewrite <-(H next) by lia. split; [done|].
  eapply IH; [|exact H2]. intros p Hp. apply H. lia.
Qed.
Lemma off_by_fits cs : Forall (fun k => k < usize_size ws)%N cs.*1 -> forall next, fits (off_by next cs) next cs.
Proof.
  induction cs as [|[len l] cs IH]; intros Hcs next; cbn [fits]; [done|].
  rewrite fmap_cons in Hcs. inversion Hcs as [|? ? Hl Hr]; subst. cbn [fst] in Hl. split.
  - cbn [off_by]. rewrite decide_True by done.
    assert (0 < usize_size ws)%N as Hu by apply usize_pos. revert Hl Hu. generalize (usize_size ws) as M. intros M Hl Hu.
    pose proof (N.mod_lt (N.of_nat (length l)) M) as Hm. rewrite <-N.add_sub_assoc by lia.
    rewrite <-N.add_mod_idemp_l by lia. revert Hm. generalize (N.of_nat (length l) mod M)%N as a. intros a Hm.
    replace (a + (len + (M - a)))%N with (len + 1 * M)%N by lia. rewrite N.mod_add by lia. by apply N.mod_small.
  - eapply fits_ext; [|by apply IH]. intros p Hp. cbn [off_by]. rewrite decide_False by lia. done.
Qed.
Lemma off_by_low cs : forall next p, (p < next)%N -> off_by next cs p = 0%N.
Proof.
  induction cs as [|[len l] cs IH]; intros next p Hp; cbn [off_by]; [done|]. rewrite decide_False by lia. apply IH. lia.
Qed.

End width.
