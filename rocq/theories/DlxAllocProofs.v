(** Proofs for C94: results do not depend on the addresses of the nodes; C95:
    failing allocations. *)
From Verif Require Import Base Dlx Sudoku DlxAlloc SpecDlxAlloc.

(** * Renaming addresses *)

Definition rsim {A B} (R : A -> B -> Prop) (x : res A) (y : res B) : Prop :=
  match x, y with
  | Ret a, Ret b => R a b
  | Fault e, Fault f => e = f
  | _, _ => False
  end.
Lemma rsim_bind {A B A' B'} (R : A -> A' -> Prop) (Q : B -> B' -> Prop) x x' k k' :
  rsim R x x' -> (forall a a', R a a' -> rsim Q (k a) (k' a')) -> rsim Q (bind x k) (bind x' k').
Proof. destruct x, x'; cbn; [|done|done|done]. intros H Hk. by apply Hk. Qed.
Lemma rsim_weaken {A B} (R Q : A -> B -> Prop) x y : rsim R x y -> (forall a b, R a b -> Q a b) -> rsim Q x y.
Proof. destruct x, y; cbn; auto. Qed.

Section rename.
Context (f : N -> N) (Hinj : Inj (=) (=) f) (H0 : f null = null).

Definition rn (n : node) : node :=
  Node (f (n_header n)) (f (n_left n)) (f (n_right n)) (f (n_up n)) (f (n_down n)) (n_row n).
Definition hsim (h h' : heap) : Prop :=
  (forall p, h' !! f p = rn <$> h !! p) /\ (forall q, is_Some (h' !! q) -> exists p, q = f p).

Lemma f_null p : f p = null <-> p = null.
Proof. split; [|by intros ->]. intros H. apply Hinj. by rewrite H0. Qed.
Lemma decide_null {A} p (a b : A) : (if decide (f p = null) then a else b) = if decide (p = null) then a else b.
Proof. destruct (decide (f p = null)) as [H|H], (decide (p = null)) as [H'|H']; rewrite ?f_null in H; done. Qed.
Lemma decide_same {A} p q (a b : A) : (if decide (f p = f q) then a else b) = if decide (p = q) then a else b.
Proof.
  destruct (decide (f p = f q)) as [H|H], (decide (p = q)) as [H'|H']; [done| | |done].
  - by apply Hinj in H.
  - by rewrite H' in H.
Qed.

Lemma hsim_insert h h' p n : hsim h h' -> hsim (<[p := n]> h) (<[f p := rn n]> h').
Proof.
  intros [H1 H2]. split.
  - intros q. destruct (decide (q = p)) as [->|Hne]; [by rewrite !lookup_insert|].
    rewrite !lookup_insert_ne; [done|done|]. by intros ?%Hinj.
  - intros q. destruct (decide (q = f p)) as [->|Hne]; [by exists p|]. rewrite lookup_insert_ne by done. apply H2.
Qed.
Lemma hsim_delete h h' p : hsim h h' -> hsim (delete p h) (delete (f p) h').
Proof.
  intros [H1 H2]. split.
  - intros q. destruct (decide (q = p)) as [->|Hne]; [by rewrite !lookup_delete|].
    rewrite !lookup_delete_ne; [done|done|]. by intros ?%Hinj.
  - intros q. destruct (decide (q = f p)) as [->|Hne]; [by exists p|]. rewrite lookup_delete_ne by done. apply H2.
Qed.
Lemma hsim_empty : hsim ∅ ∅.
Proof. split; [intros p; by rewrite !lookup_empty|]. intros q [n Hn]. by rewrite lookup_empty in Hn. Qed.
Lemma hsim_size h : forall h', hsim h h' -> size h = size h'.
Proof.
  induction h as [|p n h Hp IH] using map_ind; intros h' H.
  - assert (h' = ∅) as ->; [|done]. apply map_empty. intros q. destruct (h' !! q) as [n|] eqn:E; [|done].
    destruct (proj2 H q) as [p ->]; [by eexists|]. rewrite (proj1 H) in E. by rewrite lookup_empty in E.
  - assert (h' !! f p = Some (rn n)) as Hf by (rewrite (proj1 H); by rewrite lookup_insert).
    apply (hsim_delete _ _ p) in H. rewrite delete_insert in H by done.
    rewrite <-(insert_delete h' (f p) (rn n)) by done. rewrite !map_size_insert_None by (done || apply lookup_delete).
    by rewrite (IH _ H).
Qed.

Lemma load_sim h h' p : hsim h h' -> rsim (fun n n' => n' = rn n) (load h p) (load h' (f p)).
Proof. intros [H _]. unfold load. rewrite H. by destruct (h !! p). Qed.
Lemma modify_sim g g' h h' p : hsim h h' -> (forall n, g' (rn n) = rn (g n)) ->
  rsim hsim (modify g p h) (modify g' (f p) h').
Proof.
  intros H Hg. unfold modify. rewrite (proj1 H). destruct (h !! p) as [n|]; cbn; [|done]. rewrite Hg. by apply hsim_insert.
Qed.
Lemma dealloc_sim h h' p : hsim h h' -> rsim hsim (dealloc p h) (dealloc (f p) h').
Proof. intros H. unfold dealloc. rewrite (proj1 H). destruct (h !! p) as [n|]; cbn; [|done]. by apply hsim_delete. Qed.

Lemma node_new_sim h h' p header rp cp row : hsim h h' ->
  rsim hsim (node_new p header rp cp row h) (node_new (f p) (f header) (f rp) (f cp) row h').
Proof.
  intros H. unfold node_new.
  eapply (rsim_bind (fun '(n, h) '(n', h') => n' = rn n /\ hsim h h')).
  - rewrite decide_null. destruct (decide (rp = null)) as [?Hd|?Hd]; [done|].
    eapply rsim_bind; [by apply load_sim|]. intros n ? ->.
    eapply rsim_bind; [by apply (modify_sim (set_left p))|]. intros h1 h1' H1.
    eapply rsim_bind; [by apply (modify_sim (set_right p))|]. intros h2 h2' H2. done.
  - intros [n1 h1] [? h1'] [-> H1].
    eapply (rsim_bind (fun '(n, h) '(n', h') => n' = rn n /\ hsim h h')).
    + rewrite decide_null. destruct (decide (cp = null)) as [?Hd|?Hd]; [done|].
      eapply rsim_bind; [by apply load_sim|]. intros n ? ->.
      eapply rsim_bind; [by apply (modify_sim (set_up p))|]. intros h2 h2' H2.
      eapply rsim_bind; [by apply (modify_sim (set_down p))|]. intros h3 h3' H3. done.
    + intros [n2 h2] [? h2'] [-> H2]. cbn. by apply hsim_insert.
Qed.
Lemma node_new_header_sim h h' p pv k : hsim h h' ->
  rsim hsim (node_new_header p pv k h) (node_new_header (f p) (f pv) k h').
Proof.
  intros H. unfold node_new_header.
  eapply (rsim_bind (fun '(n, h) '(n', h') => n' = rn n /\ hsim h h')).
  - rewrite decide_null. destruct (decide (pv = null)) as [?Hd|?Hd].
    + split; [|done]. unfold rn. cbn. by rewrite H0.
    + eapply rsim_bind; [by apply load_sim|]. intros n ? ->.
      eapply rsim_bind; [by apply (modify_sim (set_left p))|]. intros h1 h1' H1.
      eapply rsim_bind; [by apply (modify_sim (set_right p))|]. intros h2 h2' H2. split; [|done].
      unfold rn, set_right, set_left. cbn. by rewrite H0.
  - intros [n1 h1] [? h1'] [-> H1]. cbn. by apply hsim_insert.
Qed.

(** * Loops *)

Section loop.
Context {S S' : Type} (RS : S -> S' -> Prop) (heap_of : S -> heap) (heap_of' : S' -> heap).
Context (Hheap : forall s s', RS s s' -> hsim (heap_of s) (heap_of' s')).
Context (dir : node -> N) (Hdir : forall n, dir (rn n) = f (dir n)).
Definition stop_sim (x : S * bool) (y : S' * bool) : Prop := RS x.1 y.1 /\ x.2 = y.2.

Lemma for_from_sim body body' : (forall p s s', RS s s' -> rsim stop_sim (body p s) (body' (f p) s')) ->
  forall fuel original cur s s', RS s s' ->
  rsim stop_sim (for_from fuel heap_of dir original cur body s)
    (for_from fuel heap_of' dir (f original) (f cur) body' s').
Proof.
  intros Hb. induction fuel as [|fuel IH]; intros original cur s s' H; cbn [for_from]; rewrite decide_null;
    destruct (decide (cur = null)) as [?Hd|?Hd]; [done|done|done|].
  eapply rsim_bind; [by apply load_sim, Hheap|]. intros n ? ->.
  eapply rsim_bind; [by apply Hb|]. intros [s1 b1] [s1' b1'] [H1 H2]. cbn in H1, H2. subst b1'.
  destruct b1; [done|]. rewrite Hdir, decide_same.
  replace (if decide (dir n = original) then null else f (dir n)) with (f (if decide (dir n = original) then null else dir n))
    by (by destruct (decide (dir n = original))).
  by apply IH.
Qed.
Lemma for_skip1_sim body body' : (forall p s s', RS s s' -> rsim stop_sim (body p s) (body' (f p) s')) ->
  forall fuel original s s', RS s s' ->
  rsim stop_sim (for_skip1 fuel heap_of dir original body s) (for_skip1 fuel heap_of' dir (f original) body' s').
Proof.
  intros Hb fuel original s s' H. unfold for_skip1.
  eapply rsim_bind; [by apply load_sim, Hheap|]. intros n ? ->. rewrite Hdir, decide_same.
  replace (if decide (dir n = original) then null else f (dir n)) with (f (if decide (dir n = original) then null else dir n))
    by (by destruct (decide (dir n = original))).
  by apply for_from_sim.
Qed.
End loop.

Lemma heap_loop_sim dir : (forall n, dir (rn n) = f (dir n)) -> forall body body',
  (forall p h h', hsim h h' -> rsim hsim (body p h) (body' (f p) h')) -> forall fuel original h h', hsim h h' ->
  rsim hsim (heap_loop fuel dir original body h) (heap_loop fuel dir (f original) body' h').
Proof.
  intros Hdir body body' Hb fuel original h h' H. unfold heap_loop.
  eapply rsim_bind; [eapply (for_skip1_sim hsim); [done|done| |done]|].
  - intros p s s' Hs. eapply rsim_bind; [by apply Hb|]. intros a a' Ha. done.
  - intros [a b] [a' b'] [Ha _]. done.
Qed.
Lemma to_header_sim h h' p : hsim h h' -> rsim (fun a b => b = f a) (to_header h p) (to_header h' (f p)).
Proof.
  intros H. unfold to_header. eapply rsim_bind; [by apply load_sim|]. intros n ? ->. cbn [rn n_header].
  rewrite decide_null. by destruct (decide (n_header n = null)).
Qed.
Ltac links := intros H; eapply rsim_bind; [by apply load_sim|]; intros n ? ->; cbn [rn n_left n_right n_up n_down];
  (eapply rsim_bind; [by apply modify_sim|]); intros ? ? ?; by apply modify_sim.
Lemma cover_horizontal_sim h h' p : hsim h h' -> rsim hsim (cover_horizontal p h) (cover_horizontal (f p) h').
Proof. unfold cover_horizontal. links. Qed.
Lemma cover_vertical_sim h h' p : hsim h h' -> rsim hsim (cover_vertical p h) (cover_vertical (f p) h').
Proof. unfold cover_vertical. links. Qed.
Lemma uncover_horizontal_sim h h' p : hsim h h' -> rsim hsim (uncover_horizontal p h) (uncover_horizontal (f p) h').
Proof. unfold uncover_horizontal. links. Qed.
Lemma uncover_vertical_sim h h' p : hsim h h' -> rsim hsim (uncover_vertical p h) (uncover_vertical (f p) h').
Proof. unfold uncover_vertical. links. Qed.
Lemma dec_size_sim h h' p : hsim h h' -> rsim hsim (dec_size p h) (dec_size (f p) h').
Proof.
  intros H. unfold dec_size. eapply rsim_bind; [by apply load_sim|]. intros n ? ->. cbn [rn n_header].
  eapply rsim_bind; [by apply load_sim|]. intros hd ? ->. cbn [rn n_row]. destruct (n_row hd); [done|]. by apply modify_sim.
Qed.
Lemma inc_size_sim h h' p : hsim h h' -> rsim hsim (inc_size p h) (inc_size (f p) h').
Proof.
  intros H. unfold inc_size. eapply rsim_bind; [by apply load_sim|]. intros n ? ->. cbn [rn n_header].
  eapply rsim_bind; [by apply load_sim|]. intros hd ? ->. cbn [rn n_row]. by apply modify_sim.
Qed.
Lemma hide_sim h h' p : hsim h h' -> rsim hsim (hide p h) (hide (f p) h').
Proof. intros H. unfold hide. eapply rsim_bind; [by apply cover_vertical_sim|]. intros. by apply dec_size_sim. Qed.
Lemma unhide_sim h h' p : hsim h h' -> rsim hsim (unhide p h) (unhide (f p) h').
Proof. intros H. unfold unhide. eapply rsim_bind; [by apply inc_size_sim|]. intros. by apply uncover_vertical_sim. Qed.

Section fuelled.
Context (fuel : nat).
Lemma cover_column_sim h h' p : hsim h h' -> rsim hsim (cover_column fuel p h) (cover_column fuel (f p) h').
Proof.
  intros H. unfold cover_column. eapply rsim_bind; [by apply to_header_sim|]. intros c ? ->.
  eapply rsim_bind; [by apply cover_horizontal_sim|]. intros h1 h1' H1. apply heap_loop_sim; [done| |done].
  intros q h2 h2' H2. apply heap_loop_sim; [done| |done]. intros. by apply hide_sim.
Qed.
Lemma uncover_column_sim h h' p : hsim h h' -> rsim hsim (uncover_column fuel p h) (uncover_column fuel (f p) h').
Proof.
  intros H. unfold uncover_column. eapply rsim_bind; [by apply to_header_sim|]. intros c ? ->.
  eapply rsim_bind; [|intros; by apply uncover_horizontal_sim]. apply heap_loop_sim; [done| |done].
  intros q h2 h2' H2. apply heap_loop_sim; [done| |done]. intros. by apply unhide_sim.
Qed.
Lemma free_chain_sim h h' p : hsim h h' -> rsim hsim (free_chain fuel p h) (free_chain fuel (f p) h').
Proof.
  intros H. unfold free_chain. eapply rsim_bind; [by apply to_header_sim|]. intros c ? ->.
  eapply rsim_bind; [|intros; by apply dealloc_sim]. apply heap_loop_sim; [done| |done].
  intros q h2 h2' H2. eapply rsim_bind; [|intros; by apply dealloc_sim]. apply heap_loop_sim; [done| |done].
  intros. by apply dealloc_sim.
Qed.

Record msim (mx mx' : matrix) : Prop := MkMsim {
  ms_heap : hsim (d_heap mx) (d_heap mx');
  ms_root : d_root mx' = f (d_root mx);
  ms_rows : d_rows mx' = f <$> d_rows mx;
  ms_partial : d_partial mx' = d_partial mx
}.

Lemma vec_get_sim rows i : rsim (fun a b => b = f a) (vec_get rows i) (vec_get (f <$> rows) i).
Proof. unfold vec_get. rewrite list_lookup_fmap. by destruct (rows !! i). Qed.
Lemma vec_set_sim (rows : list N) i p :
  rsim (fun a b => b = f <$> a) (vec_set rows i p) (vec_set (f <$> rows) i (f p)).
Proof.
  unfold vec_set. rewrite fmap_length. destruct (decide (i < length rows)); [|done]. cbn. by rewrite list_fmap_insert.
Qed.
Lemma clear_rows_sim h h' p rows : hsim h h' ->
  rsim (fun a b => b = f <$> a) (clear_rows fuel p h rows) (clear_rows fuel (f p) h' (f <$> rows)).
Proof.
  intros H. unfold clear_rows. eapply rsim_bind; [by apply load_sim|]. intros n ? ->. cbn [rn n_header].
  eapply rsim_bind; [eapply (for_skip1_sim (fun s s' => hsim s.1 s'.1 /\ s'.2 = f <$> s.2))|].
  - by intros s s' [? _].
  - done.
  - intros q [h1 r1] [h1' r1'] [H1 H2]. cbn in H1, H2. subst r1'.
    eapply rsim_bind; [by apply load_sim|]. intros nx ? ->. cbn [rn n_row].
    pose proof (vec_set_sim r1 (n_row nx) null) as Hv. rewrite H0 in Hv.
    eapply rsim_bind; [exact Hv|]. intros r2 ? ->. done.
  - done.
  - intros [[h1 r1] b1] [[h1' r1'] b1'] [[_ H1] _]. done.
Qed.
Lemma add_solution_sim mx mx' row : msim mx mx' ->
  rsim (fun x y => x.1 = y.1 /\ msim x.2 y.2) (add_solution fuel mx row) (add_solution fuel mx' row).
Proof.
  intros [Hh Hr Hrows Hp]. unfold add_solution. rewrite Hrows, fmap_length, Hp, Hr.
  destruct (decide (length (d_rows mx) <= row)) as [?Hd|?Hd]; [done|].
  eapply rsim_bind; [apply vec_get_sim|]. intros p ? ->. rewrite decide_null.
  destruct (decide (p = null)) as [?Hd|?Hd]; [done|].
  eapply rsim_bind; [by apply clear_rows_sim|]. intros rows ? ->.
  eapply rsim_bind; [by apply load_sim|]. intros n ? ->. cbn [rn n_right].
  eapply rsim_bind; [by apply cover_column_sim|]. intros h1 h1' H1. rewrite decide_same.
  replace (if decide (n_right n = p) then null else f (n_right n)) with (f (if decide (n_right n = p) then null else n_right n))
    by (by destruct (decide (n_right n = p))).
  eapply rsim_bind; [eapply (for_from_sim hsim)|].
  - done.
  - done.
  - intros q s s' Hs. eapply rsim_bind; [by apply cover_column_sim|]. intros a a' Ha. done.
  - done.
  - intros [h2 b2] [h2' b2'] [H2 _]. cbn in H2.
    eapply rsim_bind; [apply heap_loop_sim; [done|intros; by apply free_chain_sim|done]|]. intros h3 h3' H3.
    eapply rsim_bind; [by apply free_chain_sim|]. intros h4 h4' H4. done.
Qed.
Lemma is_empty_sim h h' p : hsim h h' -> rsim (fun a b => a = b) (is_empty p h) (is_empty (f p) h').
Proof.
  intros H. unfold is_empty. eapply rsim_bind; [by apply load_sim|]. intros n ? ->. cbn [rn n_right rsim].
  apply bool_decide_ext. split; [by intros ->|apply Hinj].
Qed.
Lemma choose_column_sim h h' p : hsim h h' -> rsim (fun a b => b = f a) (choose_column fuel p h) (choose_column fuel (f p) h').
Proof.
  intros H. unfold choose_column.
  eapply rsim_bind; [eapply (for_skip1_sim (fun s s' => hsim s.1 s'.1 /\ s'.2 = (fun x => (f x.1, x.2)) <$> s.2))|].
  - by intros s s' [? _].
  - done.
  - intros q [h1 b1] [h1' b1'] [H1 H2]. cbn in H1, H2. subst b1'.
    eapply rsim_bind; [by apply load_sim|]. intros nx ? ->. cbn [rn n_row].
    destruct b1 as [[b k]|]; cbn; [|done]. by destruct (decide (n_row nx < k)).
  - done.
  - intros [[h1 b1] b2] [[h1' b1'] b2'] [[_ H1] _]. cbn in H1. subst b1'. cbn. by destruct b1 as [[b k]|].
Qed.
Lemma solve_helper_sim depth : forall root h h' partial, hsim h h' ->
  rsim (fun x y => hsim x.1.1 y.1.1 /\ x.1.2 = y.1.2 /\ x.2 = y.2)
    (solve_helper fuel depth root h partial) (solve_helper fuel depth (f root) h' partial).
Proof.
  induction depth as [|depth IH]; intros root h h' partial H; cbn [solve_helper]; [done|].
  eapply rsim_bind; [by apply is_empty_sim|]. intros e ? <-. destruct e; [done|].
  eapply rsim_bind; [by apply choose_column_sim|]. intros c ? ->.
  eapply rsim_bind; [by apply cover_column_sim|]. intros h1 h1' H1.
  eapply rsim_bind; [eapply (for_skip1_sim (fun s s' => hsim s.1 s'.1 /\ s.2 = s'.2))|].
  - by intros s s' [? _].
  - done.
  - intros q [h2 p2] [h2' p2'] [H2 E2]. cbn in H2, E2. subst p2'.
    eapply rsim_bind; [by apply load_sim|]. intros n ? ->. cbn [rn n_row].
    eapply rsim_bind; [apply heap_loop_sim; [done|intros; by apply cover_column_sim|done]|]. intros h3 h3' H3.
    eapply rsim_bind; [by apply IH|]. intros [[h4 p4] ok] [[h4' p4'] ok'] (H4&E4&E5). cbn in H4, E4, E5. subst p4' ok'.
    destruct ok.
    + eapply rsim_bind; [apply heap_loop_sim; [done|intros; by apply free_chain_sim|done]|]. intros h5 h5' H5.
      eapply rsim_bind; [by apply free_chain_sim|]. intros h6 h6' H6. done.
    + eapply rsim_bind; [apply heap_loop_sim; [done|intros; by apply uncover_column_sim|done]|]. intros h5 h5' H5. done.
  - done.
  - intros [[h2 p2] found] [[h2' p2'] found'] [[H2 E2] E3]. cbn in H2, E2, E3. subst p2' found'. cbn [fst snd].
    destruct found; [done|]. eapply rsim_bind; [by apply uncover_column_sim|]. intros h3 h3' H3. done.
Qed.
Lemma drop_column_sim h h' p : hsim h h' -> rsim hsim (drop_column fuel p h) (drop_column fuel (f p) h').
Proof.
  intros H. unfold drop_column. eapply rsim_bind; [by apply load_sim|]. intros n ? ->. cbn [rn n_down]. rewrite decide_same.
  replace (if decide (n_down n = p) then null else f (n_down n)) with (f (if decide (n_down n = p) then null else n_down n))
    by (by destruct (decide (n_down n = p))).
  eapply rsim_bind; [by apply dealloc_sim|]. intros h1 h1' H1.
  eapply rsim_bind; [eapply (for_from_sim hsim); [done|done| |done]|].
  - intros q s s' Hs. eapply rsim_bind; [by apply dealloc_sim|]. intros a a' Ha. done.
  - intros [h2 b2] [h2' b2'] [H2 _]. done.
Qed.
Lemma matrix_drop_sim h h' p : hsim h h' -> rsim hsim (matrix_drop fuel p h) (matrix_drop fuel (f p) h').
Proof.
  intros H. unfold matrix_drop. eapply rsim_bind; [by apply load_sim|]. intros n ? ->. cbn [rn n_right]. rewrite decide_same.
  replace (if decide (n_right n = p) then null else f (n_right n)) with (f (if decide (n_right n = p) then null else n_right n))
    by (by destruct (decide (n_right n = p))).
  eapply rsim_bind; [by apply drop_column_sim|]. intros h1 h1' H1.
  eapply rsim_bind; [eapply (for_from_sim hsim); [done|done| |done]|].
  - intros q s s' Hs. eapply rsim_bind; [by apply drop_column_sim|]. intros a a' Ha. done.
  - intros [h2 b2] [h2' b2'] [H2 _]. done.
Qed.
Lemma solve_sim mx mx' : msim mx mx' -> rsim (fun x y => x.1 = y.1 /\ hsim x.2 y.2) (solve fuel mx) (solve fuel mx').
Proof.
  intros [Hh Hr Hrows Hp]. unfold solve. rewrite Hr, Hp.
  eapply rsim_bind; [by apply solve_helper_sim|]. intros [[h1 p1] ok] [[h1' p1'] ok'] (H1&E1&E2). cbn in H1, E1, E2. subst p1' ok'.
  eapply rsim_bind; [by apply matrix_drop_sim|]. intros h2 h2' H2. done.
Qed.
Lemma add_clues_sim clues : forall mx mx', msim mx mx' ->
  rsim (fun x y => msim x.2 y.2 /\ match x.1, y.1 with Ok a, Ok b => msim a b | Err e, Err e' => e = e' | _, _ => False end)
    (add_clues fuel clues mx) (add_clues fuel clues mx').
Proof.
  induction clues as [|[index value] clues IH]; intros mx mx' H; cbn [add_clues]; [done|].
  destruct (decide (value = 0)) as [?Hd|?Hd]; [by apply IH|].
  eapply rsim_bind; [by apply add_solution_sim|]. intros [r mx1] [r' mx1'] [E1 H1]. cbn in E1, H1. subst r'.
  destruct r as [|[]]; try by apply IH. done.
Qed.
Lemma add_rows_sim rows : forall mx mx', msim mx mx' ->
  rsim (fun x y => x.1 = y.1 /\ msim x.2 y.2) (add_rows fuel rows mx) (add_rows fuel rows mx').
Proof.
  induction rows as [|row rows IH]; intros mx mx' H; cbn [add_rows]; [done|].
  eapply rsim_bind; [by apply add_solution_sim|]. intros [r mx1] [r' mx1'] [E1 H1]. cbn in E1, H1. subst r'.
  eapply rsim_bind; [by apply IH|]. intros [l mx2] [l' mx2'] [E2 H2]. cbn in E2, H2. subst l'. done.
Qed.
End fuelled.

(** * Building the matrix *)

Context (alloc : nat -> N) (Hf : forall k, f (N.of_nat (S k)) = alloc k).

Lemma alloc_null k : alloc k <> null.
Proof. rewrite <-Hf, f_null. done. Qed.
Lemma store_check_ok k h : store_check (alloc k) h = Ret h.
Proof. unfold store_check. by rewrite decide_False by apply alloc_null. Qed.
Lemma node_new_at_sim h h' k header rp cp row : hsim h h' ->
  rsim hsim (node_new (N.of_nat (S k)) header rp cp row h) (node_new_at alloc k (f header) (f rp) (f cp) row h').
Proof.
  intros H. unfold node_new_at. pose proof (node_new_sim h h' (N.of_nat (S k)) header rp cp row H) as Hs.
  rewrite Hf in Hs. destruct (node_new (alloc k) _ _ _ _ _); [|done]. cbn [bind]. by rewrite store_check_ok.
Qed.
Lemma node_new_header_at_sim h h' k pv n : hsim h h' ->
  rsim hsim (node_new_header (N.of_nat (S k)) pv n h) (node_new_header_at alloc k (f pv) n h').
Proof.
  intros H. unfold node_new_header_at. pose proof (node_new_header_sim h h' (N.of_nat (S k)) pv n H) as Hs.
  rewrite Hf in Hs. destruct (node_new_header (alloc k) _ _ _); [|done]. cbn [bind]. by rewrite store_check_ok.
Qed.
Lemma grow_sim rows i : grow (f <$> rows) i = f <$> grow rows i.
Proof. unfold grow. rewrite fmap_app, fmap_length. f_equal. rewrite fmap_replicate. by rewrite H0. Qed.

Definition bsim (x : heap * N * list N) (y : heap * nat * list N) : Prop :=
  hsim x.1.1 y.1.1 /\ x.1.2 = N.of_nat (S y.1.2) /\ y.2 = f <$> x.2.
Lemma add_nodes_sim constraint : forall header cur h h' k rows, hsim h h' ->
  rsim bsim (add_nodes header cur constraint h (N.of_nat (S k)) rows)
    (add_nodes_at alloc (f header) (f cur) constraint h' k (f <$> rows)).
Proof.
  induction constraint as [|i rest IH]; intros header cur h h' k rows H; cbn [add_nodes add_nodes_at]; [done|].
  rewrite grow_sim. eapply rsim_bind; [apply vec_get_sim|]. intros rp ? ->.
  eapply rsim_bind; [by apply node_new_at_sim|]. intros h1 h1' H1.
  eapply rsim_bind; [rewrite <-Hf; apply vec_set_sim|]. intros r ? ->.
  rewrite <-Hf. replace (N.of_nat (S k) + 1)%N with (N.of_nat (S (S k))) by lia. by apply IH.
Qed.
Lemma add_columns_sim constraints : forall cur h h' k rows, hsim h h' ->
  rsim bsim (add_columns cur constraints h (N.of_nat (S k)) rows)
    (add_columns_at alloc (f cur) constraints h' k (f <$> rows)).
Proof.
  induction constraints as [|c rest IH]; intros cur h h' k rows H; cbn [add_columns add_columns_at]; [done|].
  eapply rsim_bind; [by apply node_new_header_at_sim|]. intros h1 h1' H1. rewrite <-Hf.
  eapply rsim_bind; [replace (N.of_nat (S k) + 1)%N with (N.of_nat (S (S k))) by lia; by apply add_nodes_sim|].
  intros [[h2 n2] r2] [[h2' k2] r2'] (H2&E2&E3). cbn in H2, E2, E3. subst. by apply IH.
Qed.
Lemma matrix_new_sim constraints : rsim msim (matrix_new constraints) (matrix_new_at alloc constraints).
Proof.
  unfold matrix_new, matrix_new_at.
  pose proof (node_new_header_at_sim ∅ ∅ 0 null 0 hsim_empty) as Hr. rewrite H0 in Hr.
  eapply rsim_bind; [exact Hr|].
  intros h h' H. rewrite <-Hf. eapply rsim_bind; [by apply (add_columns_sim _ 1%N h h' 1 [])|].
  intros [[h2 n2] r2] [[h2' k2] r2'] (H2&E2&E3). cbn in H2, E2, E3. subst. done.
Qed.
End rename.

(** * Only the first addresses matter *)

Section ext.
Context (alloc alloc' : nat -> N).
Lemma node_new_at_ext k header rp cp row h : alloc k = alloc' k ->
  node_new_at alloc k header rp cp row h = node_new_at alloc' k header rp cp row h.
Proof. intros H. unfold node_new_at. by rewrite H. Qed.
Lemma node_new_header_at_ext k pv n h : alloc k = alloc' k ->
  node_new_header_at alloc k pv n h = node_new_header_at alloc' k pv n h.
Proof. intros H. unfold node_new_header_at. by rewrite H. Qed.
Lemma add_nodes_at_ext constraint : forall header cur h k rows,
  (forall j, k <= j < k + length constraint -> alloc j = alloc' j) ->
  add_nodes_at alloc header cur constraint h k rows = add_nodes_at alloc' header cur constraint h k rows.
Proof.
  induction constraint as [|i rest IH]; intros header cur h k rows H; cbn [add_nodes_at]; [done|]. cbn [length] in H.
  destruct (vec_get (grow rows i) i) as [rp|e]; cbn [bind]; [|done].
  rewrite node_new_at_ext by (apply H; lia). destruct (node_new_at alloc' _ _ _ _ _ _) as [h1|e]; cbn [bind]; [|done].
  rewrite (H k) by lia. destruct (vec_set _ _ _) as [r|e]; cbn [bind]; [|done]. apply IH. intros j Hj. apply H. lia.
Qed.
Lemma add_nodes_at_count constraint : forall header cur h k rows h' k' rows',
  add_nodes_at alloc' header cur constraint h k rows = Ret (h', k', rows') -> k' = k + length constraint.
Proof.
  induction constraint as [|i rest IH]; intros header cur h k rows h' k' rows'; cbn [add_nodes_at length].
  - intros [= <- <- <-]. lia.
  - destruct (vec_get (grow rows i) i) as [rp|e]; cbn [bind]; [|done].
    destruct (node_new_at alloc' _ _ _ _ _ _) as [h1|e]; cbn [bind]; [|done].
    destruct (vec_set _ _ _) as [r|e]; cbn [bind]; [|done]. intros H%IH. lia.
Qed.
Lemma add_columns_at_ext constraints : forall cur h k rows,
  (forall j, k <= j < k + length constraints + length (concat constraints) -> alloc j = alloc' j) ->
  add_columns_at alloc cur constraints h k rows = add_columns_at alloc' cur constraints h k rows.
Proof.
  induction constraints as [|c rest IH]; intros cur h k rows H; cbn [add_columns_at]; [done|].
  cbn [length concat] in H. rewrite app_length in H.
  rewrite node_new_header_at_ext by (apply H; lia).
  destruct (node_new_header_at alloc' _ _ _ _) as [h1|e]; cbn [bind]; [|done].
  rewrite (H k) by lia. rewrite add_nodes_at_ext by (intros j Hj; apply H; lia).
  destruct (add_nodes_at alloc' _ _ _ _ _ _) as [[[h2 k2] r2]|e] eqn:E; cbn [bind]; [|done].
  apply add_nodes_at_count in E. apply IH. intros j Hj. apply H. lia.
Qed.
Lemma matrix_new_at_ext constraints : (forall j, j < nodes_of constraints -> alloc j = alloc' j) ->
  matrix_new_at alloc constraints = matrix_new_at alloc' constraints.
Proof.
  unfold nodes_of. intros H. unfold matrix_new_at. rewrite node_new_header_at_ext by (apply H; lia).
  destruct (node_new_header_at alloc' _ _ _ _) as [h1|e]; cbn [bind]; [|done].
  rewrite (H 0) by lia. by rewrite add_columns_at_ext by (intros j Hj; apply H; lia).
Qed.
End ext.

Lemma alloc_bound (alloc : nat -> N) n : exists m, forall k, k < n -> (alloc k <= m)%N.
Proof.
  induction n as [|n [m IH]]; [exists 0%N; lia|]. exists (N.max m (alloc n)). intros k Hk.
  destruct (decide (k = n)) as [->|Hne]; [lia|]. specialize (IH k ltac:(lia)). lia.
Qed.
Lemma renaming_exists alloc n : allocates alloc n ->
  exists alloc' f, (forall j, j < n -> alloc j = alloc' j) /\ Inj (=) (=) f /\ f null = null /\
    forall k, f (N.of_nat (S k)) = alloc' k.
Proof.
  intros [Hnull Hinj]. destruct (alloc_bound alloc n) as [m Hm].
  set (alloc' := fun k => if decide (k < n) then alloc k else (m + N.of_nat k + 1)%N).
  assert (forall k, alloc' k <> null) as Hn.
  { intros k. unfold alloc'. destruct (decide (k < n)) as [Hk|Hk]; [by apply Hnull|]. unfold null. lia. }
  assert (forall j k, alloc' j = alloc' k -> j = k) as Hi.
  { intros j k. unfold alloc'. destruct (decide (j < n)) as [Hj|Hj], (decide (k < n)) as [Hk|Hk].
    - by apply Hinj.
    - specialize (Hm j Hj). lia.
    - specialize (Hm k Hk). lia.
    - lia. }
  exists alloc', (fun p => match p with 0%N => 0%N | _ => alloc' (N.to_nat p - 1) end). split_and!.
  - intros j Hj. unfold alloc'. by rewrite decide_True.
  - intros p q. destruct p as [|p], q as [|q]; intros H.
    + done.
    + by destruct (Hn (N.to_nat (Npos q) - 1)).
    + by destruct (Hn (N.to_nat (Npos p) - 1)).
    + apply Hi in H. lia.
  - done.
  - intros k. destruct (N.of_nat (S k)) as [|p] eqn:E; [lia|]. f_equal. lia.
Qed.

(** * Results do not depend on the addresses *)

Lemma use_alike fuel constraints rows alloc : allocates alloc (nodes_of constraints) ->
  alike (use_matrix fuel (matrix_new constraints) rows) (use_matrix fuel (matrix_new_at alloc constraints) rows).
Proof.
  intros H. destruct (renaming_exists _ _ H) as (alloc'&f&He&Hi&H0&Hf). rewrite (matrix_new_at_ext _ alloc') by done.
  assert (rsim (fun x y => x.1 = y.1 /\ hsim f x.2 y.2) (use_matrix fuel (matrix_new constraints) rows)
    (use_matrix fuel (matrix_new_at alloc' constraints) rows)) as Hs.
  { unfold use_matrix. eapply rsim_bind; [by apply (matrix_new_sim f)|]. intros mx mx' Hm.
    eapply rsim_bind; [by apply (add_rows_sim f)|]. intros [l mx1] [l' mx1'] [E1 H1]. cbn in E1, H1. subst l'.
    eapply rsim_bind; [by apply (solve_sim f)|]. intros [s h] [s' h'] [E2 H2]. cbn in E2, H2. subst s'. done. }
  destruct (use_matrix fuel (matrix_new constraints) rows) as [[a h]|e], (use_matrix fuel (matrix_new_at alloc' constraints) rows) as [[a' h']|e'];
    cbn in Hs |- *; [|done|done|done]. destruct Hs as [E Hh]. split; [done|]. by apply (hsim_size f).
Qed.

Lemma sudoku_alike fuel puzzle alloc : allocates alloc (nodes_of SUDOKU_CONSTRAINTS) ->
  alike (solve_sudoku fuel puzzle) (solve_sudoku_at alloc fuel puzzle).
Proof.
  unfold solve_sudoku, solve_sudoku_at. generalize SUDOKU_CONSTRAINTS. intros cs H.
  destruct (decide (length puzzle ≠ GRID_SIZE * GRID_SIZE)) as [Hl|Hl]; [done|]. clear Hl.
  destruct (renaming_exists _ _ H) as (alloc'&f&He&Hi&H0&Hf). rewrite (matrix_new_at_ext _ alloc') by done.
  match goal with |- alike ?x ?y => assert (rsim (fun a b => a.1 = b.1 /\ hsim f a.2 b.2) x y) as Hs end.
  { eapply rsim_bind; [by apply (matrix_new_sim f)|]. intros mx mx' Hm.
    eapply rsim_bind; [by apply (add_clues_sim f)|]. intros [r mx1] [r' mx1'] [H1 E1]. cbn [fst snd] in E1, H1.
    destruct r as [mx2|e], r' as [mx2'|e']; [|done|done|].
    - eapply rsim_bind; [by apply (solve_sim f)|]. intros [s h] [s' h'] [E2 H2]. cbn in E2, H2. subst s'. by destruct s.
    - subst e'. rewrite (ms_root f _ _ H1).
      eapply rsim_bind; [by apply (matrix_drop_sim f), (ms_heap f)|]. intros h h' H2. done. }
  match goal with |- alike ?x ?y => destruct x as [[a h]|e], y as [[a' h']|e'] end;
    cbn in Hs |- *; [|done|done|done]. destruct Hs as [E Hh]. split; [done|]. by apply (hsim_size f).
Qed.

(** * Failing allocations *)

Definition ub_or {A} (P : Prop) (x : res A) : Prop := match x with Ret _ => P | Fault e => e = UB end.
Lemma ub_or_bind {A B} P Q (x : res A) (k : A -> res B) :
  ub_or P x -> (forall a, x = Ret a -> P -> ub_or Q (k a)) -> ub_or Q (bind x k).
Proof. destruct x; cbn; auto. Qed.
Lemma load_ub h p : ub_or True (load h p).
Proof. unfold load. by destruct (h !! p). Qed.
Lemma modify_ub g h p : ub_or True (modify g p h).
Proof. unfold modify. by destruct (h !! p). Qed.
Ltac ub_steps := repeat (eapply ub_or_bind; [first [apply load_ub|apply modify_ub]|intros ? _ _]).
Lemma node_new_ub p header rp cp row h : ub_or True (node_new p header rp cp row h).
Proof.
  unfold node_new. eapply (ub_or_bind True).
  - destruct (decide (rp = null)); [done|]. by ub_steps.
  - intros [n1 h1] _ _. eapply (ub_or_bind True).
    + destruct (decide (cp = null)); [done|]. by ub_steps.
    + intros [n2 h2] _ _. done.
Qed.
Lemma node_new_header_ub p pv n h : ub_or True (node_new_header p pv n h).
Proof.
  unfold node_new_header. eapply (ub_or_bind True).
  - destruct (decide (pv = null)); [done|]. by ub_steps.
  - intros [n1 h1] _ _. done.
Qed.

Section fail.
Context (alloc : nat -> N).
Lemma store_check_ub k h : ub_or (alloc k <> null) (store_check (alloc k) h).
Proof. unfold store_check. by destruct (decide (alloc k = null)). Qed.
Lemma add_nodes_ub constraint : forall header cur h k rows,
  ub_or (forall j, k <= j < k + length constraint -> alloc j <> null) (add_nodes_at alloc header cur constraint h k rows).
Proof.
  induction constraint as [|i rest IH]; intros header cur h k rows; cbn [add_nodes_at length]; [intros j Hj; lia|].
  assert (i < length (grow rows i)) as Hi by (unfold grow; rewrite app_length, replicate_length; lia).
  eapply (ub_or_bind True).
  { unfold vec_get. destruct (lookup_lt_is_Some_2 _ _ Hi) as [x Hx]. by rewrite Hx. }
  intros rp _ _. eapply ub_or_bind.
  { unfold node_new_at. eapply ub_or_bind; [apply node_new_ub|]. intros h1 _ _. apply store_check_ub. }
  intros h1 _ Hk. eapply (ub_or_bind True).
  { unfold vec_set. by rewrite decide_True. }
  intros r _ _. specialize (IH header (alloc k) h1 (S k) r). destruct (add_nodes_at _ _ _ _ _ _ _); [|done].
  cbn in IH |- *. intros j Hj. destruct (decide (j = k)) as [->|Hne]; [done|]. apply IH. lia.
Qed.
Lemma add_columns_ub constraints : forall cur h k rows,
  ub_or (forall j, k <= j < k + length constraints + length (concat constraints) -> alloc j <> null)
    (add_columns_at alloc cur constraints h k rows).
Proof.
  induction constraints as [|c rest IH]; intros cur h k rows; cbn [add_columns_at length concat]; [cbn; intros j Hj; lia|].
  rewrite app_length. eapply ub_or_bind.
  { unfold node_new_header_at. eapply ub_or_bind; [apply node_new_header_ub|]. intros h1 _ _. apply store_check_ub. }
  intros h1 _ Hk. eapply ub_or_bind; [apply add_nodes_ub|]. intros [[h2 k2] r2] E Hc. apply add_nodes_at_count in E.
  specialize (IH (alloc k) h2 k2 r2). destruct (add_columns_at _ _ _ _ _ _); [|done].
  cbn in IH |- *. intros j Hj. destruct (decide (j = k)) as [->|Hne]; [done|].
  destruct (decide (j < k2)) as [Hlt|Hge]; [apply Hc; lia|]. apply IH. lia.
Qed.
Lemma new_ub constraints k : k < nodes_of constraints -> alloc k = null -> matrix_new_at alloc constraints = Fault UB.
Proof.
  unfold nodes_of. intros Hk Hn.
  assert (ub_or (forall j, j < 1 + length constraints + length (concat constraints) -> alloc j <> null)
    (matrix_new_at alloc constraints)) as H.
  { unfold matrix_new_at. eapply ub_or_bind.
    - unfold node_new_header_at. eapply ub_or_bind; [apply node_new_header_ub|]. intros h1 _ _. apply store_check_ub.
    - intros h1 _ H1. eapply ub_or_bind; [apply add_columns_ub|]. intros [[h2 k2] r2] _ Hc. cbn.
      intros j Hj. destruct j as [|j]; [done|]. apply Hc. lia. }
  destruct (matrix_new_at alloc constraints) as [mx|e]; cbn in H; [by destruct (H k Hk)|]. by subst e.
Qed.
Lemma sudoku_ub fuel puzzle k : length puzzle = 81 -> k < nodes_of SUDOKU_CONSTRAINTS -> alloc k = null ->
  solve_sudoku_at alloc fuel puzzle = Fault UB.
Proof.
  unfold solve_sudoku_at. generalize SUDOKU_CONSTRAINTS. intros cs Hl Hk Hn. rewrite decide_False by (intros H; by apply H; rewrite Hl).
  by rewrite (new_ub cs k Hk Hn).
Qed.
End fail.
