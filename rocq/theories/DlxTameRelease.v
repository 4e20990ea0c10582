(** The links of [DlxTame] in a build without overflow checks. *)
From Verif Require Import Base Dlx SpecDlx DlxSeg DlxCover DlxBuild DlxNew SpecDlxTame DlxTame DlxTameProofs.
From Verif Require DlxRelease DlxLen DlxReleaseSim DlxLenSim.

Notation rnode := DlxRelease.node.
Notation rheap := (gmap ptr DlxRelease.node).
(** The links, without the sizes and row numbers. *)
Definition link (n : rnode) : node :=
  Node (DlxRelease.n_header n) (DlxRelease.n_left n) (DlxRelease.n_right n) (DlxRelease.n_up n) (DlxRelease.n_down n) 0.
Definition links (h : rheap) : heap := link <$> h.
Definition rmap {A B} (g : A -> B) (x : res A) : res B := match x with Ret a => Ret (g a) | Fault f => Fault f end.
Lemma safe_rmap {A B} E (P : B -> Prop) (g : A -> B) x : safe E P (rmap g x) -> safe E (fun a => P (g a)) x.
Proof. by destruct x. Qed.
Lemma links_at h x : links h !! x = link <$> h !! x.
Proof. apply lookup_fmap. Qed.

Lemma modify_links f' f p h : (forall n, link (f' n) = f (link n)) -> rmap links (DlxRelease.modify f' p h) = modify f p (links h).
Proof.
  intros Hf. unfold DlxRelease.modify, modify. rewrite links_at. destruct (h !! p) as [n|]; cbn; [|done].
  f_equal. unfold links. by rewrite fmap_insert, Hf.
Qed.
Lemma row_links v p h : is_Some (h !! p) -> exists h', DlxRelease.modify (DlxRelease.set_row v) p h = Ret h' /\ links h' = links h.
Proof.
  intros [n Hn]. unfold DlxRelease.modify. rewrite Hn. eexists. split; [done|]. unfold links. rewrite fmap_insert.
  apply insert_id. by rewrite lookup_fmap, Hn.
Qed.
Lemma dealloc_links p h : rmap links (DlxRelease.dealloc p h) = dealloc p (links h).
Proof.
  unfold DlxRelease.dealloc, dealloc. rewrite links_at. destruct (h !! p); cbn; [|done]. f_equal. unfold links. by rewrite fmap_delete.
Qed.
Lemma bind_links {A B A' B'} (g : A -> A') (g2 : B -> B') x y k k' : rmap g x = y -> (forall a, rmap g2 (k a) = k' (g a)) ->
  rmap g2 (bind x k) = bind y k'.
Proof. intros <- Hk. by destruct x; cbn. Qed.
Lemma load_links {B B'} (g2 : B -> B') x h k k' : (forall n, rmap g2 (k n) = k' (link n)) ->
  rmap g2 (bind (DlxRelease.load h x) k) = bind (load (links h) x) k'.
Proof. intros Hk. unfold DlxRelease.load, load. rewrite links_at. by destruct (h !! x); cbn. Qed.
Lemma cover_horizontal_links x h : rmap links (DlxRelease.cover_horizontal x h) = cover_horizontal x (links h).
Proof.
  unfold DlxRelease.cover_horizontal, cover_horizontal. apply load_links. intros n.
  eapply bind_links; [by apply modify_links|]. intros h'. by apply modify_links.
Qed.
Lemma uncover_horizontal_links x h : rmap links (DlxRelease.uncover_horizontal x h) = uncover_horizontal x (links h).
Proof.
  unfold DlxRelease.uncover_horizontal, uncover_horizontal. apply load_links. intros n.
  eapply bind_links; [by apply modify_links|]. intros h'. by apply modify_links.
Qed.
Lemma cover_vertical_links x h : rmap links (DlxRelease.cover_vertical x h) = cover_vertical x (links h).
Proof.
  unfold DlxRelease.cover_vertical, cover_vertical. apply load_links. intros n.
  eapply bind_links; [by apply modify_links|]. intros h'. by apply modify_links.
Qed.
Lemma uncover_vertical_links x h : rmap links (DlxRelease.uncover_vertical x h) = uncover_vertical x (links h).
Proof.
  unfold DlxRelease.uncover_vertical, uncover_vertical. apply load_links. intros n.
  eapply bind_links; [by apply modify_links|]. intros h'. by apply modify_links.
Qed.
Lemma to_header_links x h : DlxRelease.to_header h x = to_header (links h) x.
Proof.
  unfold DlxRelease.to_header, to_header, DlxRelease.load, load. rewrite links_at. by destruct (h !! x).
Qed.
(** Loops see only links. *)
Definition same_dir (dir' : rnode -> ptr) (dir : node -> ptr) : Prop := forall n, dir (link n) = dir' n.
Lemma from_links {S} (heap_of : S -> rheap) dir' dir o body : same_dir dir' dir -> forall fuel cur s,
  DlxRelease.for_from fuel heap_of dir' o cur body s = for_from fuel (fun s => links (heap_of s)) dir o cur body s.
Proof.
  intros Hd. induction fuel as [|fuel IH]; intros cur s; cbn [DlxRelease.for_from for_from]; [done|].
  destruct (decide (cur = null)); [done|]. unfold DlxRelease.load, load. rewrite links_at.
  destruct (heap_of s !! cur) as [nx|]; cbn [fmap option_fmap option_map bind]; [|done]. rewrite Hd.
  destruct (body cur s) as [[s' []]|]; cbn [bind]; [done|apply IH|done].
Qed.
Lemma skip1_links {S} (heap_of : S -> rheap) dir' dir o body fuel s : same_dir dir' dir ->
  DlxRelease.for_skip1 fuel heap_of dir' o body s = for_skip1 fuel (fun s => links (heap_of s)) dir o body s.
Proof.
  intros Hd. unfold DlxRelease.for_skip1, for_skip1, DlxRelease.load, load. rewrite links_at.
  destruct (heap_of s !! o) as [nx|]; cbn [fmap option_fmap option_map bind]; [|done]. rewrite Hd. by apply from_links.
Qed.
Lemma from_rmap dir' dir o body' body : same_dir dir' dir ->
  (forall x h, rmap (fun a => (links a.1, a.2)) (body' x h) = body x (links h)) -> forall fuel cur h,
  rmap (fun a : rheap * bool => (links a.1, a.2)) (DlxRelease.for_from fuel id dir' o cur body' h) = for_from fuel id dir o cur body (links h).
Proof.
  intros Hd Hb. induction fuel as [|fuel IH]; intros cur h; cbn [DlxRelease.for_from for_from];
    (destruct (decide (cur = null)); [done|]); [done|]. cbn [id]. apply load_links. intros nx. rewrite Hd.
  eapply bind_links; [by apply Hb|]. intros [h' []]; [done|apply IH].
Qed.
Lemma drop_column_links fuel c h : rmap links (DlxRelease.drop_column fuel c h) = drop_column fuel c (links h).
Proof.
  unfold DlxRelease.drop_column, drop_column. apply load_links. intros n.
  eapply bind_links; [by apply dealloc_links|]. intros h1.
  eapply bind_links; [apply (from_rmap DlxRelease.n_down n_down)|by intros [? ?]]; [done|].
  intros x h'. eapply bind_links; [by apply dealloc_links|]. done.
Qed.
Lemma drop_links fuel root h : rmap links (DlxRelease.matrix_drop fuel root h) = matrix_drop fuel root (links h).
Proof.
  unfold DlxRelease.matrix_drop, matrix_drop. apply load_links. intros n.
  eapply bind_links; [by apply drop_column_links|]. intros h1.
  eapply bind_links; [apply (from_rmap DlxRelease.n_right n_right)|by intros [? ?]]; [done|].
  intros x h'. eapply bind_links; [by apply drop_column_links|]. done.
Qed.

Section tame.
Context (ws : word) (root : ptr) (fuel : nat) (D : ptr -> Prop) (hd : ptr -> ptr) (rk : ptr -> nat) (mates : ptr -> list ptr).
Context (HF : Frame root fuel D hd rk mates).
Notation T h := (Tame root D hd rk mates (links h)).
Notation never := (fun _ : fault => False).

Lemma rlive h x : T h -> x = root \/ D x -> exists n, h !! x = Some n.
Proof. intros HT Hx. destruct (tame_live _ _ _ _ _ _ _ HT Hx) as [n Hn]. rewrite links_at in Hn. apply fmap_Some in Hn as (n'&?&_). eauto. Qed.
Lemma rload E (P : rnode -> Prop) h x : T h -> x = root \/ D x -> (forall n, h !! x = Some n -> P n) -> safe E P (DlxRelease.load h x).
Proof. intros HT Hx HP. destruct (rlive h x HT Hx) as [n Hn]. unfold DlxRelease.load. rewrite Hn. cbn. auto. Qed.
Lemma rsize v x h : T h -> D x -> hd x <> null ->
  safe never (fun h' => T h') (let! n := DlxRelease.load h x in let! hd := DlxRelease.load h (DlxRelease.n_header n) in
    DlxRelease.modify (DlxRelease.set_row (v hd)) (DlxRelease.n_header n) h).
Proof.
  intros HT Hx Hh. destruct (fr_hd _ _ _ _ _ _ HF x Hx Hh) as [Hc _].
  eapply safe_bind; [by apply (rload _ (fun n => h !! x = Some n)); auto|]. cbn beta. intros n Hn.
  assert (DlxRelease.n_header n = hd x) as ->.
  { change (DlxRelease.n_header n) with (n_header (link n)). apply (t_hd _ _ _ _ _ _ HT); [by rewrite links_at, Hn|].
    intros ->. by apply (fr_root _ _ _ _ _ _ HF). }
  eapply safe_bind; [by apply (rload _ (fun _ => True)); auto|]. intros n2 _.
  destruct (rlive h (hd x) HT) as [n3 Hn3]; [auto|].
  destruct (row_links (v n2) (hd x) h) as (h'&->&E); [by rewrite Hn3; eexists|]. cbn. by rewrite E.
Qed.
Lemma rhide x h : T h -> D x -> hd x <> null -> safe never (fun h' => T h') (DlxRelease.hide ws x h).
Proof.
  intros HT Hx Hh. unfold DlxRelease.hide. eapply (safe_bind _ (fun h' => T h')).
  - apply safe_rmap. rewrite cover_vertical_links. by eapply cover_vertical_safe.
  - intros h' HT'. apply (rsize (fun hd => (DlxRelease.n_row hd + usize_size ws - 1) mod usize_size ws)%N); done.
Qed.
Lemma runhide x h : T h -> D x -> hd x <> null -> safe never (fun h' => T h') (DlxRelease.unhide ws x h).
Proof.
  intros HT Hx Hh. unfold DlxRelease.unhide. eapply (safe_bind _ (fun h' => T h')).
  - apply (rsize (fun hd => (DlxRelease.n_row hd + 1) mod usize_size ws)%N); done.
  - intros h' HT'. apply safe_rmap. rewrite uncover_vertical_links. by eapply uncover_vertical_safe.
Qed.
Lemma rheap_loop E (P : rheap -> Prop) dir' o body h :
  safe E (fun a => if a.2 : bool then False else P a.1)
    (DlxRelease.for_skip1 fuel id dir' o (fun x h => let! h := body x h in Ret (h, false)) h) ->
  safe E P (DlxRelease.heap_loop fuel dir' o body h).
Proof. intros H. unfold DlxRelease.heap_loop. eapply safe_bind; [exact H|]. by intros [h' []]. Qed.
Lemma rrow E body x h : T h -> D x -> hd x <> null ->
  (forall y h, T h -> D y -> hd y <> null -> safe E (fun h' => T h') (body y h)) ->
  safe E (fun h' => T h') (DlxRelease.heap_loop fuel DlxRelease.n_right x body h) /\
  safe E (fun h' => T h') (DlxRelease.heap_loop fuel DlxRelease.n_left x body h).
Proof.
  intros HT Hx Hh Hb.
  assert (null ∉ mates x) as H1. { intros H. destruct (fr_mates _ _ _ _ _ _ HF x null Hx Hh H) as [? _]. by apply (fr_null _ _ _ _ _ _ HF). }
  assert (x ∉ mates x) as H2. { intros H. by destruct (fr_mates _ _ _ _ _ _ HF x x Hx Hh H) as (_&_&?). }
  assert (forall y, y ∈ rev (mates x) <-> y ∈ mates x) as Hrev.
  { intros y. rewrite !elem_of_list_In. symmetry. apply in_rev. }
  split; apply rheap_loop.
  - rewrite (skip1_links id DlxRelease.n_right n_right) by done.
    apply (ring_safe E (fun h => links (id h)) n_right x _ (fun h' => T h') (fun _ => False) (mates x)); [done|done|by apply (fr_len _ _ _ _ _ _ HF)| | |done].
    + intros s Hs. by apply (t_mates _ _ _ _ _ _ Hs).
    + intros y s Hs Hy. destruct (fr_mates _ _ _ _ _ _ HF x y Hx Hh Hy) as (?&?&_). eapply safe_bind; [by apply Hb|]. done.
  - rewrite (skip1_links id DlxRelease.n_left n_left) by done.
    apply (ring_safe E (fun h => links (id h)) n_left x _ (fun h' => T h') (fun _ => False) (rev (mates x))); [by rewrite Hrev|by rewrite Hrev| | | |done].
    + rewrite rev_length. by apply (fr_len _ _ _ _ _ _ HF).
    + intros s Hs. by apply (t_mates _ _ _ _ _ _ Hs).
    + intros y s Hs Hy%Hrev. destruct (fr_mates _ _ _ _ _ _ HF x y Hx Hh Hy) as (?&?&_). eapply safe_bind; [by apply Hb|]. done.
Qed.
Lemma rcol E body c h : T h -> D c -> hd c = null ->
  (forall y h, T h -> D y -> hd y <> null -> safe E (fun h' => T h') (body y h)) ->
  safe E (fun h' => T h') (DlxRelease.heap_loop fuel DlxRelease.n_down c body h) /\
  safe E (fun h' => T h') (DlxRelease.heap_loop fuel DlxRelease.n_up c body h).
Proof.
  intros HT Hc Hhc Hb.
  destruct (col_loop root fuel D hd rk mates HF (fun h => links (id h)) E (fun _ => False) (fun h' => T h')
    (fun x h => let! h := body x h in Ret (h, false)) c h) as [H1 H2]; [done|done|done|done| |].
  - intros y h' HT' Hy Hhy. eapply (safe_bind _ (fun h' => T h')); [|done]. apply Hb; [done|done|]. rewrite Hhy. intros ->. by apply (fr_null _ _ _ _ _ _ HF).
  - split; apply rheap_loop; [rewrite (skip1_links id DlxRelease.n_down n_down) by done|rewrite (skip1_links id DlxRelease.n_up n_up) by done]; done.
Qed.
Lemma rcover x h : T h -> D x -> safe never (fun h' => T h') (DlxRelease.cover_column ws fuel x h).
Proof.
  intros HT Hx. destruct (column_D _ _ _ _ _ _ HF x Hx) as [Hc Hhc]. unfold DlxRelease.cover_column.
  rewrite to_header_links, (to_header_safe _ _ _ _ _ _ HF) by done. cbn [bind].
  eapply (safe_bind _ (fun h' => T h')).
  - apply safe_rmap. rewrite cover_horizontal_links. by eapply cover_horizontal_safe.
  - clear h HT. intros h HT. apply rcol; [done..|]. intros y h' HT' Hy Hhy. apply rrow; [done..|]. intros. by apply rhide.
Qed.
Lemma runcover x h : T h -> D x -> safe never (fun h' => T h') (DlxRelease.uncover_column ws fuel x h).
Proof.
  intros HT Hx. destruct (column_D _ _ _ _ _ _ HF x Hx) as [Hc Hhc]. unfold DlxRelease.uncover_column.
  rewrite to_header_links, (to_header_safe _ _ _ _ _ _ HF) by done. cbn [bind].
  eapply (safe_bind _ (fun h' => T h')).
  - apply rcol; [done..|]. intros y h' HT' Hy Hhy. apply rrow; [done..|]. intros. by apply runhide.
  - intros h' HT'. apply safe_rmap. rewrite uncover_horizontal_links. by eapply uncover_horizontal_safe.
Qed.
Lemma rwalk steps : forall h, T h -> Forall (fun s => D (walk_target s)) steps -> safe never (fun h' => T h') (walk_release ws fuel steps h).
Proof.
  induction steps as [|[p|p] steps IH]; intros h HT Hs; [done| |]; apply Forall_cons in Hs as [Hp Hs]; cbn [walk_release walk_target] in *.
  - eapply safe_bind; [by apply rcover|]. auto.
  - eapply safe_bind; [by apply runcover|]. auto.
Qed.
Lemma rdrop h : T h -> exists h', DlxRelease.matrix_drop fuel root h = Ret h'.
Proof.
  intros HT. destruct (drop_tame root fuel D hd rk mates HF _ HT) as [h' E]. pose proof (drop_links fuel root h) as E2. rewrite E in E2.
  destruct (DlxRelease.matrix_drop fuel root h) as [h2|]; [eauto|done].
Qed.
Lemma rchoose h n : T h -> h !! root = Some n -> DlxRelease.n_right n <> root ->
  safe never (fun c => D c /\ hd c = null) (DlxRelease.choose_column fuel root h).
Proof.
  intros HT Hn Hne. unfold DlxRelease.choose_column.
  assert (forall x n, h !! x = Some n -> D x -> hd x = null ->
    DlxRelease.n_right n = root \/ (D (DlxRelease.n_right n) /\ hd (DlxRelease.n_right n) = null) /\ rk x < rk (DlxRelease.n_right n)) as Hnext.
  { intros x nx Hx Hd Hh. pose proof (t_right _ _ _ _ _ _ HT x (link nx)) as (_&Ht&Hr); [by rewrite links_at, Hx|by right|]. cbn in Ht, Hr.
    destruct (decide (DlxRelease.n_right nx = root)) as [|E]; [by left|]. right. destruct Ht as [?|[H1 H2]]; [done|]. split; [done|].
    destruct Hr as [->|[?|?]]; [by destruct (fr_root _ _ _ _ _ _ HF)|done|lia]. }
  assert (D (DlxRelease.n_right n) /\ hd (DlxRelease.n_right n) = null) as [Hd Hh].
  { pose proof (t_right _ _ _ _ _ _ HT root (link n)) as (_&Ht&_); [by rewrite links_at, Hn|by left|]. by destruct Ht. }
  set (x := DlxRelease.n_right n) in *.
  set (I := fun s : rheap * option (ptr * N) => s.1 = h /\ exists c k, s.2 = Some (c, k) /\ D c /\ hd c = null).
  set (body := fun (x : ptr) '(h, best) => _).
  eapply (safe_bind _ (fun a => I a.1)).
  2:{ intros [[h' best] b] [_ (c&k&E&Hc)]. cbn in E. subst best. done. }
  unfold DlxRelease.for_skip1. cbn [fst]. unfold DlxRelease.load at 1. rewrite Hn. cbn [bind]. fold x. rewrite decide_False by done.
  assert (x <> null) as Hxn by (intros E; apply (fr_null _ _ _ _ _ _ HF); by rewrite <-E).
  pose proof (fr_rk _ _ _ _ _ _ HF x Hd) as Hf. destruct fuel as [|f] eqn:Ef; [lia|]. cbn [DlxRelease.for_from]. rewrite decide_False by done.
  cbn [fst]. destruct (rlive h x HT) as [nx Hx]; [auto|]. unfold DlxRelease.load at 1. rewrite Hx. cbn [bind].
  unfold body at 1. unfold DlxRelease.load at 1. rewrite Hx. cbn [bind].
  rewrite (from_links fst DlxRelease.n_right n_right) by done.
  eapply safe_mono; [eapply (from_safe never _ n_right root body I I (fun y => D y /\ hd y = null) (fun y => S f - S (rk y)))|done|by intros [? []]].
  - intros [H _]. by apply (fr_null _ _ _ _ _ _ HF).
  - intros y s [-> _] [Hy Hhy]. destruct (rlive h y HT) as [ny Hny]; [auto|]. exists (link ny). split; [by rewrite links_at, Hny|].
    destruct (Hnext y ny Hny Hy Hhy) as [?|[[H1 H2] H3]]; [by left|]. right. split; [done|]. pose proof (fr_rk _ _ _ _ _ _ HF _ H1). cbn. lia.
  - intros y [h' best] [Eh (c&k&Eb&Hc)] [Hy Hhy]. cbn in Eh, Eb. subst h' best. unfold body.
    eapply safe_bind; [by apply (rload _ (fun _ => True)); auto|]. intros ny _.
    destruct (decide _); (split; [done|]); [by exists y, (DlxRelease.n_row ny)|by exists c, k].
  - split; [done|]. by exists x, (DlxRelease.n_row nx).
  - destruct (decide (DlxRelease.n_right nx = root)) as [E|E]; [by left|]. right.
    destruct (Hnext x nx Hx Hd Hh) as [?|[[H1 H2] H3]]; [done|]. split; [done|]. pose proof (fr_rk _ _ _ _ _ _ HF _ H1). lia.
Qed.
Lemma rlook depth : forall h partial, T h ->
  safe (fun f => f = OutOfFuel) (fun a => T a.1.1) (look_for_release ws fuel depth root h partial).
Proof.
  induction depth as [|depth IH]; intros h partial HT; cbn [look_for_release]; [done|].
  destruct (rlive h root HT) as [nr Hnr]; [auto|]. unfold DlxRelease.is_empty, DlxRelease.load at 1. rewrite Hnr. cbn [bind].
  destruct (bool_decide_reflect (DlxRelease.n_right nr = root)) as [E|E]; [done|].
  eapply safe_bind; [eapply safe_mono; [by eapply rchoose|done|intros c Hc; exact Hc]|]. intros c [Hc Hhc]. cbn beta.
  eapply (safe_bind _ (fun h' => T h')); [eapply safe_mono; [by apply rcover|done|done]|]. clear h HT nr Hnr E. intros h HT.
  set (I := fun s : rheap * list nat => T s.1).
  eapply (safe_bind _ (fun a => I a.1)).
  - rewrite (skip1_links fst DlxRelease.n_down n_down) by done.
    eapply safe_mono; [eapply (col_loop root fuel D hd rk mates HF (fun s => links s.1) (fun f => f = OutOfFuel) I I); [done|done|done|done|]|done|by intros [? []]].
    intros y [h' part] HT' Hy Hhy. unfold I in HT'. cbn in HT'.
    assert (hd y <> null). { rewrite Hhy. intros E. apply (fr_null _ _ _ _ _ _ HF). by rewrite <-E. }
    eapply safe_bind; [by apply (rload _ (fun _ => True)); auto|]. intros n _.
    eapply (safe_bind _ (fun h' => T h')).
    { apply rrow; [done..|]. intros z h2 ???. eapply safe_mono; [by apply rcover|done|done]. }
    clear h' HT'. intros h' HT'. eapply safe_bind; [by apply IH|]. intros [[h2 part2] ok] HT2. cbn in HT2. destruct ok; [done|].
    eapply (safe_bind _ (fun h' => T h')); [|done].
    apply rrow; [done..|]. intros z h3 ???. eapply safe_mono; [by apply runcover|done|done].
  - intros [[h' part] found] HT'. unfold I in HT'. cbn in HT'. destruct found; [done|].
    eapply (safe_bind _ (fun h' => T h')); [|done]. eapply safe_mono; [by apply runcover|done|done].
Qed.
End tame.

(** Until an answer is found the search frees nothing. *)
Lemma rlook_same ws fuel root depth : forall h partial,
  found (look_for_release ws fuel depth root h partial) \/ DlxRelease.solve_helper ws fuel depth root h partial = look_for_release ws fuel depth root h partial.
Proof.
  induction depth as [|depth IH]; intros h partial; cbn [look_for_release DlxRelease.solve_helper]; [by right|].
  destruct (DlxRelease.is_empty root h) as [[]|f]; cbn [bind]; [by left| |by right].
  destruct (DlxRelease.choose_column fuel root h) as [c|f]; cbn [bind]; [|by right].
  destruct (DlxRelease.cover_column ws fuel c h) as [h1|f]; cbn [bind]; [|by right].
  rewrite !(skip1_links fst DlxRelease.n_down n_down) by done.
  unfold for_skip1. cbn [fst]. destruct (load (links h1) c) as [n|f]; cbn [bind]; [|by right].
  set (b1 := fun (row : ptr) '(h, partial) =>
             let! n := DlxRelease.load h row in
             let partial := partial ++ [N.to_nat (DlxRelease.n_row n)] in
             let! h := DlxRelease.heap_loop fuel DlxRelease.n_right row (DlxRelease.cover_column ws fuel) h in
             let! (h, partial, ok) := look_for_release ws fuel depth root h partial in
             if ok : bool then Ret ((h, partial), true)
             else
               let! h := DlxRelease.heap_loop fuel DlxRelease.n_left row (DlxRelease.uncover_column ws fuel) h in
               Ret ((h, take (length partial - 1) partial), false)).
  match goal with |- context [let! (_, _) := for_from _ _ _ _ _ ?b _ in _] => 
    lazymatch b with b1 => fail | _ => set (b2 := b) end end.
  pose proof (from_same (fun s : rheap * list nat => links s.1) n_down c b1 b2) as Hs.
  assert (forall x s, found (b1 x s) \/ b2 x s = b1 x s) as Hb.
  { intros x [h' part]. subst b1 b2. cbn beta iota.
    destruct (DlxRelease.load h' x) as [nx|f]; cbn [bind]; [|by right].
    destruct (DlxRelease.heap_loop fuel DlxRelease.n_right x _ h') as [h2|f]; cbn [bind]; [|by right].
    destruct (IH h2 (part ++ [N.to_nat (DlxRelease.n_row nx)])) as [H|H].
    - left. destruct (look_for_release _ _ _ _ _ _) as [[[? ?] []]|]; done.
    - rewrite H. destruct (look_for_release _ _ _ _ _ _) as [[[? ?] []]|f]; cbn [bind]; [by left|by right|by right]. }
  destruct (Hs Hb fuel (if decide (n_down n = c) then null else n_down n) (h1, partial)) as [H|H].
  - left. destruct (for_from _ _ _ _ _ b1 _) as [[? []]|]; done.
  - rewrite H. by right.
Qed.

Lemma rnew_tame ws lcs fuel mx : matrix_size lcs.*2 <= fuel -> Forall (fun k => k < usize_size ws)%N lcs.*1 ->
  DlxLen.matrix_new lcs = Ret mx -> DlxRelease.d_root mx = 1%N /\ frame_of fuel 1%N (links (DlxRelease.d_heap mx)).
Proof.
  intros Hf Hw E'. destruct (matrix_new_built lcs.*2) as (h&next&rows&R&st&E&HB&Hh&_).
  assert (DlxReleaseSim.rsim (DlxLenSim.msim ws (DlxLenSim.off_by ws 2%N lcs)) (matrix_new lcs.*2) (DlxLen.matrix_new lcs)) as H
    by (apply DlxLenSim.matrix_new_sim; [by apply DlxLenSim.off_by_low|by apply DlxLenSim.off_by_fits]).
  rewrite E, E' in H. cbn in H. destruct H as [[H1 _] H2 _ _]. cbn in H1, H2. split; [done|].
  destruct (built_shape fuel h next rows R st HB) as [mates HS]; [by rewrite (holds_size _ _ _ Hh)|].
  exists (sh_live st), (sh_hd h), (place (fp st)), mates. split; [by eapply shape_frame|].
  eapply (tame_wrap _ _ _ _ _ (fun p n => link (DlxLenSim.wrap ws (DlxLenSim.off_by ws 2%N lcs) p n))); [done| |by eapply shape_tame].
  intros p. rewrite links_at, H1. by destruct (h !! p).
Qed.
Lemma release_walk ws lcs steps fuel mx : matrix_size lcs.*2 <= fuel -> Forall (fun k => k < usize_size ws)%N lcs.*1 ->
  DlxLen.matrix_new lcs = Ret mx ->
  Forall (fun s => is_Some (DlxRelease.d_heap mx !! walk_target s) /\ walk_target s <> DlxRelease.d_root mx) steps ->
  exists h', walk_release ws fuel steps (DlxRelease.d_heap mx) = Ret h' /\
    (forall x, is_Some (h' !! x) <-> is_Some (DlxRelease.d_heap mx !! x)) /\
    exists h'', DlxRelease.matrix_drop fuel (DlxRelease.d_root mx) h' = Ret h''.
Proof.
  intros Hf Hw E Hs. destruct (rnew_tame ws lcs fuel mx Hf Hw E) as [Er (D&hd&rk&mates&HF&HT)]. rewrite Er in *.
  assert (forall h x, Tame 1%N D hd rk mates (links h) -> is_Some (h !! x) <-> x = 1%N \/ D x) as Hd.
  { intros h x H. rewrite <-(t_dom _ _ _ _ _ _ H), links_at. by rewrite fmap_is_Some. }
  pose proof (rwalk ws 1%N fuel D hd rk mates HF steps _ HT) as H.
  assert (Forall (fun s => D (walk_target s)) steps) as Hs'.
  { eapply Forall_impl; [exact Hs|]. intros s [[?|?]%(Hd _ _ HT) ?]; done. }
  specialize (H Hs'). destruct (walk_release ws fuel steps _) as [h'|f]; cbn in H; [|done]. exists h'. split; [done|]. split; [|by eapply rdrop].
  intros x. by rewrite !Hd.
Qed.
Lemma release_search ws lcs fuel mx : matrix_size lcs.*2 <= fuel -> Forall (fun k => k < usize_size ws)%N lcs.*1 ->
  DlxLen.matrix_new lcs = Ret mx ->
  (exists h partial, look_for_release ws fuel fuel (DlxRelease.d_root mx) (DlxRelease.d_heap mx) (DlxRelease.d_partial mx) = Ret (h, partial, true)) \/
  (exists h, DlxRelease.solve ws fuel mx = Ret (Err DlxNoSolution, h)) \/ DlxRelease.solve ws fuel mx = Fault OutOfFuel.
Proof.
  intros Hf Hw E. destruct (rnew_tame ws lcs fuel mx Hf Hw E) as [Er (D&hd&rk&mates&HF&HT)]. unfold DlxRelease.solve. rewrite Er in *.
  pose proof (rlook ws 1%N fuel D hd rk mates HF fuel _ (DlxRelease.d_partial mx) HT) as HS.
  destruct (rlook_same ws fuel 1%N fuel (DlxRelease.d_heap mx) (DlxRelease.d_partial mx)) as [Hfd| ->].
  - left. destruct (look_for_release _ _ _ _ _ _) as [[[h part] []]|]; try done. eauto.
  - destruct (look_for_release _ _ _ _ _ _) as [[[h part] []]|f]; cbn in HS |- *; [eauto| |subst f; auto].
    destruct (rdrop 1%N fuel D hd rk mates HF h HS) as [h' ->]. cbn. eauto.
Qed.
