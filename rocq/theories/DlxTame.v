(** Links that respect an order stay harmless whatever is covered and uncovered. *)
From Verif Require Import Base Dlx DlxSeg DlxCover SpecDlxTame.
From Verif Require DlxUnwind DlxCaught.

(** Outcomes that are values with [P] or failures with [E]. *)
Definition safe {A} (E : fault -> Prop) (P : A -> Prop) (x : res A) : Prop :=
  match x with Ret a => P a | Fault f => E f end.
Lemma safe_bind {A B} E (P : A -> Prop) (Q : B -> Prop) (x : res A) k :
  safe E P x -> (forall a, P a -> safe E Q (k a)) -> safe E Q (bind x k).
Proof. destruct x as [a|f]; cbn; auto. Qed.
Lemma safe_mono {A} (E E' : fault -> Prop) (P Q : A -> Prop) x :
  safe E P x -> (forall f, E f -> E' f) -> (forall a, P a -> Q a) -> safe E' Q x.
Proof. destruct x; cbn; auto. Qed.

(** * Loops *)

(** Links that lead to nodes with less and less to go. *)
Lemma from_safe {S} E (heap_of : S -> heap) dir o body (I Q : S -> Prop) (W : ptr -> Prop) (mu : ptr -> nat) :
  ~ W null ->
  (forall x s, I s -> W x -> exists n, heap_of s !! x = Some n /\ (dir n = o \/ W (dir n) /\ mu (dir n) < mu x)) ->
  (forall x s, I s -> W x -> safe E (fun a => if a.2 : bool then Q a.1 else I a.1) (body x s)) ->
  forall fuel cur s, I s -> cur = null \/ W cur /\ mu cur < fuel ->
  safe E (fun a => if a.2 : bool then Q a.1 else I a.1) (for_from fuel heap_of dir o cur body s).
Proof.
  intros Hn Hd Hb. induction fuel as [|fuel IH]; intros cur s HI Hc; cbn [for_from];
    (destruct (decide (cur = null)) as [->|Hne]; [done|]); destruct Hc as [?|[HW Hmu]]; try done; [lia|].
  destruct (Hd cur s HI HW) as (n&Hl&Hnext). unfold load. rewrite Hl. cbn [bind].
  eapply safe_bind; [by apply Hb|]. intros [s' []] Hs; cbn [fst snd] in Hs; [done|]. apply IH; [done|].
  destruct (decide (dir n = o)); [by left|]. destruct Hnext as [?|[H1 H2]]; [done|]. right. split; [done|lia].
Qed.
Lemma skip1_safe {S} E (heap_of : S -> heap) dir o body (I Q : S -> Prop) (W : ptr -> Prop) (mu : ptr -> nat) fuel s :
  ~ W null -> (forall x, W x -> mu x < fuel) ->
  (exists n, heap_of s !! o = Some n /\ (dir n = o \/ W (dir n))) ->
  (forall x s, I s -> W x -> exists n, heap_of s !! x = Some n /\ (dir n = o \/ W (dir n) /\ mu (dir n) < mu x)) ->
  (forall x s, I s -> W x -> safe E (fun a => if a.2 : bool then Q a.1 else I a.1) (body x s)) -> I s ->
  safe E (fun a => if a.2 : bool then Q a.1 else I a.1) (for_skip1 fuel heap_of dir o body s).
Proof.
  intros Hn Hmu (n&Hl&Ho) Hd Hb HI. unfold for_skip1, load. rewrite Hl. cbn [bind].
  eapply from_safe; try done. destruct (decide (dir n = o)); [by left|]. destruct Ho as [?|HW]; [done|]. right. auto.
Qed.
(** A ring whose links the body does not change. *)
Lemma ring_safe {S} E (heap_of : S -> heap) dir o body (I Q : S -> Prop) (l : list ptr) fuel s :
  null ∉ l -> o ∉ l -> length l <= fuel -> (forall s, I s -> fwd dir (heap_of s) o l o) ->
  (forall x s, I s -> x ∈ l -> safe E (fun a => if a.2 : bool then Q a.1 else I a.1) (body x s)) -> I s ->
  safe E (fun a => if a.2 : bool then Q a.1 else I a.1) (for_skip1 fuel heap_of dir o body s).
Proof.
  intros Hnull Ho Hf Hl Hb HI. unfold for_skip1.
  pose proof (fwd_first _ _ _ _ _ (Hl s HI)) as (n&Hn&Hd)%fld_Some. unfold load at 1. rewrite Hn. cbn [bind].
  assert ((if decide (dir n = o) then null else dir n) = first_or l null) as ->.
  { rewrite Hd. destruct l as [|y l]; cbn [first_or]; [by rewrite decide_True|]. rewrite decide_False; [done|].
    intros ->. apply Ho, elem_of_list_here. }
  clear n Hn Hd.
  enough (forall l2 l1 s fuel, l = l1 ++ l2 -> length l2 <= fuel -> I s ->
    safe E (fun a => if a.2 : bool then Q a.1 else I a.1) (for_from fuel heap_of dir o (first_or l2 null) body s)) as H by (by apply (H l [])).
  clear s fuel Hf HI. induction l2 as [|x l2 IH]; intros l1 s fuel E1 Hf HI; [by destruct fuel|].
  destruct fuel as [|fuel]; cbn in Hf; [lia|]. assert (x ∈ l) as Hx by (rewrite E1, elem_of_app; right; apply elem_of_list_here).
  cbn [first_or for_from]. rewrite decide_False by (intros ->; done).
  pose proof (Hl s HI) as Hw. rewrite E1 in Hw. apply fwd_at, fld_Some in Hw as (n&Hn&Hd). unfold load. rewrite Hn. cbn [bind].
  eapply safe_bind; [by apply Hb|]. intros [s' []] Hs; cbn [fst snd] in Hs; [done|].
  assert ((if decide (dir n = o) then null else dir n) = first_or l2 null) as ->.
  { rewrite Hd. destruct l2 as [|y l2]; cbn [first_or]; [by rewrite decide_True|]. rewrite decide_False; [done|].
    intros ->. apply Ho. rewrite E1, elem_of_app. right. apply elem_of_list_further, elem_of_list_here. }
  apply (IH (l1 ++ [x])); [by rewrite <-app_assoc|lia|done].
Qed.
Lemma loop_of_skip1 E (P : heap -> Prop) fuel dir o body h :
  safe E (fun a => if a.2 : bool then False else P a.1)
    (for_skip1 fuel id dir o (fun x h => let! h := body x h in Ret (h, false)) h) ->
  safe E P (heap_loop fuel dir o body h).
Proof. intros H. unfold heap_loop. eapply safe_bind; [exact H|]. by intros [h' []]. Qed.

(** * The order *)

Section tame.
(** The live nodes besides the root, their headers (null for a header), a rank,
    and the other nodes of their rows. *)
Context (root : ptr) (fuel : nat) (D : ptr -> Prop) (hd : ptr -> ptr) (rk : ptr -> nat) (mates : ptr -> list ptr).
Record Frame : Prop := {
  fr_null : ~ D null;
  fr_root : ~ D root;
  fr_rnull : root <> null;
  fr_hd x : D x -> hd x <> null -> D (hd x) /\ hd (hd x) = null;
  fr_rk x : D x -> rk x < fuel;
  fr_mates x y : D x -> hd x <> null -> y ∈ mates x -> D y /\ hd y <> null /\ y <> x;
  fr_len x : D x -> hd x <> null -> length (mates x) <= fuel
}.
Definition column (x : ptr) : ptr := if decide (hd x = null) then x else hd x.
Definition vle (x y : ptr) : Prop := D x /\ D y /\ column x = column y /\ (hd x = null \/ hd y = null \/ rk x < rk y).
Definition top (x : ptr) : Prop := x = root \/ D x /\ hd x = null.
Definition hle (x y : ptr) : Prop := top x /\ top y /\ (x = root \/ y = root \/ rk x < rk y).
Record Tame (h : heap) : Prop := {
  t_dom x : is_Some (h !! x) <-> x = root \/ D x;
  t_hd x n : h !! x = Some n -> x <> root -> n_header n = hd x;
  t_right x n : h !! x = Some n -> top x -> hle x (n_right n);
  t_left x n : h !! x = Some n -> top x -> hle (n_left n) x;
  t_down x n : h !! x = Some n -> x <> root -> vle x (n_down n);
  t_up x n : h !! x = Some n -> x <> root -> vle (n_up n) x;
  t_root : fld n_down h root = Some root;
  t_mates x : D x -> hd x <> null -> fwd n_right h x (mates x) x /\ fwd n_left h x (rev (mates x)) x
}.
Context (HF : Frame).

Lemma vle_trans x y z : hd y <> null -> vle x y -> vle y z -> vle x z.
Proof. intros Hy (H1&_&H3&H4) (_&H6&H7&H8). split; [done|]. split; [done|]. split; [congruence|]. destruct H4 as [|[]], H8 as [|[]]; try done; auto. right. right. lia. Qed.
Lemma hle_trans x y z : y <> root -> hle x y -> hle y z -> hle x z.
Proof. intros Hy (H1&_&H4) (_&H6&H8). split; [done|]. split; [done|]. destruct H4 as [|[]], H8 as [|[]]; try done; auto. right. right. lia. Qed.
Lemma tame_live h x : Tame h -> x = root \/ D x -> exists n, h !! x = Some n.
Proof. intros HT Hx. apply (t_dom _ HT) in Hx as [n Hn]. eauto. Qed.
Lemma D_root x : D x -> x <> root.
Proof. intros Hx ->. by apply (fr_root HF). Qed.

Lemma tame_store h f p : Tame h -> p = root \/ D p ->
  (forall n, n_header (f n) = n_header n) ->
  (forall n, h !! p = Some n ->
    (top p -> hle p (n_right (f n)) /\ hle (n_left (f n)) p) /\ (p <> root -> vle p (n_down (f n)) /\ vle (n_up (f n)) p) /\
    (p = root -> n_down (f n) = n_down n) /\
    (hd p <> null -> D p -> n_right (f n) = n_right n /\ n_left (f n) = n_left n)) ->
  safe (fun _ => False) Tame (modify f p h).
Proof.
  intros HT Hp Hh Hf. destruct (tame_live h p HT Hp) as [n Hn]. destruct (Hf n Hn) as (F1&F2&F3&F4). unfold modify. rewrite Hn. cbn [safe].
  assert (forall x a, <[p := f n]> h !! x = Some a -> x = p /\ a = f n \/ x <> p /\ h !! x = Some a) as K.
  { intros x a. destruct (decide (x = p)) as [->|Hx]; [rewrite lookup_insert; intros [= <-]; by left|].
    rewrite lookup_insert_ne by done. by right. }
  split.
  - intros x. destruct (decide (x = p)) as [->|Hx]; [|by rewrite lookup_insert_ne, (t_dom _ HT)].
    rewrite lookup_insert. split; [done|eauto].
  - intros x a [[-> ->]|[_ Ha]]%K; [|by apply (t_hd _ HT)]. intros Hx. rewrite Hh. by apply (t_hd _ HT).
  - intros x a [[-> ->]|[_ Ha]]%K; [|by apply (t_right _ HT)]. intros Hx. by apply F1.
  - intros x a [[-> ->]|[_ Ha]]%K; [|by apply (t_left _ HT)]. intros Hx. by apply F1.
  - intros x a [[-> ->]|[_ Ha]]%K; [|by apply (t_down _ HT)]. intros Hx. by apply F2.
  - intros x a [[-> ->]|[_ Ha]]%K; [|by apply (t_up _ HT)]. intros Hx. by apply F2.
  - pose proof (t_root _ HT) as Hr. unfold fld in *. destruct (decide (root = p)) as [<-|Hx]; [|by rewrite lookup_insert_ne].
    rewrite lookup_insert. cbn. rewrite F3 by done. by rewrite Hn in Hr.
  - intros x Hx Hhx. destruct (t_mates _ HT x Hx Hhx) as [M1 M2].
    assert (forall y, y = x \/ y ∈ mates x -> fld n_right (<[p := f n]> h) y = fld n_right h y /\ fld n_left (<[p := f n]> h) y = fld n_left h y) as K2.
    { intros y Hy. assert (D y /\ hd y <> null) as [Hy1 Hy2].
      { destruct Hy as [->|Hy]; [done|]. by destruct (fr_mates HF x y Hx Hhx Hy) as (?&?&_). }
      unfold fld. destruct (decide (y = p)) as [->|Hne]; [|by rewrite lookup_insert_ne].
      rewrite lookup_insert, Hn. cbn. destruct (F4 Hy2 Hy1) as [-> ->]. done. }
    split; (eapply fwd_frame; [|done]); intros y [->|Hy]%elem_of_cons; try (apply K2; by auto).
    apply K2. right. by rewrite <-elem_of_reverse, <-rev_alt in Hy || (apply elem_of_list_In, in_rev, elem_of_list_In; exact Hy).
Qed.

(** ** Single operations *)
Lemma column_top x : hd x = null -> column x = x.
Proof. intros H. unfold column. by rewrite decide_True. Qed.
Lemma column_node x : hd x <> null -> column x = hd x.
Proof. intros H. unfold column. by rewrite decide_False. Qed.
Lemma column_D x : D x -> D (column x) /\ hd (column x) = null.
Proof.
  intros Hx. destruct (decide (hd x = null)) as [H|H]; [by rewrite column_top|]. rewrite column_node by done. by apply (fr_hd HF).
Qed.
Lemma top_live x : top x -> x = root \/ D x.
Proof. intros [->|[? _]]; auto. Qed.
Lemma top_node x : top x -> hd x <> null -> D x -> False.
Proof. intros [->|[_ H]] Hh Hx; [by apply (fr_root HF)|done]. Qed.
Lemma link_right x y h : Tame h -> hle x y -> safe (fun _ => False) Tame (modify (set_right y) x h).
Proof.
  intros HT H. pose proof H as (Hx&_&_). apply tame_store; [done|by apply top_live|done|]. intros n Hn. cbn.
  split; [|split; [|split]]; [intros _|intros Hr| |]; [|split|done|intros A B; by destruct (top_node x)].
  - split; [done|]. by apply (t_left _ HT).
  - by apply (t_down _ HT).
  - by apply (t_up _ HT).
Qed.
Lemma link_left x y h : Tame h -> hle x y -> safe (fun _ => False) Tame (modify (set_left x) y h).
Proof.
  intros HT H. pose proof H as (_&Hx&_). apply tame_store; [done|by apply top_live|done|]. intros n Hn. cbn.
  split; [|split; [|split]]; [intros _|intros Hr| |]; [|split|done|intros A B; by destruct (top_node y)].
  - split; [|done]. by apply (t_right _ HT).
  - by apply (t_down _ HT).
  - by apply (t_up _ HT).
Qed.
Lemma link_down x y h : Tame h -> vle x y -> safe (fun _ => False) Tame (modify (set_down y) x h).
Proof.
  intros HT H. pose proof H as (Hx&_&_). apply tame_store; [done|by auto|done|]. intros n Hn. cbn.
  split; [|split; [|split]]; [intros Ht|intros Hr| |]; [split|split|intros ->; by destruct (fr_root HF)|done].
  - by apply (t_right _ HT).
  - by apply (t_left _ HT).
  - done.
  - by apply (t_up _ HT).
Qed.
Lemma link_up x y h : Tame h -> vle x y -> safe (fun _ => False) Tame (modify (set_up x) y h).
Proof.
  intros HT H. pose proof H as (_&Hx&_). apply tame_store; [done|by auto|done|]. intros n Hn. cbn.
  split; [|split; [|split]]; [intros Ht|intros Hr| |]; [split|split|done|done].
  - by apply (t_right _ HT).
  - by apply (t_left _ HT).
  - by apply (t_down _ HT).
  - done.
Qed.
Lemma tame_row k x h : Tame h -> D x -> safe (fun _ => False) Tame (modify (set_row k) x h).
Proof.
  intros HT Hx. apply tame_store; [done|by auto|done|]. intros n Hn. cbn.
  split; [|split; [|split]]; [intros Ht|intros Hr|done|done]; split.
  - by apply (t_right _ HT).
  - by apply (t_left _ HT).
  - by apply (t_down _ HT).
  - by apply (t_up _ HT).
Qed.
Lemma safe_load E (P : node -> Prop) h x : Tame h -> x = root \/ D x -> (forall n, h !! x = Some n -> P n) -> safe E P (load h x).
Proof. intros HT Hx HP. destruct (tame_live h x HT Hx) as [n Hn]. unfold load. rewrite Hn. cbn. auto. Qed.

Lemma cover_horizontal_safe x h : Tame h -> D x -> hd x = null -> safe (fun _ => False) Tame (cover_horizontal x h).
Proof.
  intros HT Hx Hh. unfold cover_horizontal. eapply safe_bind; [by apply (safe_load _ (fun n => h !! x = Some n)); auto|].
  cbn beta. intros n Hn. assert (top x) as Ht by (by right). pose proof (t_right _ HT x n Hn Ht) as H1. pose proof (t_left _ HT x n Hn Ht) as H2.
  pose proof (hle_trans _ _ _ (D_root x Hx) H2 H1) as H3.
  eapply safe_bind; [by apply link_right|]. intros h' HT'. by apply link_left.
Qed.
Lemma uncover_horizontal_safe x h : Tame h -> D x -> hd x = null -> safe (fun _ => False) Tame (uncover_horizontal x h).
Proof.
  intros HT Hx Hh. unfold uncover_horizontal. eapply safe_bind; [by apply (safe_load _ (fun n => h !! x = Some n)); auto|].
  cbn beta. intros n Hn. assert (top x) as Ht by (by right). pose proof (t_right _ HT x n Hn Ht) as H1. pose proof (t_left _ HT x n Hn Ht) as H2.
  eapply safe_bind; [by apply link_right|]. intros h' HT'. by apply link_left.
Qed.
Lemma cover_vertical_safe x h : Tame h -> D x -> hd x <> null -> safe (fun _ => False) Tame (cover_vertical x h).
Proof.
  intros HT Hx Hh. unfold cover_vertical. eapply safe_bind; [by apply (safe_load _ (fun n => h !! x = Some n)); auto|].
  cbn beta. intros n Hn. pose proof (D_root x Hx) as Hr. pose proof (t_down _ HT x n Hn Hr) as H1. pose proof (t_up _ HT x n Hn Hr) as H2.
  pose proof (vle_trans _ _ _ Hh H2 H1) as H3.
  eapply safe_bind; [by apply link_down|]. intros h' HT'. by apply link_up.
Qed.
Lemma uncover_vertical_safe x h : Tame h -> D x -> safe (fun _ => False) Tame (uncover_vertical x h).
Proof.
  intros HT Hx. unfold uncover_vertical. eapply safe_bind; [by apply (safe_load _ (fun n => h !! x = Some n)); auto|].
  cbn beta. intros n Hn. pose proof (D_root x Hx) as Hr. pose proof (t_down _ HT x n Hn Hr) as H1. pose proof (t_up _ HT x n Hn Hr) as H2.
  eapply safe_bind; [by apply link_down|]. intros h' HT'. by apply link_up.
Qed.
Lemma unhide_safe x h : Tame h -> D x -> hd x <> null -> safe (fun _ => False) Tame (unhide x h).
Proof.
  intros HT Hx Hh. destruct (fr_hd HF x Hx Hh) as [Hc _]. unfold unhide, inc_size.
  eapply (safe_bind _ Tame); [|intros h' HT'; by apply uncover_vertical_safe].
  eapply safe_bind; [by apply (safe_load _ (fun n => h !! x = Some n)); auto|]. cbn beta. intros n Hn.
  rewrite (t_hd _ HT x n Hn (D_root x Hx)).
  eapply safe_bind; [by apply (safe_load _ (fun _ => True)); auto|]. intros n2 _. by apply tame_row.
Qed.
Lemma to_header_safe x h : Tame h -> D x -> to_header h x = Ret (column x).
Proof.
  intros HT Hx. destruct (tame_live h x HT) as [n Hn]; [auto|]. unfold to_header, load. rewrite Hn. cbn [bind].
  rewrite (t_hd _ HT x n Hn (D_root x Hx)). unfold column. by destruct (decide _).
Qed.

(** ** [drop] *)
Lemma drop_down h c : Tame h -> D c -> hd c = null ->
  forall f x h', x = null \/ D x /\ hd x = c /\ fuel - rk x <= f -> 
  (x <> null -> forall y, D y -> hd y = c -> rk x <= rk y -> h' !! y = h !! y) ->
  exists h'', for_from f id n_down c x (fun x h => let! h := dealloc x h in Ret (h, false)) h' = Ret (h'', false) /\
    forall y, D y -> column y <> c -> h'' !! y = h' !! y.
Proof.
  intros HT Hc Hhc. induction f as [|f IH]; intros x h' Hx Hy; cbn [for_from];
    (destruct (decide (x = null)) as [->|Hne]; [by exists h'|]); destruct Hx as [?|(Hx&Hh&Hf)]; try done.
  { pose proof (fr_rk HF x Hx). lia. }
  specialize (Hy Hne). destruct (tame_live h x HT) as [n Hn]; [auto|]. unfold load, dealloc. cbn [id].
  rewrite (Hy x Hx Hh ltac:(lia)), Hn. cbn [bind].
  assert (hd x <> null) as Hhx. { rewrite Hh. intros ->. by apply (fr_null HF). }
  pose proof (t_down _ HT x n Hn (D_root x Hx)) as (_&Hd&Hcol&Hrk).
  rewrite (column_node x Hhx), Hh in Hcol.
  destruct (decide (n_down n = c)) as [E|E].
  - destruct (IH null (delete x h')) as (h''&H1&H2); [by left|done|]. exists h''. split; [done|].
    intros y Hy1 Hy2. rewrite H2 by done. apply lookup_delete_ne. intros ->. by rewrite column_node in Hy2.
  - assert (hd (n_down n) = c) as Hhn.
    { unfold column in Hcol. destruct (decide (hd (n_down n) = null)); congruence. }
    assert (rk x < rk (n_down n)) as Hlt.
    { destruct Hrk as [?|[Hz|?]]; [done| |done]. rewrite Hz in Hhn. subst c. by destruct (fr_null HF). }
    destruct (IH (n_down n) (delete x h')) as (h''&H1&H2).
    + right. split; [done|]. split; [done|]. pose proof (fr_rk HF _ Hd). lia.
    + intros _ y Hy1 Hy2 Hy3. rewrite lookup_delete_ne by (intros ->; lia). apply Hy; [done|done|lia].
    + exists h''. split; [done|]. intros y Hy1 Hy2. rewrite H2 by done. apply lookup_delete_ne. intros ->. by rewrite column_node in Hy2.
Qed.
Lemma drop_column_tame h c h' : Tame h -> D c -> hd c = null -> (forall y, D y -> column y = c -> h' !! y = h !! y) ->
  exists h'', drop_column fuel c h' = Ret h'' /\ forall y, D y -> column y <> c -> h'' !! y = h' !! y.
Proof.
  intros HT Hc Hhc Hy. destruct (tame_live h c HT) as [n Hn]; [auto|]. unfold drop_column, load.
  assert (h' !! c = Some n) as Hn'. { rewrite Hy; [done|done|by apply column_top]. }
  rewrite Hn'. cbn [bind]. unfold dealloc at 1. rewrite Hn'. cbn [bind]. pose proof (t_down _ HT c n Hn (D_root c Hc)) as (_&Hd&Hcol&_). rewrite (column_top c Hhc) in Hcol.
  destruct (drop_down h c HT Hc Hhc fuel (if decide (n_down n = c) then null else n_down n) (delete c h')) as (h''&H1&H2).
  - destruct (decide (n_down n = c)) as [E|E]; [by left|]. right. split; [done|]. split; [|lia].
    unfold column in Hcol. destruct (decide (hd (n_down n) = null)); congruence.
  - intros _ y Hy1 Hy2 _. assert (hd y <> null) as Hhy. { rewrite Hy2. intros ->. by apply (fr_null HF). }
    rewrite lookup_delete_ne by (intros ->; congruence). apply Hy; [done|]. by rewrite column_node.
  - rewrite H1. cbn [bind]. exists h''. split; [done|]. intros y Hy1 Hy2. rewrite H2 by done. apply lookup_delete_ne.
    intros ->. by rewrite column_top in Hy2.
Qed.
Lemma drop_tame h : Tame h -> exists h', matrix_drop fuel root h = Ret h'.
Proof.
  intros HT. destruct (tame_live h root HT) as [n Hn]; [auto|]. unfold matrix_drop, load. rewrite Hn. cbn [bind].
  unfold drop_column at 1. unfold load, dealloc. rewrite Hn. cbn [bind].
  pose proof (t_root _ HT) as Hr. unfold fld in Hr. rewrite Hn in Hr. cbn in Hr. injection Hr as Hr. rewrite decide_True by done.
  assert (forall f o h b, for_from f (@id heap) n_down o null b h = Ret (h, false)) as -> by (by intros []).
  cbn [bind].
  enough (forall f x h', x = null \/ D x /\ hd x = null /\ fuel - rk x <= f ->
    (x <> null -> forall y, D y -> rk x <= rk (column y) -> h' !! y = h !! y) ->
    exists h'', for_from f id n_right root x (fun x h => let! h := drop_column fuel x h in Ret (h, false)) h' = Ret (h'', false)) as H.
  { destruct (H fuel (if decide (n_right n = root) then null else n_right n) (delete root h)) as [h'' H1].
    - destruct (decide (n_right n = root)) as [E|E]; [by left|]. right.
      pose proof (t_right _ HT root n Hn (or_introl eq_refl)) as (_&[?|[Ht1 Ht2]]&_); [done|]. split; [done|]. split; [done|lia].
    - intros _ y Hy _. apply lookup_delete_ne. intros <-. by apply (fr_root HF).
    - rewrite H1. cbn [bind]. eauto. }
  clear n Hn Hr. induction f as [|f IH]; intros x h' Hx Hy; cbn [for_from];
    (destruct (decide (x = null)) as [->|Hne]; [by eexists|]); destruct Hx as [?|(Hx&Hh&Hf)]; try done.
  { pose proof (fr_rk HF x Hx). lia. }
  specialize (Hy Hne). destruct (tame_live h x HT) as [n Hn]; [auto|]. unfold load. cbn [id].
  rewrite (Hy x Hx), Hn by (by rewrite column_top). cbn [bind].
  destruct (drop_column_tame h x h' HT Hx Hh) as (h''&H1&H2).
  { intros y Hy1 <-. apply Hy; [done|lia]. }
  rewrite H1. cbn [bind]. apply IH.
  - destruct (decide (n_right n = root)) as [E|E]; [by left|]. right.
    pose proof (t_right _ HT x n Hn (or_intror (conj Hx Hh))) as (_&[?|[Ht1 Ht2]]&Hrk); [done|]. split; [done|]. split; [done|].
    pose proof (fr_rk HF _ Ht1). destruct Hrk as [->|[?|?]]; [by destruct (fr_root HF)|done|lia].
  - intros Hnn y Hy1 Hy2.
    destruct (decide (n_right n = root)) as [E|E]; [done|].
    pose proof (t_right _ HT x n Hn (or_intror (conj Hx Hh))) as (_&[?|[Ht1 Ht2]]&Hrk); [done|].
    assert (rk x < rk (n_right n)) as Hlt. { destruct Hrk as [->|[?|?]]; [by destruct (fr_root HF)|done|lia]. }
    rewrite H2; [apply Hy; [done|lia]|done|intros <-; lia].
Qed.

(** ** Columns *)
Lemma hide_safe x h : Tame h -> D x -> hd x <> null -> safe (fun f => f = Panic) Tame (DlxUnwind.hide fuel root x h).
Proof.
  intros HT Hx Hh. destruct (fr_hd HF x Hx Hh) as [Hc _]. unfold DlxUnwind.hide.
  eapply (safe_bind _ Tame); [eapply safe_mono; [by apply cover_vertical_safe|done|done]|]. clear h HT. intros h HT.
  eapply safe_bind; [by apply (safe_load _ (fun n => h !! x = Some n)); auto|]. cbn beta. intros n Hn.
  rewrite (t_hd _ HT x n Hn (D_root x Hx)).
  eapply safe_bind; [by apply (safe_load _ (fun _ => True)); auto|]. intros n2 _. destruct (n_row n2) as [|k].
  - destruct (drop_tame h HT) as [h' ->]. done.
  - eapply safe_mono; [by apply tame_row|done|done].
Qed.
Lemma caught_hide_safe x h : Tame h -> D x -> hd x <> null -> safe (fun _ => False) (fun a => Tame a.1) (DlxCaught.hide x h).
Proof.
  intros HT Hx Hh. destruct (fr_hd HF x Hx Hh) as [Hc _]. unfold DlxCaught.hide.
  eapply (safe_bind _ Tame); [by apply cover_vertical_safe|]. clear h HT. intros h HT.
  eapply safe_bind; [by apply (safe_load _ (fun n => h !! x = Some n)); auto|]. cbn beta. intros n Hn.
  rewrite (t_hd _ HT x n Hn (D_root x Hx)).
  eapply safe_bind; [by apply (safe_load _ (fun _ => True)); auto|]. intros n2 _. destruct (n_row n2) as [|k]; [done|].
  eapply safe_bind; [by apply tame_row|done].
Qed.

(** A loop over the other nodes of a row. *)
Lemma row_loop E (Q : heap -> Prop) body x h : Tame h -> D x -> hd x <> null ->
  (forall y h, Tame h -> D y -> hd y <> null -> safe E (fun a => if a.2 : bool then Q a.1 else Tame a.1) (body y h)) ->
  safe E (fun a => if a.2 : bool then Q a.1 else Tame a.1) (for_skip1 fuel id n_right x body h) /\
  safe E (fun a => if a.2 : bool then Q a.1 else Tame a.1) (for_skip1 fuel id n_left x body h).
Proof.
  intros HT Hx Hh Hb.
  assert (null ∉ mates x) as H1. { intros H. destruct (fr_mates HF x null Hx Hh H) as [? _]. by apply (fr_null HF). }
  assert (x ∉ mates x) as H2. { intros H. by destruct (fr_mates HF x x Hx Hh H) as (_&_&?). }
  assert (forall y, y ∈ rev (mates x) <-> y ∈ mates x) as Hrev.
  { intros y. rewrite !elem_of_list_In. symmetry. apply in_rev. }
  split.
  - apply (ring_safe E id n_right x body Tame Q (mates x)); [done|done|by apply (fr_len HF)| | |done].
    + intros s Hs. by apply (t_mates _ Hs).
    + intros y s Hs Hy. destruct (fr_mates HF x y Hx Hh Hy) as (?&?&_). by apply Hb.
  - apply (ring_safe E id n_left x body Tame Q (rev (mates x))); [by rewrite Hrev|by rewrite Hrev| | | |done].
    + rewrite rev_length. by apply (fr_len HF).
    + intros s Hs. by apply (t_mates _ Hs).
    + intros y s Hs Hy%Hrev. destruct (fr_mates HF x y Hx Hh Hy) as (?&?&_). by apply Hb.
Qed.
(** A loop over the nodes of a column. *)
Lemma col_loop {St} (heap_of : St -> heap) E (Q I : St -> Prop) body c s : D c -> hd c = null -> I s -> (forall s, I s -> Tame (heap_of s)) ->
  (forall y s, I s -> D y -> hd y = c -> safe E (fun a => if a.2 : bool then Q a.1 else I a.1) (body y s)) ->
  safe E (fun a => if a.2 : bool then Q a.1 else I a.1) (for_skip1 fuel heap_of n_down c body s) /\
  safe E (fun a => if a.2 : bool then Q a.1 else I a.1) (for_skip1 fuel heap_of n_up c body s).
Proof.
  intros Hc Hhc HI HT Hb.
  assert (c <> null) as Hcn by (intros ->; by apply (fr_null HF)).
  assert (forall y, column y = c -> y <> c -> hd y = c) as Hcol.
  { intros y. unfold column. destruct (decide (hd y = null)); congruence. }
  split.
  - apply (skip1_safe E heap_of n_down c body I Q (fun x => D x /\ hd x = c) (fun x => fuel - S (rk x))).
    + intros [H _]. by apply (fr_null HF).
    + intros x [Hx _]. pose proof (fr_rk HF x Hx). lia.
    + destruct (tame_live (heap_of s) c (HT s HI)) as [n Hn]; [auto|]. exists n. split; [done|].
      pose proof (t_down _ (HT s HI) c n Hn (D_root c Hc)) as (_&H2&H3&_). rewrite column_top in H3 by done.
      destruct (decide (n_down n = c)); [by left|]. right. auto.
    + intros x s' Hs' [Hx1 Hx2]. destruct (tame_live (heap_of s') x (HT s' Hs')) as [n Hn]; [auto|]. exists n. split; [done|].
      pose proof (t_down _ (HT s' Hs') x n Hn (D_root x Hx1)) as (_&H2&H3&H4). rewrite column_node, Hx2 in H3 by congruence.
      destruct (decide (n_down n = c)); [by left|]. right. assert (hd (n_down n) = c) as Hd by (by apply Hcol). split; [done|].
      pose proof (fr_rk HF _ H2). destruct H4 as [?|[?|?]]; [congruence|congruence|lia].
    + intros y s' Hs' [Hy1 Hy2]. by apply Hb.
    + done.
  - apply (skip1_safe E heap_of n_up c body I Q (fun x => D x /\ hd x = c) rk).
    + intros [H _]. by apply (fr_null HF).
    + intros x [Hx _]. by apply (fr_rk HF).
    + destruct (tame_live (heap_of s) c (HT s HI)) as [n Hn]; [auto|]. exists n. split; [done|].
      pose proof (t_up _ (HT s HI) c n Hn (D_root c Hc)) as (H2&_&H3&_). rewrite (column_top c) in H3 by done.
      destruct (decide (n_up n = c)); [by left|]. right. auto.
    + intros x s' Hs' [Hx1 Hx2]. destruct (tame_live (heap_of s') x (HT s' Hs')) as [n Hn]; [auto|]. exists n. split; [done|].
      pose proof (t_up _ (HT s' Hs') x n Hn (D_root x Hx1)) as (H2&_&H3&H4). rewrite (column_node x), Hx2 in H3 by congruence.
      destruct (decide (n_up n = c)); [by left|]. right. assert (hd (n_up n) = c) as Hd by (by apply Hcol). split; [done|].
      destruct H4 as [?|[?|?]]; [congruence|congruence|lia].
    + intros y s' Hs' [Hy1 Hy2]. by apply Hb.
    + done.
Qed.

Lemma row_heap E body x h : Tame h -> D x -> hd x <> null ->
  (forall y h, Tame h -> D y -> hd y <> null -> safe E Tame (body y h)) ->
  safe E Tame (heap_loop fuel n_right x body h) /\ safe E Tame (heap_loop fuel n_left x body h).
Proof.
  intros HT Hx Hh Hb.
  destruct (row_loop E (fun _ => False) (fun x h => let! h := body x h in Ret (h, false)) x h HT Hx Hh) as [H1 H2].
  { intros y h' HT' Hy Hhy. eapply safe_bind; [by apply Hb|]. done. }
  split; by apply loop_of_skip1.
Qed.
Lemma cover_column_safe x h : Tame h -> D x -> safe (fun f => f = Panic) Tame (DlxUnwind.cover_column fuel root x h).
Proof.
  intros HT Hx. destruct (column_D x Hx) as [Hc Hhc]. unfold DlxUnwind.cover_column. rewrite to_header_safe by done. cbn [bind].
  eapply (safe_bind _ Tame); [eapply safe_mono; [by apply cover_horizontal_safe|done|done]|]. clear h HT. intros h HT.
  apply loop_of_skip1. eapply (col_loop id _ (fun _ => False) Tame); [done|done|done|done|].
  intros y h' HT' Hy Hhy. eapply (safe_bind _ Tame); [|done].
  assert (hd y <> null). { rewrite Hhy. intros E. apply (fr_null HF). by rewrite <-E. }
  apply row_heap; [done..|]. intros z h2 ???. by apply hide_safe.
Qed.
Lemma caught_cover_safe x h : Tame h -> D x -> safe (fun _ => False) (fun a => Tame a.1) (DlxCaught.cover_column fuel x h).
Proof.
  intros HT Hx. destruct (column_D x Hx) as [Hc Hhc]. unfold DlxCaught.cover_column. rewrite to_header_safe by done. cbn [bind].
  eapply (safe_bind _ Tame); [by apply cover_horizontal_safe|]. clear h HT. intros h HT.
  eapply safe_mono; [eapply (col_loop id (fun _ => False) Tame Tame); [done|done|done|done|]|done|by intros [? []]].
  intros y h' HT' Hy Hhy.
  assert (hd y <> null). { rewrite Hhy. intros E. apply (fr_null HF). by rewrite <-E. }
  apply (row_loop (fun _ => False) Tame); [done..|]. intros z h2 ???. eapply safe_mono; [by apply caught_hide_safe|done|]. by intros [? []].
Qed.
Lemma uncover_column_safe x h : Tame h -> D x -> safe (fun _ => False) Tame (uncover_column fuel x h).
Proof.
  intros HT Hx. destruct (column_D x Hx) as [Hc Hhc]. unfold uncover_column. rewrite to_header_safe by done. cbn [bind].
  eapply (safe_bind _ Tame); [|intros h' HT'; by apply uncover_horizontal_safe].
  apply loop_of_skip1. eapply (col_loop id _ (fun _ => False) Tame); [done|done|done|done|].
  intros y h' HT' Hy Hhy. eapply (safe_bind _ Tame); [|done].
  assert (hd y <> null). { rewrite Hhy. intros E. apply (fr_null HF). by rewrite <-E. }
  apply row_heap; [done..|]. intros z h2 ???. by apply unhide_safe.
Qed.
Lemma walk_safe steps : forall h, Tame h -> Forall (fun s => D (walk_target s)) steps -> safe (fun f => f = Panic) Tame (walk fuel root steps h).
Proof.
  induction steps as [|[p|p] steps IH]; intros h HT Hs; [done| |]; apply Forall_cons in Hs as [Hp Hs]; cbn [walk walk_target] in *.
  - eapply safe_bind; [by apply cover_column_safe|]. auto.
  - eapply (safe_bind _ Tame); [eapply safe_mono; [by apply uncover_column_safe|done|done]|]. auto.
Qed.

(** ** The search *)
Lemma choose_column_safe h : Tame h -> safe (fun f => f <> UB) (fun c => D c /\ hd c = null) (choose_column fuel root h).
Proof.
  intros HT. unfold choose_column.
  eapply (safe_bind _ (fun a : heap * option (ptr * nat) * bool => forall c k, a.1.2 = Some (c, k) -> D c /\ hd c = null)).
  - set (I := fun s : heap * option (ptr * nat) => s.1 = h /\ forall c k, s.2 = Some (c, k) -> D c /\ hd c = null).
    eapply safe_mono; [eapply (skip1_safe (fun f => f <> UB) fst n_right root _ I I (fun x => D x /\ hd x = null) (fun x => fuel - S (rk x)))| |].
    + intros [H _]. by apply (fr_null HF).
    + intros x [Hx _]. pose proof (fr_rk HF x Hx). lia.
    + destruct (tame_live h root HT) as [n Hn]; [auto|]. exists n. split; [done|].
      pose proof (t_right _ HT root n Hn (or_introl eq_refl)) as (_&[?|?]&_); auto.
    + intros x s [-> _] [Hx Hh]. destruct (tame_live h x HT) as [n Hn]; [auto|]. exists n. split; [done|].
      pose proof (t_right _ HT x n Hn (or_intror (conj Hx Hh))) as (_&Ht&Hr). destruct (decide (n_right n = root)) as [|E]; [by left|]. right.
      destruct Ht as [?|[H1 H2]]; [done|]. split; [done|]. pose proof (fr_rk HF _ H1).
      destruct Hr as [->|[?|?]]; [by destruct (fr_root HF)|done|lia].
    + intros x [h' best] [Eh Hb] [Hx Hh]. cbn in Eh, Hb. subst h'.
      eapply safe_bind; [by apply (safe_load _ (fun _ => True)); auto|]. intros nx _.
      assert (forall a b : ptr * nat, Some (x, n_row nx) = Some a -> D a.1 /\ hd a.1 = null) as Hnew by (by intros a _ [= <-]).
      destruct best as [[c k]|].
      * destruct (decide _); (split; [done|]); [by intros ?? [= <- <-]|done].
      * split; [done|]. by intros ?? [= <- <-].
    + by split.
    + done.
    + intros [s []] [_ H]; exact H.
  - intros [[h' best] b] H. cbn in *. destruct best as [[c k]|]; cbn; [by eapply H|done].
Qed.
Lemma look_for_safe depth : forall h partial, Tame h ->
  safe (fun f => f <> UB) (fun a => Tame a.1.1) (look_for fuel depth root h partial).
Proof.
  induction depth as [|depth IH]; intros h partial HT; cbn [look_for]; [done|].
  eapply safe_bind; [unfold is_empty; eapply (safe_bind _ (fun _ => True)); [by apply safe_load; auto|]; intros n _; by instantiate (1 := fun _ => True)|].
  intros [] _; [done|].
  eapply safe_bind; [by apply choose_column_safe|]. intros c [Hc Hhc]. cbn beta.
  eapply (safe_bind _ Tame); [eapply safe_mono; [by apply cover_column_safe|by intros ? ->|done]|]. clear h HT. intros h HT.
  set (I := fun s : heap * list nat => Tame s.1).
  eapply (safe_bind _ (fun a => I a.1)).
  - eapply safe_mono; [eapply (col_loop fst (fun f => f <> UB) I I); [done|done|done|done|]|done|by intros [? []]].
    intros y [h' part] HT' Hy Hhy. unfold I in HT'. cbn in HT'.
    assert (hd y <> null). { rewrite Hhy. intros E. apply (fr_null HF). by rewrite <-E. }
    eapply safe_bind; [by apply (safe_load _ (fun _ => True)); auto|]. intros n _.
    eapply (safe_bind _ Tame).
    { apply row_heap; [done..|]. intros z h2 ???. eapply safe_mono; [by apply cover_column_safe|by intros ? ->|done]. }
    clear h' HT'. intros h' HT'. eapply safe_bind; [by apply IH|]. intros [[h2 part2] ok] HT2. cbn in HT2. destruct ok; [done|].
    eapply (safe_bind _ Tame); [|done].
    apply row_heap; [done..|]. intros z h3 ???. eapply safe_mono; [by apply uncover_column_safe|done|done].
  - intros [[h' part] found] HT'. unfold I in HT'. cbn in HT'. destruct found; [done|].
    eapply (safe_bind _ Tame); [|done]. eapply safe_mono; [by apply uncover_column_safe|done|done].
Qed.
End tame.

(** Until an answer is found the search frees nothing. *)
Definition found {A} (x : res (A * bool)) : Prop := match x with Ret (_, true) => True | _ => False end.
Lemma from_same {S} (heap_of : S -> heap) dir o (b1 b2 : ptr -> S -> res (S * bool)) :
  (forall x s, found (b1 x s) \/ b2 x s = b1 x s) ->
  forall fuel cur s, found (for_from fuel heap_of dir o cur b1 s) \/ for_from fuel heap_of dir o cur b2 s = for_from fuel heap_of dir o cur b1 s.
Proof.
  intros Hb. induction fuel as [|fuel IH]; intros cur s; cbn [for_from]; (destruct (decide (cur = null)); [by right|]); [by right|].
  destruct (load (heap_of s) cur) as [nx|f]; cbn [bind]; [|by right].
  destruct (Hb cur s) as [H| ->].
  - left. destruct (b1 cur s) as [[? []]|]; done.
  - destruct (b1 cur s) as [[s' []]|f]; cbn [bind]; [by left|apply IH|by right].
Qed.
Lemma look_for_same fuel root depth : forall h partial,
  found (look_for fuel depth root h partial) \/ DlxUnwind.solve_helper fuel depth root h partial = look_for fuel depth root h partial.
Proof.
  induction depth as [|depth IH]; intros h partial; cbn [look_for DlxUnwind.solve_helper]; [by right|].
  destruct (is_empty root h) as [[]|f]; cbn [bind]; [by left| |by right].
  destruct (choose_column fuel root h) as [c|f]; cbn [bind]; [|by right].
  destruct (DlxUnwind.cover_column fuel root c h) as [h1|f]; cbn [bind]; [|by right].
  unfold for_skip1. cbn [fst]. destruct (load h1 c) as [n|f]; cbn [bind]; [|by right].
  set (b1 := fun (row : ptr) '(h, partial) =>
             let! n := load h row in
             let partial := partial ++ [n_row n] in
             let! h := heap_loop fuel n_right row (DlxUnwind.cover_column fuel root) h in
             let! (h, partial, ok) := look_for fuel depth root h partial in
             if ok : bool then Ret ((h, partial), true)
             else
               let! h := heap_loop fuel n_left row (uncover_column fuel) h in
               Ret ((h, take (length partial - 1) partial), false)).
  match goal with |- context [let! (_, _) := for_from _ _ _ _ _ ?b _ in _] => 
    lazymatch b with b1 => fail | _ => set (b2 := b) end end.
  pose proof (from_same fst n_down c b1 b2) as Hs.
  assert (forall x s, found (b1 x s) \/ b2 x s = b1 x s) as Hb.
  { intros x [h' part]. subst b1 b2. cbn beta iota.
    destruct (load h' x) as [nx|f]; cbn [bind]; [|by right].
    destruct (heap_loop fuel n_right x _ h') as [h2|f]; cbn [bind]; [|by right].
    destruct (IH h2 (part ++ [n_row nx])) as [H|H].
    - left. destruct (look_for _ _ _ _ _) as [[[? ?] []]|]; done.
    - rewrite H. destruct (look_for _ _ _ _ _) as [[[? ?] []]|f]; cbn [bind]; [by left|by right|by right]. }
  destruct (Hs Hb fuel (if decide (n_down n = c) then null else n_down n) (h1, partial)) as [H|H].
  - left. destruct (for_from _ _ _ _ _ b1 _) as [[? []]|]; done.
  - rewrite H. by right.
Qed.
Lemma solve_or_look_for fuel (D : ptr -> Prop) hd rk mates (m : matrix) : Frame (d_root m) fuel D hd rk mates -> Tame (d_root m) D hd rk mates (d_heap m) ->
  (exists h partial, look_for fuel fuel (d_root m) (d_heap m) (d_partial m) = Ret (h, partial, true)) \/
  (exists h, DlxUnwind.solve fuel m = Ret (Err DlxNoSolution, h)) \/ DlxUnwind.solve fuel m = Fault Panic \/ DlxUnwind.solve fuel m = Fault OutOfFuel.
Proof.
  intros HF HT. unfold DlxUnwind.solve.
  pose proof (look_for_safe (d_root m) fuel D hd rk mates HF fuel (d_heap m) (d_partial m) HT) as HS.
  destruct (look_for_same fuel (d_root m) fuel (d_heap m) (d_partial m)) as [Hf| ->].
  - left. destruct (look_for _ _ _ _ _) as [[[h part] []]|]; try done. eauto.
  - destruct (look_for _ _ _ _ _) as [[[h part] []]|[]]; cbn in HS |- *; auto; [eauto| |done].
    destruct (drop_tame (d_root m) fuel D hd rk mates HF h HS) as [h' ->]. cbn. eauto.
Qed.
