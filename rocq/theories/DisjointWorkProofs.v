(** Proofs for C115: the amortised cost of the disjoint set (the argument of
    Hopcroft and Ullman, with ranks kept beside the code). *)
From Verif Require Import Base DisjointSet MazeFind SpecDisjointSet SpecDisjointWork DisjointSetProofs.

(** * Sums *)
Fixpoint sum_to (n : nat) (f : nat -> nat) : nat :=
  match n with 0 => 0 | S n => f n + sum_to n f end.
Lemma sum_le n f g : (forall x, x < n -> f x <= g x) -> sum_to n f <= sum_to n g.
Proof. induction n as [|n IH]; intros H; cbn; [lia|]. pose proof (H n ltac:(lia)). specialize (IH ltac:(intros; apply H; lia)). lia. Qed.
Lemma sum_ext n f g : (forall x, x < n -> f x = g x) -> sum_to n f = sum_to n g.
Proof. induction n as [|n IH]; intros H; cbn; [lia|]. rewrite (H n) by lia. rewrite IH; [done|]. intros; apply H; lia. Qed.
Lemma sum_plus n f g : sum_to n (fun x => f x + g x) = sum_to n f + sum_to n g.
Proof. induction n as [|n IH]; cbn; lia. Qed.
Lemma sum_const n c : sum_to n (fun _ => c) = n * c.
Proof. induction n as [|n IH]; cbn; lia. Qed.
Lemma sum_point n s c : s < n -> sum_to n (fun x => if decide (x = s) then c else 0) = c.
Proof.
  induction n as [|n IH]; intros H; cbn; [lia|]. destruct (decide (n = s)) as [->|Hn].
  - assert (sum_to s (fun x => if decide (x = s) then c else 0) = 0); [|lia].
    transitivity (sum_to s (fun _ => 0)); [|rewrite sum_const; lia]. apply sum_ext. intros x Hx. rewrite decide_False by lia. done.
  - apply IH. lia.
Qed.
Lemma sum_one n s f g : s < n -> (forall x, x <> s -> f x = g x) -> sum_to n f + g s = sum_to n g + f s.
Proof.
  intros Hs H. rewrite <-(sum_point n s (f s) Hs), <-(sum_point n s (g s) Hs), <-!sum_plus.
  apply sum_ext. intros x _. destruct (decide (x = s)) as [->|Hx]; [lia|]. rewrite (H x Hx). lia.
Qed.
Lemma sum_two n s l f g : s < n -> l < n -> s <> l -> (forall x, x <> s -> x <> l -> f x = g x) ->
  sum_to n f + g s + g l = sum_to n g + f s + f l.
Proof.
  intros Hs Hl Hsl H.
  pose proof (sum_one n s f (fun x => if decide (x = s) then g s else f x) Hs) as H1. cbn in H1.
  rewrite decide_True in H1 by done. specialize (H1 ltac:(intros x Hx; by rewrite decide_False)).
  pose proof (sum_one n l (fun x => if decide (x = s) then g s else f x) g Hl) as H2. cbn in H2.
  rewrite decide_False in H2 by done.
  assert (forall x, x <> l -> (if decide (x = s) then g s else f x) = g x) as H3.
  { intros x Hx. destruct (decide (x = s)) as [->|Hxs]; [done|]. by apply H. }
  specialize (H2 H3). lia.
Qed.

(** * Levels *)
(** The first [j <= g] with [r < tower j]. *)
Fixpoint lev (g r : nat) : nat :=
  match g with
  | 0 => 0
  | S g => if r <? tower g then lev g r else S g
  end.
Lemma lev_le g r : lev g r <= g.
Proof. induction g as [|g IH]; cbn [lev]; [lia|]. destruct (Nat.ltb_spec r (tower g)); lia. Qed.
Lemma lev_top g r : r < tower g -> r < tower (lev g r).
Proof. induction g as [|g IH]; cbn [lev]; [done|]. destruct (Nat.ltb_spec r (tower g)) as [H|H]; [auto|done]. Qed.
Lemma lev_mono g r s : r <= s -> lev g r <= lev g s.
Proof.
  intros H. induction g as [|g IH]; cbn [lev]; [lia|].
  destruct (Nat.ltb_spec r (tower g)), (Nat.ltb_spec s (tower g)); try lia. pose proof (lev_le g r). lia.
Qed.
(** What a node may be charged, as a sum over the levels. *)
Fixpoint budget (g r : nat) : nat :=
  match g with
  | 0 => 1
  | S g => budget g r + (if tower g <=? r then 2 ^ tower g else 0)
  end.
Lemma lev_budget g r : tower (lev g r) <= budget g r.
Proof.
  induction g as [|g IH]; cbn [lev budget]; [done|].
  destruct (Nat.ltb_spec r (tower g)), (Nat.leb_spec (tower g) r); cbn [tower]; lia.
Qed.

(** * The ranks *)
Definition size_of (d : dset) (x : nat) : option nat :=
  match d !! x with Some (Element true v) => Some v | _ => None end.
Definition weight (d : dset) (x : nat) : nat := match size_of d x with Some v => v | None => 0 end.
(** Number of elements and of roots of rank [k] or more, and sizes of the latter. *)
Definition high (k : nat) (rk : nat -> nat) (x : nat) : nat := if k <=? rk x then 2 ^ k else 0.
Definition high_root (k : nat) (d : dset) (rk : nat -> nat) (x : nat) : nat :=
  match size_of d x with Some _ => if k <=? rk x then 2 ^ k else 0 | None => 0 end.
Definition high_size (k : nat) (d : dset) (rk : nat -> nat) (x : nat) : nat :=
  match size_of d x with Some v => if k <=? rk x then 2 * v else 0 | None => 0 end.
Record Ranked (d : dset) (rk : nat -> nat) : Prop := {
  rk_link x p : d !! x = Some (Element false p) -> p < length d /\ rk x < rk p;
  rk_size x v : d !! x = Some (Element true v) -> 2 ^ rk x <= v;
  rk_total : sum_to (length d) (weight d) <= length d;
  rk_count k : sum_to (length d) (high k rk) + sum_to (length d) (high_root k d rk) <= sum_to (length d) (high_size k d rk)
}.
Lemma size_of_root d x v : d !! x = Some (Element true v) -> size_of d x = Some v.
Proof. unfold size_of. by intros ->. Qed.
Lemma size_of_child d x p : d !! x = Some (Element false p) -> size_of d x = None.
Proof. unfold size_of. by intros ->. Qed.

Lemma ranked_high d rk k : Ranked d rk -> sum_to (length d) (high k rk) <= 2 * length d.
Proof.
  intros HR. pose proof (rk_count _ _ HR k) as H. pose proof (rk_total _ _ HR) as Ht.
  assert (sum_to (length d) (high_size k d rk) <= sum_to (length d) (weight d) + sum_to (length d) (weight d)).
  { rewrite <-sum_plus. apply sum_le. intros x _. unfold high_size, weight. destruct (size_of d x); [|lia]. destruct (_ <=? _); lia. }
  lia.
Qed.
Lemma ranked_budget g d rk : Ranked d rk -> sum_to (length d) (fun x => budget g (rk x)) <= length d * (2 * g + 1).
Proof.
  intros HR. induction g as [|g IH]; cbn [budget]; [rewrite sum_const; lia|].
  rewrite sum_plus. pose proof (ranked_high d rk (tower g) HR) as H. unfold high in H. lia.
Qed.
Lemma weight_le d rk x : Ranked d rk -> x < length d -> weight d x <= length d.
Proof.
  intros HR Hx. transitivity (sum_to (length d) (weight d)); [|apply (rk_total _ _ HR)].
  rewrite <-(sum_point (length d) x (weight d x) Hx) at 1. apply sum_le. intros y _. destruct (decide (y = x)) as [->|]; lia.
Qed.
Lemma root_rank g d rk x v : Ranked d rk -> length d < tower (S g) -> d !! x = Some (Element true v) -> rk x < tower g.
Proof.
  intros HR Hd Hx. pose proof (rk_size _ _ HR _ _ Hx) as H1.
  pose proof (weight_le d rk x HR (lookup_lt_Some _ _ _ Hx)) as H2. unfold weight in H2. rewrite (size_of_root _ _ _ Hx) in H2.
  cbn [tower] in Hd. apply (Nat.pow_lt_mono_r_iff 2); lia.
Qed.
Lemma rp_rank d rk k i r : Ranked d rk -> rp d k i r -> rk i + k <= rk r.
Proof. intros HR. induction 1 as [r v Hr|k i p r Hi Hp IH]; [lia|]. destruct (rk_link _ _ HR _ _ Hi). lia. Qed.

(** * What the links can still be charged *)
Definition left_over (g : nat) (d : dset) (rk : nat -> nat) (x : nat) : nat :=
  match d !! x with Some (Element false p) => tower (lev g (rk x)) - rk p | _ => 0 end.
Definition allowed (g : nat) (d : dset) (rk : nat -> nat) (x : nat) : nat :=
  match d !! x with Some (Element false p) => tower (lev g (rk x)) | _ => 0 end.

(** Path compression keeps the ranks. *)
Lemma ranked_same d d' rk : Ranked d rk -> length d' = length d -> (forall x, size_of d' x = size_of d x) ->
  (forall x p, d' !! x = Some (Element false p) -> p < length d /\ rk x < rk p) -> Ranked d' rk.
Proof.
  intros HR Hl Hs Hp. split.
  - rewrite Hl. done.
  - intros x v Hx. apply (rk_size _ _ HR). apply size_of_root in Hx. rewrite Hs in Hx. unfold size_of in Hx.
    destruct (d !! x) as [[[] ?]|]; [|done..]. by injection Hx as ->.
  - rewrite Hl. rewrite (sum_ext _ (weight d') (weight d)); [apply (rk_total _ _ HR)|]. intros x _. unfold weight. by rewrite Hs.
  - intros k. rewrite Hl. rewrite (sum_ext _ (high_root k d' rk) (high_root k d rk)), (sum_ext _ (high_size k d' rk) (high_size k d rk)).
    + apply (rk_count _ _ HR).
    + intros x _. unfold high_size. by rewrite Hs.
    + intros x _. unfold high_root. by rewrite Hs.
Qed.

(** * [find] *)
Lemma find_work g rk d k i r : Ranked d rk -> length d < tower (S g) -> rp d k i r -> forall fuel, k < fuel ->
  exists d' c, find_helper_calls fuel d i = Ret (r, d', S k) /\ Ranked d' rk /\ length d' = length d /\
    (forall x, size_of d' x = size_of d x) /\ (forall x, rk x < rk i -> d' !! x = d !! x) /\
    c + sum_to (length d) (left_over g d' rk) <= sum_to (length d) (left_over g d rk) /\
    sum_to (length d) (allowed g d' rk) = sum_to (length d) (allowed g d rk) /\
    k <= (lev g (rk r) - lev g (rk i)) + c + (if decide (k = 0) then 0 else 1).
Proof.
  intros HR Hlen. induction 1 as [r v Hr|k i p r Hi Hp IH]; intros [|fuel] Hf; try lia; cbn [find_helper_calls]; unfold vec_get.
  - rewrite Hr. cbn. exists d, 0. split_and!; try done. lia.
  - rewrite Hi. cbn [expect bind e_root e_value].
    destruct (IH fuel ltac:(lia)) as (d1&c&E&HR1&Hl1&Hs1&Hu1&Hc1&Ha1&Hk1). rewrite E. cbn [bind].
    destruct (rk_link _ _ HR _ _ Hi) as [Hpl Hip]. rewrite (Hu1 i Hip), Hi. cbn [expect bind e_root].
    pose proof (lookup_lt_Some _ _ _ Hi) as Hil.
    unfold vec_set. rewrite decide_True by lia. cbn [bind].
    pose proof (rp_rank _ _ _ _ _ HR Hp) as Hpr.
    destruct (rp_is_root _ _ _ _ Hp) as [v Hv]. pose proof (root_rank g _ _ _ _ HR Hlen Hv) as Htop.
    pose proof (lookup_lt_Some _ _ _ Hv) as Hrl.
    set (d' := <[i := Element false r]> d1).
    assert (d1 !! i = Some (Element false p)) as Hi1 by (by rewrite Hu1).
    assert (d' !! i = Some (Element false r)) as Hi' by (apply list_lookup_insert; lia).
    assert (forall x, x <> i -> d' !! x = d1 !! x) as Hu' by (intros x Hx; by apply list_lookup_insert_ne).
    assert (forall x, size_of d' x = size_of d1 x) as Hs'.
    { intros x. destruct (decide (x = i)) as [->|Hx]; [|unfold size_of; by rewrite Hu'].
      by rewrite (size_of_child _ _ _ Hi'), (size_of_child _ _ _ Hi1). }
    assert (length d' = length d1) as Hl' by apply insert_length.
    assert (Ranked d' rk) as HR'.
    { apply (ranked_same d1); [done..|]. intros x q Hq. destruct (decide (x = i)) as [->|Hx].
      - rewrite Hi' in Hq. injection Hq as <-. lia.
      - rewrite Hu' in Hq by done. by apply (rk_link _ _ HR1). }
    pose proof (sum_one (length d) i (left_over g d1 rk) (left_over g d' rk) Hil) as Hlo.
    specialize (Hlo ltac:(intros x Hx; unfold left_over; by rewrite Hu')). unfold left_over at 2 4 in Hlo. rewrite Hi', Hi1 in Hlo.
    pose proof (lev_mono g (rk i) (rk p) ltac:(lia)) as Hm1. pose proof (lev_mono g (rk p) (rk r) ltac:(lia)) as Hm2.
    pose proof (lev_top g (rk p) ltac:(lia)) as Ht.
    assert (sum_to (length d) (allowed g d' rk) = sum_to (length d) (allowed g d rk)) as Ha'.
    { rewrite <-Ha1. apply sum_ext. intros x _. unfold allowed. destruct (decide (x = i)) as [->|Hx]; [by rewrite Hi', Hi1|by rewrite Hu']. }
    assert (forall x, rk x < rk i -> d' !! x = d !! x) as Hu.
    { intros x Hx. rewrite Hu' by (intros ->; lia). apply Hu1. lia. }
    rewrite decide_False by lia.
    destruct (decide (k = 0)) as [->|Hk0].
    + exists d', c. split_and!; try done; [congruence|intros x; by rewrite Hs'|lia|lia].
    + destruct (decide (lev g (rk i) = lev g (rk p))) as [He|He].
      * exists d', (S c). split_and!; try done; [congruence|intros x; by rewrite Hs'| |lia].
        inversion Hp; subst; [lia|]. pose proof (rp_rank _ _ _ _ _ HR Hp) as Hpr'. rewrite He in Hlo. lia.
      * exists d', c. split_and!; try done; [congruence|intros x; by rewrite Hs'|lia|lia].
Qed.

Definition Work (g : nat) (d : dset) (t : list nat) : Prop := exists rk c, Ranked d rk /\
  sum_list t <= length t * (g + 2) + c /\ c + sum_to (length d) (left_over g d rk) <= sum_to (length d) (allowed g d rk).
Lemma size_of_inv d x v : size_of d x = Some v -> d !! x = Some (Element true v).
Proof. unfold size_of. destruct (d !! x) as [[[] ?]|]; [|done..]. by intros [= ->]. Qed.
Lemma work_find g d E i t : history d (length d) E -> Work g d t -> length d < tower (S g) -> i < length d ->
  exists r d' t', find_calls d i t = Ret (Some r, d', t') /\ Work g d' t' /\ length d' = length d /\
    (exists v, size_of d r = Some v) /\ (forall x, size_of d' x = size_of d x).
Proof.
  intros HH (rk&c&HR&Ht&Hc) Hg Hi. apply history_inv in HH as HI. destruct (inv_total _ _ _ HI i Hi) as (k&r&Hr).
  destruct (find_work g rk d k i r HR Hg Hr (length d) (inv_depth_lt _ _ _ _ _ _ HI Hr)) as (d'&c'&E'&HR'&Hl'&Hs'&_&Hc'&Ha'&Hk').
  exists r, d', (S k :: t). unfold find_calls. rewrite decide_False by lia. rewrite E'. cbn [bind]. split; [done|]. split.
  - exists rk, (c + c'). split; [done|]. split.
    + cbn. pose proof (lev_le g (rk r)). destruct (decide (k = 0)); unfold sum_list in *; cbn in *; lia.
    + rewrite Hl'. lia.
  - split; [done|]. split; [|done]. destruct (rp_is_root _ _ _ _ Hr) as [v Hv]. exists v. by apply size_of_root.
Qed.

(** * Linking two roots *)
Lemma work_link g d t s l vs vl : Work g d t -> d !! s = Some (Element true vs) -> d !! l = Some (Element true vl) -> s <> l -> vs <= vl ->
  Work g (<[s := from_parent l]> (<[l := Element true (vl + vs)]> d)) t.
Proof.
  intros (rk&c&HR&Ht&Hc) Hs Hl Hsl Hv. set (d' := <[s := from_parent l]> _).
  set (rk' := fun x => if decide (x = l) then Nat.max (rk l) (S (rk s)) else rk x).
  pose proof (lookup_lt_Some _ _ _ Hs) as Hsn. pose proof (lookup_lt_Some _ _ _ Hl) as Hln.
  assert (length d' = length d) as Hlen by (unfold d'; by rewrite !insert_length).
  assert (d' !! s = Some (Element false l)) as Hs' by (apply list_lookup_insert; by rewrite insert_length).
  assert (d' !! l = Some (Element true (vl + vs))) as Hl' by (unfold d'; rewrite list_lookup_insert_ne by done; by apply list_lookup_insert).
  assert (forall x, x <> s -> x <> l -> d' !! x = d !! x) as Hu by (intros x H1 H2; unfold d'; by rewrite !list_lookup_insert_ne).
  assert (forall x, rk x <= rk' x) as Hrk by (intros x; unfold rk'; destruct (decide (x = l)) as [->|]; lia).
  assert (rk' l = Nat.max (rk l) (S (rk s))) as Hrl by (unfold rk'; by rewrite decide_True).
  assert (forall x, x <> l -> rk' x = rk x) as Hro by (intros x Hx; unfold rk'; by rewrite decide_False).
  pose proof (rk_size _ _ HR _ _ Hs) as Hps. pose proof (rk_size _ _ HR _ _ Hl) as Hpl.
  assert (forall x p, x <> s -> d' !! x = Some (Element false p) -> d !! x = Some (Element false p)) as Hch.
  { intros x p Hx Hp. rewrite Hu in Hp; [done|done|]. intros ->. by rewrite Hl' in Hp. }
  exists rk', c. split; [split|split; [done|]].
  - intros x p Hp. rewrite Hlen. destruct (decide (x = s)) as [->|Hx].
    + rewrite Hs' in Hp. injection Hp as <-. split; [done|]. rewrite (Hro s Hsl), Hrl. lia.
    + apply Hch in Hp as Hp'; [|done]. destruct (rk_link _ _ HR _ _ Hp') as [H1 H2]. split; [done|].
      rewrite (Hro x); [pose proof (Hrk p); lia|]. intros ->. congruence.
  - intros x v Hx. destruct (decide (x = l)) as [->|Hxl].
    + rewrite Hl' in Hx. injection Hx as <-. rewrite Hrl. destruct (Nat.max_spec (rk l) (S (rk s))) as [[_ ->]|[_ ->]]; cbn; lia.
    + rewrite (Hro x Hxl). destruct (decide (x = s)) as [->|Hxs]; [by rewrite Hs' in Hx|]. rewrite Hu in Hx by done. by apply (rk_size _ _ HR).
  - rewrite Hlen. pose proof (sum_two (length d) s l (weight d') (weight d) Hsn Hln Hsl) as H.
    specialize (H ltac:(intros x H1 H2; unfold weight, size_of; by rewrite Hu)). pose proof (rk_total _ _ HR) as Ht0.
    assert (weight d s = vs /\ weight d l = vl /\ weight d' s = 0 /\ weight d' l = vl + vs) as (E1&E2&E3&E4).
    { unfold weight. rewrite (size_of_root _ _ _ Hs), (size_of_root _ _ _ Hl), (size_of_root _ _ _ Hl'), (size_of_child _ _ _ Hs'). done. }
    lia.
  - intros k. rewrite Hlen.
    pose proof (sum_two (length d) s l (high k rk') (high k rk) Hsn Hln Hsl) as H1.
    specialize (H1 ltac:(intros x Hx1 Hx2; unfold high; by rewrite Hro)).
    pose proof (sum_two (length d) s l (high_root k d' rk') (high_root k d rk) Hsn Hln Hsl) as H2.
    specialize (H2 ltac:(intros x Hx1 Hx2; unfold high_root, size_of; by rewrite Hro, Hu)).
    pose proof (sum_two (length d) s l (high_size k d' rk') (high_size k d rk) Hsn Hln Hsl) as H3.
    specialize (H3 ltac:(intros x Hx1 Hx2; unfold high_size, size_of; by rewrite Hro, Hu)).
    pose proof (rk_count _ _ HR k) as H0.
    unfold high at 2 3 5 6 in H1. unfold high_root at 2 3 5 6 in H2. unfold high_size at 2 3 5 6 in H3.
    rewrite (size_of_root _ _ _ Hs), (size_of_root _ _ _ Hl), (size_of_root _ _ _ Hl'), (size_of_child _ _ _ Hs') in H2, H3.
    rewrite (Hro s Hsl), Hrl in H1. rewrite Hrl in H2, H3.
    assert (k <= rk s -> 2 ^ k <= vs) as P1 by (intros Hk; pose proof (Nat.pow_le_mono_r 2 k (rk s) ltac:(lia) Hk); lia).
    assert (k <= rk l -> 2 ^ k <= vl) as P2 by (intros Hk; pose proof (Nat.pow_le_mono_r 2 k (rk l) ltac:(lia) Hk); lia).
    assert (k <= S (rk s) -> 2 ^ k <= vl + vs) as P3.
    { intros Hk; pose proof (Nat.pow_le_mono_r 2 k (S (rk s)) ltac:(lia) Hk) as Hp. cbn in Hp. lia. }
    destruct (Nat.leb_spec k (rk s)), (Nat.leb_spec k (rk l)), (Nat.leb_spec k (Nat.max (rk l) (S (rk s)))); lia.
  - rewrite Hlen. set (T := tower (lev g (rk s))).
    assert (sum_to (length d) (left_over g d' rk') <= sum_to (length d) (left_over g d rk) + T) as H1.
    { rewrite <-(sum_point (length d) s T Hsn), <-sum_plus. apply sum_le. intros x _. unfold left_over.
      destruct (decide (x = s)) as [->|Hx]; [rewrite Hs', (Hro s Hsl); fold T; lia|].
      destruct (decide (x = l)) as [->|Hxl]; [rewrite Hl'; lia|]. rewrite Hu by done. rewrite (Hro x Hxl).
      destruct (d !! x) as [[[] p]|]; [lia| |lia]. pose proof (Hrk p). lia. }
    assert (sum_to (length d) (allowed g d rk) + T <= sum_to (length d) (allowed g d' rk')) as H2.
    { rewrite <-(sum_point (length d) s T Hsn), <-sum_plus. apply sum_le. intros x _. unfold allowed.
      destruct (decide (x = s)) as [->|Hx]; [rewrite Hs', Hs, (Hro s Hsl); fold T; lia|].
      destruct (decide (x = l)) as [->|Hxl]; [rewrite Hl; lia|]. rewrite Hu by done. rewrite (Hro x Hxl). lia. }
    lia.
Qed.

(** * New elements *)
Lemma work_start g n : Work g (with_size n) [].
Proof.
  exists (fun _ => 0), 0. assert (forall x e, with_size n !! x = Some e -> e = element_new) as He.
  { intros x e H. unfold with_size in H. apply lookup_replicate in H as [-> _]. done. }
  assert (length (with_size n) = n) as Hl by apply replicate_length. rewrite Hl.
  assert (forall x, x < n -> size_of (with_size n) x = Some 1) as Hs.
  { intros x Hx. apply size_of_root. unfold with_size. by apply lookup_replicate_2. }
  split; [split|split; [done|]].
  - intros x p H. by apply He in H.
  - intros x v H. apply He in H. injection H as ->. cbn. lia.
  - rewrite Hl. rewrite (sum_ext _ _ (fun _ => 1)); [rewrite sum_const; lia|]. intros x Hx. unfold weight. by rewrite Hs.
  - intros k. rewrite Hl, <-sum_plus. apply sum_le. intros x Hx. unfold high, high_root, high_size. rewrite (Hs x Hx).
    destruct k; cbn; lia.
  - rewrite Nat.add_0_l. apply sum_le. intros x _. unfold left_over, allowed. destruct (_ !! x) as [[[] ?]|]; lia.
Qed.
Lemma work_add g d t : Work g d t -> Work g (ds_add d) t.
Proof.
  intros (rk&c&HR&Ht&Hc). set (n := length d) in *. exists (fun x => if decide (x = n) then 0 else rk x), c.
  set (rk' := fun x => _). assert (length (ds_add d) = S n) as Hl by (unfold ds_add; rewrite app_length; cbn; lia).
  assert (forall x, x < n -> ds_add d !! x = d !! x) as Ho by (intros x Hx; unfold ds_add; by rewrite lookup_app_l).
  assert (ds_add d !! n = Some element_new) as Hn by (unfold ds_add; by apply list_lookup_middle).
  assert (forall x, x < n -> rk' x = rk x) as Hrk by (intros x Hx; unfold rk'; rewrite decide_False by lia; done).
  assert (rk' n = 0) as Hrn by (unfold rk'; by rewrite decide_True).
  assert (forall x e, ds_add d !! x = Some e -> x < n /\ d !! x = Some e \/ x = n /\ e = element_new) as He.
  { intros x e H. pose proof (lookup_lt_Some _ _ _ H) as Hx. rewrite Hl in Hx.
    destruct (decide (x = n)) as [->|Hxn]; [right; split; [done|congruence]|left]. split; [lia|]. rewrite <-Ho by lia. done. }
  split; [split|split; [done|]].
  - intros x p H. rewrite Hl. destruct (He _ _ H) as [[Hx H']|[_ ?]]; [|done].
    destruct (rk_link _ _ HR _ _ H') as [H1 H2]. fold n in H1. split; [lia|]. by rewrite !Hrk by done.
  - intros x v H. destruct (He _ _ H) as [[Hx H']|[-> [= ->]]]; [rewrite Hrk by done; by apply (rk_size _ _ HR)|rewrite Hrn; cbn; lia].
  - rewrite Hl. cbn [sum_to]. unfold weight at 1. rewrite (size_of_root _ _ _ Hn).
    rewrite (sum_ext n _ (weight d)); [pose proof (rk_total _ _ HR) as Htot; fold n in Htot; lia|]. intros x Hx. unfold weight, size_of. by rewrite Ho.
  - intros k. rewrite Hl. cbn [sum_to]. pose proof (rk_count _ _ HR k) as H. fold n in H.
    rewrite (sum_ext n (high k rk') (high k rk)), (sum_ext n (high_root k (ds_add d) rk') (high_root k d rk)), (sum_ext n (high_size k (ds_add d) rk') (high_size k d rk)).
    + unfold high at 1, high_root at 1, high_size at 1. rewrite (size_of_root _ _ _ Hn), Hrn. destruct k; cbn; lia.
    + intros x Hx. unfold high_size, size_of. by rewrite Ho, Hrk.
    + intros x Hx. unfold high_root, size_of. by rewrite Ho, Hrk.
    + intros x Hx. unfold high. by rewrite Hrk.
  - rewrite Hl. cbn [sum_to]. unfold left_over at 1, allowed at 1. rewrite Hn. cbn [element_new].
    rewrite (sum_ext n (left_over g (ds_add d) rk') (left_over g d rk)), (sum_ext n (allowed g (ds_add d) rk') (allowed g d rk)); [lia| |].
    + intros x Hx. unfold allowed. by rewrite Ho, Hrk.
    + intros x Hx. unfold left_over. rewrite Ho, Hrk by done. destruct (d !! x) as [[[] p]|] eqn:E; [done| |done].
      destruct (rk_link _ _ HR _ _ E) as [Hp _]. by rewrite Hrk.
Qed.

(** * The record changes nothing *)
Lemma helper_erase fuel : forall d i, find_helper fuel d i = (let! (r, d, _) := find_helper_calls fuel d i in Ret (r, d)).
Proof.
  induction fuel as [|fuel IH]; intros d i; cbn [find_helper find_helper_calls]; [done|].
  destruct (vec_get d i) as [[[] p]|]; cbn [bind e_root e_value]; [done| |done]. rewrite IH.
  destruct (find_helper_calls fuel d p) as [[[r d1] k]|]; cbn [bind]; [|done].
  destruct (vec_get d1 i) as [e|]; cbn [bind]; [|done]. by destruct (vec_set d1 i _).
Qed.
Lemma find_erase d i t : ds_find d i = (let! (o, d, _) := find_calls d i t in Ret (o, d)).
Proof.
  unfold ds_find, find_calls. destruct (decide _); [done|]. rewrite helper_erase.
  by destruct (find_helper_calls (length d) d i) as [[[r d1] k]|].
Qed.
Lemma common_erase d i j t : common_set d i j = (let! (o, d, _) := common_calls d i j t in Ret (o, d)).
Proof.
  unfold common_set, common_calls. rewrite (find_erase d i t). destruct (find_calls d i t) as [[[[a|] d1] t1]|]; cbn [bind]; [|done..].
  rewrite (find_erase d1 j t1). by destruct (find_calls d1 j t1) as [[[[b|] d2] t2]|].
Qed.
Lemma union_erase d i j t : ds_union d i j = (let! (o, d, _) := union_calls d i j t in Ret (o, d)).
Proof.
  unfold ds_union, union_calls. rewrite (find_erase d i t). destruct (find_calls d i t) as [[[[a|] d1] t1]|]; cbn [bind]; [|done..].
  rewrite (find_erase d1 j t1). destruct (find_calls d1 j t1) as [[[[b|] d2] t2]|]; cbn [bind]; [|done..].
  destruct (Nat.eqb a b); [done|]. destruct (vec_get d2 a) as [e1|]; cbn [bind]; [|done]. destruct (vec_get d2 b) as [e2|]; cbn [bind]; [|done].
  destruct (Nat.ltb _ _); (destruct (vec_get d2 _) as [e3|]; cbn [bind]; [|done]); (destruct (vec_get d2 _) as [e4|]; cbn [bind]; [|done]);
    (destruct (vec_set d2 _ _) as [d3|]; cbn [bind]; [|done]); by destruct (vec_set d3 _ _).
Qed.
Lemma perform_erase ops : forall d t, perform_plain ops d = (let! (d, _) := perform ops d t in Ret d).
Proof.
  induction ops as [|[|i|i j|i j] ops IH]; intros d t; cbn [perform perform_plain]; [done|apply IH|..].
  - rewrite (find_erase d i t). destruct (find_calls d i t) as [[[o d1] t1]|]; cbn [bind]; [apply IH|done].
  - rewrite (common_erase d i j t). destruct (common_calls d i j t) as [[[o d1] t1]|]; cbn [bind]; [apply IH|done].
  - rewrite (union_erase d i j t). destruct (union_calls d i j t) as [[[o d1] t1]|]; cbn [bind]; [apply IH|done].
Qed.

(** * All functions *)
Definition Past (d : dset) : Prop := exists E, history d (length d) E.
Lemma past_find d i o d' : Past d -> length d' = length d -> ds_find d i = Ret (o, d') -> Past d'.
Proof. intros [E H] Hl Hd. exists E. rewrite Hl. by eapply hist_find. Qed.
Lemma step_find g d i t : Past d -> Work g d t -> length d < tower (S g) ->
  exists o d' t', find_calls d i t = Ret (o, d', t') /\ Past d' /\ Work g d' t' /\ length d' = length d /\
    (forall x, size_of d' x = size_of d x) /\ (forall r, o = Some r -> exists v, size_of d' r = Some v).
Proof.
  intros HP HW Hg. destruct (decide (length d <= i)) as [Hi|Hi].
  - exists None, d, t. unfold find_calls. rewrite decide_True by done. done.
  - destruct HP as [E HP]. destruct (work_find g d E i t HP HW Hg) as (r&d'&t'&Ef&HW'&Hl'&[v Hv]&Hs'); [lia|].
    exists (Some r), d', t'. split; [done|]. split.
    + eapply past_find; [by exists E|done|]. rewrite (find_erase d i t), Ef. done.
    + split; [done|]. split; [done|]. split; [done|]. intros r' [= <-]. exists v. by rewrite Hs'.
Qed.
Lemma step_common g d i j t : Past d -> Work g d t -> length d < tower (S g) ->
  exists o d' t', common_calls d i j t = Ret (o, d', t') /\ Past d' /\ Work g d' t' /\ length d' = length d.
Proof.
  intros HP HW Hg. unfold common_calls. destruct (step_find g d i t HP HW Hg) as (a&d1&t1&E1&HP1&HW1&Hl1&_). rewrite E1. cbn [bind].
  destruct a as [a|]; [|by exists None, d1, t1].
  destruct (step_find g d1 j t1 HP1 HW1 ltac:(lia)) as (b&d2&t2&E2&HP2&HW2&Hl2&_). rewrite E2. cbn [bind].
  destruct b as [b|]; eexists _, d2, t2; (split; [reflexivity|]); (split; [done|]); (split; [done|lia]).
Qed.
Lemma step_union g d i j t : Past d -> Work g d t -> length d < tower (S g) ->
  exists o d' t', union_calls d i j t = Ret (o, d', t') /\ Past d' /\ Work g d' t' /\ length d' = length d.
Proof.
  intros HP HW Hg.
  enough (exists o d' t', union_calls d i j t = Ret (o, d', t') /\ Work g d' t' /\ length d' = length d) as (o&d'&t'&E&HW'&Hl').
  { exists o, d', t'. split; [done|]. split; [|done]. destruct HP as [Eh HP].
    assert (ds_union d i j = Ret (o, d')) as Hu by (rewrite (union_erase d i j t), E; done).
    destruct (decide (i < length d /\ j < length d)) as [[Hi Hj]|Hij].
    - exists ((i, j) :: Eh). rewrite Hl'. by eapply hist_union.
    - exists Eh. rewrite Hl'. eapply hist_union_out; [exact HP| |exact Hu]. lia. }
  unfold union_calls. destruct (step_find g d i t HP HW Hg) as (a&d1&t1&E1&HP1&HW1&Hl1&_&Hr1). rewrite E1. cbn [bind].
  destruct a as [a|]; [|by exists None, d1, t1].
  destruct (step_find g d1 j t1 HP1 HW1 ltac:(lia)) as (b&d2&t2&E2&HP2&HW2&Hl2&Hs2&Hr2). rewrite E2. cbn [bind].
  destruct b as [b|]; [|exists None, d2, t2; split; [done|]; split; [done|lia]].
  destruct (Nat.eqb_spec a b) as [->|Hab]; [exists (Some b), d2, t2; split; [done|]; split; [done|lia]|].
  destruct (Hr1 a eq_refl) as [va Ha]. rewrite <-Hs2 in Ha. apply size_of_inv in Ha. destruct (Hr2 b eq_refl) as [vb Hb]. apply size_of_inv in Hb.
  unfold vec_get, vec_set. rewrite Ha, Hb. cbn [expect bind e_value]. pose proof (lookup_lt_Some _ _ _ Ha). pose proof (lookup_lt_Some _ _ _ Hb).
  destruct (Nat.ltb_spec va vb); rewrite Ha, Hb; cbn [expect bind e_value e_root]; rewrite decide_True by done; cbn [bind];
    rewrite decide_True by (by rewrite insert_length); cbn [bind]; eexists _, _, t2; (split; [reflexivity|]); (split; [|rewrite !insert_length; lia]).
  - apply (work_link g d2 t2 a b va vb); [done..|]. lia.
  - apply (work_link g d2 t2 b a vb va); [done..|]. lia.
Qed.
Lemma perform_work g ops : forall d t, Past d -> Work g d t -> length d + added ops < tower (S g) ->
  exists d' t', perform ops d t = Ret (d', t') /\ Work g d' t' /\ length d' = length d + added ops.
Proof.
  induction ops as [|[|i|i j|i j] ops IH]; intros d t HP HW Hg; cbn [perform added] in *.
  - exists d, t. split; [done|]. split; [done|lia].
  - assert (length (ds_add d) = S (length d)) as Hl by (unfold ds_add; rewrite app_length; cbn; lia).
    destruct (IH (ds_add d) t) as (d'&t'&E&H1&H2).
    + destruct HP as [E HP]. exists E. rewrite Hl. by constructor.
    + by apply work_add.
    + lia.
    + exists d', t'. split; [done|]. split; [done|lia].
  - destruct (step_find g d i t HP HW ltac:(lia)) as (o&d1&t1&->&HP1&HW1&Hl1&_). cbn [bind].
    destruct (IH d1 t1 HP1 HW1 ltac:(lia)) as (d'&t'&E&H1&H2). exists d', t'. split; [done|]. split; [done|lia].
  - destruct (step_common g d i j t HP HW ltac:(lia)) as (o&d1&t1&->&HP1&HW1&Hl1). cbn [bind].
    destruct (IH d1 t1 HP1 HW1 ltac:(lia)) as (d'&t'&E&H1&H2). exists d', t'. split; [done|]. split; [done|lia].
  - destruct (step_union g d i j t HP HW ltac:(lia)) as (o&d1&t1&->&HP1&HW1&Hl1). cbn [bind].
    destruct (IH d1 t1 HP1 HW1 ltac:(lia)) as (d'&t'&E&H1&H2). exists d', t'. split; [done|]. split; [done|lia].
Qed.
Lemma work_bound g d t : Work g d t -> sum_list t <= (g + 2) * length t + (2 * g + 1) * length d.
Proof.
  intros (rk&c&HR&Ht&Hc). pose proof (ranked_budget g d rk HR) as Hb.
  assert (sum_to (length d) (allowed g d rk) <= sum_to (length d) (fun x => budget g (rk x))).
  { apply sum_le. intros x _. unfold allowed. destruct (d !! x) as [[[] p]|]; [lia|apply lev_budget|lia]. }
  lia.
Qed.
Lemma perform_bound g n ops : n + added ops < tower (S g) ->
  exists d t, perform ops (with_size n) [] = Ret (d, t) /\ length d = n + added ops /\
    sum_list t <= (g + 2) * length t + (2 * g + 1) * (n + added ops).
Proof.
  intros Hg. assert (length (with_size n) = n) as Hl by apply replicate_length.
  destruct (perform_work g ops (with_size n) []) as (d&t&E&HW&Hd).
  - exists []. rewrite Hl. constructor.
  - apply work_start.
  - by rewrite Hl.
  - exists d, t. rewrite Hl in Hd. split; [done|]. split; [done|]. rewrite <-Hd. by apply work_bound.
Qed.
Lemma tower_N g : N.of_nat (tower (S g)) = (2 ^ N.of_nat (tower g))%N.
Proof. cbn [tower]. by rewrite Nat2N.inj_pow. Qed.
Lemma word_tower n : (N.of_nat n < 2 ^ 64)%N -> n < tower 5.
Proof.
  intros H. assert (N.of_nat n < N.of_nat (tower 5))%N as H1; [|clear H; generalize dependent (tower 5); intros; lia].
  eapply N.lt_le_trans; [exact H|]. rewrite tower_N. apply N.pow_le_mono_r; [done|].
  rewrite tower_N. change 64%N with (2 ^ 6)%N. apply N.pow_le_mono_r; [done|]. by vm_compute.
Qed.
Lemma perform_word n ops : (N.of_nat (n + added ops) < 2 ^ 64)%N ->
  exists d t, perform ops (with_size n) [] = Ret (d, t) /\ sum_list t <= 6 * length t + 9 * (n + added ops).
Proof.
  intros H. apply word_tower in H. destruct (perform_bound 4 n ops H) as (d&t&E&_&Hs). exists d, t. split; [done|]. exact Hs.
Qed.
Lemma perform_same ops d t :
  match perform ops d t with
  | Ret (d', _) => perform_plain ops d = Ret d'
  | Fault f => perform_plain ops d = Fault f
  end.
Proof. rewrite (perform_erase ops d t). by destruct (perform ops d t) as [[d' t']|f]. Qed.
