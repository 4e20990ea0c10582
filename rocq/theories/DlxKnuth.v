(** Algorithm X on lists and the columns of a matrix. *)
From Verif Require Import Base Dlx DlxSeg DlxCover DlxColumn SpecDlx SpecDlxSearch DlxSets SpecDlxCost.

Lemma choose_length_lt cs r k : k ∈ cs -> r ∈ k -> length (choose cs r) < length cs.
Proof.
  intros Hk Hr. unfold choose. rewrite fmap_length. eapply filter_length_lt; [exact Hk|]. tauto.
Qed.
Lemma shortest_elem {A} (k : list A) ks : shortest k ks ∈ k :: ks.
Proof.
  revert k. induction ks as [|k' ks IH]; intros k; cbn [shortest]; [apply elem_of_list_here|].
  specialize (IH (if decide (length k' < length k) then k' else k)).
  rewrite !elem_of_cons in *. destruct (decide _); tauto.
Qed.
Lemma first_some_ext {A B} (f g : A -> option B) l :
  (forall x, x ∈ l -> f x = g x) -> first_some f l = first_some g l.
Proof.
  induction l as [|x l IH]; intros H; [done|]. cbn [first_some]. rewrite (H x) by apply elem_of_list_here.
  rewrite IH; [done|]. intros y Hy. apply H. by apply elem_of_list_further.
Qed.
Lemma first_some_app {A B} (f : A -> option B) l1 l2 :
  (forall x, x ∈ l1 -> f x = None) -> first_some f (l1 ++ l2) = first_some f l2.
Proof.
  induction l1 as [|x l1 IH]; intros H; [done|]. cbn [first_some app]. rewrite (H x) by apply elem_of_list_here.
  apply IH. intros y Hy. apply H. by apply elem_of_list_further.
Qed.

Lemma algorithm_x_levels n : forall m cs, length cs <= n -> length cs <= m -> algorithm_x n cs = algorithm_x m cs.
Proof.
  induction n as [|n IH]; intros m [|k ks] Hn Hm; cbn [length] in *; [by destruct m|lia|by destruct m|].
  destruct m as [|m]; [lia|]. cbn [algorithm_x]. apply first_some_ext. intros r Hr. f_equal.
  pose proof (choose_length_lt (k :: ks) r _ (shortest_elem k ks) Hr) as Hlt. cbn [length] in Hlt.
  apply IH; lia.
Qed.
(** The unfolding of [knuth]. *)
Lemma knuth_cons k ks :
  knuth (k :: ks) = first_some (fun r => cons r <$> knuth (choose (k :: ks) r)) (shortest k ks).
Proof.
  unfold knuth at 1. cbn [length algorithm_x]. apply first_some_ext. intros r Hr. f_equal.
  pose proof (choose_length_lt (k :: ks) r _ (shortest_elem k ks) Hr) as Hlt. cbn [length] in Hlt.
  apply algorithm_x_levels; lia.
Qed.

Lemma shortest_split {A} (k : list A) ks s1 n s2 :
  k :: ks = s1 ++ n :: s2 ->
  (forall x, x ∈ s1 -> length n < length x) -> (forall x, x ∈ s2 -> length n <= length x) ->
  shortest k ks = n.
Proof.
  revert k s1 s2. induction ks as [|k' ks IH]; intros k s1 s2 Hk H1 H2.
  - destruct s1 as [|? [|]]; by simplify_list_eq.
  - cbn [shortest]. destruct s1 as [|x s1]; cbn [app] in Hk; injection Hk as -> Hk.
    + rewrite decide_False by (apply Nat.nlt_ge, H2; rewrite <-Hk; apply elem_of_list_here).
      apply (IH _ [] ks); [done|intros x Hx%elem_of_nil; done|].
      intros x Hx. apply H2. rewrite <-Hk. by apply elem_of_list_further.
    + destruct s1 as [|y s1]; cbn [app] in Hk; injection Hk as -> Hk.
      * rewrite decide_True by (apply H1, elem_of_list_here). subst ks.
        apply (IH _ [] s2); [done|intros y Hy%elem_of_nil; done|done].
      * destruct (decide _).
        -- apply (IH _ (y :: s1) s2); [by rewrite Hk| |done]. intros z Hz. apply H1. by apply elem_of_list_further.
        -- apply (IH _ (x :: s1) s2); [by rewrite Hk| |done]. intros z Hz. apply H1.
           rewrite !elem_of_cons in *. tauto.
Qed.
Lemma knuth_split cs s1 n s2 :
  cs = s1 ++ n :: s2 ->
  (forall x, x ∈ s1 -> length n < length x) -> (forall x, x ∈ s2 -> length n <= length x) ->
  knuth cs = first_some (fun r => cons r <$> knuth (choose cs r)) n.
Proof.
  intros Hcs H1 H2. destruct cs as [|k ks]; [by destruct s1|]. rewrite knuth_cons. f_equal.
  by eapply shortest_split.
Qed.

(** Counting. *)
Lemma sum_until_ext {A} (s1 s2 : A -> bool) (f1 f2 : A -> nat) l :
  (forall x, x ∈ l -> s1 x = s2 x /\ f1 x = f2 x) -> sum_until s1 f1 l = sum_until s2 f2 l.
Proof.
  induction l as [|x l IH]; intros H; [done|]. cbn [sum_until].
  destruct (H x (elem_of_list_here _ _)) as [-> ->]. f_equal. destruct (s2 x); [done|].
  apply IH. intros y Hy. by apply H, elem_of_list_further.
Qed.
Lemma sum_until_app {A} (s : A -> bool) (f : A -> nat) l1 l2 :
  (forall x, x ∈ l1 -> s x = false) -> sum_until s f (l1 ++ l2) = sum_until s f l1 + sum_until s f l2.
Proof.
  induction l1 as [|x l1 IH]; intros H; [done|]. cbn [sum_until app]. rewrite (H x) by apply elem_of_list_here.
  rewrite IH; [lia|]. intros y Hy. by apply H, elem_of_list_further.
Qed.
Lemma branches_levels n : forall m cs, length cs <= n -> length cs <= m -> branches n cs = branches m cs.
Proof.
  induction n as [|n IH]; intros m [|k ks] Hn Hm; cbn [length] in *; [by destruct m|lia|by destruct m|].
  destruct m as [|m]; [lia|]. cbn [branches]. f_equal. apply sum_until_ext. intros r Hr.
  pose proof (choose_length_lt (k :: ks) r _ (shortest_elem k ks) Hr) as Hlt. cbn [length] in Hlt.
  rewrite (algorithm_x_levels n m) by lia. split; [done|]. apply IH; lia.
Qed.
Definition solvable (cs : list (list nat)) (r : nat) : bool := bool_decide (is_Some (knuth (choose cs r))).
Lemma branches_cons k ks :
  knuth_branches (k :: ks) =
    S (sum_until (solvable (k :: ks)) (fun r => knuth_branches (choose (k :: ks) r)) (shortest k ks)).
Proof.
  unfold knuth_branches at 1. cbn [length branches]. f_equal. apply sum_until_ext. intros r Hr.
  pose proof (choose_length_lt (k :: ks) r _ (shortest_elem k ks) Hr) as Hlt. cbn [length] in Hlt.
  unfold solvable, knuth, knuth_branches. rewrite (algorithm_x_levels (length ks) (length (choose (k :: ks) r))) by lia.
  split; [done|]. apply branches_levels; lia.
Qed.
Lemma branches_split cs s1 n s2 :
  cs = s1 ++ n :: s2 ->
  (forall x, x ∈ s1 -> length n < length x) -> (forall x, x ∈ s2 -> length n <= length x) ->
  knuth_branches cs = S (sum_until (solvable cs) (fun r => knuth_branches (choose cs r)) n).
Proof.
  intros Hcs H1 H2. destruct cs as [|k ks]; [by destruct s1|]. rewrite branches_cons. do 2 f_equal.
  by eapply shortest_split.
Qed.

(** [levels] nested calls of the search are enough. *)
Fixpoint within (levels : nat) (constraints : list (list nat)) : Prop :=
  match levels, constraints with
  | O, _ => False
  | S _, [] => True
  | S levels, k :: ks => forall r, r ∈ shortest k ks -> within levels (choose constraints r)
  end.
Lemma within_split levels cs s1 n s2 : within (S levels) cs ->
  cs = s1 ++ n :: s2 ->
  (forall x, x ∈ s1 -> length n < length x) -> (forall x, x ∈ s2 -> length n <= length x) ->
  forall r, r ∈ n -> within levels (choose cs r).
Proof.
  intros Hw Hcs H1 H2 r Hr. destruct cs as [|k ks]; [by destruct s1|]. apply Hw.
  by rewrite (shortest_split k ks s1 n s2).
Qed.
Lemma within_length : forall levels cs, length cs < levels -> within levels cs.
Proof.
  induction levels as [|levels IH]; intros [|k ks] Hl; cbn [length] in Hl; [lia|lia|done|].
  intros r Hr. apply IH. pose proof (choose_length_lt (k :: ks) r _ (shortest_elem k ks) Hr) as Hlt. cbn [length] in Hlt. lia.
Qed.
(** Every row that occurs is in at least [w] constraints. *)
Definition heavy (w : nat) (cs : list (list nat)) : Prop :=
  forall r k, k ∈ cs -> r ∈ k -> w <= length (filter (fun k => r ∈ k) cs).
Lemma heavy_choose w cs r : heavy w cs -> heavy w (choose cs r).
Proof.
  intros Hh s k Hk Hs. unfold choose in Hk. apply elem_of_list_fmap in Hk as (k0&->&Hk0).
  apply elem_of_list_filter in Hs as [Hm Hs]. apply elem_of_list_filter in Hk0 as [_ Hk0].
  etrans; [exact (Hh s k0 Hk0 Hs)|]. unfold choose.
  assert (forall l, (forall k, k ∈ l -> k ∈ cs) -> length (filter (fun k => s ∈ k) l) <=
    length (filter (fun k => s ∈ k) ((fun k => filter (fun s => ~ meets cs r s) k) <$> filter (fun k => r ∉ k) l))) as H; [|by apply H].
  induction l as [|k l IH]; intros Hl; [done|].
  specialize (IH (fun k' Hk' => Hl k' (elem_of_list_further _ _ _ Hk'))).
  rewrite (filter_cons (fun k => s ∈ k)). case_decide as Hsk.
  - assert (r ∉ k) as Hrk.
    { intros Hrk. apply Hm. apply Exists_exists. exists k. split; [|done]. apply Hl, elem_of_list_here. }
    rewrite (filter_cons_True (fun k => r ∉ k)) by done. rewrite fmap_cons, filter_cons_True; [cbn [length]; lia|].
    apply elem_of_list_filter. done.
  - etrans; [exact IH|]. rewrite (filter_cons (fun k => r ∉ k)). case_decide; [|done].
    rewrite fmap_cons, filter_cons. case_decide; cbn [length]; lia.
Qed.
Lemma filter_not_length {A} (P : A -> Prop) `{!forall x, Decision (P x)} l :
  length (filter P l) + length (filter (fun x => ~ P x) l) = length l.
Proof.
  induction l as [|x l IH]; [done|]. rewrite !filter_cons. destruct (decide (P x)).
  - rewrite decide_False by tauto. cbn [length]. lia.
  - rewrite decide_True by done. cbn [length]. lia.
Qed.
Lemma within_heavy w : 0 < w -> forall levels cs, heavy w cs -> length cs < w * levels -> within levels cs.
Proof.
  intros Hw. induction levels as [|levels IH]; intros [|k ks] Hh Hl; [lia|lia|done|].
  intros r Hr. apply IH; [by apply heavy_choose|].
  pose proof (Hh r _ (shortest_elem k ks) Hr) as Hc. unfold choose. rewrite fmap_length.
  pose proof (filter_not_length (fun k => r ∈ k) (k :: ks)) as Hf. lia.
Qed.

Section knuth.
  Context (G : rows_info) (HG : good_rows G).

  Lemma filter_rows (R : list nat) cs r (ns : list ptr) :
    (forall s, s ∈ R <-> meets cs r s) ->
    rw G <$> filter (fun q => rw G q ∉ R) ns = filter (fun s => ~ meets cs r s) (rw G <$> ns).
  Proof.
    intros HR. induction ns as [|x ns IH]; [done|]. rewrite fmap_cons. destruct (decide (rw G x ∈ R)) as [Hx|Hx].
    - rewrite !filter_cons_False; [done| |tauto]. rewrite <-HR. tauto.
    - rewrite !filter_cons_True; [by rewrite fmap_cons, IH| |done]. by rewrite <-HR.
  Qed.
  Lemma cols_filter (D : list ptr) (R : list nat) cs r st :
    (forall p, p ∈ st -> r ∈ rw G <$> p.2 <-> p.1 ∈ D) -> (forall s, s ∈ R <-> meets cs r s) ->
    cols G ((fun p => (p.1, filter (fun q => rw G q ∉ R) p.2)) <$> filter (fun p => p.1 ∉ D) st) =
    filter (fun s => ~ meets cs r s) <$> filter (fun k => r ∉ k) (cols G st).
  Proof.
    intros HD HR. induction st as [|[c ns] st IH]; [done|].
    assert (forall p, p ∈ st -> r ∈ rw G <$> p.2 <-> p.1 ∈ D) as HD' by (intros p Hp; by apply HD, elem_of_list_further).
    specialize (IH HD'). specialize (HD _ (elem_of_list_here _ _)). cbn [fst snd] in HD.
    change (cols G ((c, ns) :: st)) with ((rw G <$> ns) :: cols G st).
    destruct (decide (c ∈ D)) as [Hc|Hc].
    - rewrite !filter_cons_False; [done|tauto|cbn; tauto].
    - rewrite !filter_cons_True; [|tauto|done]. rewrite !fmap_cons. cbn [fst snd]. rewrite <-IH.
      rewrite <-(filter_rows R) by done. done.
  Qed.

  (** Covering the columns of a row is choosing it. *)
  Lemma cols_choose root st q :
    wfst G root st -> NoDup (fp st) -> q ∈ nodes st ->
    cols G (coverset G (hdr G <$> rl G (rw G q)) st) = choose (cols G st) (rw G q).
  Proof.
    intros HW Hnd Hq. set (r := rw G q). set (D := hdr G <$> rl G r).
    assert (forall c ns, (c, ns) ∈ st -> r ∈ rw G <$> ns <-> c ∈ D) as HD.
    { intros c ns Hc. by eapply row_in_col. }
    assert (forall s, s ∈ rows_of G D st <-> meets (cols G st) r s) as Hdead.
    { intros s. unfold meets. rewrite elem_of_rows_of, Exists_exists. setoid_rewrite elem_of_cols. split.
      - intros (c&ns&x&Hc&HcD&Hx&<-). exists (rw G <$> ns).
        split_and!; [eauto|by apply HD in Hc as [_ Hc]; apply Hc|by apply elem_of_list_fmap_1].
      - intros (k&(c&ns&Hc&->)&Hr&(x&->&Hx)%elem_of_list_fmap). exists c, ns, x. apply (HD c ns) in Hr; auto. }
    unfold coverset, choose. apply cols_filter; [|done]. intros [c ns] Hc. by apply HD.
  Qed.
End knuth.
