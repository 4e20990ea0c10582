(** Proofs for C65: path compression. *)
From Verif Require Import Base DisjointSet SpecDisjointSet DisjointSetProofs.

(** The indices on the way from [i] to its representative, without the latter. *)
Lemma steps_rp_between d k i r : rp d k i r -> forall j x, steps d j i x -> rp d (k - j) x r /\ j <= k.
Proof.
  induction 1 as [r v Hr|k i p r Hi Hp IH]; intros [|j] x Hs; cbn in Hs.
  - subst x. split; [by econstructor|lia].
  - destruct Hs as (p&Hp&_). congruence.
  - subst x. rewrite Nat.sub_0_r. split; [by econstructor|lia].
  - destruct Hs as (p'&Hp'&Hs). rewrite Hi in Hp'. injection Hp' as <-. destruct (IH _ _ Hs). split; [done|lia].
Qed.

Lemma find_helper_exact d k i r : rp d k i r -> forall fuel d', find_helper fuel d i = Ret (r, d') ->
  length d' = length d /\ forall x,
    ((exists j, steps d j i x) -> x <> r -> d' !! x = Some (Element false r)) /\
    (~ (exists j, steps d j i x) \/ x = r -> d' !! x = d !! x).
Proof.
  induction 1 as [r v Hr|k i p r Hi Hp IH]; intros [|fuel] d' E; cbn [find_helper] in E; [done|..|done|];
    unfold vec_get in E.
  - rewrite Hr in E. cbn in E. injection E as <-. split; [done|]. intros x. split; [|done].
    intros [[|j] Hj] Hx; cbn in Hj; [congruence|]. destruct Hj as (p&Hp&_). congruence.
  - rewrite Hi in E. cbn in E.
    destruct (find_helper fuel d p) as [[r' d1]|f] eqn:E1; cbn [bind] in E; [|done].
    destruct (d1 !! i) as [e|] eqn:E2; cbn in E; [|done]. unfold vec_set in E.
    destruct (decide (i < length d1)) as [Hlt|]; cbn in E; [|done]. injection E as -> <-.
    destruct (IH _ _ E1) as [Hl H]. split; [by rewrite insert_length|].
    assert (~ exists j, steps d j p i) as Hout.
    { intros [j Hj]. destruct (steps_rp_between _ _ _ _ Hp _ _ Hj) as [H1 H2].
      assert (rp d (S k) i r) as H3 by by econstructor. destruct (rp_det _ _ _ _ H1 _ _ H3). lia. }
    assert (i <> r) as Hir.
    { intros ->. destruct (rp_is_root _ _ _ _ Hp) as [v Hv]. congruence. }
    assert (e = Element false p) as ->.
    { destruct (H i) as [_ H2]. rewrite H2 in E2 by by left. congruence. }
    intros x. destruct (decide (x = i)) as [->|Hx].
    + rewrite list_lookup_insert by done. split; [done|]. intros [Hn|Hn]; [|done]. exfalso. apply Hn. by exists 0.
    + rewrite list_lookup_insert_ne by done. split.
      * intros [[|j] Hj] Hr; cbn in Hj; [congruence|]. destruct Hj as (p'&Hp'&Hj).
        rewrite Hi in Hp'. injection Hp' as <-. apply H; eauto.
      * intros [Hn|Hn]; [|apply H; by right]. apply H. left. intros [j Hj]. apply Hn. exists (S j). cbn. eauto.
Qed.

Lemma find_exact d n E i r d' : history d n E -> ds_find d i = Ret (Some r, d') ->
  length d' = length d /\ forall x,
    ((exists k, steps d k i x) -> x <> r -> d' !! x = Some (Element false r)) /\
    (~ (exists k, steps d k i x) \/ x = r -> d' !! x = d !! x).
Proof.
  intros Hh Hf. apply history_inv in Hh as HI. assert (finds d i (Some r)) as Hr by by exists d'.
  apply (finds_rp _ _ _ _ _ HI) in Hr as [k Hr]. unfold ds_find in Hf.
  destruct (decide (length d <= i)); [done|].
  destruct (find_helper (length d) d i) as [[r' d1]|f] eqn:E1; cbn [bind] in Hf; [|done]. injection Hf as -> <-.
  by apply (find_helper_exact _ _ _ _ Hr (length d)).
Qed.

Lemma find_flat d n E i r d' : history d n E -> ds_find d i = Ret (Some r, d') ->
  forall x, (exists k, steps d k i x) -> forall k, steps d' k x r -> k <= 1.
Proof.
  intros Hh Hf x Hx k Hk. destruct (find_exact _ _ _ _ _ _ Hh Hf) as [_ H].
  assert (d' !! r = d !! r) as Hroot by (apply H; by right).
  apply history_inv in Hh as HI. assert (finds d i (Some r)) as Hr by by exists d'.
  apply (finds_rp _ _ _ _ _ HI) in Hr as [kr Hr]. destruct (rp_is_root _ _ _ _ Hr) as [v Hv]. rewrite Hv in Hroot.
  assert (forall j y, steps d' j r y -> j = 0) as Hstop.
  { intros [|j] y Hy; [done|]. destruct Hy as (p&Hp&_). congruence. }
  destruct (decide (x = r)) as [->|Hne]; [apply Hstop in Hk; lia|].
  destruct k as [|k]; [lia|]. destruct Hk as (p&Hp&Hk). destruct (H x) as [H1 _]. rewrite (H1 Hx Hne) in Hp. injection Hp as <-.
  apply Hstop in Hk. lia.
Qed.
