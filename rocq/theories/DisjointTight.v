(** Proofs for C18: the logarithmic depth is reached. *)
From Verif Require Import Base DisjointSet SpecDisjointSet.

Lemma steps_further d d' b : (forall i p, d !! i = Some (Element false p) -> d' !! i = Some (Element false p)) ->
  forall k i r, steps d k i r -> d' !! r = Some (Element false b) -> steps d' (S k) i b.
Proof.
  intros Hsub. induction k as [|k IH]; intros i r Hs Hr.
  - cbn in Hs. subst. exists b. done.
  - destruct Hs as (p&Hp&Hs). exists p. split; [by apply Hsub|by eapply IH].
Qed.
Lemma find_root d i v : d !! i = Some (Element true v) -> ds_find d i = Ret (Some i, d).
Proof.
  intros Hi. pose proof (lookup_lt_Some _ _ _ Hi) as Hl. unfold ds_find. rewrite decide_False by lia.
  destruct (length d) as [|l]; [lia|]. cbn [find_helper]. unfold vec_get. rewrite Hi. done.
Qed.
Lemma union_roots d i j v : i <> j -> d !! i = Some (Element true v) -> d !! j = Some (Element true v) ->
  ds_union d i j = Ret (Some j, <[j := Element false i]> (<[i := Element true (v + v)]> d)).
Proof.
  intros Hij Hi Hj. unfold ds_union. rewrite (find_root _ _ _ Hi). cbn [bind]. rewrite (find_root _ _ _ Hj). cbn [bind].
  destruct (Nat.eqb_spec i j) as [|_]; [done|]. unfold vec_get. rewrite Hi, Hj. cbn [expect bind e_value].
  rewrite Nat.ltb_irrefl. rewrite Hi, Hj. cbn [expect bind e_value e_root].
  unfold vec_set at 1. rewrite decide_True by (by eapply lookup_lt_Some). cbn [bind].
  unfold vec_set. rewrite decide_True by (rewrite insert_length; by eapply lookup_lt_Some). done.
Qed.
Lemma binomial : forall k b d n E, history d n E -> b + 2 ^ k <= n -> 
  (forall i, b <= i < b + 2 ^ k -> d !! i = Some (Element true 1)) ->
  exists d' E', history d' n E' /\ d' !! b = Some (Element true (2 ^ k)) /\ steps d' k (b + 2 ^ k - 1) b /\
    forall i, i < b \/ b + 2 ^ k <= i -> d' !! i = d !! i.
Proof.
  induction k as [|k IH]; intros b d n E Hh Hn Hone.
  - exists d, E. split; [done|]. split; [apply Hone; cbn; lia|]. split; [cbn; lia|done].
  - cbn [Nat.pow] in *. assert (1 <= 2 ^ k) as Hp by (pose proof (Nat.pow_nonzero 2 k); lia).
    remember (2 ^ k) as s eqn:Es.
    destruct (IH b d n E Hh) as (d1&E1&Hh1&Hr1&Hs1&Ho1); [lia|intros i Hi; apply Hone; lia|].
    destruct (IH (b + s) d1 n E1 Hh1) as (d2&E2&Hh2&Hr2&Hs2&Ho2); [lia| |].
    { intros i Hi. rewrite Ho1 by lia. apply Hone. lia. }
    assert (d2 !! b = Some (Element true s)) as Hb by (rewrite Ho2 by lia; done).
    assert (b <> b + s) as Hne by lia.
    pose proof (lookup_lt_Some _ _ _ Hb) as L1. pose proof (lookup_lt_Some _ _ _ Hr2) as L2.
    eexists _, _. split; [eapply hist_union; [exact Hh2| | |by apply union_roots]; lia|].
    split; [rewrite list_lookup_insert_ne by lia; rewrite list_lookup_insert by done; do 2 f_equal; lia|]. split.
    + replace (b + 2 * s - 1) with (b + s + s - 1) by lia. eapply (steps_further d2); [|exact Hs2|].
      * intros i p Hi. rewrite !list_lookup_insert_ne; [done|intros <-; congruence|intros <-; congruence].
      * apply list_lookup_insert. by rewrite insert_length.
    + intros i Hi. rewrite !list_lookup_insert_ne by lia. rewrite Ho2 by lia. apply Ho1. lia.
Qed.
Lemma depth_reached k : exists d E i r, history d (2 ^ k) E /\ steps d k i r /\ d !! r = Some (Element true (2 ^ k)).
Proof.
  destruct (binomial k 0 (with_size (2 ^ k)) (2 ^ k) [] (hist_with_size _)) as (d&E&Hh&Hr&Hs&_); [done| |].
  - intros i Hi. unfold with_size. apply lookup_replicate. split; [done|lia].
  - exists d, E, (0 + 2 ^ k - 1), 0. done.
Qed.
