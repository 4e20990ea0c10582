(** Adding a leaf to a graph with unique simple paths. *)
From Verif Require Import Base Maze SpecMaze.

Lemma path_reverse (R : nat -> nat -> Prop) i l j : (forall a b, R a b -> R b a) -> path R i l j -> path R j (reverse l) i.
Proof.
  intros Hs (Hh&Hl&Hk). split_and!.
  - by rewrite head_reverse.
  - by rewrite last_reverse.
  - intros k a b Ha Hb.
    assert (S k < length l) as Hlt by (apply lookup_lt_Some in Hb; by rewrite reverse_length in Hb).
    rewrite reverse_lookup in Ha by lia. rewrite reverse_lookup in Hb by lia.
    apply Hs. apply (Hk (length l - S (S k))); [done|].
    by replace (S (length l - S (S k))) with (length l - S k) by lia.
Qed.
Lemma path_single (R : nat -> nat -> Prop) i : path R i [i] i.
Proof. split_and!; [done|done|]. intros [|k] a b; done. Qed.
Lemma path_cons (R : nat -> nat -> Prop) i k l j : R i k -> path R k l j -> path R i (i :: l) j.
Proof.
  intros HR (Hh&Hl&Hk). destruct l as [|x l]; [done|]. injection Hh as ->. split_and!.
  - done.
  - done.
  - intros [|n] a b Ha Hb; [|by apply (Hk n)]. injection Ha as <-. injection Hb as <-. done.
Qed.
Lemma path_snoc (R : nat -> nat -> Prop) i l k j : path R i l k -> R k j -> path R i (l ++ [j]) j.
Proof.
  intros (Hh&Hl&Hk) HR. split_and!.
  - by destruct l.
  - by rewrite last_snoc.
  - intros n a b Ha Hb. destruct (decide (S n < length l)) as [Hn|Hn].
    + rewrite lookup_app_l in Ha, Hb by lia. by apply (Hk n).
    + assert (S n = length l) as Hlen.
      { apply lookup_lt_Some in Hb. rewrite app_length in Hb. cbn in Hb. lia. }
      rewrite lookup_app_r in Hb by lia. rewrite Hlen, Nat.sub_diag in Hb. injection Hb as <-.
      rewrite lookup_app_l in Ha by lia. rewrite last_lookup, <-Hlen in Hl. cbn in Hl. congruence.
Qed.
Lemma path_tail (R : nat -> nat -> Prop) i x l j : path R i (i :: x :: l) j -> R i x /\ path R x (x :: l) j.
Proof.
  intros (Hh&Hl&Hk). split; [by apply (Hk 0)|]. split_and!; [done|done|].
  intros k a b Ha Hb. by apply (Hk (S k)).
Qed.

Lemma NoDup_reverse (l : list nat) : NoDup l -> NoDup (reverse l).
Proof. by rewrite reverse_Permutation. Qed.

Section leaf.
Context (R R' : nat -> nat -> Prop) (vs : list nat) (c x : nat).
Context (Hsym : forall a b, R a b -> R b a).
Context (Hvs : forall a b, R a b -> a ∈ vs /\ b ∈ vs).
Context (Hc : c ∈ vs) (Hx : x ∉ vs).
Context (HR' : forall a b, R' a b <-> R a b \/ (a = c /\ b = x) \/ (a = x /\ b = c)).

Lemma leaf_sym a b : R' a b -> R' b a.
Proof. rewrite !HR'. intros [H|[H|H]]; [left; by apply Hsym|tauto|tauto]. Qed.
Lemma leaf_ne : c <> x.
Proof. intros ->. done. Qed.

Lemma leaf_inner i l j : path R' i l j -> NoDup l -> i <> x -> j <> x -> x ∉ l /\ path R i l j.
Proof.
  intros (Hh&Hl&Hk) Hnd Hi Hj.
  assert (x ∉ l) as Hnin.
  { intros Hin. apply elem_of_list_lookup in Hin as [k Hkx]. destruct k as [|k].
    { destruct l as [|y l]; [done|]. injection Hkx as ->. injection Hh as ->. done. }
    destruct (lookup_lt_is_Some_2 l k) as [a Ha]; [apply lookup_lt_Some in Hkx; lia|].
    destruct (l !! S (S k)) as [b|] eqn:Hb.
    - assert (a = c) as ->.
      { pose proof (Hk _ _ _ Ha Hkx) as HR. apply HR' in HR as [HR|[[H _]|[_ H]]]; [|done|].
        - apply Hvs in HR as [_ HR]. done.
        - exfalso. symmetry in H. revert H. apply leaf_ne. }
      assert (b = c) as ->.
      { pose proof (Hk _ _ _ Hkx Hb) as HR. apply HR' in HR as [HR|[[H _]|[_ H]]]; [| |done].
        - apply Hvs in HR as [HR _]. done.
        - exfalso. symmetry in H. revert H. apply leaf_ne. }
      pose proof (NoDup_lookup _ _ _ _ Hnd Ha Hb). lia.
    - apply lookup_ge_None in Hb. rewrite last_lookup in Hl.
      assert (length l = S (S k)) as Hlen by (apply lookup_lt_Some in Hkx; lia).
      rewrite Hlen in Hl. cbn in Hl. congruence. }
  split; [done|]. split_and!; [done|done|]. intros k a b Ha Hb. pose proof (Hk _ _ _ Ha Hb) as HR.
  apply HR' in HR as [HR|[[_ ->]|[-> _]]]; [done|..]; exfalso; apply Hnin; by eapply elem_of_list_lookup_2.
Qed.
Lemma leaf_from l j : path R' x l j -> NoDup l -> j <> x -> exists t, l = x :: t /\ path R c t j /\ NoDup t.
Proof.
  intros Hp Hnd Hj. pose proof Hp as (Hh&Hl&Hk). destruct l as [|y l]; [done|]. injection Hh as ->.
  destruct l as [|b l]; [cbn in Hl; congruence|]. apply path_tail in Hp as [HR Hp].
  assert (b = c) as ->.
  { apply HR' in HR as [HR|[[H _]|[_ H]]]; [|exfalso; symmetry in H; revert H; apply leaf_ne|done].
    apply Hvs in HR as [HR _]. done. }
  apply NoDup_cons in Hnd as [_ Hnd]. exists (c :: l). split; [done|]. split; [|done].
  by apply leaf_inner; [..|apply leaf_ne|].
Qed.
Lemma leaf_to i l : path R' i l x -> NoDup l -> i <> x -> exists t, l = t ++ [x] /\ path R i t c /\ NoDup t.
Proof.
  intros Hp Hnd Hi. apply path_reverse in Hp; [|apply leaf_sym].
  destruct (leaf_from (reverse l) i Hp) as (t&E&Ht&Hnt); [by apply NoDup_reverse|done|].
  exists (reverse t). split_and!.
  - apply (f_equal reverse) in E. rewrite reverse_involutive, reverse_cons in E. done.
  - by apply path_reverse.
  - by apply NoDup_reverse.
Qed.
Lemma path_loop i l : path R' i l i -> NoDup l -> l = [i].
Proof.
  intros (Hh&Hl&_) Hnd. destruct l as [|y l]; [done|]. injection Hh as ->. rewrite last_lookup in Hl.
  assert ((i :: l) !! 0 = Some i) as H0 by done. pose proof (NoDup_lookup _ _ _ _ Hnd H0 Hl) as He.
  destruct l; [done|]. cbn in He. lia.
Qed.
Lemma leaf_weaken i l j : path R i l j -> path R' i l j.
Proof. intros (Hh&Hl&Hk). split_and!; [done|done|]. intros k a b Ha Hb. apply HR'. left. by apply (Hk k). Qed.
Lemma path_in i l j : path R i l j -> i ∈ vs -> forall y, y ∈ l -> y ∈ vs.
Proof.
  intros (Hh&Hl&Hk) Hi y Hy. apply elem_of_list_lookup in Hy as [k Hy]. destruct k as [|k].
  - destruct l; [done|]. injection Hh as ->. injection Hy as ->. done.
  - destruct (lookup_lt_is_Some_2 l k) as [a Ha]; [apply lookup_lt_Some in Hy; lia|].
    pose proof (Hk _ _ _ Ha Hy) as HR. by apply Hvs in HR as [_ ?].
Qed.

Lemma leaf_tree : (forall i j, i ∈ vs -> j ∈ vs -> unique_simple_path R i j) ->
  forall i j, i ∈ x :: vs -> j ∈ x :: vs -> unique_simple_path R' i j.
Proof.
  intros Htree i j Hi Hj. apply elem_of_cons in Hi, Hj.
  destruct (decide (i = x)) as [->|Hix], (decide (j = x)) as [->|Hjx].
  - exists [x]. split; [split; [apply path_single|apply NoDup_singleton]|]. intros l' [Hp Hn]. by apply path_loop.
  - destruct Hj as [->|Hj]; [done|]. destruct (Htree c j Hc Hj) as (l&[Hp Hn]&Hu). exists (x :: l). split.
    + split.
      * eapply path_cons; [apply HR'; right; right; done|]. by apply leaf_weaken.
      * apply NoDup_cons. split; [|done]. intros Hin. apply Hx. by eapply path_in.
    + intros l' [Hp' Hn']. destruct (leaf_from l' j Hp' Hn' Hjx) as (t&->&Ht&Hnt). f_equal. by apply Hu.
  - destruct Hi as [->|Hi]; [done|]. destruct (Htree i c Hi Hc) as (l&[Hp Hn]&Hu). exists (l ++ [x]). split.
    + split.
      * eapply path_snoc; [by apply leaf_weaken|]. apply HR'. right. left. done.
      * apply NoDup_app. split_and!; [done| |apply NoDup_singleton]. intros y Hy Hyx.
        apply elem_of_list_singleton in Hyx as ->. apply Hx. by eapply path_in.
    + intros l' [Hp' Hn']. destruct (leaf_to i l' Hp' Hn' Hix) as (t&->&Ht&Hnt). f_equal. by apply Hu.
  - destruct Hi as [->|Hi]; [done|]. destruct Hj as [->|Hj]; [done|].
    destruct (Htree i j Hi Hj) as (l&[Hp Hn]&Hu). exists l. split; [split; [by apply leaf_weaken|done]|].
    intros l' [Hp' Hn']. apply Hu. split; [|done]. by apply leaf_inner.
Qed.
End leaf.
