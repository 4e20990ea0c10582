(** What [union] returns. *)
From Verif Require Import Base DisjointSet SpecDisjointSet DisjointSetProofs.
Local Arguments Nat.ltb : simpl never.

Lemma class_of d n E i r : Inv d n E -> finds d i (Some r) ->
  exists ms, NoDup ms /\ (forall x, x ∈ ms <-> x < n /\ connected E i x) /\ d !! r = Some (Element true (length ms)).
Proof.
  intros HI Hf. pose proof (inv_len _ _ _ HI) as Hlen. apply (finds_rp _ _ _ _ _ HI) in Hf as [k Hk].
  assert (i < n) as Hi by (rewrite <-Hlen; by eapply rp_lookup).
  destruct (rp_is_root _ _ _ _ Hk) as [v Hv]. destruct (inv_size _ _ _ HI _ _ Hv) as (ms&Hnd&<-&Hms).
  exists ms. split_and!; [done| |done]. intros x. rewrite Hms. split.
  - intros [k' Hk']. assert (x < n) as Hx by (rewrite <-Hlen; by eapply rp_lookup). split; [done|].
    apply (inv_conn _ _ _ HI); [done|done|]. unfold same_root. eauto 10.
  - intros [Hx Hc]. apply (inv_conn _ _ _ HI) in Hc as (r'&k1&k2&Q1&Q2); [|done|done].
    destruct (rp_det _ _ _ _ Hk _ _ Q1) as [_ ->]. eauto.
Qed.

Lemma union_result d n E i j ri rj : history d n E -> finds d i (Some ri) -> finds d j (Some rj) ->
  exists mi mj o d', (NoDup mi /\ forall x, x ∈ mi <-> x < n /\ connected E i x) /\
    (NoDup mj /\ forall x, x ∈ mj <-> x < n /\ connected E j x) /\
    ds_union d i j = Ret (Some o, d') /\
    (ri = rj -> o = ri /\ forall x r, finds d x r <-> finds d' x r) /\
    (ri <> rj -> exists larger, (length mi < length mj -> o = ri /\ larger = rj) /\
       (length mj <= length mi -> o = rj /\ larger = ri) /\
       forall x r, finds d x (Some r) -> finds d' x (Some (if decide (r = o) then larger else r))).
Proof.
  intros Hh Fi Fj. pose proof (history_inv _ _ _ Hh) as HI. pose proof (inv_len _ _ _ HI) as Hlen.
  destruct (class_of _ _ _ _ _ HI Fi) as (mi&Ni&Mi&Li). destruct (class_of _ _ _ _ _ HI Fj) as (mj&Nj&Mj&Lj).
  exists mi, mj. destruct Fi as [d1 Fi]. destruct Fj as [d2' Fj].
  assert (i < n) as Hi.
  { destruct (decide (i < n)) as [|Hi]; [done|]. rewrite ds_find_out in Fi by lia. done. }
  assert (j < n) as Hj.
  { destruct (decide (j < n)) as [|Hj]; [done|]. rewrite ds_find_out in Fj by lia. done. }
  pose proof (ds_find_refines _ _ _ _ _ _ HI Fi) as R1. pose proof (refines_inv _ _ _ _ HI R1) as HI1.
  assert (finds d1 j (Some rj)) as [d2 Fj1] by (eapply (refines_finds d d1); [done|done|by exists d2']).
  pose proof (ds_find_refines _ _ _ _ _ _ HI1 Fj1) as R2. pose proof (refines_inv _ _ _ _ HI1 R2) as HI2.
  pose proof (refines_trans _ _ _ R1 R2) as R.
  unfold ds_union. rewrite Fi. cbn [bind]. rewrite Fj1. cbn [bind].
  destruct (Nat.eqb_spec ri rj) as [Heq|Hne].
  { eexists _, _. split; [done|]. split; [done|]. split; [done|]. split; [|done]. intros _. split; [done|].
    intros x r. by eapply refines_finds. }
  apply (ref_root _ _ R) in Li, Lj. unfold vec_get. rewrite Li, Lj. cbn [expect bind e_value].
  assert (forall sm lg vs vl, d2 !! sm = Some (Element true vs) -> d2 !! lg = Some (Element true vl) -> sm <> lg ->
    length (<[sm:=from_parent lg]> (<[lg:=Element true (vl + vs)]> d2)) = n /\
    (vs <= vl -> (exists k k', (rp d2 k i sm /\ rp d2 k' j lg) \/ (rp d2 k i lg /\ rp d2 k' j sm)) ->
      forall x r, finds d x (Some r) ->
      finds (<[sm:=from_parent lg]> (<[lg:=Element true (vl + vs)]> d2)) x (Some (if decide (r = sm) then lg else r)))) as Hlink.
  { intros sm lg vs vl Hs Hl Hsl. split; [rewrite !insert_length, (inv_len _ _ _ HI2); done|].
    intros Hv Hex x r Fx. apply (refines_finds _ _ _ _ _ _ HI R) in Fx. apply (finds_rp _ _ _ _ _ HI2) in Fx as [k Hk].
    eapply finds_rp; [by eapply (link_inv d2 n E HI2 sm lg vs vl Hs Hl Hsl i j)|].
    destruct (link_rp' d2 sm lg vs vl Hs Hl Hsl _ _ _ Hk) as (k'&Hk'&_). unfold merge in Hk'. eauto. }
  assert (exists k k', rp d2 k i ri /\ rp d2 k' j rj) as (ka&kb&Ka&Kb).
  { assert (finds d2 i (Some ri)) as F1 by (eapply (refines_finds d d2); [done|done|by exists d1]).
    assert (finds d2 j (Some rj)) as F2 by (eapply (refines_finds d d2); [done|done|by exists d2']).
    apply (finds_rp _ _ _ _ _ HI2) in F1 as [ka Ka]. apply (finds_rp _ _ _ _ _ HI2) in F2 as [kb Kb]. eauto. }
  destruct (Nat.ltb_spec (length mi) (length mj)) as [Hlt|Hge].
  - rewrite Li, Lj. cbn [expect bind e_value e_root]. unfold vec_set at 1.
    rewrite decide_True by eauto using lookup_lt_Some. cbn [bind].
    unfold vec_set. rewrite decide_True by (rewrite insert_length; eauto using lookup_lt_Some). cbn [bind].
    eexists _, _. split; [done|]. split; [done|]. split; [done|]. split; [done|]. intros _. exists rj.
    split; [done|]. split; [lia|]. eapply (Hlink ri rj); [done|done|done|lia|]. exists ka, kb. by left.
  - rewrite Li, Lj. cbn [expect bind e_value e_root]. unfold vec_set at 1.
    rewrite decide_True by eauto using lookup_lt_Some. cbn [bind].
    unfold vec_set. rewrite decide_True by (rewrite insert_length; eauto using lookup_lt_Some). cbn [bind].
    eexists _, _. split; [done|]. split; [done|]. split; [done|]. split; [done|]. intros _. exists ri.
    split; [lia|]. split; [done|]. eapply (Hlink rj ri); [done|done|congruence|lia|]. exists ka, kb. by right.
Qed.

(** Joining two classes returns an index that is not the representative of the
    joined class. *)
Lemma union_not_rep d n E i j o d' : history d n E -> i < n -> j < n -> ~ connected E i j ->
  ds_union d i j = Ret (Some o, d') -> ~ finds d' i (Some o).
Proof.
  intros Hh Hi Hj Hc E1 Fo. destruct (partition_lemma _ _ _ Hh) as (_&Hp&_).
  destruct (Hp i j Hi Hj) as (ri&rj&Fi&Fj&Hr).
  destruct (union_result _ _ _ _ _ _ _ Hh Fi Fj) as (mi&mj&o'&d1&_&_&E2&_&H).
  rewrite E1 in E2. injection E2 as <- <-. destruct H as (lg&H1&H2&H3); [by rewrite Hr|].
  apply H3 in Fi. destruct Fi as [d2 Fi]. destruct Fo as [d3 Fo]. rewrite Fi in Fo.
  destruct (decide (length mi < length mj)) as [Hlt|Hge].
  - destruct (H1 Hlt) as [-> ->]. rewrite decide_True in Fo by done. injection Fo as ->. by apply Hc, Hr.
  - destruct H2 as [-> ->]; [lia|]. case_decide; injection Fo as ->; by apply Hc, Hr.
Qed.

Lemma union_refuted : exists d n E i j o d', history d n E /\ i < n /\ j < n /\
  ds_union d i j = Ret (Some o, d') /\ ~ finds d' i (Some o).
Proof.
  exists (with_size 2), 2, [], 0, 1, 1, [Element true 2; Element false 0].
  split; [apply hist_with_size|]. split; [lia|]. split; [lia|]. split; [done|].
  intros [d' H]. vm_compute in H. done.
Qed.
