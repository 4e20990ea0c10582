(** Invariant of the disjoint-set forest. *)
From Verif Require Import Base DisjointSet.
Local Arguments Nat.ltb : simpl never.

(** [rp d k i r]: following [k] parent links from [i] ends at the root [r]. *)
Inductive rp (d : dset) : nat -> nat -> nat -> Prop :=
| rp_root r v : d !! r = Some (Element true v) -> rp d 0 r r
| rp_step k i p r : d !! i = Some (Element false p) -> rp d k p r -> rp d (S k) i r.

Lemma rp_det d k i r : rp d k i r -> forall k' r', rp d k' i r' -> k = k' /\ r = r'.
Proof.
  induction 1 as [r v Hr|k i p r Hi Hp IH]; intros k' r' H'; inversion H'; subst; try congruence.
  - eauto.
  - assert (p0 = p) as -> by congruence. edestruct IH as [-> ->]; eauto.
Qed.

Lemma rp_is_root d k i r : rp d k i r -> exists v, d !! r = Some (Element true v).
Proof. induction 1; eauto. Qed.

Lemma rp_lookup d k i r : rp d k i r -> i < length d.
Proof. inversion 1; subst; eapply lookup_lt_Some; eauto. Qed.

Lemma rp_of_root d k i r v : rp d k i r -> d !! i = Some (Element true v) -> k = 0 /\ r = i.
Proof. intros H Hi. eapply rp_det; [exact H|]. by econstructor. Qed.

(** [refines d d']: [d'] is [d] after path compression. *)
Record refines (d d' : dset) : Prop := Refines {
  ref_len : length d' = length d;
  ref_root r v : d !! r = Some (Element true v) <-> d' !! r = Some (Element true v);
  ref_rp k i r : rp d k i r -> exists k', k' <= k /\ rp d' k' i r
}.

Lemma refines_refl d : refines d d.
Proof. split; [done|done|eauto]. Qed.
Lemma refines_trans d1 d2 d3 : refines d1 d2 -> refines d2 d3 -> refines d1 d3.
Proof.
  intros [L1 R1 P1] [L2 R2 P2]; split; [congruence| |].
  - intros r v. by rewrite R1.
  - intros k i r Hr. destruct (P1 _ _ _ Hr) as (k1&?&H1). destruct (P2 _ _ _ H1) as (k2&?&?).
    exists k2. split; [lia|done].
Qed.

Lemma refines_compress d k i p r :
  d !! i = Some (Element false p) -> rp d k i r -> refines d (<[i := Element false r]> d).
Proof.
  intros Hi Hk. assert (i < length d) as Hlt by eauto using lookup_lt_Some. split.
  - apply insert_length.
  - intros s v. destruct (decide (s = i)) as [->|Hne].
    + rewrite list_lookup_insert by done. split; congruence.
    + by rewrite list_lookup_insert_ne by done.
  - intros k' j s Hj. induction Hj as [s v Hs|k' j q s Hjq Hq IH].
    + exists 0. split; [lia|]. econstructor. rewrite list_lookup_insert_ne; [done|congruence].
    + destruct (decide (j = i)) as [->|Hne].
      * assert (r = s) as <-.
        { eapply (rp_det d k i r Hk). econstructor; eauto. }
        destruct (rp_is_root _ _ _ _ Hk) as [v Hv].
        exists 1. split; [lia|]. econstructor.
        -- by apply list_lookup_insert.
        -- econstructor. rewrite list_lookup_insert_ne; [done|congruence].
      * destruct IH as (k2&?&?). exists (S k2). split; [lia|]. econstructor; [|done].
        by rewrite list_lookup_insert_ne by done.
Qed.

Lemma find_helper_spec d k i r : rp d k i r -> forall fuel, k < fuel ->
  exists d', find_helper fuel d i = Ret (r, d') /\ refines d d'.
Proof.
  induction 1 as [r v Hr|k i p r Hi Hp IH]; intros [|fuel] Hf; try lia; cbn [find_helper].
  - unfold vec_get. rewrite Hr. cbn. eauto using refines_refl.
  - unfold vec_get. rewrite Hi. cbn.
    destruct (IH fuel) as (d1&Hd1&Href); [lia|]. rewrite Hd1. cbn.
    assert (exists p', d1 !! i = Some (Element false p')) as [p' Hp'].
    { destruct (ref_rp _ _ Href (S k) i r) as (k'&_&Hk'); [by econstructor|].
      inversion Hk'; subst; [|eauto].
      apply (ref_root _ _ Href) in H. congruence. }
    rewrite Hp'. cbn. unfold vec_set. rewrite decide_True by eauto using lookup_lt_Some. cbn.
    eexists. split; [reflexivity|].
    eapply refines_trans; [exact Href|].
    destruct (ref_rp _ _ Href (S k) i r) as (k'&_&Hk'); [by econstructor|].
    eapply refines_compress; eauto.
Qed.

Definition same_root (d : dset) (i j : nat) : Prop :=
  exists r k k', rp d k i r /\ rp d k' j r.

(** The invariant, for a set of [n] elements on which the unions [E] were made. *)
Record Inv (d : dset) (n : nat) (E : list (nat * nat)) : Prop := MkInv {
  inv_len : length d = n;
  inv_total i : i < n -> exists k r, rp d k i r;
  inv_edges i j : (i, j) ∈ E -> i < n /\ j < n;
  inv_conn i j : i < n -> j < n -> same_root d i j <-> rtsc (fun a b => (a, b) ∈ E) i j;
  inv_size r v : d !! r = Some (Element true v) ->
    exists ms, NoDup ms /\ length ms = v /\ forall i, i ∈ ms <-> exists k, rp d k i r;
  inv_depth k i r v : rp d k i r -> d !! r = Some (Element true v) -> 2 ^ k <= v
}.

Lemma inv_depth_lt d n E k i r : Inv d n E -> rp d k i r -> k < length d.
Proof.
  intros HI Hr. destruct (rp_is_root _ _ _ _ Hr) as [v Hv].
  pose proof (inv_depth _ _ _ HI _ _ _ _ Hr Hv) as Hd.
  destruct (inv_size _ _ _ HI _ _ Hv) as (ms&Hnd&<-&Hms).
  assert (length ms <= length d).
  { rewrite <-(seq_length (length d) 0). apply submseteq_length, NoDup_submseteq; [done|].
    intros x Hx. apply Hms in Hx as [k' Hk']. apply elem_of_seq. apply rp_lookup in Hk'. lia. }
  pose proof (Nat.pow_gt_lin_r 2 k). lia.
Qed.

Lemma refines_rp_back d d' n E : Inv d n E -> refines d d' ->
  forall k i r, rp d' k i r -> exists k', k <= k' /\ rp d k' i r.
Proof.
  intros HI Href k i r H.
  assert (i < n) as Hi.
  { rewrite <-(inv_len _ _ _ HI), <-(ref_len _ _ Href). by eapply rp_lookup. }
  destruct (inv_total _ _ _ HI i Hi) as (k1&r1&H1).
  destruct (ref_rp _ _ Href _ _ _ H1) as (k2&Hle&H2).
  destruct (rp_det _ _ _ _ H _ _ H2) as [-> ->]. eauto.
Qed.

Lemma refines_inv d d' n E : Inv d n E -> refines d d' -> Inv d' n E.
Proof.
  intros HI Href. pose proof (refines_rp_back _ _ _ _ HI Href) as Hback.
  destruct HI as [Hlen Htot Hed Hconn Hsize Hdepth]. destruct Href as [Rlen Rroot Rrp].
  assert (Hsr : forall i j, same_root d' i j <-> same_root d i j).
  { intros i j. split; intros (r&k&k'&H1&H2).
    - destruct (Hback _ _ _ H1) as (?&_&?). destruct (Hback _ _ _ H2) as (?&_&?).
      unfold same_root; eauto 10.
    - destruct (Rrp _ _ _ H1) as (?&_&?). destruct (Rrp _ _ _ H2) as (?&_&?).
      unfold same_root; eauto 10. }
  split.
  - congruence.
  - intros i Hi. destruct (Htot i Hi) as (k&r&H). destruct (Rrp _ _ _ H) as (k'&_&?). eauto.
  - done.
  - intros i j Hi Hj. rewrite Hsr. auto.
  - intros r v Hr. apply Rroot in Hr. destruct (Hsize r v Hr) as (ms&?&?&Hms).
    exists ms. split_and!; [done|done|]. intros i. rewrite Hms. split; intros [k Hk].
    + destruct (Rrp _ _ _ Hk) as (?&_&?). eauto.
    + destruct (Hback _ _ _ Hk) as (?&_&?). eauto.
  - intros k i r v Hk Hr. apply Rroot in Hr. destruct (Hback _ _ _ Hk) as (k'&Hle&Hk').
    pose proof (Hdepth _ _ _ _ Hk' Hr).
    pose proof (Nat.pow_le_mono_r 2 k k' ltac:(lia) Hle). lia.
Qed.

Lemma ds_find_spec d n E i : Inv d n E -> i < n ->
  exists r k d', ds_find d i = Ret (Some r, d') /\ rp d k i r /\ refines d d'.
Proof.
  intros HI Hi. destruct (inv_total _ _ _ HI i Hi) as (k&r&Hr).
  destruct (find_helper_spec _ _ _ _ Hr (length d)) as (d'&Hd'&Href); [by eapply inv_depth_lt|].
  exists r, k, d'. unfold ds_find. rewrite decide_False by (rewrite (inv_len _ _ _ HI); lia).
  rewrite Hd'. done.
Qed.

Lemma ds_find_out d i : length d <= i -> ds_find d i = Ret (None, d).
Proof. intros H. unfold ds_find. by rewrite decide_True. Qed.

Lemma common_set_spec d n E i j : Inv d n E -> i < n -> j < n ->
  exists b d', common_set d i j = Ret (Some b, d') /\ refines d d' /\
    (b = true <-> same_root d i j).
Proof.
  intros HI Hi Hj. destruct (ds_find_spec _ _ _ i HI Hi) as (r1&k1&d1&H1&P1&R1).
  pose proof (refines_inv _ _ _ _ HI R1) as HI1.
  destruct (ds_find_spec _ _ _ j HI1 Hj) as (r2&k2&d2&H2&P2&R2).
  unfold common_set. rewrite H1. cbn. rewrite H2. cbn.
  eexists _, d2. split_and!; [reflexivity|by eapply refines_trans|].
  rewrite Nat.eqb_eq.
  destruct (refines_rp_back _ _ _ _ HI R1 _ _ _ P2) as (k3&_&P3).
  split.
  - intros ->. unfold same_root; eauto 10.
  - intros (r&k&k'&Q1&Q2). destruct (rp_det _ _ _ _ P1 _ _ Q1) as [_ ->].
    by destruct (rp_det _ _ _ _ P3 _ _ Q2) as [_ ->].
Qed.

(** Linking two roots. *)
Section link.
  Context (d : dset) (n : nat) (E : list (nat * nat)) (HI : Inv d n E).
  Context (sm lg vs vl : nat).
  Context (Hs : d !! sm = Some (Element true vs)) (Hl : d !! lg = Some (Element true vl)).
  Context (Hne : sm <> lg).
  Let d' := <[sm := from_parent lg]> (<[lg := Element true (vl + vs)]> d).

  Lemma link_lookup_sm : d' !! sm = Some (Element false lg).
  Proof using Hs.
    unfold d'. apply list_lookup_insert. rewrite insert_length. by eapply lookup_lt_Some. Qed.
  Lemma link_lookup_lg : d' !! lg = Some (Element true (vl + vs)).
  Proof using Hl Hne.
    unfold d'. rewrite list_lookup_insert_ne by done.
    apply list_lookup_insert. by eapply lookup_lt_Some. Qed.
  Lemma link_lookup_other i : i <> sm -> i <> lg -> d' !! i = d !! i.
  Proof using. intros H1 H2. unfold d'. by rewrite !list_lookup_insert_ne by done. Qed.

  Lemma link_rp k i r : rp d k i r -> r <> sm -> rp d' k i r.
  Proof using Hs Hl Hne.
    induction 1 as [r v Hr|k i p r Hi Hp IH]; intros Hrs.
    - destruct (decide (r = lg)) as [->|]; [econstructor; apply link_lookup_lg|].
      econstructor. rewrite link_lookup_other; eauto.
    - econstructor; [|by apply IH]. rewrite link_lookup_other; [eauto|congruence|congruence].
  Qed.
  Lemma link_rp_sm k i : rp d k i sm -> rp d' (S k) i lg.
  Proof using Hs Hl Hne.
    intros H. remember sm as r eqn:Hr. induction H as [r v Hr'|k i p r Hi Hp IH]; subst.
    - eapply rp_step; [apply link_lookup_sm|]. econstructor. apply link_lookup_lg.
    - eapply rp_step; [|by apply IH]. rewrite link_lookup_other; [eauto|congruence|congruence].
  Qed.

  Definition merge (r : nat) : nat := if decide (r = sm) then lg else r.
  Lemma link_rp' k i r : rp d k i r -> exists k', rp d' k' i (merge r) /\ k' <= S k /\ (r <> sm -> k' = k).
  Proof using Hs Hl Hne.
    intros H. unfold merge. case_decide as Hr; subst.
    - exists (S k). split_and!; [by apply link_rp_sm|lia|done].
    - exists k. split_and!; [by apply link_rp|lia|done].
  Qed.
  Lemma link_rp_inv k i r : rp d' k i r ->
    exists k0 r0, rp d k0 i r0 /\ r = merge r0 /\ k <= S k0 /\ (r0 <> sm -> k = k0).
  Proof using HI Hs Hl Hne.
    intros H. assert (i < n) as Hi.
    { pose proof (rp_lookup _ _ _ _ H) as Hx. unfold d' in Hx. rewrite !insert_length in Hx.
      by rewrite <-(inv_len _ _ _ HI). }
    destruct (inv_total _ _ _ HI i Hi) as (k0&r0&H0).
    destruct (link_rp' _ _ _ H0) as (k'&H'&Hle&Heq).
    destruct (rp_det _ _ _ _ H _ _ H') as [-> ->]. eauto 10.
  Qed.

  Lemma merge_lg r : r <> sm -> merge r = r.
  Proof using. unfold merge. by case_decide. Qed.

  Lemma link_inv i j : vs <= vl -> i < n -> j < n ->
    (exists k k', (rp d k i sm /\ rp d k' j lg) \/ (rp d k i lg /\ rp d k' j sm)) ->
    Inv d' n ((i, j) :: E).
  Proof using HI Hs Hl Hne.
    intros Hv Hi Hj Hij. split.
    - unfold d'. rewrite !insert_length. by apply (inv_len _ _ _ HI).
    - intros x Hx. destruct (inv_total _ _ _ HI x Hx) as (k&r&H).
      destruct (link_rp' _ _ _ H) as (?&?&_). eauto.
    - intros a b [[= -> ->]|Hab]%elem_of_cons; [done|]. by apply (inv_edges _ _ _ HI).
    - intros x y Hx Hy. split.
      + intros (r&k&k'&H1&H2).
        destruct (link_rp_inv _ _ _ H1) as (k1&r1&P1&E1&_).
        destruct (link_rp_inv _ _ _ H2) as (k2&r2&P2&E2&_).
        assert (Hmono : forall a b, a < n -> b < n -> same_root d a b ->
          rtsc (fun u v => (u, v) ∈ (i, j) :: E) a b).
        { intros a b Ha Hb Hab. apply (inv_conn _ _ _ HI) in Hab; [|done|done].
          eapply rtc_subrel; [|exact Hab]. intros u v [?|?]; [left|right]; by apply elem_of_cons; right. }
        assert (Hs1 : rtsc (fun u v => (u, v) ∈ (i, j) :: E) i j).
        { apply rtc_once. left. apply elem_of_cons; by left. }
        assert (Hs2 : rtsc (fun u v => (u, v) ∈ (i, j) :: E) j i).
        { apply rtc_once. right. apply elem_of_cons; by left. }
        destruct (decide (r1 = r2)) as [->|Hr].
        { apply Hmono; [done|done|]. unfold same_root; eauto 10. }
        assert ((r1 = sm /\ r2 = lg) \/ (r1 = lg /\ r2 = sm)) as Hcase.
        { unfold merge in E1, E2. repeat case_decide; subst; naive_solver. }
        destruct Hij as (ki&kj&Hij).
        destruct Hcase as [[-> ->]|[-> ->]]; destruct Hij as [[Q1 Q2]|[Q1 Q2]].
        * eapply rtc_transitive; [apply (Hmono x i)|eapply rtc_transitive; [exact Hs1|apply (Hmono j y)]];
            auto; unfold same_root; eauto 10.
        * eapply rtc_transitive; [apply (Hmono x j)|eapply rtc_transitive; [exact Hs2|apply (Hmono i y)]];
            auto; unfold same_root; eauto 10.
        * eapply rtc_transitive; [apply (Hmono x j)|eapply rtc_transitive; [exact Hs2|apply (Hmono i y)]];
            auto; unfold same_root; eauto 10.
        * eapply rtc_transitive; [apply (Hmono x i)|eapply rtc_transitive; [exact Hs1|apply (Hmono j y)]];
            auto; unfold same_root; eauto 10.
      + assert (Hstep : forall a b, (a, b) ∈ (i, j) :: E -> same_root d' a b).
        { intros a b [[= -> ->]|Hab]%elem_of_cons.
          - destruct Hij as (ki&kj&[[Q1 Q2]|[Q1 Q2]]).
            + apply link_rp_sm in Q1. apply link_rp in Q2; [|done]. unfold same_root; eauto 10.
            + apply link_rp_sm in Q2. apply link_rp in Q1; [|done]. unfold same_root; eauto 10.
          - destruct (inv_edges _ _ _ HI _ _ Hab) as [Ha Hb].
            assert (same_root d a b) as (r&k&k'&Q1&Q2).
            { apply (inv_conn _ _ _ HI); [done|done|]. apply rtc_once. by left. }
            destruct (link_rp' _ _ _ Q1) as (?&?&_). destruct (link_rp' _ _ _ Q2) as (?&?&_).
            unfold same_root; eauto 10. }
        induction 1 as [x|x z y Hxz Hzy IH].
        * destruct (inv_total _ _ _ HI x Hx) as (k&r&H). destruct (link_rp' _ _ _ H) as (?&?&_).
          unfold same_root; eauto 10.
        * assert (same_root d' x z) as (r&k&k'&Q1&Q2).
          { destruct Hxz as [H|H]; [by apply Hstep|]. apply Hstep in H as (r&k&k'&Q1&Q2).
            unfold same_root; eauto 10. }
          assert (z < n) as Hz.
          { pose proof (rp_lookup _ _ _ _ Q2) as Hlt. unfold d' in Hlt. rewrite !insert_length in Hlt.
            by rewrite <-(inv_len _ _ _ HI). }
          destruct (IH Hz Hy) as (r'&l&l'&T1&T2).
          destruct (rp_det _ _ _ _ Q2 _ _ T1) as [_ ->]. unfold same_root; eauto 10.
    - intros r v Hr. destruct (decide (r = sm)) as [->|Hrs]; [rewrite link_lookup_sm in Hr; done|].
      destruct (decide (r = lg)) as [->|Hrl].
      + rewrite link_lookup_lg in Hr. injection Hr as <-.
        destruct (inv_size _ _ _ HI _ _ Hs) as (ms&Nms&Lms&Mms).
        destruct (inv_size _ _ _ HI _ _ Hl) as (ml&Nml&Lml&Mml).
        exists (ml ++ ms). split_and!.
        * apply NoDup_app. split_and!; [done| |done]. intros x H1 H2.
          apply Mml in H1 as [k1 H1]. apply Mms in H2 as [k2 H2].
          destruct (rp_det _ _ _ _ H1 _ _ H2). congruence.
        * rewrite app_length. lia.
        * intros x. rewrite elem_of_app, Mml, Mms. split.
          -- intros [[k Hk]|[k Hk]]; [apply link_rp in Hk; [|done]; eauto|].
             apply link_rp_sm in Hk. eauto.
          -- intros [k Hk]. destruct (link_rp_inv _ _ _ Hk) as (k0&r0&H0&Hm&_).
             unfold merge in Hm. case_decide; subst; eauto.
      + rewrite link_lookup_other in Hr by done.
        destruct (inv_size _ _ _ HI _ _ Hr) as (ms&Nms&Lms&Mms).
        exists ms. split_and!; [done|done|]. intros x. rewrite Mms. split; intros [k Hk].
        * apply link_rp in Hk; [eauto|done].
        * destruct (link_rp_inv _ _ _ Hk) as (k0&r0&H0&Hm&_).
          unfold merge in Hm. case_decide; subst; [congruence|eauto].
    - intros k x r v Hk Hr. destruct (link_rp_inv _ _ _ Hk) as (k0&r0&H0&Hm&Hle&Heq).
      destruct (decide (r0 = sm)) as [->|Hrs].
      + unfold merge in Hm. rewrite decide_True in Hm by done. subst r.
        rewrite link_lookup_lg in Hr. injection Hr as <-.
        pose proof (inv_depth _ _ _ HI _ _ _ _ H0 Hs) as Hd.
        transitivity (2 ^ S k0); [apply Nat.pow_le_mono_r; lia|]. simpl. lia.
      + rewrite (Heq Hrs) in *. rewrite merge_lg in Hm by done. subst r0.
        destruct (decide (r = lg)) as [->|Hrl].
        * rewrite link_lookup_lg in Hr. injection Hr as <-.
          pose proof (inv_depth _ _ _ HI _ _ _ _ H0 Hl). lia.
        * rewrite link_lookup_other in Hr by done. by eapply inv_depth.
  Qed.
End link.

Lemma inv_add_same d n E i j : Inv d n E -> i < n -> j < n -> same_root d i j ->
  Inv d n ((i, j) :: E).
Proof.
  intros HI Hi Hj Hij. pose proof HI as [Hlen Htot Hed Hconn Hsize Hdepth]. split; try done.
  - intros a b [[= -> ->]|Hab]%elem_of_cons; [done|]. by apply Hed.
  - intros x y Hx Hy. rewrite Hconn by done. split.
    + intros H. eapply rtc_subrel; [|exact H]. intros u v [?|?]; [left|right]; by apply elem_of_cons; right.
    + apply Hconn in Hij; [|done|done].
      assert (Hji : rtsc (fun a b => (a, b) ∈ E) j i) by (by apply rtsc_rtc_symmetric || by symmetry).
      intros H. clear Hx Hy. induction H as [x|x z y Hxz Hzy IH]; [done|].
      eapply rtc_transitive; [|exact IH]. destruct Hxz as [Hxz|Hxz];
        apply elem_of_cons in Hxz as [[= -> ->]|Hxz]; try done; apply rtc_once; [by left|by right].
Qed.

Lemma ds_union_spec d n E i j : Inv d n E -> i < n -> j < n ->
  exists a d', ds_union d i j = Ret (Some a, d') /\ Inv d' n ((i, j) :: E).
Proof.
  intros HI Hi Hj. destruct (ds_find_spec _ _ _ i HI Hi) as (r1&k1&d1&H1&P1&R1).
  pose proof (refines_inv _ _ _ _ HI R1) as HI1.
  destruct (ds_find_spec _ _ _ j HI1 Hj) as (r2&k2&d2&H2&P2&R2).
  pose proof (refines_inv _ _ _ _ HI1 R2) as HI2.
  destruct (ref_rp _ _ R2 _ _ _ P2) as (k2'&_&Q2).
  destruct (ref_rp _ _ (refines_trans _ _ _ R1 R2) _ _ _ P1) as (k1'&_&Q1).
  unfold ds_union. rewrite H1. cbn. rewrite H2. cbn.
  destruct (Nat.eqb_spec r1 r2) as [->|Hne].
  { eexists _, _. split; [reflexivity|]. apply inv_add_same; auto. unfold same_root; eauto 10. }
  destruct (rp_is_root _ _ _ _ Q1) as [v1 L1]. destruct (rp_is_root _ _ _ _ Q2) as [v2 L2].
  unfold vec_get. rewrite L1, L2. cbn -[Nat.ltb].
  destruct (Nat.ltb_spec v1 v2) as [Hlt|Hge].
  - cbn. rewrite L1, L2. cbn. unfold vec_set at 1. rewrite decide_True by eauto using lookup_lt_Some. cbn.
    unfold vec_set. rewrite decide_True by (rewrite insert_length; eauto using lookup_lt_Some). cbn.
    eexists _, _. split; [reflexivity|]. eapply link_inv; try eassumption; [lia|]. eauto 10.
  - cbn. rewrite L1, L2. cbn. unfold vec_set at 1. rewrite decide_True by eauto using lookup_lt_Some. cbn.
    unfold vec_set. rewrite decide_True by (rewrite insert_length; eauto using lookup_lt_Some). cbn.
    eexists _, _. split; [reflexivity|]. eapply link_inv; try eassumption; [congruence|]. eauto 10.
Qed.

Lemma inv_with_size n : Inv (with_size n) n [].
Proof.
  unfold with_size. assert (Hl : forall i e, replicate n element_new !! i = Some e -> e = Element true 1 /\ i < n).
  { intros i e H. by apply lookup_replicate in H. }
  assert (Hrp : forall k i r, rp (replicate n element_new) k i r -> k = 0 /\ i = r /\ i < n).
  { intros k i r H. inversion H as [? ? Hi|? ? ? ? Hi]; subst; apply Hl in Hi; naive_solver. }
  assert (Hself : forall i, i < n -> rp (replicate n element_new) 0 i i).
  { intros i Hi. econstructor. by apply lookup_replicate_2. }
  split.
  - by rewrite replicate_length.
  - eauto.
  - intros i j H. by apply elem_of_nil in H.
  - intros i j Hi Hj. split.
    + intros (r&k&k'&H1&H2). apply Hrp in H1 as (_&->&_), H2 as (_&->&_). done.
    + intros H. assert (i = j) as ->.
      { inversion H as [|? ? ? [H'|H']]; [done| |]; by apply elem_of_nil in H'. }
      unfold same_root; eauto 10.
  - intros r v Hr. apply Hl in Hr as [[= ->] Hr]. exists [r]. split_and!.
    + apply NoDup_singleton.
    + done.
    + intros i. rewrite elem_of_list_singleton. split; [intros ->; eauto|].
      intros [k Hk]. by apply Hrp in Hk as (_&->&_).
  - intros k i r v Hk Hr. apply Hrp in Hk as (->&_). apply Hl in Hr as [[= ->] _]. done.
Qed.

Lemma rp_app d d' k i r : rp d k i r -> rp (d ++ d') k i r.
Proof.
  induction 1; econstructor; eauto using lookup_app_l_Some.
Qed.

Lemma inv_add d n E : Inv d n E -> Inv (ds_add d) (S n) E.
Proof.
  intros HI. unfold ds_add. pose proof (inv_len _ _ _ HI) as Hlen.
  assert (Hnew : (d ++ [element_new]) !! n = Some (Element true 1)).
  { rewrite lookup_app_r by lia. by replace (n - length d) with 0 by lia. }
  assert (Hrp : forall k i r, rp (d ++ [element_new]) k i r ->
    (i < n /\ rp d k i r) \/ (i = n /\ r = n /\ k = 0)).
  { intros k i r H. pose proof (rp_lookup _ _ _ _ H) as Hi. rewrite app_length in Hi; simpl in Hi.
    destruct (decide (i = n)) as [->|Hn].
    - right. destruct (rp_of_root _ _ _ _ _ H Hnew). done.
    - left. split; [lia|]. destruct (inv_total _ _ _ HI i) as (k'&r'&H'); [lia|].
      destruct (rp_det _ _ _ _ H _ _ (rp_app _ _ _ _ _ H')) as [-> ->]. done. }
  split.
  - rewrite app_length; simpl; lia.
  - intros i Hi. destruct (decide (i = n)) as [->|].
    + exists 0, n. by econstructor.
    + destruct (inv_total _ _ _ HI i) as (k&r&H); [lia|]. eauto using rp_app.
  - intros i j H. apply (inv_edges _ _ _ HI) in H. lia.
  - assert (Hno : forall a b, sc (fun a b => (a, b) ∈ E) a b -> a < n /\ b < n).
    { intros a b [H|H]; apply (inv_edges _ _ _ HI) in H; naive_solver. }
    intros i j Hi Hj. split.
    + intros (r&k&k'&H1&H2). apply Hrp in H1, H2.
      destruct H1 as [[Hi' H1]|(->&->&->)], H2 as [[Hj' H2]|(->&?&->)]; subst.
      * apply (inv_conn _ _ _ HI); [done|done|]. unfold same_root; eauto 10.
      * apply rp_is_root in H1 as [v Hv]. apply lookup_lt_Some in Hv. lia.
      * apply rp_is_root in H2 as [v Hv]. apply lookup_lt_Some in Hv. lia.
      * constructor.
    + intros H. destruct (decide (i = j)) as [->|Hne].
      { destruct (decide (j = n)) as [->|].
        - exists n, 0, 0. split; by econstructor.
        - destruct (inv_total _ _ _ HI j) as (k&r&H'); [lia|].
          exists r, k, k. split; by apply rp_app. }
      assert (i < n /\ j < n) as [Hi' Hj'].
      { split.
        - apply rtc_inv in H as [->|(z&H'&_)]; [done|]. apply (Hno _ _ H').
        - apply rtc_inv_r in H as [->|(z&_&H')]; [done|]. apply (Hno _ _ H'). }
      apply (inv_conn _ _ _ HI) in H as (r&k&k'&H1&H2); [|done|done].
      exists r, k, k'. split; by apply rp_app.
  - intros r v Hr. destruct (decide (r = n)) as [->|Hn].
    + rewrite Hnew in Hr. injection Hr as <-. exists [n]. split_and!; [apply NoDup_singleton|done|].
      intros i. rewrite elem_of_list_singleton. split.
      * intros ->. exists 0. by econstructor.
      * intros [k Hk]. apply Hrp in Hk as [[_ Hk]|(->&_)]; [|done].
        apply rp_is_root in Hk as [v Hv]. apply lookup_lt_Some in Hv. lia.
    + assert (r < n) as Hlt by (apply lookup_lt_Some in Hr; rewrite app_length in Hr; simpl in Hr; lia).
      rewrite lookup_app_l in Hr by lia.
      destruct (inv_size _ _ _ HI _ _ Hr) as (ms&?&?&Hms). exists ms. split_and!; [done|done|].
      intros i. rewrite Hms. split; intros [k Hk]; [eauto using rp_app|].
      apply Hrp in Hk as [[_ Hk]|(_&->&_)]; [eauto|lia].
  - intros k i r v Hk Hr. apply Hrp in Hk as [[_ Hk]|(->&->&->)].
    + assert (r < n). { apply rp_is_root in Hk as [w Hw]. apply lookup_lt_Some in Hw. lia. }
      rewrite lookup_app_l in Hr by lia. by eapply inv_depth.
    + rewrite Hnew in Hr. injection Hr as <-. done.
Qed.

(** * Statements over histories *)
From Verif Require Import SpecDisjointSet.

Lemma ds_union_out d n E i j o d' : Inv d n E -> n <= i \/ n <= j ->
  ds_union d i j = Ret (o, d') -> o = None /\ refines d d'.
Proof.
  intros HI Hout. pose proof (inv_len _ _ _ HI) as Hlen. unfold ds_union.
  destruct (decide (i < n)) as [Hi|Hi].
  - destruct (ds_find_spec _ _ _ i HI Hi) as (r1&k1&d1&H1&P1&R1). rewrite H1. cbn.
    rewrite ds_find_out by (rewrite (ref_len _ _ R1); lia). cbn. by intros [= <- <-].
  - rewrite ds_find_out by lia. cbn. intros [= <- <-]. eauto using refines_refl.
Qed.

Lemma common_set_out d n E i j : Inv d n E -> n <= i \/ n <= j ->
  exists d', common_set d i j = Ret (None, d') /\ refines d d'.
Proof.
  intros HI Hout. pose proof (inv_len _ _ _ HI) as Hlen. unfold common_set.
  destruct (decide (i < n)) as [Hi|Hi].
  - destruct (ds_find_spec _ _ _ i HI Hi) as (r1&k1&d1&H1&P1&R1). rewrite H1. cbn.
    rewrite ds_find_out by (rewrite (ref_len _ _ R1); lia). cbn. eauto.
  - rewrite ds_find_out by lia. cbn. eauto using refines_refl.
Qed.

Lemma ds_union_out_total d n E i j : Inv d n E -> n <= i \/ n <= j ->
  exists d', ds_union d i j = Ret (None, d').
Proof.
  intros HI Hout. pose proof (inv_len _ _ _ HI) as Hlen. unfold ds_union.
  destruct (decide (i < n)) as [Hi|Hi].
  - destruct (ds_find_spec _ _ _ i HI Hi) as (r1&k1&d1&H1&P1&R1). rewrite H1. cbn.
    rewrite ds_find_out by (rewrite (ref_len _ _ R1); lia). cbn. eauto.
  - rewrite ds_find_out by lia. cbn. eauto.
Qed.

Lemma ds_find_refines d n E i o d' : Inv d n E -> ds_find d i = Ret (o, d') -> refines d d'.
Proof.
  intros HI Hf. pose proof (inv_len _ _ _ HI) as Hlen.
  destruct (decide (i < n)) as [Hi|Hi].
  - destruct (ds_find_spec _ _ _ i HI Hi) as (r1&k1&d1&H1&P1&R1). congruence.
  - rewrite ds_find_out in Hf by lia. injection Hf as <- <-. apply refines_refl.
Qed.

Lemma common_set_refines d n E i j o d' :
  Inv d n E -> common_set d i j = Ret (o, d') -> refines d d'.
Proof.
  intros HI Hf. destruct (decide (i < n /\ j < n)) as [[Hi Hj]|Hn].
  - destruct (common_set_spec _ _ _ i j HI Hi Hj) as (b&d1&H1&R1&_). congruence.
  - destruct (common_set_out _ _ _ i j HI) as (d1&H1&R1); [lia|]. congruence.
Qed.

Lemma history_inv d n E : history d n E -> Inv d n E.
Proof.
  induction 1 as [|n|d n E _ IH|d n E i o d' _ IH Hf|d n E i j o d' _ IH Hf
    |d n E i j o d' _ IH Hi Hj Hf|d n E i j o d' _ IH Hout Hf].
  - apply (inv_with_size 0).
  - apply inv_with_size.
  - by apply inv_add.
  - eauto using refines_inv, ds_find_refines.
  - eauto using refines_inv, common_set_refines.
  - destruct (ds_union_spec _ _ _ i j IH Hi Hj) as (a&d1&H1&HI). congruence.
  - eapply refines_inv; [done|]. by edestruct ds_union_out.
Qed.

Lemma rp_steps d k i r : rp d k i r -> steps d k i r.
Proof. induction 1; cbn; eauto. Qed.
Lemma steps_rp d k i r v : steps d k i r -> d !! r = Some (Element true v) -> rp d k i r.
Proof.
  revert i. induction k as [|k IH]; cbn; intros i H Hr.
  - subst. by econstructor.
  - destruct H as (p&?&?). econstructor; eauto.
Qed.

Lemma finds_rp d n E i r : Inv d n E -> finds d i (Some r) <-> exists k, rp d k i r.
Proof.
  intros HI. pose proof (inv_len _ _ _ HI) as Hlen. split.
  - intros [d' Hf]. destruct (decide (i < n)) as [Hi|Hi].
    + destruct (ds_find_spec _ _ _ i HI Hi) as (r1&k1&d1&H1&P1&R1).
      assert (r1 = r) as -> by congruence. eauto.
    + rewrite ds_find_out in Hf by lia. congruence.
  - intros [k Hk]. assert (i < n) as Hi by (rewrite <-Hlen; by eapply rp_lookup).
    destruct (ds_find_spec _ _ _ i HI Hi) as (r1&k1&d1&H1&P1&R1).
    destruct (rp_det _ _ _ _ Hk _ _ P1) as [_ ->]. eexists. exact H1.
Qed.

Lemma finds_none d n E i : Inv d n E -> finds d i None <-> n <= i.
Proof.
  intros HI. pose proof (inv_len _ _ _ HI) as Hlen. split.
  - intros [d' Hf]. destruct (decide (i < n)) as [Hi|Hi]; [|lia].
    destruct (ds_find_spec _ _ _ i HI Hi) as (r1&k1&d1&H1&P1&R1). congruence.
  - intros Hi. exists d. apply ds_find_out. lia.
Qed.

Lemma partition_lemma d n E : history d n E ->
  (forall i j, i < n -> j < n ->
     exists b d', common_set d i j = Ret (Some b, d') /\ (b = true <-> connected E i j)) /\
  (forall i j, i < n -> j < n ->
     exists r1 r2, finds d i (Some r1) /\ finds d j (Some r2) /\ (r1 = r2 <-> connected E i j)) /\
  (forall i r, finds d i (Some r) -> r < n /\ connected E i r).
Proof.
  intros Hh. pose proof (history_inv _ _ _ Hh) as HI. split_and!.
  - intros i j Hi Hj. destruct (common_set_spec _ _ _ i j HI Hi Hj) as (b&d1&H1&R1&Hb).
    exists b, d1. split; [done|]. rewrite Hb. by apply (inv_conn _ _ _ HI).
  - intros i j Hi Hj. destruct (inv_total _ _ _ HI i Hi) as (k1&r1&P1).
    destruct (inv_total _ _ _ HI j Hj) as (k2&r2&P2). exists r1, r2. split_and!.
    + eapply finds_rp; eauto.
    + eapply finds_rp; eauto.
    + unfold connected. rewrite <-(inv_conn _ _ _ HI) by done. split.
      * intros ->. unfold same_root; eauto 10.
      * intros (r&k&k'&Q1&Q2). destruct (rp_det _ _ _ _ P1 _ _ Q1) as [_ ->].
        by destruct (rp_det _ _ _ _ P2 _ _ Q2) as [_ ->].
  - intros i r Hf. apply (finds_rp _ _ _ _ _ HI) in Hf as [k Hk].
    destruct (rp_is_root _ _ _ _ Hk) as [v Hv].
    assert (r < n) by (rewrite <-(inv_len _ _ _ HI); by eapply lookup_lt_Some).
    assert (i < n) by (rewrite <-(inv_len _ _ _ HI); by eapply rp_lookup).
    split; [done|]. apply (inv_conn _ _ _ HI); [done|done|].
    exists r, k, 0. split; [done|by econstructor].
Qed.

Lemma refines_finds d d' n E i r : Inv d n E -> refines d d' ->
  finds d i r <-> finds d' i r.
Proof.
  intros HI R. pose proof (refines_inv _ _ _ _ HI R) as HI'. destruct r as [r|].
  - rewrite (finds_rp _ _ _ _ _ HI), (finds_rp _ _ _ _ _ HI'). split.
    + intros [k Hk]. destruct (ref_rp _ _ R _ _ _ Hk) as (k'&_&?). eauto.
    + intros [k Hk]. destruct (refines_rp_back _ _ _ _ HI R _ _ _ Hk) as (k'&_&?). eauto.
  - by rewrite (finds_none _ _ _ _ HI), (finds_none _ _ _ _ HI').
Qed.

Lemma queries_lemma d n E : history d n E ->
  (forall i, exists o d', ds_find d i = Ret (o, d') /\ (o = None <-> n <= i) /\
     forall x r, finds d x r <-> finds d' x r) /\
  (forall i j, exists o d', common_set d i j = Ret (o, d') /\ (o = None <-> n <= i \/ n <= j) /\
     forall x r, finds d x r <-> finds d' x r) /\
  (forall i j, exists o d', ds_union d i j = Ret (o, d') /\ (o = None <-> n <= i \/ n <= j) /\
     (o = None -> forall x r, finds d x r <-> finds d' x r)).
Proof.
  intros Hh. pose proof (history_inv _ _ _ Hh) as HI. pose proof (inv_len _ _ _ HI) as Hlen.
  split_and!.
  - intros i. destruct (decide (i < n)) as [Hi|Hi].
    + destruct (ds_find_spec _ _ _ i HI Hi) as (r1&k1&d1&H1&P1&R1).
      exists (Some r1), d1. split_and!; [done|split; [done|lia]|].
      intros x r. by eapply refines_finds.
    + exists None, d. split_and!; [apply ds_find_out; lia|split; [lia|done]|done].
  - intros i j. destruct (decide (i < n /\ j < n)) as [[Hi Hj]|Hn].
    + destruct (common_set_spec _ _ _ i j HI Hi Hj) as (b&d1&H1&R1&_).
      exists (Some b), d1. split_and!; [done|split; [done|lia]|].
      intros x r. by eapply refines_finds.
    + destruct (common_set_out _ _ _ i j HI) as (d1&H1&R1); [lia|].
      exists None, d1. split_and!; [done|split; [lia|done]|].
      intros x r. by eapply refines_finds.
  - intros i j. destruct (decide (i < n /\ j < n)) as [[Hi Hj]|Hn].
    + destruct (ds_union_spec _ _ _ i j HI Hi Hj) as (a&d1&H1&_).
      exists (Some a), d1. split_and!; [done|split; [done|lia]|done].
    + assert (n <= i \/ n <= j) as Hout by lia.
      destruct (ds_union_out_total _ _ _ i j HI Hout) as (d1&H1).
      destruct (ds_union_out _ _ _ _ _ _ _ HI Hout H1) as [_ R1].
      exists None, d1. split_and!; [done|split; [lia|done]|].
      intros _ x r. by eapply refines_finds.
Qed.

Lemma depth_lemma d n E i : history d n E -> i < n ->
  exists k r members, steps d k i r /\ d !! r = Some (Element true (length members)) /\
    NoDup members /\ (forall j, j ∈ members <-> j < n /\ connected E i j) /\
    2 ^ k <= length members.
Proof.
  intros Hh Hi. pose proof (history_inv _ _ _ Hh) as HI. pose proof (inv_len _ _ _ HI) as Hlen.
  destruct (inv_total _ _ _ HI i Hi) as (k&r&P).
  destruct (rp_is_root _ _ _ _ P) as [v Hv].
  destruct (inv_size _ _ _ HI _ _ Hv) as (ms&Nms&<-&Hms).
  exists k, r, ms. split_and!; [by apply rp_steps|done|done| |by eapply inv_depth].
  intros j. rewrite Hms. split.
  - intros [k' Hk']. assert (j < n) as Hj by (rewrite <-Hlen; by eapply rp_lookup).
    split; [done|]. apply (inv_conn _ _ _ HI); [done|done|]. unfold same_root; eauto 10.
  - intros [Hj Hc]. apply (inv_conn _ _ _ HI) in Hc as (r'&k1&k2&Q1&Q2); [|done|done].
    destruct (rp_det _ _ _ _ P _ _ Q1) as [_ ->]. eauto.
Qed.

Lemma root_counts d n E r v : history d n E -> d !! r = Some (Element true v) ->
  exists members, length members = v /\ NoDup members /\
    forall j, j ∈ members <-> j < n /\ connected E r j.
Proof.
  intros Hh Hr. pose proof (history_inv _ _ _ Hh) as HI. pose proof (inv_len _ _ _ HI) as Hlen.
  assert (r < n) as Hrn by (rewrite <-Hlen; by eapply lookup_lt_Some).
  destruct (depth_lemma _ _ _ r Hh Hrn) as (k&r'&ms&Hs&Hr'&Nd&Hms&_).
  assert (r' = r) as ->.
  { destruct k; cbn in Hs; [done|]. destruct Hs as (p&Hp&_). congruence. }
  exists ms. split_and!; [congruence|done|done].
Qed.
