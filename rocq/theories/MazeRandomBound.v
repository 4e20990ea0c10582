(** Proofs for C81: which mazes have a positive probability, and how small it can be. *)
From Coq Require Import QArith Qcanon.
From Verif Require Import Base Util UtilProofs DisjointSet Maze SpecMaze SpecMazeDfs MazeTree MazeGen MazeDfs MazeDfsProofs MazeDraws.
From Verif Require Import SpecMazeRandom MazeRandom.
Local Open Scope nat_scope.

Local Notation third := (Q2Qc (1 # 3)).

(** * Means of non-negative values *)

Lemma qc_nonneg n : (0 <= qc n)%Qc.
Proof. unfold Qcle. change (this 0%Qc) with 0%Q. unfold qc. cbn. rewrite Qred_correct. unfold Qle. cbn. lia. Qed.
Lemma total_nonneg l : Forall (fun x => (0 <= x)%Qc) l -> (0 <= total l)%Qc.
Proof.
  induction 1 as [|x l Hx _ IH]; [rewrite total_nil; apply Qcle_refl|]. rewrite total_cons.
  replace 0%Qc with (0 + 0)%Qc by ring. by apply Qcplus_le_compat.
Qed.
Lemma total_one l x : Forall (fun x => (0 <= x)%Qc) l -> x ∈ l -> (x <= total l)%Qc.
Proof.
  intros Hl Hx. apply elem_of_list_split in Hx as (l1&l2&->). apply Forall_app in Hl as [H1 H2].
  apply Forall_cons in H2 as [_ H2]. rewrite total_app, total_cons.
  replace x with (0 + (x + 0))%Qc at 1 by ring. apply Qcplus_le_compat; [by apply total_nonneg|].
  apply Qcplus_le_compat; [apply Qcle_refl|by apply total_nonneg].
Qed.
Lemma qc_pos n : n <> 0 -> (0 < qc n)%Qc.
Proof. intros Hn. destruct (Qcle_lt_or_eq _ _ (qc_nonneg n)) as [|H]; [done|]. exfalso. by apply (qc_nonzero n Hn). Qed.
Lemma qc_le a b : a <= b -> (qc a <= qc b)%Qc.
Proof.
  intros H. replace b with (a + (b - a)) by lia. rewrite qc_plus. replace (qc a) with (qc a + 0)%Qc at 1 by ring.
  apply Qcplus_le_compat; [apply Qcle_refl|apply qc_nonneg].
Qed.
Lemma mult_nonneg x y : (0 <= x)%Qc -> (0 <= y)%Qc -> (0 <= x * y)%Qc.
Proof. intros Hx Hy. replace 0%Qc with (0 * y)%Qc by ring. by apply Qcmult_le_compat_r. Qed.
Lemma inv_nonneg n : n <> 0 -> (0 <= / qc n)%Qc.
Proof.
  intros _. unfold Qcle, Qcinv. cbn [this Q2Qc]. rewrite !Qred_correct. apply Qinv_le_0_compat.
  unfold Qle. cbn. lia.
Qed.
Lemma mean_nonneg {A} (f : A -> Qc) l : (forall x, x ∈ l -> (0 <= f x)%Qc) -> (0 <= mean f l)%Qc.
Proof.
  intros H. unfold mean. destruct l as [|a l].
  - cbn [fmap list_fmap length]. rewrite total_nil. unfold Qcdiv. replace (0 * / qc 0)%Qc with 0%Qc by ring. apply Qcle_refl.
  - unfold Qcdiv. apply mult_nonneg; [|by apply inv_nonneg]. apply total_nonneg. apply Forall_fmap, Forall_forall. done.
Qed.
Lemma mean_lower {A} (f : A -> Qc) l x k v : (forall y, y ∈ l -> (0 <= f y)%Qc) -> x ∈ l -> length l <= k ->
  (v <= f x)%Qc -> (v / qc k <= mean f l)%Qc.
Proof.
  intros Hf Hx Hk Hv. assert (l <> []) as Hl by (intros ->; by apply elem_of_nil in Hx).
  assert (k <> 0) as Hk0 by (destruct l; [done|cbn in Hk; lia]).
  assert (v <= mean f l * qc k)%Qc as H.
  { apply (Qcle_trans _ (f x)); [done|]. apply (Qcle_trans _ (total (f <$> l))).
    - apply total_one; [by apply Forall_fmap, Forall_forall|]. by apply elem_of_list_fmap_1.
    - rewrite mean_total by done. rewrite (Qcmult_comm (mean f l)). apply Qcmult_le_compat_r; [by apply qc_le|by apply mean_nonneg]. }
  replace (mean f l) with ((mean f l * qc k) * / qc k)%Qc by (field; by apply qc_nonzero).
  unfold Qcdiv. apply Qcmult_le_compat_r; [done|by apply inv_nonneg].
Qed.

Lemma exactly_nonneg g g' : (0 <= exactly g g')%Qc.
Proof. unfold exactly. by case_decide. Qed.

Lemma walk_nonneg f w h : (forall g, (0 <= f g)%Qc) -> forall fuel path vs mz, (0 <= walk fuel w h f path vs mz)%Qc.
Proof.
  intros Hf. induction fuel as [|fuel IH]; intros [|c rest] vs mz; cbn [walk]; [done|apply Qcle_refl|done|].
  destruct (fresh w h vs c) as [|x l]; [done|]. apply mean_nonneg. done.
Qed.

Section bound.
Context (m : mode) (w h : nat).
Context (Hw : 1 <= w) (Hh : 1 <= h) (Hst : storable m w h).
Local Notation n := (w * h).
Local Notation geo := (geo w h).
Local Notation GI := (GI w h).
Local Notation LI := (LI w h).

Lemma elem_fresh vs c j : c < n -> j ∈ fresh w h vs c <-> nb w h c j /\ j ∉ vs.
Proof.
  intros Hc. unfold fresh, nb. rewrite elem_of_list_filter, elem_of_seq. split.
  - intros ((Hb&Hj)&_&Hjn). split; [|done].
    destruct Hb as [Hb|[Hb|[Hb|Hb]]]; [exists Right|exists Down|exists Left|exists Up]; done.
  - intros ((dir&_&Hj&Hg)&Hv). split; [|lia]. split; [|done]. destruct dir; cbn in Hg; tauto.
Qed.

(** From a cell that was entered from another one, or the first one, one direction leads nowhere. *)
Definition entered (vs : list nat) (c : nat) : Prop := c = 0 \/ (exists p, nb w h c p /\ p ∈ vs).
Lemma fresh_dir vs c : c < n -> entered vs c -> exists dir, (h = 1 -> dir = Right \/ dir = Left) /\
  fresh w h vs c ⊆+ go w h c <$> filter (fun d => d <> dir /\ (h = 1 -> d = Right \/ d = Left)) [Right; Down; Left; Up].
Proof.
  intros Hc Hp.
  assert (forall dir j, h = 1 -> geo dir c j -> dir = Right \/ dir = Left) as Hrow.
  { intros dir j Hh1 (_&Hj&Hg). destruct dir; cbn in Hg; unfold below in Hg; [tauto|rewrite Hh1 in *; lia|tauto|rewrite Hh1 in *; lia]. }
  assert (exists dir, (h = 1 -> dir = Right \/ dir = Left) /\ forall j, geo dir c j -> j ∈ vs) as (dir&Hd1&Hdir).
  { destruct Hp as [->|(p&(dir&Hg)&Hv)].
    - exists Left. split; [by right|]. intros j (_&_&Hj). cbn in Hj. unfold beside in Hj. lia.
    - exists dir. split; [intros Hh1; by eapply Hrow|].
      intros j Hj. apply (target_spec w h Hw Hh) in Hj; [|done]. apply (target_spec w h Hw Hh) in Hg; [|done]. congruence. }
  exists dir. split; [done|].
  apply NoDup_submseteq; [apply NoDup_filter, NoDup_seq|]. intros j Hj. apply elem_fresh in Hj as ((dir'&Hg)&Hv); [|done].
  apply elem_of_list_fmap. exists dir'. pose proof Hg as Ht. apply (target_spec w h Hw Hh) in Ht; [|done]. unfold go.
  rewrite Ht. split; [done|]. apply elem_of_list_filter. split; [split|].
  - intros ->. by apply Hv, Hdir.
  - intros Hh1. by eapply Hrow.
  - destruct dir'; rewrite !elem_of_cons; tauto.
Qed.
Lemma fresh_three vs c : c < n -> entered vs c -> length (fresh w h vs c) <= 3.
Proof.
  intros Hc Hp. destruct (fresh_dir vs c Hc Hp) as (dir&_&Hsub). apply submseteq_length in Hsub. rewrite fmap_length in Hsub.
  etransitivity; [exact Hsub|]. assert (filter (fun d => d <> dir /\ (h = 1 -> d = Right \/ d = Left)) [Right; Down; Left; Up] ⊆+
    filter (fun d => d <> dir) [Right; Down; Left; Up]) as Hs.
  { apply NoDup_submseteq; [apply NoDup_filter; by apply (bool_decide_unpack _)|]. intros d. rewrite !elem_of_list_filter. tauto. }
  apply submseteq_length in Hs. etransitivity; [exact Hs|]. by destruct dir; apply (bool_decide_unpack _).
Qed.
Lemma fresh_one vs c : h = 1 -> c < n -> entered vs c -> length (fresh w h vs c) <= 1.
Proof.
  intros Hh1 Hc Hp. destruct (fresh_dir vs c Hc Hp) as (dir&Hdir&Hsub). specialize (Hdir Hh1).
  apply submseteq_length in Hsub. rewrite fmap_length in Hsub.
  etransitivity; [exact Hsub|]. assert (filter (fun d => d <> dir /\ (h = 1 -> d = Right \/ d = Left)) [Right; Down; Left; Up] ⊆+
    filter (fun d => d <> dir /\ (d = Right \/ d = Left)) [Right; Down; Left; Up]) as Hs.
  { apply NoDup_submseteq; [apply NoDup_filter; by apply (bool_decide_unpack _)|]. intros d. rewrite !elem_of_list_filter. tauto. }
  apply submseteq_length in Hs. etransitivity; [exact Hs|]. destruct Hdir as [-> | ->]; by apply (bool_decide_unpack _).
Qed.

(** Moving into an unvisited neighbour. *)
Lemma enter c rest vs mz d E visit dir x : GI vs mz d E -> LI (c :: rest) vs visit -> geo dir c x -> x ∉ vs ->
  exists d' visit', GI (x :: vs) (opened dir c x mz) d' ((c, x) :: E) /\ LI (x :: c :: rest) (x :: vs) visit'.
Proof.
  intros HI HL Hg Hx. destruct (step_open m w h Hw Hh Hst 0 c rest vs mz d E visit 0 dir x HI HL Hg Hx) as (draw&d'&vis'&_&H1&H2).
  eauto.
Qed.

Section target.
Context (g : list maze_node) (Hlen : length g = n) (Hwall : walled w h g) (Hperf : perfect w h g) (Hdf : depth_first w h g).
Local Notation TI := (TI w g).

Lemma ti_push c rest vs mz d E visit dir x : GI vs mz d E -> LI (c :: rest) vs visit -> TI (c :: rest) vs mz ->
  geo dir c x -> joined w g c x -> x ∉ vs -> TI (x :: c :: rest) (x :: vs) (opened dir c x mz).
Proof.
  intros HI HL HT Hg Hj Hx.
  pose proof (opened_joined w h Hw Hh dir c x mz (gi_len _ _ _ _ _ _ HI) Hg) as Hop. split.
  - intros a b Hab. apply Hop in Hab as [Hab|[[-> ->]|[-> ->]]]; [by apply HT|done|by apply jsym].
  - intros c' rest' [= <- <-]. apply (path_cons _ x c); [apply Hop; tauto|].
    eapply path_sub; [|by eapply ti_path]. intros a b Hab. apply Hop. by left.
  - apply NoDup_cons. split; [|apply HT]. intros Hin. apply Hx. by apply HL.
  - intros i j Hi Hni Ha. apply elem_of_cons. right. apply not_elem_of_cons in Hni as [Hne Hni].
    apply elem_of_cons in Hi as [->|Hi]; [done|]. by eapply (ti_done _ _ _ _ _ HT i j).
Qed.

Lemma ti_children c rest vs mz d E visit : GI vs mz d E -> LI (c :: rest) vs visit -> TI (c :: rest) vs mz ->
  (forall x, joined w g c x -> x ∈ vs) -> fresh w h vs c = [] /\ TI rest vs mz.
Proof.
  intros HI HL HT Hchild.
  assert (c ∈ vs) as Hc by (apply HL; apply elem_of_cons; by left). assert (c < n) as Hcn by (by apply HI).
  pose proof (subtree w h Hw Hh g Hlen Hperf c rest vs mz HT Hc Hcn Hchild) as Hsub. split.
  - destruct (fresh w h vs c) as [|j l] eqn:Hf; [done|]. exfalso.
    assert (j ∈ fresh w h vs c) as Hj by (rewrite Hf; apply elem_of_cons; by left).
    apply elem_fresh in Hj as [Hn Hv]; [|done]. apply Hv.
    assert (ancestor w g c j \/ ancestor w g j c) as Ha.
    { destruct (nb_neighbours w h c j) as [H|H]; [done|by apply Hdf|]. apply Hdf in H. tauto. }
    destruct Ha as [Ha|(l'&Hp&Hnd&Hin)]; [by apply Hsub|].
    rewrite (ti_stack w h Hw Hh g Hlen Hperf c rest vs mz HT Hcn l' Hp Hnd) in Hin. apply HL. by apply elem_of_reverse.
  - split.
    + apply HT.
    + intros c' rest' ->. pose proof (ti_path _ _ _ _ _ HT c (c' :: rest') eq_refl) as Hp. by apply path_tail in Hp as [_ ?].
    + pose proof (ti_nodup _ _ _ _ _ HT) as Hnd. by apply NoDup_cons in Hnd as [_ ?].
    + intros i j Hi Hni Ha. destruct (decide (i = c)) as [->|Hne]; [by apply Hsub|].
      apply (ti_done _ _ _ _ _ HT i j); [done| |done]. by apply not_elem_of_cons.
Qed.

Lemma ti_end vs mz d E visit : GI vs mz d E -> LI [] vs visit -> TI [] vs mz -> mz = g /\ length vs = n.
Proof.
  intros HI HL HT. pose proof (all_reached w h Hw Hh _ _ _ _ _ HI HL) as Hall. split.
  - apply (same_walls m w h Hw Hh Hst g Hlen Hperf Hdf); [by apply HI|by apply HI|by apply closed_walled|].
    intros a b. split; [apply HT|]. intros Hj.
    destruct (joined_nb w h Hw Hh g a b Hlen Hj) as (dir&Ha&Hb&Hgeo).
    destruct (gi_tree _ _ _ _ _ _ HI a b) as (l&[Hp Hnd]&_); [by apply Hall|by apply Hall|].
    destruct (Hperf a b Ha Hb) as (l0&_&Hu).
    assert (l = [a; b]) as ->.
    { rewrite (Hu l) by (split; [eapply path_sub; [apply HT|done]|done]). symmetry. apply Hu. split.
      - apply (path_cons _ a b); [done|]. apply path_single.
      - apply NoDup_cons. split; [|apply NoDup_singleton]. intros Hin. apply elem_of_list_singleton in Hin as ->.
        eapply (nb_irrefl w h Hw Hh). by exists dir. }
    by apply path_tail in Hp as [? _].
  - apply Nat.le_antisymm; [by eapply vs_le|]. rewrite <-(seq_length n 0) at 1. apply submseteq_length, NoDup_submseteq.
    + apply NoDup_seq.
    + intros i Hi%elem_of_seq. apply Hall. lia.
Qed.

Lemma ti_start : TI [0] [0] (replicate n maze_node_new).
Proof.
  split.
  - intros a b [(_&nd&Hi&H)|(_&nd&Hi&H)]; apply lookup_replicate in Hi as [-> _]; destruct H as [[H _]|[H _]]; done.
  - intros c rest [= <- <-]. apply path_single.
  - apply NoDup_singleton.
  - intros i j Hi Hni. done.
Qed.

Lemma walk_lower k : k <> 0 -> (forall vs c, c < n -> entered vs c -> length (fresh w h vs c) <= k) -> forall fuel path vs mz d E visit, GI vs mz d E -> LI path vs visit -> TI path vs mz ->
  2 * (n - length vs) + length path < fuel + 1 -> ((/ qc k) ^ (n - length vs) <= walk fuel w h (exactly g) path vs mz)%Qc.
Proof.
  intros Hk0 Hk. induction fuel as [|fuel IH]; intros path vs mz d E visit HI HL HT Hf; (destruct path as [|c rest]; cbn [walk]).
  - destruct (ti_end vs mz d E visit HI HL HT) as [-> ->]. rewrite Nat.sub_diag. cbn [Qcpower]. unfold exactly. by rewrite decide_True.
  - cbn in Hf. lia.
  - destruct (ti_end vs mz d E visit HI HL HT) as [-> ->]. rewrite Nat.sub_diag. cbn [Qcpower]. unfold exactly. by rewrite decide_True.
  - pose proof (vs_le w h Hw Hh _ _ _ _ HI) as Hvn.
    assert (c ∈ vs) as Hc by (apply HL; apply elem_of_cons; by left). assert (c < n) as Hcn by (by apply HI).
    destruct (choose_child w h Hw Hh g Hlen vs c Hcn) as [(dir&x&Hg&Hj&Hx)|Hchild].
    + destruct (enter c rest vs mz d E visit dir x HI HL Hg Hx) as (d'&visit'&HI'&HL').
      pose proof (vs_le w h Hw Hh _ _ _ _ HI') as Hvn'. cbn [length] in Hvn'.
      assert (x ∈ fresh w h vs c) as Hxf by (apply elem_fresh; [done|]; split; [by exists dir|done]).
      assert (length (fresh w h vs c) <= k) as H3.
      { apply Hk; [done|]. pose proof (ti_path _ _ _ _ _ HT c rest eq_refl) as Hp. destruct rest as [|p rest].
        - left. destruct Hp as (_&Hl&_). cbn in Hl. by injection Hl as ->.
        - right. exists p. apply path_tail in Hp as [Hp _]. split; [|apply HL; rewrite !elem_of_cons; tauto].
          apply (joined_nb w h Hw Hh g); [done|]. by apply HT. }
      destruct (fresh w h vs c) as [|x0 l0] eqn:Hfr; [by apply elem_of_nil in Hxf|].
      replace (n - length vs) with (S (n - length (x :: vs))) by (cbn [length]; lia).
      eapply Qcle_trans; [|eapply (mean_lower _ _ x k ((/ qc k) ^ (n - length (x :: vs)))%Qc); [|exact Hxf|exact H3|]].
      * cbn [Qcpower]. unfold Qcdiv. rewrite Qcmult_comm. apply Qcle_refl.
      * intros y _. apply walk_nonneg. apply exactly_nonneg.
      * rewrite <-(opened_remove m w h Hw Hh Hst dir) by done. eapply IH; [exact HI'|exact HL'|by eapply ti_push|].
        cbn in Hf |- *. lia.
    + destruct (ti_children c rest vs mz d E visit HI HL HT Hchild) as [-> HT'].
      eapply (IH rest vs mz d E); [done| |done|cbn in Hf; lia]. apply li_pop; [done| |done].
      intros dir j Hj. destruct (decide (j ∈ vs)) as [|Hjv]; [done|]. exfalso.
      assert (fresh w h vs c = []) as Hnil by (by eapply ti_children).
      assert (j ∈ fresh w h vs c) as Hjf by (apply elem_fresh; [done|]; split; [by exists dir|done]).
      rewrite Hnil in Hjf. by apply elem_of_nil in Hjf.
Qed.

Lemma expected_lower k : k <> 0 -> (forall vs c, c < n -> entered vs c -> length (fresh w h vs c) <= k) ->
  ((/ qc k) ^ (n - 1) <= expected w h (exactly g))%Qc.
Proof.
  intros Hk0 Hk. pose proof (n_pos w h Hw Hh) as Hn.
  apply (walk_lower k Hk0 Hk (2 * n) [0] [0] (replicate n maze_node_new) (with_size n) [] (replicate n [Right; Down; Left; Up])).
  - by apply gi_start.
  - by apply start_li.
  - apply ti_start.
  - cbn [length]. lia.
Qed.
End target.
End bound.

Lemma third_pos k : (0 < third ^ k)%Qc.
Proof.
  induction k as [|k IH]; [done|]. cbn [Qcpower]. replace 0%Qc with (0 * third ^ k)%Qc by ring. by apply Qcmult_lt_compat_r.
Qed.

Lemma bound_maze (m : mode) w h k g : 1 <= w -> 1 <= h -> storable m w h ->
  length g = w * h -> walled w h g -> perfect w h g -> depth_first w h g ->
  (third ^ (w * h - 1) <= mean_draws (12 * S k) (4 * (w * h)) (fun ds => value (exactly g) (recursive_backtrack m (rng_of ds) w h)))%Qc.
Proof.
  intros Hw Hh Hst H1 H2 H3 H4. rewrite (generator_mean m w h Hw Hh Hst) by eauto.
  assert (third = (/ qc 3)%Qc) as -> by (by apply Qc_is_canon). apply (expected_lower m); try done. by apply (fresh_three m).
Qed.

Lemma mean_pos {A} (f : A -> Qc) l : (0 < mean f l)%Qc -> exists x, x ∈ l /\ (0 < f x)%Qc.
Proof.
  intros H. assert (forall x, {(f x <= 0)%Qc} + {(0 < f x)%Qc}) as dec by (intros x; destruct (Qclt_le_dec 0%Qc (f x)); tauto).
  destruct (Forall_Exists_dec (fun x => (f x <= 0)%Qc) (fun x => (0 < f x)%Qc) dec l) as [Hf|He].
  2:{ by apply Exists_exists in He. }
  exfalso. apply (Qclt_not_le _ _ H). assert (0 <= mean (fun x => - f x) l)%Qc as Hm.
  { apply mean_nonneg. intros x Hx. rewrite Forall_forall in Hf. specialize (Hf x Hx). apply Qcopp_le_compat in Hf. done. }
  replace (mean f l) with (- mean (fun x => - f x) l)%Qc.
  - apply Qcopp_le_compat in Hm. done.
  - unfold mean, Qcdiv. replace (total ((fun x => - f x)%Qc <$> l)) with (- total (f <$> l))%Qc; [ring|].
    clear. induction l as [|x l IH]; cbn [fmap list_fmap]; rewrite ?total_nil, ?total_cons; [ring|].
    rewrite <-IH. ring.
Qed.
Lemma mean_draws_pos k n : forall f, (0 < mean_draws k n f)%Qc -> exists ds, (0 < f ds)%Qc.
Proof.
  induction n as [|n IH]; intros f H; cbn in H; [eauto|]. apply mean_pos in H as (d&_&H). apply IH in H as [ds H]. eauto.
Qed.

Lemma positive_maze (m : mode) w h k g : 1 <= w -> 1 <= h -> storable m w h ->
  (0 < mean_draws (12 * S k) (4 * (w * h)) (fun ds => value (exactly g) (recursive_backtrack m (rng_of ds) w h)))%Qc <->
  length g = w * h /\ walled w h g /\ perfect w h g /\ depth_first w h g.
Proof.
  intros Hw Hh Hst. split.
  - intros (ds&Hpos)%mean_draws_pos. apply (support m w h Hw Hh Hst). exists (rng_of ds).
    destruct (recursive_backtrack m (rng_of ds) w h) as [g'|]; [|done]. cbn in Hpos. unfold exactly in Hpos. case_decide as E; [by subst|done].
  - intros (H1&H2&H3&H4). eapply Qclt_le_trans; [apply (third_pos (w * h - 1))|]. by apply bound_maze.
Qed.
