(** Matrices as [new] and [add_solution] leave them have ordered links. *)
From stdpp Require Import sorting.
From Verif Require Import Base Dlx SpecDlx DlxSeg DlxCover DlxSets DlxSearch DlxAdd DlxBuild DlxNew DlxReady SpecDlxCaught SpecDlxTame DlxReleaseSim DlxLenCheck DlxLenCheckProofs DlxTame.
From Verif Require DlxLen DlxUnwind DlxCaught DlxCaughtProofs.

(** The position of an element. *)
Definition place (l : list ptr) (x : ptr) : nat := length (before x l).
Lemma place_at l1 x l2 : x ∉ l1 -> place (l1 ++ x :: l2) x = length l1.
Proof.
  unfold place. induction l1 as [|y l1 IH]; cbn; [by rewrite decide_True|].
  intros [Hy Hx]%not_elem_of_cons. rewrite decide_False by done. cbn. by rewrite IH.
Qed.
Lemma place_lt l x : x ∈ l -> place l x < length l.
Proof. intros Hx. unfold place. rewrite (before_after x l Hx) at 2. rewrite app_length. cbn. lia. Qed.
Lemma place_order l1 x l2 y l3 : NoDup (l1 ++ x :: l2 ++ y :: l3) ->
  place (l1 ++ x :: l2 ++ y :: l3) x < place (l1 ++ x :: l2 ++ y :: l3) y.
Proof.
  intros Hnd. rewrite place_at.
  - rewrite app_comm_cons, app_assoc. rewrite place_at; [rewrite app_length; cbn; lia|].
    rewrite app_comm_cons, app_assoc in Hnd. apply NoDup_app in Hnd as (_&H&_). intros Hin. by eapply H; [exact Hin|apply elem_of_list_here].
  - apply NoDup_app in Hnd as (_&H&_). intros Hin. by eapply H; [exact Hin|apply elem_of_list_here].
Qed.

(** A ring in which ranks grow. *)
Lemma ring_order nxt prv (rk : ptr -> nat) h a l : seg nxt prv h a l a -> a ∉ l ->
  (forall l1 x l2 y l3, l = l1 ++ x :: l2 ++ y :: l3 -> rk x < rk y) ->
  forall x n, x ∈ a :: l -> h !! x = Some n ->
  (nxt n = a \/ nxt n ∈ l /\ (x = a \/ rk x < rk (nxt n))) /\ (prv n = a \/ prv n ∈ l /\ (x = a \/ rk (prv n) < rk x)).
Proof.
  intros Hs Ha Hrk x n Hx Hn. apply elem_of_cons in Hx as [->|Hx].
  - split.
    + destruct l as [|y l]; cbn in Hs.
      * destruct Hs as [H _]. unfold fld in H. rewrite Hn in H. cbn in H. left. congruence.
      * destruct Hs as [[H _] _]. unfold fld in H. rewrite Hn in H. cbn in H. injection H as ->. right. split; [apply elem_of_list_here|by left].
    + destruct (last (a :: l)) as [u|] eqn:Hu; [|by destruct l using rev_ind; [|rewrite app_comm_cons, last_snoc in Hu]].
      pose proof (seg_last _ _ _ _ _ _ _ Hs Hu) as [_ H]. unfold fld in H. rewrite Hn in H. cbn in H. injection H as ->.
      apply last_Some in Hu as [l' Hu]. destruct l' as [|z l']; cbn in Hu; injection Hu as -> ->; [by left|]. right.
      split; [rewrite elem_of_app; right; apply elem_of_list_here|by left].
  - apply elem_of_list_split in Hx as (l1&l2&->). apply seg_app in Hs as [H1 H2]. split.
    + destruct l2 as [|y l2]; cbn in H2.
      * destruct H2 as [H _]. unfold fld in H. rewrite Hn in H. cbn in H. left. congruence.
      * destruct H2 as [[H _] _]. unfold fld in H. rewrite Hn in H. cbn in H. injection H as ->. right.
        split; [rewrite elem_of_app; right; apply elem_of_list_further, elem_of_list_here|]. right. by apply (Hrk l1 x [] y l2).
    + destruct (last (a :: l1)) as [u|] eqn:Hu; [|by destruct l1 using rev_ind; [|rewrite app_comm_cons, last_snoc in Hu]].
      pose proof (seg_last _ _ _ _ _ _ _ H1 Hu) as [_ H]. unfold fld in H. rewrite Hn in H. cbn in H. injection H as ->.
      apply last_Some in Hu as [l' Hu]. destruct l' as [|z l']; cbn in Hu; injection Hu as -> ->; [by left|]. right.
      split; [rewrite !elem_of_app; left; right; apply elem_of_list_here|]. right. apply (Hrk l' u [] x l2). by rewrite <-app_assoc.
Qed.

(** Columns below headers, and the rings of the rows. *)
Record Shape (root : ptr) (fuel : nat) (h : heap) (st : cstate) (mates : ptr -> list ptr) : Prop := {
  sh_ring : seg n_right n_left h root st.*1 root;
  sh_root : fld n_down h root = Some root;
  sh_col c ns : (c, ns) ∈ st ->
    seg n_down n_up h c ns c /\ fld n_header h c = Some null /\ forall q, q ∈ ns -> fld n_header h q = Some c;
  sh_nd : NoDup (root :: fp st);
  sh_null : null ∉ root :: fp st;
  sh_dom x : is_Some (h !! x) <-> x ∈ root :: fp st;
  sh_row q : q ∈ nodes st -> seg n_right n_left h q (mates q) q /\ q ∉ mates q /\ length (mates q) <= fuel /\
    forall y, y ∈ mates q -> y ∈ nodes st;
  sh_fuel : length (fp st) <= fuel
}.
Definition sh_live (st : cstate) (x : ptr) : Prop := x ∈ fp st.
Definition sh_hd (h : heap) (x : ptr) : ptr := default null (fld n_header h x).

Lemma fwd_snoc dir h x b l : forall a, fwd dir h a l x -> fld dir h x = Some b -> fwd dir h a (l ++ [x]) b.
Proof. induction l as [|y l IH]; intros a; cbn; [done|]. intros [H1 H2] H. split; [done|]. by apply IH. Qed.
Lemma seg_rev nxt prv h b l : forall a, seg nxt prv h a l b -> fwd nxt h a l b /\ fwd prv h b (rev l) a.
Proof.
  intros a H. split; [by eapply seg_fwd|]. revert a H. induction l as [|x l IH]; intros a; cbn; [by intros [_ H]|].
  intros [[_ H1] H2]. apply fwd_snoc; [by apply IH|done].
Qed.
Lemma keys_split x l2 l1 : forall s : cstate, s.*1 = l1 ++ x :: l2 -> exists s1 ns s2, s = s1 ++ (x, ns) :: s2 /\ s2.*1 = l2.
Proof.
  induction l1 as [|y l1 IH]; intros [|[c ns] s]; try done; intros E; cbn in E; injection E as -> E.
  - by exists [], ns, s.
  - destruct (IH s E) as (s1&ms&s2&->&E2). by exists ((y, ns) :: s1), ms, s2.
Qed.

Section shape.
Context (root : ptr) (fuel : nat) (h : heap) (st : cstate) (mates : ptr -> list ptr) (HS : Shape root fuel h st mates).
Notation D := (sh_live st).
Notation hd := (sh_hd h).
Notation rk := (place (fp st)).

Lemma shape_header c ns : (c, ns) ∈ st -> hd c = null /\ forall q, q ∈ ns -> hd q = c.
Proof.
  intros Hc. destruct (sh_col _ _ _ _ _ HS c ns Hc) as (_&H1&H2). unfold sh_hd. rewrite H1. split; [done|].
  intros q Hq. by rewrite (H2 q Hq).
Qed.
Lemma shape_key x : D x -> hd x = null -> x ∈ st.*1.
Proof.
  intros (c&ns&Hc&Hx)%elem_of_fp Hh. destruct (shape_header c ns Hc) as [H1 H2]. destruct Hx as [->|Hx].
  - apply elem_of_list_fmap. by exists (c, ns).
  - rewrite (H2 x Hx) in Hh. subst c. destruct (sh_null _ _ _ _ _ HS). apply elem_of_list_further, elem_of_fp. exists null, ns. auto.
Qed.
Lemma key_shape x : x ∈ st.*1 -> D x /\ hd x = null.
Proof. intros Hx. split; [by apply keys_fp|]. apply elem_of_list_fmap in Hx as ([c ns]&->&Hc). by apply (shape_header c ns). Qed.
Lemma shape_node x : D x -> hd x <> null -> x ∈ nodes st /\ exists ns, (hd x, ns) ∈ st /\ x ∈ ns.
Proof.
  intros (c&ns&Hc&Hx)%elem_of_fp Hh. destruct (shape_header c ns Hc) as [H1 H2]. destruct Hx as [->|Hx]; [done|].
  split; [apply elem_of_nodes; eauto|]. rewrite (H2 x Hx). eauto.
Qed.
Lemma node_shape x : x ∈ nodes st -> D x /\ hd x <> null.
Proof.
  intros Hx. split; [by apply nodes_fp|]. apply elem_of_nodes in Hx as (c&ns&Hc&Hx).
  destruct (shape_header c ns Hc) as [_ H2]. rewrite (H2 x Hx). intros ->. destruct (sh_null _ _ _ _ _ HS).
  apply elem_of_list_further, elem_of_fp. exists null, ns. auto.
Qed.
Lemma shape_frame : Frame root fuel D hd rk mates.
Proof.
  pose proof (sh_nd _ _ _ _ _ HS) as [Hr _]%NoDup_cons. pose proof (sh_null _ _ _ _ _ HS) as [Hn1 Hn2]%not_elem_of_cons.
  split; [done|done|congruence| | | |].
  - intros x Hx Hh. destruct (shape_node x Hx Hh) as (_&ns&Hns&_). apply key_shape, elem_of_list_fmap. by exists (hd x, ns).
  - intros x Hx. eapply Nat.lt_le_trans; [by apply place_lt|apply (sh_fuel _ _ _ _ _ HS)].
  - intros x y Hx Hh Hy. destruct (shape_node x Hx Hh) as [Hxn _]. destruct (sh_row _ _ _ _ _ HS x Hxn) as (_&H2&_&H4).
    destruct (node_shape y (H4 y Hy)). split; [done|]. split; [done|]. by intros ->.
  - intros x Hx Hh. destruct (shape_node x Hx Hh) as [Hxn _]. by apply (sh_row _ _ _ _ _ HS x Hxn).
Qed.
Lemma keys_order l1 x l2 y l3 : st.*1 = l1 ++ x :: l2 ++ y :: l3 -> rk x < rk y.
Proof.
  pose proof (sh_nd _ _ _ _ _ HS) as [_ Hnd]%NoDup_cons. intros E.
  assert (exists m1 m2 m3, fp st = m1 ++ x :: m2 ++ y :: m3) as (m1&m2&m3&Em); [|rewrite Em in *; by apply place_order].
  destruct (keys_split _ _ _ _ E) as (s1&ns&s2&->&E2). destruct (keys_split _ _ _ _ E2) as (s3&ms&s4&->&_).
  exists (fp s1), (ns ++ fp s3), (ms ++ fp s4). rewrite fp_app, fp_cons, fp_app, fp_cons. by rewrite <-app_assoc.
Qed.
Lemma column_order c ns l1 x l2 y l3 : (c, ns) ∈ st -> ns = l1 ++ x :: l2 ++ y :: l3 -> rk x < rk y.
Proof.
  pose proof (sh_nd _ _ _ _ _ HS) as [_ Hnd]%NoDup_cons. intros (s1&s2&Est)%elem_of_list_split ->.
  assert (fp st = (fp s1 ++ c :: l1) ++ x :: l2 ++ y :: (l3 ++ fp s2)) as Em.
  { rewrite Est, fp_app, fp_cons. rewrite <-!app_assoc. cbn. f_equal. f_equal. f_equal. f_equal. by rewrite <-app_assoc. }
  rewrite Em in *. by apply place_order.
Qed.
Lemma shape_tame : Tame root D hd rk mates h.
Proof.
  pose proof shape_frame as HF. pose proof (sh_nd _ _ _ _ _ HS) as [Hr Hnd]%NoDup_cons.
  assert (forall x n, h !! x = Some n -> n_header n = hd x) as Hhd.
  { intros x n Hn. unfold sh_hd, fld. by rewrite Hn. }
  assert (forall x, top root D hd x <-> x ∈ root :: st.*1) as Htop.
  { intros x. unfold top. rewrite elem_of_cons. split.
    - intros [->|[H1 H2]]; [by left|]. right. by apply shape_key.
    - intros [->|H]; [by left|]. right. by apply key_shape. }
  assert (forall x n, h !! x = Some n -> top root D hd x ->
    hle root D hd rk x (n_right n) /\ hle root D hd rk (n_left n) x) as Hh.
  { intros x n Hn Hx. assert (root ∉ st.*1) as Hrk by (intros H; by apply Hr, keys_fp).
    pose proof (proj1 (Htop x) Hx) as Hx'.
    destruct (ring_order n_right n_left rk h root st.*1 (sh_ring _ _ _ _ _ HS) Hrk keys_order x n Hx' Hn) as [H1 H2].
    split; (split; [|split]); try done.
    - apply Htop. rewrite elem_of_cons. tauto.
    - destruct H1 as [?|[_ [?|?]]]; auto.
    - apply Htop. rewrite elem_of_cons. tauto.
    - destruct H2 as [?|[_ [?|?]]]; auto. }
  assert (forall x n, h !! x = Some n -> D x ->
    vle D hd rk x (n_down n) /\ vle D hd rk (n_up n) x) as Hv.
  { intros x n Hn Hx. pose proof Hx as (c&ns&Hc&Hxc)%elem_of_fp. destruct (sh_col _ _ _ _ _ HS c ns Hc) as (Hseg&_&_).
    destruct (shape_header c ns Hc) as [Hhc Hhn]. pose proof (NoDup_key_split _ _ _ Hc Hnd) as [Hcn _]%NoDup_cons.
    assert (forall y, y ∈ c :: ns -> D y /\ column hd y = c) as Hcol.
    { intros y Hy. split; [apply elem_of_fp; exists c, ns; by apply elem_of_cons in Hy|]. unfold column.
      apply elem_of_cons in Hy as [->|Hy]; [by rewrite decide_True|]. rewrite (Hhn y Hy). destruct (decide (c = null)) as [->|]; [|done].
      destruct (sh_null _ _ _ _ _ HS). apply elem_of_list_further, elem_of_fp. exists null, ns. auto. }
    assert (x ∈ c :: ns) as Hx' by (by apply elem_of_cons).
    destruct (ring_order n_down n_up rk h c ns Hseg Hcn (fun l1 a l2 b l3 => column_order c ns l1 a l2 b l3 Hc) x n Hx' Hn) as [H1 H2].
    destruct (Hcol x Hx') as [_ Cx].
    assert (n_down n ∈ c :: ns) as Hd by (rewrite elem_of_cons; tauto). assert (n_up n ∈ c :: ns) as Hu by (rewrite elem_of_cons; tauto).
    destruct (Hcol _ Hd) as [Dd Cd]. destruct (Hcol _ Hu) as [Du Cu].
    split; (split; [done|split; [done|split; [congruence|]]]).
    - destruct H1 as [->|[_ [->|?]]]; auto.
    - destruct H2 as [->|[_ [->|?]]]; auto. }
  assert (forall x n, h !! x = Some n -> x <> root -> D x) as HD.
  { intros x n Hn Hx. assert (is_Some (h !! x)) as [?|?]%(sh_dom _ _ _ _ _ HS)%elem_of_cons by eauto; done. }
  split.
  - intros x. rewrite (sh_dom _ _ _ _ _ HS), elem_of_cons. done.
  - intros x n Hn _. by apply Hhd.
  - intros x n Hn Hx. by apply Hh.
  - intros x n Hn Hx. by apply Hh.
  - intros x n Hn Hx. apply Hv; [done|by eapply HD].
  - intros x n Hn Hx. apply Hv; [done|by eapply HD].
  - apply (sh_root _ _ _ _ _ HS).
  - intros x Hx Hhx. destruct (shape_node x Hx Hhx) as [Hxn _]. destruct (sh_row _ _ _ _ _ HS x Hxn) as (H&_). by apply seg_rev.
Qed.
End shape.

(** Only the sizes and row numbers differ. *)
Lemma tame_wrap root D hd rk mates (g : ptr -> node -> node) h h' :
  (forall p n, n_header (g p n) = n_header n /\ n_left (g p n) = n_left n /\ n_right (g p n) = n_right n /\
     n_up (g p n) = n_up n /\ n_down (g p n) = n_down n) ->
  (forall p, h' !! p = g p <$> h !! p) -> Tame root D hd rk mates h -> Tame root D hd rk mates h'.
Proof.
  intros Hg Hh HT.
  assert (forall x n', h' !! x = Some n' -> exists n, h !! x = Some n /\ n' = g x n) as K.
  { intros x n'. rewrite Hh. intros (n&->&->)%fmap_Some. eauto. }
  assert (forall x, fld n_right h' x = fld n_right h x /\ fld n_left h' x = fld n_left h x /\ fld n_down h' x = fld n_down h x) as Hfl.
  { intros x. unfold fld. rewrite Hh. destruct (h !! x) as [n|]; [|done]. cbn. destruct (Hg x n) as (_&->&->&_&->). done. }
  split.
  - intros x. rewrite <-(t_dom _ _ _ _ _ _ HT), Hh. by rewrite fmap_is_Some.
  - intros x ? (n&Hn&->)%K. destruct (Hg x n) as (->&_). by apply (t_hd _ _ _ _ _ _ HT).
  - intros x ? (n&Hn&->)%K. destruct (Hg x n) as (_&_&->&_). by apply (t_right _ _ _ _ _ _ HT).
  - intros x ? (n&Hn&->)%K. destruct (Hg x n) as (_&->&_). by apply (t_left _ _ _ _ _ _ HT).
  - intros x ? (n&Hn&->)%K. destruct (Hg x n) as (_&_&_&_&->). by apply (t_down _ _ _ _ _ _ HT).
  - intros x ? (n&Hn&->)%K. destruct (Hg x n) as (_&_&_&->&_). by apply (t_up _ _ _ _ _ _ HT).
  - destruct (Hfl root) as (_&_&->). apply (t_root _ _ _ _ _ _ HT).
  - intros x Hx Hhx. destruct (t_mates _ _ _ _ _ _ HT x Hx Hhx) as [H1 H2].
    split; (eapply fwd_frame; [|done]); intros y _; apply Hfl.
Qed.

(** [new]. *)
Lemma built_shape fuel h next rows R st : Built h next rows R st -> length (fp st) <= fuel ->
  exists mates, Shape 1%N fuel h st mates.
Proof.
  intros HB Hf. set (row q := R (default 0 (fld n_row h q))). exists (fun q => after q (row q) ++ before q (row q)).
  split; [apply HB|apply HB|apply HB|apply HB| |apply HB| |done].
  - intros H%(b_lt _ _ _ _ _ HB). unfold null in H. lia.
  - intros q Hq. destruct (b_noder _ _ _ _ _ HB q Hq) as [r Hr].
    assert (row q = R r) as ->. { unfold row. destruct (b_rnode _ _ _ _ _ HB r q Hr) as [_ ->]. done. }
    pose proof (before_after q (R r) Hr) as E. pose proof (b_rnd _ _ _ _ _ HB r) as Hnd.
    assert (q :: (after q (R r) ++ before q (R r)) ≡ₚ R r) as HP.
    { rewrite E at 3. rewrite <-Permutation_middle. constructor. apply Permutation_app_comm. }
    assert (NoDup (q :: (after q (R r) ++ before q (R r)))) as [Hq1 _]%NoDup_cons by (by rewrite HP).
    split_and!.
    + destruct (before q (R r)) as [|x b] eqn:Hb.
      * rewrite app_nil_r. apply (b_row _ _ _ _ _ HB r). done.
      * apply (seg_rotate n_right n_left h x b q). apply (b_row _ _ _ _ _ HB r). done.
    + done.
    + assert (length (R r) <= length (fp st)) as Hl.
      { apply submseteq_length, NoDup_submseteq; [done|]. intros x Hx. by apply nodes_fp, (b_rnode _ _ _ _ _ HB r). }
      pose proof (Permutation_length HP) as Hl2. cbn [length] in Hl2. lia.
    + intros y Hy. apply (b_rnode _ _ _ _ _ HB r). rewrite <-HP. by apply elem_of_list_further.
Qed.

Definition frame_of (fuel : nat) (root : ptr) (h : heap) : Prop :=
  exists D hd rk mates, Frame root fuel D hd rk mates /\ Tame root D hd rk mates h.
Lemma wrap_links off p n : n_header (wrap off p n) = n_header n /\ n_left (wrap off p n) = n_left n /\ n_right (wrap off p n) = n_right n /\
  n_up (wrap off p n) = n_up n /\ n_down (wrap off p n) = n_down n.
Proof. done. Qed.
Lemma new_tame lcs fuel mx : matrix_size lcs.*2 <= fuel -> DlxLen.checked_matrix_new lcs = Ret mx -> d_root mx = 1%N /\ frame_of fuel 1%N (d_heap mx).
Proof.
  intros Hf E'. destruct (matrix_new_built lcs.*2) as (h&next&rows&R&st&E&HB&Hh&_).
  assert (qsim True (msim (off_by 2%N lcs)) (matrix_new lcs.*2) (DlxLen.checked_matrix_new lcs)) as H
    by (eapply matrix_new_sim; first [by apply off_by_low|by apply off_by_fits]).
  rewrite E, E' in H. cbn in H. destruct H as [[H1 _] H2 _ _]. cbn in H1, H2. split; [done|].
  destruct (built_shape fuel h next rows R st HB) as [mates HS]; [by rewrite (holds_size _ _ _ Hh)|].
  exists (sh_live st), (sh_hd h), (place (fp st)), mates. split; [by eapply shape_frame|].
  eapply tame_wrap; [exact (wrap_links (off_by 2%N lcs))|exact H1|by eapply shape_tame].
Qed.

Definition frame_rows (fuel : nat) (m : matrix) : Prop :=
  exists D hd rk mates, Frame (d_root m) fuel D hd rk mates /\ Tame (d_root m) D hd rk mates (d_heap m) /\
    forall r p, d_rows m !! r = Some p -> p <> null -> is_Some (d_heap m !! p) -> D p /\ hd p <> null.
(** A matrix to which rows have been added. *)
Lemma ready_tame lcs fuel mx mx' : both lcs fuel mx mx' -> frame_rows fuel mx'.
Proof.
  intros [[[H1 _] H2 H3 _] (added&Hf&Hroot&G&st0&HS0&HL&HO&HT&_)]. set (st := coverset G (fixed G added) st0) in *.
  unfold frame_rows. rewrite H2, Hroot, H3. pose proof (s_good _ _ _ HS0) as HG. destruct HL as [[R1 R2 R3 R4 R5] HW Hrow Hfu].
  assert (forall r, NoDup (rl G r)) as Hrl by (intros r; eapply NoDup_fmap_1, (gr_hdr _ HG)).
  assert (Shape 1%N fuel (d_heap mx) st (rr G)) as HS.
  { split; [done|done| |done|done|exact HO| |done].
    - intros c ns Hc. destruct (R2 c ns Hc) as (?&_&?&?). done.
    - intros q Hq. pose proof (wf_node _ _ _ HW q Hq) as Hn. pose proof (gr_rr _ HG _ q Hn) as HP.
      assert (NoDup (q :: rr G q)) as [Hq1 _]%NoDup_cons by (rewrite HP; apply Hrl). split_and!.
      + apply (ro_ring _ _ _ (Hrow q Hq)).
      + done.
      + assert (length (rl G (rw G q)) <= length (fp st)) as Hl.
        { apply submseteq_length, NoDup_submseteq; [apply Hrl|]. intros x Hx. by apply nodes_fp, (wf_closed _ _ _ HW q). }
        pose proof (Permutation_length HP) as Hl2. cbn [length] in Hl2. lia.
      + intros y Hy. apply (wf_closed _ _ _ HW q); [done|]. rewrite <-HP. by apply elem_of_list_further. }
  exists (sh_live st), (sh_hd (d_heap mx)), (place (fp st)), (rr G). split; [by eapply shape_frame|]. split.
  { eapply tame_wrap; [exact (wrap_links (off_by 2%N lcs))|exact H1|by eapply shape_tame]. }
  intros r p Hp Hnull Hl. rewrite H1, fmap_is_Some in Hl.
  apply (node_shape 1%N fuel _ _ _ HS). destruct HT as (_&T2&T3).
  assert (p ∈ rl G r) as Hin.
  { assert (~ ~ p ∈ rl G r) as Hdn; [|by destruct (decide (p ∈ rl G r))]. intros Hno.
    assert (~ (occurs lcs.*2 r /\ ~ nulled lcs.*2 added r)) as HA.
    { intros [Ho Hn]. destruct (T3 r Ho Hn) as (p'&Hl'&Hp'). rewrite Hp' in Hp. injection Hp as ->.
      apply last_Some in Hl' as [l' El]. apply Hno. rewrite El, elem_of_app. right. apply elem_of_list_here. }
    assert (~ ~ (~ occurs lcs.*2 r \/ nulled lcs.*2 added r)) as HB by tauto.
    apply HB. intros HC. apply T2 in HC; [congruence|by eapply lookup_lt_Some]. }
  assert (isnode G p) as Hn by (unfold isnode; by rewrite (gr_rw _ HG r p Hin)).
  apply HO in Hl. destruct (decide (p ∈ 1%N :: st.*1)) as [Hk|Hk]; [by destruct (wf_key _ _ _ HW p Hk)|].
  apply not_elem_of_cons in Hk as [Hk1 Hk2]. apply elem_of_cons in Hl as [?|Hl]; [done|].
  apply elem_of_fp in Hl as (c&ns&Hc&[->|Hl]); [|apply elem_of_nodes; eauto]. destruct Hk2. apply elem_of_list_fmap. by exists (c, ns).
Qed.

Lemma tame_walk fuel root h steps : frame_of fuel root h ->
  Forall (fun s => is_Some (h !! walk_target s) /\ walk_target s <> root) steps ->
  walk fuel root steps h = Fault Panic \/
  exists h', walk fuel root steps h = Ret h' /\ (forall x, is_Some (h' !! x) <-> is_Some (h !! x)) /\
    exists h'', matrix_drop fuel root h' = Ret h''.
Proof.
  intros (D&hd&rk&mates&HF&HT) Hs. pose proof (walk_safe root fuel D hd rk mates HF steps h HT) as H.
  destruct (walk fuel root steps h) as [h'|f]; cbn in H.
  - right. assert (Tame root D hd rk mates h') as HT'.
    { apply H. eapply Forall_impl; [exact Hs|]. intros s [[?|?]%(t_dom _ _ _ _ _ _ HT) ?]; done. }
    exists h'. split; [done|]. split; [|by eapply drop_tame].
    intros x. by rewrite (t_dom _ _ _ _ _ _ HT'), (t_dom _ _ _ _ _ _ HT).
  - left. f_equal. apply H. eapply Forall_impl; [exact Hs|]. intros s [[?|?]%(t_dom _ _ _ _ _ _ HT) ?]; done.
Qed.
Lemma tame_search fuel (m : matrix) : frame_of fuel (d_root m) (d_heap m) ->
  (exists h partial, look_for fuel fuel (d_root m) (d_heap m) (d_partial m) = Ret (h, partial, true)) \/
  (exists h, DlxUnwind.solve fuel m = Ret (Err DlxNoSolution, h)) \/ DlxUnwind.solve fuel m = Fault Panic \/ DlxUnwind.solve fuel m = Fault OutOfFuel.
Proof. intros (D&hd&rk&mates&HF&HT). by eapply solve_or_look_for. Qed.

(** A caught panic. *)
Lemma caught_tame fuel m r m' : frame_rows fuel m ->
  DlxCaught.add_solution fuel m r = Ret (None, m') -> frame_of fuel (d_root m') (d_heap m').
Proof.
  intros (D&hd&rk&mates&HF&HT&Hrows) E. unfold DlxCaught.add_solution in E.
  destruct (decide (length _ <= _)); [done|]. unfold vec_get in E. destruct (d_rows m !! r) as [p|] eqn:Hp; cbn [expect bind] in E; [|done].
  destruct (decide (p = null)) as [?Hnull|Hnull]; [discriminate E|]. destruct (clear_rows _ _ _ _) as [rows|]; cbn [bind] in E; [|done].
  unfold load in E. destruct (d_heap m !! p) as [np|] eqn:Hn; cbn [bind] in E; [|done].
  destruct (Hrows r p Hp Hnull) as [HD Hh]; [by rewrite Hn; eexists|].
  pose proof (caught_cover_safe (d_root m) fuel D hd rk mates HF p (d_heap m) HT HD) as H1.
  destruct (DlxCaught.cover_column fuel p (d_heap m)) as [[h1 b1]|]; cbn in H1; [|done]. cbn [bind] in E.
  destruct b1; [injection E as <-; by exists D, hd, rk, mates|].
  destruct (t_mates _ _ _ _ _ _ HT p HD Hh) as [Hm _]. apply fwd_first in Hm. unfold fld in Hm. rewrite Hn in Hm. cbn in Hm. injection Hm as Hm.
  destruct (t_mates _ _ _ _ _ _ H1 p HD Hh) as [Hm1 _]. apply fwd_first, fld_Some in Hm1 as (n1&Hn1&Hm1).
  destruct (row_loop (d_root m) fuel D hd rk mates HF (fun _ => False) (Tame (d_root m) D hd rk mates) (DlxCaught.cover_column fuel) p h1 H1 HD Hh) as [H2 _].
  { intros y h HTh Hy _. eapply safe_mono; [by eapply caught_cover_safe|done|by intros [? []]]. }
  unfold for_skip1, load in H2. cbn [id] in H2. rewrite Hn1 in H2. cbn [bind] in H2. rewrite Hm1, <-Hm in H2.
  destruct (for_from fuel id n_right p _ (DlxCaught.cover_column fuel) h1) as [[h2 []]|]; cbn in H2; cbn [bind] in E; [|  |done].
  - injection E as <-. by exists D, hd, rk, mates.
  - destruct (heap_loop _ _ _ _ _) as [h3|]; cbn [bind] in E; [|done]. by destruct (free_chain fuel p h3).
Qed.

(** The first panic of a session. *)
Lemma until_tame lcs fuel rows (Hnd : Forall NoDup lcs.*2) (Hf : matrix_size lcs.*2 < fuel) : forall mx mx' es m, both lcs fuel mx mx' ->
  add_until fuel rows mx' = Ret (es, true, m) -> frame_of fuel (d_root m) (d_heap m).
Proof.
  induction rows as [|r rows IH]; intros mx mx' es m Hb; cbn [add_until]; [done|].
  destruct (DlxCaught.add_solution fuel mx' r) as [[[e|] m1]|] eqn:E1; cbn [bind]; [| |done].
  - destruct (DlxCaughtProofs.add_left lcs fuel mx mx' r Hb) as [(m2&E2&_)|H]; [congruence|].
    destruct (add_solution fuel mx r) as [[e2 m2]|]; [|congruence]. destruct H as (m2'&E2&Hb2). rewrite E1 in E2. injection E2 as <- <-.
    destruct (add_until fuel rows m1) as [[[es2 b2] m3]|] eqn:E3; cbn [bind]; [|done]. intros [= <- -> <-]. by eapply IH.
  - intros [= <- <-]. eapply caught_tame; [by eapply ready_tame|done].
Qed.
Lemma caught_search lcs rows fuel mx es m : Forall NoDup lcs.*2 -> matrix_size lcs.*2 < fuel ->
  DlxLen.checked_matrix_new lcs = Ret mx -> add_until fuel rows mx = Ret (es, true, m) ->
  (exists h partial, look_for fuel fuel (d_root m) (d_heap m) (d_partial m) = Ret (h, partial, true)) \/
  (exists h, DlxUnwind.solve fuel m = Ret (Err DlxNoSolution, h)) \/ DlxUnwind.solve fuel m = Fault Panic \/ DlxUnwind.solve fuel m = Fault OutOfFuel.
Proof.
  intros Hnd Hf E Eu. destruct (DlxCaughtProofs.new_caught lcs fuel Hnd Hf) as (mx0&mx'&_&E'&Hb). rewrite E in E'. injection E' as <-.
  apply tame_search. by eapply until_tame.
Qed.
Lemma new_walk lcs steps fuel mx : matrix_size lcs.*2 <= fuel -> DlxLen.checked_matrix_new lcs = Ret mx ->
  Forall (fun s => is_Some (d_heap mx !! walk_target s) /\ walk_target s <> d_root mx) steps ->
  walk fuel (d_root mx) steps (d_heap mx) = Fault Panic \/
  exists h', walk fuel (d_root mx) steps (d_heap mx) = Ret h' /\ (forall x, is_Some (h' !! x) <-> is_Some (d_heap mx !! x)) /\
    exists h'', matrix_drop fuel (d_root mx) h' = Ret h''.
Proof. intros Hf E Hs. destruct (new_tame lcs fuel mx Hf E) as [Er HF]. rewrite Er in *. by apply tame_walk. Qed.
Lemma new_search lcs fuel mx : matrix_size lcs.*2 <= fuel -> DlxLen.checked_matrix_new lcs = Ret mx ->
  (exists h partial, look_for fuel fuel (d_root mx) (d_heap mx) (d_partial mx) = Ret (h, partial, true)) \/
  (exists h, DlxUnwind.solve fuel mx = Ret (Err DlxNoSolution, h)) \/ DlxUnwind.solve fuel mx = Fault Panic \/ DlxUnwind.solve fuel mx = Fault OutOfFuel.
Proof. intros Hf E. destruct (new_tame lcs fuel mx Hf E) as [Er HF]. apply tame_search. by rewrite Er. Qed.
