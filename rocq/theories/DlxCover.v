(** Covering and uncovering columns. *)
From Verif Require Import Base Dlx DlxSeg.

(** The columns still linked in: headers with their nodes from top to bottom. *)
Notation cstate := (list (ptr * list ptr)).
Definition fp (st : cstate) : list ptr := mjoin ((fun p => p.1 :: p.2) <$> st).
Definition nodes (st : cstate) : list ptr := mjoin (snd <$> st).

Lemma elem_of_nodes q (st : cstate) : q ∈ nodes st <-> exists c ns, (c, ns) ∈ st /\ q ∈ ns.
Proof.
  unfold nodes. rewrite elem_of_list_join. split.
  - intros (ns&Hq&Hns). apply elem_of_list_fmap in Hns as ([c ns']&->&Hc). eauto.
  - intros (c&ns&Hc&Hq). exists ns. split; [done|]. apply elem_of_list_fmap. by exists (c, ns).
Qed.
Lemma elem_of_fp q (st : cstate) : q ∈ fp st <-> exists c ns, (c, ns) ∈ st /\ (q = c \/ q ∈ ns).
Proof.
  unfold fp. rewrite elem_of_list_join. split.
  - intros (ns&Hq&Hns). apply elem_of_list_fmap in Hns as ([c ns']&->&Hc). cbn in Hq.
    apply elem_of_cons in Hq. eauto.
  - intros (c&ns&Hc&Hq). exists (c :: ns). split; [by apply elem_of_cons|].
    apply elem_of_list_fmap. by exists (c, ns).
Qed.
Lemma fp_cons c ns st : fp ((c, ns) :: st) = c :: ns ++ fp st.
Proof. done. Qed.
Lemma fp_app s1 s2 : fp (s1 ++ s2) = fp s1 ++ fp s2.
Proof.
  induction s1 as [|[c ns] s1 IH]; [done|]. cbn [app]. rewrite !fp_cons, IH. cbn [app]. by rewrite <-app_assoc.
Qed.
Lemma nodes_fp q st : q ∈ nodes st -> q ∈ fp st.
Proof. rewrite elem_of_nodes, elem_of_fp. naive_solver. Qed.
Lemma keys_fp c st : c ∈ st.*1 -> c ∈ fp st.
Proof. rewrite elem_of_fp. intros ([c' ns]&->&H)%elem_of_list_fmap. naive_solver. Qed.

(** * Single stores *)
Lemma modify_alter f p h : is_Some (h !! p) -> modify f p h = Ret (alter f p h).
Proof.
  intros [n Hn]. unfold modify. rewrite Hn. f_equal. apply map_eq. intros y.
  destruct (decide (y = p)) as [->|Hy].
  - by rewrite lookup_insert, lookup_alter, Hn.
  - by rewrite lookup_insert_ne, lookup_alter_ne.
Qed.
Lemma fld_alter_same {A} (g : node -> A) f p h y :
  (forall n, g (f n) = g n) -> fld g (alter f p h) y = fld g h y.
Proof.
  intros H. unfold fld. destruct (decide (y = p)) as [->|Hy].
  - rewrite lookup_alter. destruct (h !! p); cbn; [by rewrite H|done].
  - by rewrite lookup_alter_ne.
Qed.
Lemma fld_alter_ne {A} (g : node -> A) f p h y : y <> p -> fld g (alter f p h) y = fld g h y.
Proof. intros H. unfold fld. by rewrite lookup_alter_ne. Qed.
Lemma fld_alter_eq {A} (g : node -> A) f p h v :
  is_Some (h !! p) -> (forall n, g (f n) = v) -> fld g (alter f p h) p = Some v.
Proof. intros [n Hn] H. unfold fld. rewrite lookup_alter, Hn. cbn. by rewrite H. Qed.
Lemma is_Some_alter f p (h : heap) y : is_Some (alter f p h !! y) <-> is_Some (h !! y).
Proof. apply lookup_alter_is_Some. Qed.

(** * The state of the matrix during the search *)
Record Rep (root : ptr) (h : heap) (st : cstate) : Prop := {
  rep_ring : seg n_right n_left h root st.*1 root;
  rep_col c ns : (c, ns) ∈ st ->
    seg n_down n_up h c ns c /\ fld n_row h c = Some (length ns) /\ fld n_header h c = Some null /\
    forall q, q ∈ ns -> fld n_header h q = Some c;
  rep_nd : NoDup (root :: fp st);
  rep_null : null ∉ root :: fp st;
  rep_root : fld n_down h root = Some root
}.

Lemma rep_unique root h st c ns ns' : Rep root h st -> (c, ns) ∈ st -> (c, ns') ∈ st -> ns = ns'.
Proof.
  intros HR H1 H2. pose proof (rep_nd _ _ _ HR) as Hnd.
  apply NoDup_cons in Hnd as [_ Hnd]. clear HR.
  induction st as [|[d ms] st IH]; [by apply elem_of_nil in H1|].
  rewrite fp_cons in Hnd. apply NoDup_cons in Hnd as [Hd Hnd].
  apply NoDup_app in Hnd as (_&_&Hnd).
  assert (forall xs, (d, xs) ∈ st -> False) as Hno.
  { intros xs Hxs. apply Hd. apply elem_of_app. right. apply elem_of_fp. eauto. }
  apply elem_of_cons in H1 as [H1|H1], H2 as [H2|H2].
  - congruence.
  - injection H1 as -> ->. by apply Hno in H2.
  - injection H2 as -> ->. by apply Hno in H1.
  - by apply IH.
Qed.

(** Hiding the nodes [L]. *)
Definition rm (L : list ptr) (st : cstate) : cstate :=
  (fun p => (p.1, filter (fun q => q ∉ L) p.2)) <$> st.
Lemma rm_keys L st : (rm L st).*1 = st.*1.
Proof. unfold rm. rewrite <-list_fmap_compose. by apply list_fmap_ext. Qed.
Lemma elem_of_rm L st c ns :
  (c, ns) ∈ rm L st <-> exists ns', (c, ns') ∈ st /\ ns = filter (fun q => q ∉ L) ns'.
Proof.
  unfold rm. rewrite elem_of_list_fmap. split.
  - intros ([c' ns']&Heq&H). injection Heq as -> ->. eauto.
  - intros (ns'&H&->). by exists (c, ns').
Qed.
Lemma rm_rm L1 L2 st : rm L2 (rm L1 st) = rm (L1 ++ L2) st.
Proof.
  unfold rm. rewrite <-list_fmap_compose. apply list_fmap_ext. intros ? [c ns] _. cbn. f_equal.
  rewrite list_filter_filter. apply list_filter_iff. intros x. rewrite elem_of_app. tauto.
Qed.
Lemma rm_nil st : rm [] st = st.
Proof.
  unfold rm. rewrite <-(list_fmap_id st) at 2. apply list_fmap_ext. intros ? [c ns] _. cbn. f_equal.
  induction ns as [|x ns IH]; [done|]. rewrite filter_cons_True; [by rewrite IH|]. by intros ?%elem_of_nil.
Qed.
Lemma fp_rm_sub L st : fp (rm L st) `sublist_of` fp st.
Proof.
  induction st as [|[c ns] st IH]; [done|]. change (rm L ((c, ns) :: st)) with ((c, filter (fun q => q ∉ L) ns) :: rm L st).
  rewrite !fp_cons. apply sublist_skip, sublist_app; [|done].
  clear IH. induction ns as [|x ns IH]; [done|].
  destruct (decide (x ∉ L)); [rewrite filter_cons_True by done; by apply sublist_skip|].
  rewrite filter_cons_False by done. by apply sublist_cons.
Qed.

Lemma sublist_NoDup {A} (l k : list A) : l `sublist_of` k -> NoDup k -> NoDup l.
Proof.
  induction 1 as [|x l k Hs IH|x l k Hs IH]; [done| |].
  - intros [Hx Hk]%NoDup_cons. apply NoDup_cons. split; [|by apply IH].
    intros Hin. apply Hx. eapply elem_of_submseteq; [done|]. by apply sublist_submseteq.
  - intros [Hx Hk]%NoDup_cons. by apply IH.
Qed.
Lemma sublist_elem {A} (l k : list A) x : l `sublist_of` k -> x ∈ l -> x ∈ k.
Proof. intros Hs Hx. eapply elem_of_submseteq; [done|]. by apply sublist_submseteq. Qed.

(** [h'] keeps everything but the column links of the nodes in [A] and the
    counters of the headers [C]. *)
Record quiet (A C : list ptr) (h h' : heap) : Prop := {
  q_out p : p ∉ A -> h' !! p = h !! p;
  q_dom p : is_Some (h' !! p) <-> is_Some (h !! p);
  q_left p : fld n_left h' p = fld n_left h p;
  q_right p : fld n_right h' p = fld n_right h p;
  q_header p : fld n_header h' p = fld n_header h p;
  q_row p : p ∉ C -> fld n_row h' p = fld n_row h p
}.
Lemma quiet_refl A C h : quiet A C h h.
Proof. by split. Qed.
Lemma quiet_trans A C h1 h2 h3 : quiet A C h1 h2 -> quiet A C h2 h3 -> quiet A C h1 h3.
Proof.
  intros [O1 D1 L1 R1 H1 W1] [O2 D2 L2 R2 H2 W2]. split; intros p; [..|intros Hp].
  - intros Hp. by rewrite O2, O1.
  - by rewrite D2.
  - by rewrite L2.
  - by rewrite R2.
  - by rewrite H2.
  - by rewrite W2, W1.
Qed.

Ltac nodeeq := match goal with n : node |- _ => destruct n; cbn in *; subst; done end.

Lemma NoDup_key_split (st : cstate) c ns :
  (c, ns) ∈ st -> NoDup (fp st) -> NoDup (c :: ns).
Proof.
  intros H Hnd. apply elem_of_list_split in H as (s1&s2&->). rewrite fp_app, fp_cons in Hnd.
  apply NoDup_app in Hnd as (_&_&Hnd). rewrite app_comm_cons in Hnd. by apply NoDup_app in Hnd as (?&_&_).
Qed.
Lemma fp_disjoint (st : cstate) c ns c' ns' x :
  NoDup (fp st) -> (c, ns) ∈ st -> (c', ns') ∈ st -> x ∈ c :: ns -> x ∈ c' :: ns' -> c = c' /\ ns = ns'.
Proof.
  intros Hnd H1 H2 Hx1 Hx2. induction st as [|[d ms] st IH]; [by apply elem_of_nil in H1|].
  rewrite fp_cons, app_comm_cons in Hnd. apply NoDup_app in Hnd as (_&Hdis&Hnd).
  assert (forall e es, (e, es) ∈ st -> x ∈ e :: es -> x ∈ fp st) as Hin.
  { intros e es He Hx. apply elem_of_fp. exists e, es. split; [done|]. by apply elem_of_cons in Hx. }
  apply elem_of_cons in H1 as [H1|H1], H2 as [H2|H2].
  - split; congruence.
  - injection H1 as -> ->. exfalso. apply (Hdis x Hx1). by eapply Hin.
  - injection H2 as -> ->. exfalso. apply (Hdis x Hx2). by eapply Hin.
  - by apply IH.
Qed.

Lemma filter_id {A} (P : A -> Prop) `{!forall x, Decision (P x)} (l : list A) :
  (forall x, x ∈ l -> P x) -> filter P l = l.
Proof.
  induction l as [|x l IH]; intros Hall; [done|]. rewrite filter_cons_True by (apply Hall, elem_of_list_here).
  f_equal. apply IH. intros y Hy. apply Hall. by apply elem_of_list_further.
Qed.
Lemma filter_middle (l1 l2 : list ptr) q :
  NoDup (l1 ++ q :: l2) -> filter (fun x => x ∉ [q]) (l1 ++ q :: l2) = l1 ++ l2.
Proof.
  intros Hnd. apply NoDup_app in Hnd as (_&Hd&Hnd). apply NoDup_cons in Hnd as [Hq _].
  rewrite filter_app, filter_cons_False; [|intros H; apply H; apply elem_of_list_here].
  f_equal; apply filter_id; intros x Hx ->%elem_of_list_singleton; [|done].
  eapply Hd; [done|]. apply elem_of_list_here.
Qed.

(** Hiding one node, and taking that back. *)
Lemma hide_spec root h st q c ns :
  Rep root h st -> (c, ns) ∈ st -> q ∈ ns ->
  exists h', hide q h = Ret h' /\ Rep root h' (rm [q] st) /\ unhide q h' = Ret h /\
    quiet (fp st) st.*1 h h'.
Proof.
  intros HR Hc Hq. pose proof (rep_nd _ _ _ HR) as Hnd. apply NoDup_cons in Hnd as [Hroot Hnd].
  pose proof (NoDup_key_split _ _ _ Hc Hnd) as Hcol.
  destruct (rep_col _ _ _ HR c ns Hc) as (Hseg&Hlen&Hch&Hnh).
  pose proof (elem_of_list_split _ _ Hq) as (l1&l2&Hns).
  rewrite Hns in Hseg, Hcol.
  assert (c ∉ l1 ++ q :: l2) as Hcns by (by apply NoDup_cons in Hcol as []).
  destruct (seg_remove _ _ _ _ _ _ _ _ Hseg Hcol Hcns) as (n&Hn&Hu&Hd&[Lu1 Lu2]&[Ld1 Ld2]&Hfin).
  set (u := n_up n) in *. set (d := n_down n) in *.
  assert (u <> q) as Huq.
  { intros Heq. apply NoDup_cons in Hcol as [_ Hcol]. apply NoDup_app in Hcol as (_&Hdj&_).
    apply elem_of_cons in Hu as [Hu|Hu].
    - apply Hcns. rewrite <-Hu, Heq, elem_of_app. right. apply elem_of_list_here.
    - rewrite Heq in Hu. apply (Hdj q Hu), elem_of_list_here. }
  assert (d <> q) as Hdq.
  { intros Heq. apply NoDup_cons in Hcol as [_ Hcol]. apply NoDup_app in Hcol as (_&_&Hcol).
    apply NoDup_cons in Hcol as [Hcol _].
    apply elem_of_app in Hd as [Hd|Hd].
    - by rewrite Heq in Hd.
    - apply elem_of_list_singleton in Hd. apply Hcns. rewrite <-Hd, Heq, elem_of_app. right. apply elem_of_list_here. }
  assert (c <> q) as Hcq.
  { intros ->. apply Hcns. rewrite elem_of_app. right. apply elem_of_list_here. }
  assert (u ∈ c :: ns) as Hu'.
  { rewrite Hns. apply elem_of_cons in Hu. rewrite elem_of_cons, elem_of_app. tauto. }
  assert (d ∈ c :: ns) as Hd'.
  { rewrite Hns. apply elem_of_app in Hd. rewrite elem_of_list_singleton in Hd.
    rewrite elem_of_cons, elem_of_app, elem_of_cons. tauto. }
  assert (is_Some (h !! u)) as Su by (apply fld_Some in Lu1 as (?&?&_); eauto).
  assert (is_Some (h !! d)) as Sd by (apply fld_Some in Ld2 as (?&?&_); eauto).
  assert (is_Some (h !! c)) as Sc by (apply fld_Some in Hch as (?&?&_); eauto).
  assert (exists k, length ns = S k) as [k Hk].
  { rewrite Hns, app_length. cbn. exists (length l1 + length l2). lia. }
  rewrite Hk in Hlen.
  set (h' := alter (set_row k) c (alter (set_up u) d (alter (set_down d) u h))).
  assert (n_header n = c) as Hnc.
  { specialize (Hnh q Hq). apply fld_Some in Hnh as (n'&?&?). congruence. }
  assert (h' !! q = Some n) as Hn'.
  { unfold h'. rewrite !lookup_alter_ne; done. }
  exists h'. split_and!.
  - unfold hide, cover_vertical, load. rewrite Hn. cbn [bind]. fold d u.
    rewrite modify_alter by done. cbn [bind]. rewrite modify_alter by (by apply is_Some_alter). cbn [bind].
    unfold dec_size, load. rewrite !lookup_alter_ne by done. rewrite Hn. cbn [bind]. rewrite Hnc.
    assert (fld n_row (alter (set_up u) d (alter (set_down d) u h)) c = Some (S k)) as Hrow.
    { rewrite !fld_alter_same; done. }
    apply fld_Some in Hrow as (nc&Hnc1&Hnc2). rewrite Hnc1. cbn [bind]. rewrite Hnc2.
    rewrite modify_alter by eauto. done.
  - assert (forall y, fld n_right h' y = fld n_right h y) as Fr by (intros; unfold h'; by rewrite !fld_alter_same).
    assert (forall y, fld n_left h' y = fld n_left h y) as Fl by (intros; unfold h'; by rewrite !fld_alter_same).
    assert (forall y, fld n_header h' y = fld n_header h y) as Fh by (intros; unfold h'; by rewrite !fld_alter_same).
    split.
    + rewrite rm_keys. eapply seg_frame; [| |apply (rep_ring _ _ _ HR)]; intros; [apply Fr|apply Fl].
    + intros c2 ns2 (ns'&H2&->)%elem_of_rm.
      destruct (rep_col _ _ _ HR c2 ns' H2) as (Hseg2&Hlen2&Hch2&Hnh2).
      assert (forall q0, q0 ∈ filter (fun q1 => q1 ∉ [q]) ns' -> fld n_header h' q0 = Some c2) as Hq0.
      { intros q0 [_ Hq0]%elem_of_list_filter. rewrite Fh. by apply Hnh2. }
      destruct (decide (c2 = c)) as [->|Hne].
      * rewrite (rep_unique _ _ _ _ _ _ HR H2 Hc) in *. rewrite Hns.
        rewrite filter_middle by (by apply NoDup_cons in Hcol as []).
        split_and!; [..|by rewrite Fh|by rewrite Hns, filter_middle in Hq0 by (by apply NoDup_cons in Hcol as [])].
        -- apply Hfin.
           ++ intros y Hy. unfold h'. rewrite fld_alter_same, fld_alter_same by done. by apply fld_alter_ne.
           ++ intros y Hy. unfold h'. rewrite fld_alter_same by done. rewrite fld_alter_ne by done. by apply fld_alter_same.
           ++ unfold h'. rewrite fld_alter_same, fld_alter_same by done. by apply fld_alter_eq.
           ++ unfold h'. rewrite fld_alter_same by done. apply fld_alter_eq; [by apply is_Some_alter|done].
        -- rewrite Hns, app_length in Hk. cbn in Hk. replace (length (l1 ++ l2)) with k by (rewrite app_length; lia).
           unfold h'. apply fld_alter_eq; [by rewrite !is_Some_alter|done].
      * assert (forall y, y ∈ c2 :: ns' -> h' !! y = h !! y) as Hfr.
        { intros y Hy. unfold h'.
          rewrite !lookup_alter_ne; [done|..]; intros <-;
            match goal with H : _ ∈ c :: ns |- _ => destruct (fp_disjoint _ _ _ _ _ _ Hnd Hc H2 H Hy); congruence | _ => idtac end.
          all: destruct (fp_disjoint _ _ _ _ _ _ Hnd Hc H2 (elem_of_list_here _ _) Hy); congruence. }
        assert (filter (fun q1 => q1 ∉ [q]) ns' = ns') as Hfid.
        { apply filter_id. intros x Hx ->%elem_of_list_singleton.
          destruct (fp_disjoint _ _ _ _ _ q Hnd Hc H2); [..|congruence];
            by apply elem_of_list_further. }
        rewrite Hfid in *. split_and!; [|rewrite <-Hlen2; apply fld_eq, Hfr, elem_of_list_here|by rewrite Fh|done].
        eapply seg_frame_eq; [|done]. intros y Hy. apply Hfr.
        apply elem_of_cons in Hy as [->|Hy]; [apply elem_of_list_here|].
        apply elem_of_app in Hy as [Hy| ->%elem_of_list_singleton]; [by apply elem_of_list_further|apply elem_of_list_here].
    + eapply sublist_NoDup; [|exact (rep_nd _ _ _ HR)]. apply sublist_skip, fp_rm_sub.
    + intros Hin. apply (rep_null _ _ _ HR). eapply sublist_elem; [|exact Hin]. apply sublist_skip, fp_rm_sub.
    + rewrite <-(rep_root _ _ _ HR). apply fld_eq. unfold h'.
      assert (forall z, z ∈ c :: ns -> z <> root) as Hz.
      { intros z Hz ->. apply Hroot, elem_of_fp. exists c, ns. split; [done|]. by apply elem_of_cons in Hz. }
      rewrite !lookup_alter_ne; [done|..]; apply Hz; [done|done|apply elem_of_list_here].
  - unfold unhide, inc_size, load. rewrite Hn'. cbn [bind]. rewrite Hnc.
    assert (fld n_row h' c = Some k) as Hrow.
    { unfold h'. apply fld_alter_eq; [by rewrite !is_Some_alter|done]. }
    apply fld_Some in Hrow as (nc&Hnc1&Hnc2). rewrite Hnc1. cbn [bind]. rewrite Hnc2.
    rewrite modify_alter by eauto. cbn [bind]. unfold uncover_vertical, load.
    rewrite lookup_alter_ne by done. rewrite Hn'. cbn [bind]. fold u d.
    rewrite modify_alter by (unfold h'; by rewrite !is_Some_alter). cbn [bind].
    rewrite modify_alter by (unfold h'; by rewrite !is_Some_alter). f_equal. unfold h'.
    clear Hn' Hnc1 h' Hfin Hu Hd Hu' Hd' Hnd Hroot Hcol Hcns Hseg.
    apply fld_Some in Lu1 as (nu&Hnu&Eu). apply fld_Some in Ld2 as (nd&Hnd&Ed).
    apply fld_Some in Hlen as (nc'&Hnc'&Ec).
    apply map_eq. intros y.
    assert (forall f p (g : heap), alter f p g !! y = if decide (y = p) then f <$> g !! y else g !! y) as Hal.
    { intros f p g. destruct (decide (y = p)) as [->|]; [apply lookup_alter|by apply lookup_alter_ne]. }
    rewrite !Hal. clear Hal.
    destruct (decide (y = d)) as [Hyd|Hyd], (decide (y = u)) as [Hyu|Hyu], (decide (y = c)) as [Hyc|Hyc];
      destruct (h !! y) as [ny|] eqn:Hy; cbn; try done; f_equal;
      repeat match goal with
      | H : y = d |- _ => rewrite <-H in Hnd; clear H
      | H : y = u |- _ => rewrite <-H in Hnu; clear H
      | H : y = c |- _ => rewrite <-H in Hnc'; clear H
      end; unfold set_up, set_down, set_row; cbn;
      repeat match goal with
      | H1 : h !! y = Some ?a, H2 : h !! y = Some ?b |- _ => rewrite H1 in H2; injection H2 as <-
      end; match goal with |- _ = ?x => destruct x end; cbn in *; congruence.
  - split.
    + intros p Hp. unfold h'.
      assert (forall z, z ∈ c :: ns -> p <> z) as Hz.
      { intros z Hz ->. apply Hp, elem_of_fp. exists c, ns. split; [done|]. by apply elem_of_cons in Hz. }
      rewrite !lookup_alter_ne; [done|..]; apply not_eq_sym, Hz; [done|done|apply elem_of_list_here].
    + intros p. unfold h'. by rewrite !is_Some_alter.
    + intros; unfold h'; by rewrite !fld_alter_same.
    + intros; unfold h'; by rewrite !fld_alter_same.
    + intros; unfold h'; by rewrite !fld_alter_same.
    + intros p Hp. unfold h'. rewrite fld_alter_ne; [by rewrite !fld_alter_same|].
      intros ->. apply Hp. apply elem_of_list_fmap. by exists (c, ns).
Qed.

Lemma quiet_mono A C A' C' h h' :
  (forall p, p ∈ A -> p ∈ A') -> (forall p, p ∈ C -> p ∈ C') -> quiet A C h h' -> quiet A' C' h h'.
Proof. intros HA HC []. split; auto. Qed.

Lemma elem_of_nodes_rm q L st : q ∈ nodes (rm L st) <-> q ∈ nodes st /\ q ∉ L.
Proof.
  rewrite !elem_of_nodes. split.
  - intros (c&ns&(ns'&H1&->)%elem_of_rm&[H2 H3]%elem_of_list_filter). eauto.
  - intros [(c&ns&H1&H2) H3]. exists c, (filter (fun q => q ∉ L) ns). rewrite elem_of_rm, elem_of_list_filter. eauto.
Qed.

(** Hiding several nodes. *)
Lemma hides_spec root h st L :
  Rep root h st -> NoDup L -> (forall q, q ∈ L -> q ∈ nodes st) ->
  exists h', foldM hide L h = Ret h' /\ Rep root h' (rm L st) /\ foldM unhide (rev L) h' = Ret h /\
    quiet (fp st) st.*1 h h'.
Proof.
  revert h st. induction L as [|q L IH]; intros h st HR Hnd HL.
  - exists h. rewrite rm_nil. split_and!; [done|done|done|apply quiet_refl].
  - apply NoDup_cons in Hnd as [HqL Hnd].
    destruct (proj1 (elem_of_nodes q st)) as (c&ns&Hc&Hq); [apply HL, elem_of_list_here|].
    destruct (hide_spec _ _ _ _ _ _ HR Hc Hq) as (h1&E1&HR1&U1&Q1).
    destruct (IH h1 (rm [q] st) HR1 Hnd) as (h2&E2&HR2&U2&Q2).
    { intros x Hx. apply elem_of_nodes_rm. split; [apply HL; by apply elem_of_list_further|].
      by intros ->%elem_of_list_singleton. }
    exists h2. split_and!.
    + cbn [foldM]. rewrite E1. done.
    + by rewrite rm_rm in HR2.
    + cbn [rev]. rewrite foldM_app, U2. cbn [bind foldM]. by rewrite U1.
    + eapply quiet_trans; [done|]. eapply quiet_mono; [| |exact Q2].
      * intros p. apply sublist_elem, fp_rm_sub.
      * intros p. by rewrite rm_keys.
Qed.

(** [h'] keeps everything but links and counters of the nodes in [A], and of
    those everything but column links unless they are in [C]. *)
Record calm (A C : list ptr) (h h' : heap) : Prop := {
  c_out p : p ∉ A -> h' !! p = h !! p;
  c_dom p : is_Some (h' !! p) <-> is_Some (h !! p);
  c_header p : fld n_header h' p = fld n_header h p;
  c_left p : p ∉ C -> fld n_left h' p = fld n_left h p;
  c_right p : p ∉ C -> fld n_right h' p = fld n_right h p;
  c_row p : p ∉ C -> fld n_row h' p = fld n_row h p
}.
Lemma calm_refl A C h : calm A C h h.
Proof. by split. Qed.
Lemma calm_trans A C h1 h2 h3 : calm A C h1 h2 -> calm A C h2 h3 -> calm A C h1 h3.
Proof.
  intros [O1 D1 H1 L1 R1 W1] [O2 D2 H2 L2 R2 W2]. split; intros p; [intros Hp|..].
  - by rewrite O2, O1.
  - by rewrite D2.
  - by rewrite H2.
  - intros Hp. by rewrite L2, L1.
  - intros Hp. by rewrite R2, R1.
  - intros Hp. by rewrite W2, W1.
Qed.
Lemma calm_mono A C A' C' h h' :
  (forall p, p ∈ A -> p ∈ A') -> (forall p, p ∈ C -> p ∈ C') -> calm A C h h' -> calm A' C' h h'.
Proof. intros HA HC []. split; auto. Qed.
Lemma quiet_calm A C h h' : quiet A C h h' -> calm A C h h'.
Proof. intros []. split; auto. Qed.

Lemma rep_permute_keys (s1 s2 : cstate) c ns : fp (s1 ++ (c, ns) :: s2) ≡ₚ c :: ns ++ fp (s1 ++ s2).
Proof. rewrite !fp_app, fp_cons. rewrite <-Permutation_middle. apply perm_skip. apply Permutation_app_swap_app. Qed.

(** Taking a column out of the header ring, and putting it back. *)
Lemma cover_horizontal_spec root h s1 c ns s2 :
  Rep root h (s1 ++ (c, ns) :: s2) ->
  exists h', cover_horizontal c h = Ret h' /\ Rep root h' (s1 ++ s2) /\ uncover_horizontal c h' = Ret h /\
    calm (root :: (s1 ++ s2).*1) (root :: (s1 ++ s2).*1) h h' /\
    forall p, fld n_up h' p = fld n_up h p /\ fld n_down h' p = fld n_down h p /\ fld n_row h' p = fld n_row h p.
Proof.
  intros HR. pose proof (rep_nd _ _ _ HR) as Hnd.
  pose proof (rep_ring _ _ _ HR) as Hring. rewrite fmap_app, fmap_cons in Hring. cbn [fst] in Hring.
  assert (NoDup (root :: s1.*1 ++ c :: s2.*1)) as Hnd'.
  { clear -Hnd. eapply (sublist_NoDup _ _) in Hnd; [exact Hnd|]. apply sublist_skip.
    assert (forall s : cstate, s.*1 `sublist_of` fp s) as Hs.
    { induction s as [|[e es] s IH]; [done|]. rewrite fp_cons. cbn. apply sublist_skip.
      by apply sublist_inserts_l. }
    specialize (Hs (s1 ++ (c, ns) :: s2)). by rewrite fmap_app, fmap_cons in Hs. }
  assert (root ∉ s1.*1 ++ c :: s2.*1) as Hroot by (by apply NoDup_cons in Hnd' as []).
  destruct (seg_remove _ _ _ _ _ _ _ _ Hring Hnd' Hroot) as (n&Hn&Hu&Hd&[Lu1 Lu2]&[Ld1 Ld2]&Hfin).
  set (u := n_left n) in *. set (d := n_right n) in *.
  assert (u <> c) as Huq.
  { intros Heq. rewrite Heq in Hu. apply NoDup_cons in Hnd' as [_ Hcol]. apply NoDup_app in Hcol as (_&Hdj&_).
    apply elem_of_cons in Hu as [Hu|Hu].
    - apply Hroot. rewrite <-Hu, elem_of_app. right. apply elem_of_list_here.
    - apply (Hdj c Hu), elem_of_list_here. }
  assert (d <> c) as Hdq.
  { intros Heq. rewrite Heq in Hd. apply NoDup_cons in Hnd' as [_ Hcol]. apply NoDup_app in Hcol as (_&_&Hcol).
    apply NoDup_cons in Hcol as [Hcol _].
    apply elem_of_app in Hd as [Hd|Hd]; [done|].
    apply elem_of_list_singleton in Hd. apply Hroot. rewrite <-Hd, elem_of_app. right. apply elem_of_list_here. }
  assert (is_Some (h !! u)) as Su by (apply fld_Some in Lu1 as (?&?&_); eauto).
  assert (is_Some (h !! d)) as Sd by (apply fld_Some in Ld2 as (?&?&_); eauto).
  assert (u ∈ root :: (s1 ++ s2).*1) as Hu'.
  { apply elem_of_cons in Hu. rewrite fmap_app, elem_of_cons, elem_of_app. tauto. }
  assert (d ∈ root :: (s1 ++ s2).*1) as Hd'.
  { apply elem_of_app in Hd. rewrite elem_of_list_singleton in Hd.
    rewrite fmap_app, elem_of_cons, elem_of_app. tauto. }
  set (h' := alter (set_left u) d (alter (set_right d) u h)).
  assert (h' !! c = Some n) as Hn'.
  { unfold h'. rewrite !lookup_alter_ne; done. }
  assert (forall y, fld n_up h' y = fld n_up h y) as Fu by (intros; unfold h'; by rewrite !fld_alter_same).
  assert (forall y, fld n_down h' y = fld n_down h y) as Fd by (intros; unfold h'; by rewrite !fld_alter_same).
  assert (forall y, fld n_header h' y = fld n_header h y) as Fh by (intros; unfold h'; by rewrite !fld_alter_same).
  assert (forall y, fld n_row h' y = fld n_row h y) as Fw by (intros; unfold h'; by rewrite !fld_alter_same).
  exists h'. split_and!.
  - unfold cover_horizontal, load. rewrite Hn. cbn [bind]. fold d u.
    rewrite modify_alter by done. cbn [bind]. by rewrite modify_alter by (by apply is_Some_alter).
  - assert (fp (s1 ++ (c, ns) :: s2) ≡ₚ c :: ns ++ fp (s1 ++ s2)) as Hp by apply rep_permute_keys.
    split.
    + rewrite fmap_app. apply Hfin.
      * intros y Hy. unfold h'. rewrite fld_alter_same by done. by apply fld_alter_ne.
      * intros y Hy. unfold h'. rewrite fld_alter_ne by done. by apply fld_alter_same.
      * unfold h'. rewrite fld_alter_same by done. by apply fld_alter_eq.
      * unfold h'. apply fld_alter_eq; [by apply is_Some_alter|done].
    + intros c2 ns2 H2.
      destruct (rep_col _ _ _ HR c2 ns2) as (Hseg2&Hlen2&Hch2&Hnh2).
      { apply elem_of_app in H2. rewrite elem_of_app, elem_of_cons. tauto. }
      split_and!; [|by rewrite Fw|by rewrite Fh|intros; rewrite Fh; by apply Hnh2].
      eapply seg_frame; [| |exact Hseg2]; intros; [apply Fd|apply Fu].
    + rewrite Hp in Hnd. apply NoDup_cons in Hnd as [H1 H2]. apply NoDup_cons.
      rewrite not_elem_of_cons, not_elem_of_app in H1.
      apply NoDup_cons in H2 as [_ H2]. apply NoDup_app in H2. tauto.
    + pose proof (rep_null _ _ _ HR) as Hnull. rewrite Hp in Hnull.
      rewrite !not_elem_of_cons, not_elem_of_app in *. tauto.
    + rewrite Fd. apply (rep_root _ _ _ HR).
  - unfold uncover_horizontal, load. rewrite Hn'. cbn [bind]. fold u d.
    rewrite modify_alter by (unfold h'; by rewrite !is_Some_alter). cbn [bind].
    rewrite modify_alter by (unfold h'; by rewrite !is_Some_alter). f_equal. unfold h'.
    apply fld_Some in Lu1 as (nu&Hnu&Eu). apply fld_Some in Ld2 as (nd&Hnnd&Ed).
    apply map_eq. intros y.
    assert (forall f p (g : heap), alter f p g !! y = if decide (y = p) then f <$> g !! y else g !! y) as Hal.
    { intros f p g. destruct (decide (y = p)) as [->|]; [apply lookup_alter|by apply lookup_alter_ne]. }
    rewrite !Hal. clear Hal Hfin Hu Hd Hu' Hd' Fu Fd Fh Fw Hn' h'.
    destruct (decide (y = d)) as [Hyd|Hyd], (decide (y = u)) as [Hyu|Hyu];
      destruct (h !! y) as [ny|] eqn:Hy; cbn; try done; f_equal;
      repeat match goal with
      | H : y = d |- _ => rewrite <-H in Hnnd; clear H
      | H : y = u |- _ => rewrite <-H in Hnu; clear H
      end; unfold set_left, set_right; cbn;
      repeat match goal with
      | H1 : h !! y = Some ?a, H2 : h !! y = Some ?b |- _ => rewrite H1 in H2; injection H2 as <-
      end; match goal with |- _ = ?x => destruct x end; cbn in *; congruence.
  - split; try (intros; done).
    + intros p Hp. unfold h'. rewrite !lookup_alter_ne; [done|..]; intros <-; done.
    + intros p. unfold h'. by rewrite !is_Some_alter.
    + intros p Hp. unfold h'. rewrite fld_alter_ne; [by rewrite fld_alter_same|]. by intros ->.
    + intros p Hp. unfold h'. rewrite fld_alter_same by done. rewrite fld_alter_ne; [done|]. by intros ->.
  - intros p. done.
Qed.

Lemma to_header_fld h p c :
  to_header h p = Ret c <->
  exists x, fld n_header h p = Some x /\ c = if decide (x = null) then p else x.
Proof.
  unfold to_header, load. split.
  - destruct (h !! p) as [n|] eqn:Hn; cbn [bind]; [|done]. intros H. exists (n_header n).
    split; [apply fld_Some; eauto|]. destruct (decide _); congruence.
  - intros (x&(n&->&Hx)%fld_Some&->). cbn [bind]. rewrite Hx. by destruct (decide _).
Qed.
Lemma to_header_frame h h' p c :
  fld n_header h' p = fld n_header h p -> to_header h p = Ret c -> to_header h' p = Ret c.
Proof. intros H. rewrite !to_header_fld, H. done. Qed.

(** * Rows *)
(** The static structure: the column header and row index of a node, the nodes
    of a row (from left to right), and the rest of the row as seen from a node. *)
Record rows_info := RowsInfo {
  hdr : ptr -> ptr; rw : ptr -> nat; rl : nat -> list ptr; rr : ptr -> list ptr
}.
Record good_rows (G : rows_info) : Prop := {
  gr_rw r q : q ∈ rl G r -> rw G q = r;
  gr_rr r q : q ∈ rl G r -> q :: rr G q ≡ₚ rl G r;
  gr_hdr r : NoDup (hdr G <$> rl G r)
}.
Definition isnode G (q : ptr) : Prop := q ∈ rl G (rw G q).

Record rowok G (h : heap) (q : ptr) : Prop := {
  ro_ring : seg n_right n_left h q (rr G q) q;
  ro_hdr : fld n_header h q = Some (hdr G q);
  ro_row : fld n_row h q = Some (rw G q)
}.
Record wfst G (root : ptr) (st : cstate) : Prop := {
  wf_key x : x ∈ root :: st.*1 -> ~ isnode G x;
  wf_hdr c ns q : (c, ns) ∈ st -> q ∈ ns -> hdr G q = c;
  wf_node q : q ∈ nodes st -> isnode G q;
  wf_closed q x : q ∈ nodes st -> x ∈ rl G (rw G q) -> x ∈ nodes st
}.

(** The columns left when the columns [D] and all rows meeting them are gone. *)
Definition rows_of G (D : list ptr) (st : cstate) : list nat :=
  mjoin ((fun p => if decide (p.1 ∈ D) then rw G <$> p.2 else []) <$> st).
Definition coverset G (D : list ptr) (st : cstate) : cstate :=
  (fun p => (p.1, filter (fun q => rw G q ∉ rows_of G D st) p.2)) <$> filter (fun p => p.1 ∉ D) st.

Lemma elem_of_rows_of G D st r :
  r ∈ rows_of G D st <-> exists c ns q, (c, ns) ∈ st /\ c ∈ D /\ q ∈ ns /\ rw G q = r.
Proof.
  unfold rows_of. rewrite elem_of_list_join. split.
  - intros (l&Hr&([c ns]&->&Hc)%elem_of_list_fmap). cbn in Hr.
    destruct (decide (c ∈ D)); [|by apply elem_of_nil in Hr].
    apply elem_of_list_fmap in Hr as (q&->&Hq). eauto 10.
  - intros (c&ns&q&Hc&HD&Hq&<-). exists (rw G <$> ns). split; [by apply elem_of_list_fmap_1|].
    apply elem_of_list_fmap. exists (c, ns). cbn. by rewrite decide_True.
Qed.
Lemma elem_of_coverset G D st c ns :
  (c, ns) ∈ coverset G D st <->
  c ∉ D /\ exists ns', (c, ns') ∈ st /\ ns = filter (fun q => rw G q ∉ rows_of G D st) ns'.
Proof.
  unfold coverset. rewrite elem_of_list_fmap. split.
  - intros ([c' ns']&Heq&[Hc Hin]%elem_of_list_filter). injection Heq as -> ->. eauto.
  - intros (Hc&ns'&Hin&->). exists (c, ns'). split; [done|]. by apply elem_of_list_filter.
Qed.
Lemma elem_of_nodes_coverset G D st q :
  NoDup (fp st) ->
  q ∈ nodes (coverset G D st) <-> q ∈ nodes st /\ rw G q ∉ rows_of G D st.
Proof.
  intros Hnd. rewrite !elem_of_nodes. split.
  - intros (c&ns&(Hc&ns'&Hin&->)%elem_of_coverset&[H1 H2]%elem_of_list_filter). eauto.
  - intros [(c&ns&Hin&Hq) Hr]. exists c, (filter (fun q => rw G q ∉ rows_of G D st) ns).
    rewrite elem_of_coverset, elem_of_list_filter. split_and!; [|by eauto|done|done].
    intros Hc. apply Hr. apply elem_of_rows_of. exists c, ns, q. done.
Qed.

Lemma coverset_keys G D st : (coverset G D st).*1 = filter (fun c => c ∉ D) st.*1.
Proof.
  unfold coverset. generalize (rows_of G D st). intros R.
  induction st as [|[c ns] st IH]; [done|].
  rewrite fmap_cons. cbn [fst]. destruct (decide (c ∉ D)).
  - rewrite !filter_cons_True by done. rewrite !fmap_cons. cbn [fst]. by rewrite IH.
  - rewrite !filter_cons_False by done. apply IH.
Qed.
