(** [DancingMatrix::new] builds a well-formed matrix for its constraints. *)
From stdpp Require Import sorting.
From Verif Require Import Base Dlx DlxSeg DlxCover DlxColumn SpecDlx DlxSets DlxSearch DlxBuild.

Lemma nodes_header st c : nodes (st ++ [(c, [])]) = nodes st.
Proof. unfold nodes. rewrite !fmap_app, !mjoin_app. cbn. by rewrite app_nil_r. Qed.
Lemma fp_header st c : fp (st ++ [(c, [])]) = fp st ++ [c].
Proof. rewrite fp_app, fp_cons. done. Qed.

Lemma header_new_spec h next rows R st curr k :
  Built h next rows R st -> last (1%N :: st.*1) = Some curr ->
  exists h', node_new_header next curr k h = Ret h' /\
    Built h' (next + 1) rows R (st ++ [(next, [])]) /\
    fld n_row h' next = Some k /\
    forall x, is_Some (h !! x) -> fld n_row h' x = fld n_row h x.
Proof.
  intros HB Hcur. set (p := next).
  pose proof (b_nd _ _ _ _ _ HB) as [Hroot Hnd]%NoDup_cons.
  assert (p ∉ 1%N :: fp st) as Hp.
  { intros Hin. apply (b_lt _ _ _ _ _ HB) in Hin. unfold p in Hin. lia. }
  assert (h !! p = None) as Hpn.
  { destruct (h !! p) eqn:Hx; [|done]. exfalso. apply Hp, (b_dom _ _ _ _ _ HB). eauto. }
  assert (1 < next)%N as Hnext.
  { pose proof (b_lt _ _ _ _ _ HB 1%N (elem_of_list_here _ _)). lia. }
  assert (forall x, x ∈ 1%N :: fp st -> x <> p) as Hfpp by (intros x Hx ->; done).
  assert (forall x, x ∈ 1%N :: fp st -> x <> null /\ is_Some (h !! x)) as Hlive.
  { intros x Hx. split; [apply (b_lt _ _ _ _ _ HB) in Hx; unfold null; lia|by apply (b_dom _ _ _ _ _ HB)]. }
  assert (forall x, x ∈ 1%N :: st.*1 -> x ∈ 1%N :: fp st) as Hkfp.
  { intros x [->|Hx]%elem_of_cons; [apply elem_of_list_here|]. by apply elem_of_list_further, keys_fp. }
  assert (curr ∈ 1%N :: st.*1) as Hcin.
  { apply last_Some in Hcur as [l' ->]. rewrite elem_of_app. right. apply elem_of_list_here. }
  pose proof (seg_last _ _ _ _ _ _ _ (b_ring _ _ _ _ _ HB) Hcur) as [L1 L2].
  assert (1%N ∉ st.*1) as Hrk by (intros Hin%keys_fp; done).
  assert (NoDup (1%N :: st.*1)) as Hknd.
  { apply NoDup_cons. split; [done|]. clear -Hnd. induction st as [|[c ns] st IH]; [constructor|].
    rewrite fp_cons in Hnd. apply NoDup_cons in Hnd as [Hc Hnd]. apply NoDup_app in Hnd as (_&_&Hnd).
    rewrite fmap_cons. apply NoDup_cons. split; [|by apply IH]. intros Hin%keys_fp. apply Hc.
    rewrite elem_of_app. by right. }
  unfold node_new_header. fold p. rewrite decide_False by (by apply Hlive, Hkfp).
  apply fld_Some in L1 as (nc&Hnc&Hncr). unfold load. rewrite Hnc. cbn [bind]. rewrite Hncr.
  rewrite modify_alter by (apply Hlive, elem_of_list_here). cbn [bind].
  rewrite modify_alter by (apply is_Some_alter; eauto). cbn [bind].
  cbv delta [set_right set_left] beta iota. cbn [n_header n_left n_right n_up n_down n_row].
  change (fun n : node => Node (n_header n) p (n_right n) (n_up n) (n_down n) (n_row n)) with (set_left p).
  change (fun n : node => Node (n_header n) (n_left n) p (n_up n) (n_down n) (n_row n)) with (set_right p).
  set (h2 := alter (set_right p) curr (alter (set_left p) 1%N h)).
  set (h' := <[p := Node null curr 1%N p p k]> h2).
  assert (forall {A} (f : node -> A) x, x <> p -> fld f h' x = fld f h2 x) as K'.
  { intros A f x Hx. unfold h'. apply fld_eq. by rewrite lookup_insert_ne. }
  assert (forall {A} (f : node -> A), fld f h' p = Some (f (Node null curr 1%N p p k))) as Kp.
  { intros A f. unfold h', fld. by rewrite lookup_insert. }
  assert (forall x, x ∉ 1%N :: st.*1 -> x <> p -> h' !! x = h !! x) as Kout.
  { intros x Hx Hxp. unfold h', h2. rewrite lookup_insert_ne by done.
    rewrite !lookup_alter_ne; [done|..]; intros <-; [|done]. apply Hx, elem_of_list_here. }
  assert (forall x, x <> p -> fld n_header h' x = fld n_header h x /\ fld n_row h' x = fld n_row h x /\
    fld n_up h' x = fld n_up h x /\ fld n_down h' x = fld n_down h x) as Ks.
  { intros x Hx. rewrite !K' by done. unfold h2. by rewrite !fld_alter_same by done. }
  assert (forall x, x <> p -> x <> curr -> fld n_right h' x = fld n_right h x) as Kr.
  { intros x Hx Hxc. rewrite K' by done. unfold h2. rewrite fld_alter_ne by done. by rewrite fld_alter_same. }
  assert (forall x, x <> p -> x <> 1%N -> fld n_left h' x = fld n_left h x) as Kl.
  { intros x Hx Hxc. rewrite K' by done. unfold h2. rewrite fld_alter_same by done. by rewrite fld_alter_ne. }
  assert (forall q, q ∈ nodes st -> q ∉ 1%N :: st.*1 /\ q <> p) as Hnode.
  { intros q Hq. split; [|apply Hfpp, elem_of_list_further; by apply nodes_fp].
    intros [->|Hin]%elem_of_cons; [apply Hroot; by apply nodes_fp|].
    apply elem_of_list_fmap in Hin as ([d ms]&->&Hd). cbn in Hq.
    apply elem_of_nodes in Hq as (e&es&He&Hq).
    destruct (fp_disjoint _ _ _ _ _ d Hnd He Hd) as [-> ->]; [by apply elem_of_list_further|apply elem_of_list_here|].
    apply (NoDup_key_split _ _ _ Hd) in Hnd. by apply NoDup_cons in Hnd as []. }
  assert (forall r q, q ∈ R r -> q ∈ nodes st) as HRn.
  { intros r q Hq. by apply (b_rnode _ _ _ _ _ HB r). }
  exists h'. split_and!; [done| |by rewrite Kp|].
  2:{ intros x [nx Hx]. apply Ks. intros ->. congruence. }
  split.
  - rewrite fmap_app. eapply (seg_snoc n_right n_left h h' 1%N st.*1 p 1%N curr); try done.
    + apply (b_ring _ _ _ _ _ HB).
    + intros Hin. apply Hp. by apply Hkfp.
    + apply not_eq_sym, Hfpp, elem_of_list_here.
    + intros y Hy Hyp. by apply Kr.
    + intros y Hy Hyp. by apply Kl.
    + rewrite K' by (by apply Hfpp, Hkfp). unfold h2. apply fld_alter_eq; [|done]. apply is_Some_alter. eauto.
    + by rewrite Kp.
    + by rewrite Kp.
    + rewrite K' by (apply Hfpp, elem_of_list_here). unfold h2. rewrite fld_alter_same by done.
      apply fld_alter_eq; [|done]. apply Hlive, elem_of_list_here.
  - destruct (Ks 1%N) as (_&_&_&->); [apply Hfpp, elem_of_list_here|]. apply (b_root _ _ _ _ _ HB).
  - intros c ns [Hc|Hc]%elem_of_app.
    + destruct (b_col _ _ _ _ _ HB c ns Hc) as (H1&H2&H3).
      assert (forall y, y ∈ c :: ns -> y <> p) as Hyp.
      { intros y Hy. apply Hfpp, elem_of_list_further, elem_of_fp. exists c, ns. split; [done|].
        by apply elem_of_cons in Hy. }
      split_and!.
      * eapply seg_frame; [| |exact H1]; intros y Hy; apply Ks, Hyp; [done|].
        rewrite elem_of_app, elem_of_list_singleton in Hy. rewrite elem_of_cons. tauto.
      * destruct (Ks c) as [-> _]; [apply Hyp, elem_of_list_here|done].
      * intros q Hq. destruct (Ks q) as [-> _]; [by apply Hyp, elem_of_list_further|]. by apply H3.
    + apply elem_of_list_singleton in Hc. injection Hc as -> ->. split_and!.
      * cbn. split; by rewrite Kp.
      * by rewrite Kp.
      * by intros q ?%elem_of_nil.
  - rewrite fp_header, app_comm_cons. apply NoDup_app. split_and!; [apply (b_nd _ _ _ _ _ HB)| |apply NoDup_singleton].
    by intros x Hx ->%elem_of_list_singleton.
  - intros x. rewrite fp_header, app_comm_cons, elem_of_app, elem_of_list_singleton, <-(b_dom _ _ _ _ _ HB).
    unfold h'. destruct (decide (x = p)) as [->|Hx].
    + rewrite lookup_insert. split; [by right|eauto].
    + rewrite lookup_insert_ne by done. unfold h2. rewrite !is_Some_alter. tauto.
  - intros x. rewrite fp_header, app_comm_cons, elem_of_app, elem_of_list_singleton.
    intros [Hx| ->]; [apply (b_lt _ _ _ _ _ HB) in Hx|unfold p]; lia.
  - intros r x rest Hr. eapply seg_frame_eq; [|exact (b_row _ _ _ _ _ HB r x rest Hr)].
    intros y Hy. assert (y ∈ R r) as Hin.
    { rewrite Hr. rewrite app_comm_cons, elem_of_app, elem_of_list_singleton in Hy. destruct Hy as [?| ->]; [done|apply elem_of_list_here]. }
    apply HRn in Hin. apply Kout; by apply Hnode.
  - intros r q Hq. rewrite nodes_header. pose proof (b_rnode _ _ _ _ _ HB r q Hq) as [H1 H2]. split; [done|].
    rewrite <-H2. apply Ks. by apply Hnode.
  - intros q. rewrite nodes_header. apply (b_noder _ _ _ _ _ HB).
  - apply (b_rnd _ _ _ _ _ HB).
  - apply (b_rows _ _ _ _ _ HB).
  - apply (b_len _ _ _ _ _ HB).
  - rewrite fp_header. apply sorted_snoc; [apply (b_sort _ _ _ _ _ HB)|]. intros x Hx.
    apply (b_lt _ _ _ _ _ HB x). by apply elem_of_list_further.
  - apply (b_rsort _ _ _ _ _ HB).
Qed.

Lemma add_nodes_spec constraint : forall h next rows R st c ns cc,
  Built h next rows R (st ++ [(c, ns)]) -> last (c :: ns) = Some cc ->
  exists h' next' rows' R' new,
    add_nodes c cc constraint h next rows = Ret (h', next', rows') /\
    Built h' next' rows' R' (st ++ [(c, ns ++ new)]) /\
    Forall2 (fun q r => q ∈ R' r) new constraint /\
    (forall r q, q ∈ R r -> q ∈ R' r) /\
    (forall x, is_Some (h !! x) -> is_Some (h' !! x) /\ fld n_row h' x = fld n_row h x).
Proof.
  induction constraint as [|i rest IH]; intros h next rows R st c ns cc HB Hcc.
  - exists h, next, rows, R, []. rewrite app_nil_r. split_and!; done.
  - cbn [add_nodes].
    assert (exists v, grow rows i !! i = Some v) as [v Hv].
    { apply lookup_lt_is_Some_2. rewrite grow_length. lia. }
    assert (vec_get (grow rows i) i = Ret v) as -> by (unfold vec_get; by rewrite Hv). cbn [bind].
    assert (v = default null (last (R i))) as ->.
    { pose proof (grow_lookup rows i i) as E. rewrite Hv in E. cbn in E.
      rewrite <-(b_rows _ _ _ _ _ HB i), <-E. done. }
    destruct (node_new_spec h next rows R st c ns cc i HB Hcc) as (h1&E1&HB1&Hrow1).
    rewrite E1. cbn [bind].
    assert (vec_set (grow rows i) i next = Ret (<[i := next]> (grow rows i))) as ->.
    { unfold vec_set. rewrite decide_True by (rewrite grow_length; lia). done. }
    cbn [bind].
    destruct (IH h1 (next + 1)%N (<[i := next]> (grow rows i)) (add_row R i next) st c (ns ++ [next]) next HB1)
      as (h'&next'&rows'&R'&new&E&HB'&HF&HRR&Hkeep).
    + rewrite app_comm_cons. by rewrite last_snoc.
    + exists h', next', rows', R', (next :: new). rewrite <-app_assoc in HB'. split_and!; try done.
      * constructor; [|done]. apply HRR, elem_of_add_row. by right.
      * intros r q Hq. apply HRR, elem_of_add_row. by left.
      * intros x Hx. rewrite <-(Hrow1 x Hx). apply Hkeep.
        apply (b_dom _ _ _ _ _ HB1). apply (b_dom _ _ _ _ _ HB) in Hx. rewrite fp_snoc, app_comm_cons, elem_of_app. by left.
Qed.

(** What the columns hold so far. *)
Definition holds (R : Rows) (st : cstate) (cs : list (list nat)) : Prop :=
  Forall2 (fun p C => Forall2 (fun q r => q ∈ R r) p.2 C) st cs.
Definition sized (h : heap) (st : cstate) : Prop :=
  forall c ns, (c, ns) ∈ st -> fld n_row h c = Some (length ns).

Lemma holds_mono R R' st cs :
  (forall r q, q ∈ R r -> q ∈ R' r) -> holds R st cs -> holds R' st cs.
Proof.
  intros HR H. eapply Forall2_impl; [exact H|]. intros p C HC. cbn in HC.
  eapply Forall2_impl; [exact HC|]. intros q r. apply HR.
Qed.

Lemma add_columns_spec constraints : forall h next rows R st curr done,
  Built h next rows R st -> last (1%N :: st.*1) = Some curr ->
  holds R st done -> sized h st ->
  exists h' next' rows' R' st',
    add_columns curr constraints h next rows = Ret (h', next', rows') /\
    Built h' next' rows' R' st' /\ holds R' st' (done ++ constraints) /\ sized h' st'.
Proof.
  induction constraints as [|C rest IH]; intros h next rows R st curr dn HB Hcur Hh Hs.
  - exists h, next, rows, R, st. rewrite app_nil_r. done.
  - cbn [add_columns].
    destruct (header_new_spec h next rows R st curr (length C) HB Hcur) as (h1&E1&HB1&Hsz&Hk1).
    rewrite E1. cbn [bind].
    destruct (add_nodes_spec C h1 (next + 1)%N rows R st next [] next HB1) as (h2&next2&rows2&R2&new&E2&HB2&HF&HRR&Hk2).
    { done. }
    rewrite E2. cbn [bind]. cbn [app] in HB2.
    destruct (IH h2 next2 rows2 R2 (st ++ [(next, new)]) next (dn ++ [C]) HB2) as (h'&next'&rows'&R'&st'&E&HB'&Hh'&Hs').
    + rewrite fmap_app, app_comm_cons. cbn [fmap list_fmap fst]. by rewrite last_snoc.
    + apply Forall2_app; [by eapply holds_mono|]. constructor; [done|constructor].
    + intros c ns [Hc|Hc]%elem_of_app.
      * assert (is_Some (h !! c)) as Hd.
        { apply (b_dom _ _ _ _ _ HB), elem_of_list_further, elem_of_fp. eauto. }
        destruct (Hk2 c) as [_ ->].
        { apply (b_dom _ _ _ _ _ HB1). rewrite fp_header, app_comm_cons, elem_of_app. left.
          by apply (b_dom _ _ _ _ _ HB). }
        rewrite Hk1 by done. by apply Hs.
      * apply elem_of_list_singleton in Hc. injection Hc as -> ->.
        destruct (Hk2 next) as [_ ->].
        { apply (b_dom _ _ _ _ _ HB1). rewrite fp_header. apply elem_of_list_further. rewrite elem_of_app. right. apply elem_of_list_here. }
        rewrite Hsz. f_equal. symmetry. by eapply Forall2_length.
    + exists h', next', rows', R', st'. rewrite <-app_assoc in Hh'. done.
Qed.

Lemma holds_size R st cs : holds R st cs -> length (fp st) = matrix_size cs.
Proof.
  induction 1 as [|[c ns] C st cs HC H IH]; [done|]. rewrite fp_cons. cbn in HC. apply Forall2_length in HC.
  cbn [length]. rewrite app_length, IH, HC. unfold matrix_size. by rewrite fmap_cons.
Qed.

Definition info_of (h : heap) (R : Rows) : rows_info :=
  let hd q := default null (fld n_header h q) in
  let rw q := default 0 (fld n_row h q) in
  RowsInfo hd rw R (fun q => after q (R (rw q)) ++ before q (R (rw q))).

(** The pointer table: the last node of every row. *)
Record Table (rows : list ptr) (R : Rows) (st : cstate) (cs : list (list nat)) : Prop := {
  tb_len r : r < length rows <-> exists C r', C ∈ cs /\ r <= r' /\ r' ∈ C;
  tb_live r : default null (rows !! r) = default null (last (R r));
  tb_row r : R r <> [] <-> exists C, C ∈ cs /\ r ∈ C;
  tb_last r p : last (R r) = Some p ->
    exists s1 c ns s2, st = s1 ++ (c, ns) :: s2 /\ p ∈ ns /\
      forall d ms q, (d, ms) ∈ s2 -> q ∈ ms -> q ∉ R r
}.

Lemma sorted_app_lt l1 l2 x y : StronglySorted N.lt (l1 ++ l2) -> x ∈ l1 -> y ∈ l2 -> (x < y)%N.
Proof.
  induction l1 as [|z l1 IH]; cbn; intros Hs Hx Hy; [by apply elem_of_nil in Hx|].
  apply StronglySorted_inv in Hs as [Hs Hz]. apply elem_of_cons in Hx as [->|Hx]; [|by apply IH].
  rewrite Forall_forall in Hz. apply Hz. rewrite elem_of_app. by right.
Qed.

(** Construction succeeds for every list of constraints. *)
Lemma matrix_new_built constraints :
  exists h next rows R st, matrix_new constraints = Ret (Matrix h next 1%N rows []) /\
    Built h next rows R st /\ holds R st constraints /\ sized h st.
Proof.
  unfold matrix_new, node_new_header. rewrite decide_True by done. cbn [bind].
  set (h0 := <[1%N := Node null 1%N 1%N 1%N 1%N 0]> ∅).
  assert (Built h0 2%N [] (fun _ => []) []) as HB0.
  { assert (forall {A} (f : node -> A), fld f h0 1%N = Some (f (Node null 1%N 1%N 1%N 1%N 0))) as K.
    { intros A f. unfold fld, h0. by rewrite lookup_insert. }
    split.
    - cbn. by split; rewrite K.
    - by rewrite K.
    - by intros c ns ?%elem_of_nil.
    - apply NoDup_singleton.
    - intros x. change (1%N :: fp []) with [1%N]. rewrite elem_of_list_singleton. unfold h0.
      destruct (decide (x = 1%N)) as [->|Hx]; [rewrite lookup_insert; split; eauto|].
      rewrite lookup_insert_ne by done. rewrite lookup_empty. split; [by intros []|done].
    - intros x. change (1%N :: fp []) with [1%N]. rewrite elem_of_list_singleton. lia.
    - done.
    - by intros r q ?%elem_of_nil.
    - by intros q ?%elem_of_nil.
    - constructor.
    - done.
    - intros r. cbn. split; [lia|]. by intros (?&_&?).
    - constructor.
    - constructor. }
  destruct (add_columns_spec constraints h0 2%N [] (fun _ => []) [] 1%N []) as (h&next&rows&R&st&E&HB&Hh&Hs).
  { done. } { done. } { constructor. } { by intros c ns ?%elem_of_nil. }
  rewrite E. cbn [bind]. exists h, next, rows, R, st. done.
Qed.

(** Without repetitions a row has at most one node in a column. *)
Lemma holds_rcol h next rows R st cs c ns q q' r :
  Built h next rows R st -> holds R st cs -> Forall NoDup cs ->
  (c, ns) ∈ st -> q ∈ ns -> q' ∈ ns -> q ∈ R r -> q' ∈ R r -> q = q'.
Proof.
  intros HB Hh Hnd Hc Hq Hq' Hr Hr'.
  assert (forall x s, x ∈ R s -> x ∈ R r -> s = r) as Huniq.
  { intros x s Hs Hx. apply (b_rnode _ _ _ _ _ HB) in Hs as [_ Hs], Hx as [_ Hx]. congruence. }
  apply elem_of_list_lookup in Hc as [i Hi]. destruct (Forall2_lookup_l _ _ _ _ _ Hh Hi) as (C&HC&HF).
  cbn [snd] in HF. assert (NoDup C) as HCnd by (rewrite Forall_forall in Hnd; by eapply Hnd, elem_of_list_lookup_2).
  apply elem_of_list_lookup in Hq as [a Ha], Hq' as [b Hb].
  destruct (Forall2_lookup_l _ _ _ _ _ HF Ha) as (ra&Hra&Hqa).
  destruct (Forall2_lookup_l _ _ _ _ _ HF Hb) as (rb&Hrb&Hqb).
  assert (ra = r) as -> by (by eapply Huniq). assert (rb = r) as -> by (by eapply Huniq).
  assert (a = b) as -> by (by eapply NoDup_lookup). congruence.
Qed.

Lemma matrix_new_drop fuel constraints : matrix_size constraints <= fuel ->
  exists mx, matrix_new constraints = Ret mx /\ matrix_drop fuel (d_root mx) (d_heap mx) = Ret ∅.
Proof.
  intros Hf. destruct (matrix_new_built constraints) as (h&next&rows&R&st&E&HB&Hh&Hs).
  eexists. split; [exact E|]. cbn [d_root d_heap]. apply (matrix_drop_spec fuel 1%N h st).
  - split.
    + apply (b_ring _ _ _ _ _ HB).
    + intros c ns Hc. destruct (b_col _ _ _ _ _ HB c ns Hc) as (H1&H2&H3). split_and!; [done|by apply Hs|done|done].
    + apply (b_nd _ _ _ _ _ HB).
    + intros Hin%(b_lt _ _ _ _ _ HB). unfold null in Hin. lia.
    + apply (b_root _ _ _ _ _ HB).
  - by rewrite (holds_size _ _ _ Hh).
  - intros x. apply (b_dom _ _ _ _ _ HB).
Qed.

Lemma matrix_new_spec constraints :
  Forall NoDup constraints ->
  exists mx R st, matrix_new constraints = Ret mx /\ d_root mx = 1%N /\ d_partial mx = [] /\
    let G := info_of (d_heap mx) R in
    good_rows G /\
    (forall fuel, matrix_size constraints <= fuel -> Live G 1%N fuel (d_heap mx) st) /\
    cols G st = constraints /\
    (forall x, is_Some (d_heap mx !! x) <-> x ∈ 1%N :: fp st) /\
    length (fp st) = matrix_size constraints /\
    Table (d_rows mx) R st constraints.
Proof.
  intros Hnd. destruct (matrix_new_built constraints) as (h&next&rows&R&st&E&HB&Hh&Hs).
  rewrite E. eexists _, R, st. split; [done|]. cbn [d_root d_partial d_heap d_rows]. split; [done|]. split; [done|].
  set (G := info_of h R). cbv zeta. fold G.
  pose proof (b_nd _ _ _ _ _ HB) as [Hroot Hfnd]%NoDup_cons.
  assert (forall r q, q ∈ R r -> rw G q = r) as Hrw.
  { intros r q Hq. apply (b_rnode _ _ _ _ _ HB) in Hq as [_ Hq]. unfold G. cbn. by rewrite Hq. }
  assert (forall c ns q, (c, ns) ∈ st -> q ∈ ns -> hdr G q = c) as Hhd.
  { intros c ns q Hc Hq. apply (b_col _ _ _ _ _ HB) in Hc as (_&_&H). unfold G. cbn. by rewrite (H q Hq). }
  assert (good_rows G) as HG.
  { split.
    - apply Hrw.
    - intros r q Hq. unfold G; cbn. fold (rw G q). change (default 0 (fld n_row h q)) with (rw G q). rewrite (Hrw r q Hq).
      rewrite (before_after q (R r) Hq) at 3. rewrite <-Permutation_middle. constructor. apply Permutation_app_comm.
    - intros r. change (rl G r) with (R r). apply NoDup_fmap_2_strong; [|apply (b_rnd _ _ _ _ _ HB)].
      intros q q' Hq Hq' Heq.
      pose proof (b_rnode _ _ _ _ _ HB r q Hq) as [(c&ns&Hc&Hqn)%elem_of_nodes _].
      pose proof (b_rnode _ _ _ _ _ HB r q' Hq') as [(c'&ns'&Hc'&Hqn')%elem_of_nodes _].
      rewrite (Hhd c ns q), (Hhd c' ns' q') in Heq by done. subst c'.
      destruct (fp_disjoint _ _ _ _ _ c Hfnd Hc Hc') as [_ <-]; [apply elem_of_list_here..|].
      by eapply (holds_rcol h next rows R st). }
  assert (forall q, q ∈ nodes st <-> isnode G q) as Hnode.
  { intros q. unfold isnode. split.
    - intros Hq. destruct (b_noder _ _ _ _ _ HB q Hq) as [r Hr]. by rewrite (Hrw r q Hr).
    - intros Hq. by apply (b_rnode _ _ _ _ _ HB (rw G q)). }
  split_and!; [done| | |apply (b_dom _ _ _ _ _ HB)|by eapply holds_size|].
  - intros fuel Hfuel. split.
    + split.
      * apply (b_ring _ _ _ _ _ HB).
      * intros c ns Hc. destruct (b_col _ _ _ _ _ HB c ns Hc) as (H1&H2&H3). split_and!; [done|by apply Hs|done|done].
      * apply (b_nd _ _ _ _ _ HB).
      * intros Hin%(b_lt _ _ _ _ _ HB). unfold null in Hin. lia.
      * apply (b_root _ _ _ _ _ HB).
    + split.
      * intros x Hx Hn. apply Hnode in Hn.
        apply elem_of_cons in Hx as [->|Hx]; [apply Hroot; by apply nodes_fp|].
        apply elem_of_list_fmap in Hx as ([d ms]&->&Hd). cbn in Hn.
        apply elem_of_nodes in Hn as (e&es&He&Hq).
        destruct (fp_disjoint _ _ _ _ _ d Hfnd He Hd) as [-> ->]; [by apply elem_of_list_further|apply elem_of_list_here|].
        apply (NoDup_key_split _ _ _ Hd) in Hfnd. by apply NoDup_cons in Hfnd as [].
      * apply Hhd.
      * intros q. apply Hnode.
      * intros q x _ Hx. by apply (b_rnode _ _ _ _ _ HB (rw G q)).
    + intros q Hq. pose proof (proj1 (Hnode q) Hq) as Hin. unfold isnode in Hin. split.
      * unfold G; cbn. change (default 0 (fld n_row h q)) with (rw G q). change (rl G (rw G q)) with (R (rw G q)) in Hin.
        remember (R (rw G q)) as l eqn:Hl. pose proof (before_after q l Hin) as Hba.
        destruct (before q l) as [|x b] eqn:Hb.
        -- rewrite app_nil_r. apply (b_row _ _ _ _ _ HB (rw G q)). by rewrite <-Hl.
        -- apply (seg_rotate n_right n_left h x b q). apply (b_row _ _ _ _ _ HB (rw G q)). by rewrite <-Hl.
      * apply elem_of_nodes in Hq as (c&ns&Hc&Hq). rewrite (Hhd c ns q) by done.
        apply (b_col _ _ _ _ _ HB) in Hc as (_&_&H). by apply H.
      * by apply (b_rnode _ _ _ _ _ HB).
    + etrans; [|exact Hfuel]. erewrite holds_size; done.
  - unfold cols. clear -Hh Hrw. induction Hh as [|[c ns] C st cs HC H IH]; [done|].
    rewrite fmap_cons, IH. f_equal. cbn [snd] in *.
    clear -HC Hrw. induction HC as [|q r ns C Hq HC IH]; [done|]. rewrite fmap_cons, IH. by rewrite (Hrw r q).
  - assert (forall r, R r <> [] <-> exists C, C ∈ constraints /\ r ∈ C) as Hne.
    { intros r. split.
      - destruct (R r) as [|q l] eqn:Hr; [done|]. intros _.
        assert (q ∈ R r) as Hq by (rewrite Hr; apply elem_of_list_here).
        pose proof (b_rnode _ _ _ _ _ HB r q Hq) as [(c&ns&Hc&Hqn)%elem_of_nodes _].
        apply elem_of_list_lookup in Hc as [i Hi]. destruct (Forall2_lookup_l _ _ _ _ _ Hh Hi) as (C&HCi&HC).
        exists C. split; [by eapply elem_of_list_lookup_2|]. cbn in HC.
        apply elem_of_list_lookup in Hqn as [j Hj]. destruct (Forall2_lookup_l _ _ _ _ _ HC Hj) as (r'&Hr'&Hin).
        rewrite <-(Hrw r q Hq), (Hrw r' q Hin). by eapply elem_of_list_lookup_2.
      - intros (C&HC&Hr). apply elem_of_list_lookup in HC as [i Hi].
        destruct (Forall2_lookup_r _ _ _ _ _ Hh Hi) as ([c ns]&_&HC). cbn in HC.
        apply elem_of_list_lookup in Hr as [j Hj]. destruct (Forall2_lookup_r _ _ _ _ _ HC Hj) as (q&_&Hin).
        intros Hn. rewrite Hn in Hin. by apply elem_of_nil in Hin. }
    split.
    + intros r. rewrite (b_len _ _ _ _ _ HB). setoid_rewrite Hne. naive_solver.
    + apply (b_rows _ _ _ _ _ HB).
    + done.
    + intros r p Hp. apply last_Some in Hp as [l Hl].
      assert (p ∈ R r) as Hpr by (rewrite Hl, elem_of_app; right; apply elem_of_list_here).
      pose proof (b_rnode _ _ _ _ _ HB r p Hpr) as [(c&ns&Hc&Hpn)%elem_of_nodes _].
      apply elem_of_list_split in Hc as (s1&s2&Hst). exists s1, c, ns, s2. split_and!; [done|done|].
      intros d ms q Hd Hq Hqr.
      assert (p < q)%N as Hlt.
      { eapply (sorted_app_lt (fp (s1 ++ [(c, ns)])) (fp s2)).
        - rewrite <-fp_app, <-app_assoc. cbn [app]. rewrite <-Hst. apply (b_sort _ _ _ _ _ HB).
        - apply elem_of_fp. exists c, ns. split; [|by right]. rewrite elem_of_app. right. apply elem_of_list_here.
        - apply elem_of_fp. eauto. }
      rewrite Hl in Hqr. apply elem_of_app in Hqr as [Hqr| ->%elem_of_list_singleton]; [|lia].
      pose proof (b_rsort _ _ _ _ _ HB r) as Hs'. rewrite Hl in Hs'.
      pose proof (sorted_app_lt _ _ q p Hs' Hqr (elem_of_list_here _ _)). lia.
Qed.
