(** Building and dropping a matrix. *)
From stdpp Require Import sorting.
From Verif Require Import Base Dlx DlxSeg DlxCover DlxColumn SpecDlx DlxSets DlxSearch.

Lemma fwd_lookup dir h a l b y : fwd dir h a l b -> y ∈ a :: l -> is_Some (h !! y).
Proof.
  revert a. induction l as [|x l IH]; intros a; cbn.
  - intros (n&?&_)%fld_Some ->%elem_of_list_singleton. eauto.
  - intros [(n&?&_)%fld_Some H2] [->|Hy]%elem_of_cons; [|eauto]. eauto.
Qed.

(** * Dropping *)
Lemma drop_column_spec fuel h c ns :
  fwd n_down h c ns c -> NoDup (c :: ns) -> null ∉ ns -> length ns <= fuel ->
  exists h', drop_column fuel c h = Ret h' /\ erased (c :: ns) h h'.
Proof.
  intros Hfwd [Hc Hnd]%NoDup_cons Hnull Hlen. unfold drop_column.
  assert (is_Some (h !! c)) as [n Hn] by (eapply fwd_lookup; [done|apply elem_of_list_here]).
  unfold load. rewrite Hn. cbn [bind].
  rewrite (first_cur n_down h c ns n Hn (fwd_first _ _ _ _ _ Hfwd) Hc).
  destruct (dealloc_erased c h) as (h1&E1&H1); [eauto|]. rewrite E1. cbn [bind].
  destruct (for_from_J (fun l1 g => erased (c :: l1) h g) (fun _ => False) id n_down c
    (fun x h => let! h := dealloc x h in Ret (h, false)) ns fuel h1) as (g&stop&E&Hg); try done.
  - intros l1 x l2 g Hl Hg.
    assert (g !! x = h !! x) as Heq.
    { eapply erased_out; [exact Hg|]. rewrite not_elem_of_cons. rewrite Hl in Hnd. split.
      - intros ->. apply Hc. rewrite Hl, elem_of_app. right. apply elem_of_list_here.
      - apply NoDup_app in Hnd as (_&Hnd&_). intros Hin. apply (Hnd _ Hin), elem_of_list_here. }
    split; [cbn; rewrite (fld_eq _ _ _ _ Heq); eapply fwd_at; by rewrite <-Hl|].
    destruct (dealloc_erased x g) as (g'&E&Hg').
    { rewrite Heq. eapply fwd_lookup; [exact Hfwd|]. rewrite Hl. apply elem_of_list_further.
      rewrite elem_of_app. right. apply elem_of_list_here. }
    exists g', false. rewrite E. split; [done|]. rewrite app_comm_cons. by eapply erased_trans.
  - rewrite E. cbn [bind]. destruct stop; [done|]. eauto.
Qed.

Lemma matrix_drop_erased fuel root h st :
  Rep root h st -> length (fp st) <= fuel -> exists g, matrix_drop fuel root h = Ret g /\ erased (root :: fp st) h g.
Proof.
  intros HR Hfuel. pose proof (rep_nd _ _ _ HR) as [Hroot Hnd]%NoDup_cons.
  pose proof (seg_fwd _ _ _ _ _ _ (rep_ring _ _ _ HR)) as Hfwd.
  assert (root ∉ st.*1) as Hrk by (intros Hin%keys_fp; done).
  unfold matrix_drop. assert (is_Some (h !! root)) as [n Hn] by (eapply fwd_lookup; [done|apply elem_of_list_here]).
  unfold load. rewrite Hn. cbn [bind].
  rewrite (first_cur n_right h root st.*1 n Hn (fwd_first _ _ _ _ _ Hfwd) Hrk).
  destruct (drop_column_spec fuel h root []) as (h1&E1&H1).
  { apply (rep_root _ _ _ HR). }
  { apply NoDup_singleton. }
  { apply not_elem_of_nil. }
  { cbn. lia. }
  rewrite E1. cbn [bind].
  assert (forall c ns, (c, ns) ∈ st -> length ns <= length (fp st)) as Hcl.
  { intros c ns Hc. apply subset_length.
    - apply (NoDup_key_split _ _ _ Hc) in Hnd. by apply NoDup_cons in Hnd as [].
    - intros x Hx. apply elem_of_fp. eauto. }
  destruct (for_from_J (fun l1 g => exists p p', st = p ++ p' /\ p.*1 = l1 /\ erased (root :: fp p) h g)
    (fun _ => False) id n_right root
    (fun x h => let! h := drop_column fuel x h in Ret (h, false)) st.*1 fuel h1) as (g&stop&E&Hg).
  - etrans; [|exact Hfuel]. apply subset_length; [|intros x; apply (keys_fp x st)].
    clear -Hnd. induction st as [|[c ns] st IH]; [constructor|].
    rewrite fp_cons in Hnd. apply NoDup_cons in Hnd as [Hc Hnd]. apply NoDup_app in Hnd as (_&_&Hnd).
    rewrite fmap_cons. apply NoDup_cons. split; [|by apply IH]. intros Hin%keys_fp. apply Hc.
    rewrite elem_of_app. by right.
  - intros Hin%keys_fp. apply (rep_null _ _ _ HR). by apply elem_of_list_further.
  - done.
  - intros l1 x l2 g Hl (p&p'&Hp&Hp1&Hg). destruct p' as [|[c ns] p'].
    { rewrite app_nil_r in Hp. subst p. rewrite Hp1 in Hl. apply (f_equal length) in Hl.
      rewrite app_length in Hl. cbn in Hl. lia. }
    assert (x = c /\ p'.*1 = l2) as [-> <-].
    { rewrite Hp, fmap_app, fmap_cons, Hp1 in Hl. apply app_inv_head in Hl. cbn in Hl. by injection Hl. }
    assert ((c, ns) ∈ st) as Hc by (rewrite Hp, elem_of_app; right; apply elem_of_list_here).
    assert (forall y, y ∈ c :: ns -> g !! y = h !! y) as Heq.
    { intros y Hy. eapply erased_out; [exact Hg|]. rewrite not_elem_of_cons. split.
      - intros ->. apply Hroot, elem_of_fp. exists c, ns. split; [done|]. by apply elem_of_cons in Hy.
      - rewrite Hp, fp_app, fp_cons in Hnd. apply NoDup_app in Hnd as (_&Hnd&_). intros Hin.
        apply (Hnd y Hin). rewrite app_comm_cons, elem_of_app. by left. }
    split.
    + cbn. rewrite (fld_eq _ h) by (apply Heq, elem_of_list_here). eapply fwd_at. by rewrite <-Hl.
    + destruct (drop_column_spec fuel g c ns) as (g'&E'&Hg').
      * eapply fwd_frame; [|eapply seg_fwd, (rep_col _ _ _ HR c ns Hc)]. intros y Hy. by apply fld_eq, Heq.
      * by eapply NoDup_key_split.
      * intros Hin. apply (rep_null _ _ _ HR). apply elem_of_list_further, elem_of_fp. eauto.
      * etrans; [by eapply Hcl|done].
      * exists g', false. rewrite E'. split; [done|]. exists (p ++ [(c, ns)]), p'. split_and!.
        -- by rewrite <-app_assoc.
        -- by rewrite fmap_app, Hp1.
        -- rewrite fp_app, fp_cons. cbn [fp]. change (fp []) with (@nil ptr). rewrite app_nil_r, app_comm_cons.
           by eapply erased_trans.
  - exists [], st. done.
  - rewrite E. cbn [bind]. destruct stop; [done|]. destruct Hg as (p&p'&Hp&Hp1&Hg).
    assert (p' = []) as ->.
    { apply (f_equal length) in Hp1. rewrite Hp, !fmap_length, app_length in Hp1. destruct p'; [done|cbn in Hp1; lia]. }
    rewrite app_nil_r in Hp. subst p. by exists g.
Qed.
Lemma matrix_drop_spec fuel root h st :
  Rep root h st -> length (fp st) <= fuel -> (forall x, is_Some (h !! x) -> x ∈ root :: fp st) ->
  matrix_drop fuel root h = Ret ∅.
Proof.
  intros HR Hfuel Hown. destruct (matrix_drop_erased fuel root h st HR Hfuel) as (g&->&Hg).
  f_equal. apply map_eq. intros x. rewrite lookup_empty, Hg.
  destruct (decide _) as [Hx|Hx]; [done|]. destruct (h !! x) as [nx|] eqn:Hnx; [|done].
  exfalso. apply Hx, Hown. eauto.
Qed.

(** * Building *)
(** The part of a list before and after an element. *)
Fixpoint before (q : ptr) (l : list ptr) : list ptr :=
  match l with [] => [] | x :: l => if decide (x = q) then [] else x :: before q l end.
Fixpoint after (q : ptr) (l : list ptr) : list ptr :=
  match l with [] => [] | x :: l => if decide (x = q) then l else after q l end.
Lemma before_after q l : q ∈ l -> l = before q l ++ q :: after q l.
Proof.
  induction l as [|x l IH]; [by intros ?%elem_of_nil|]. intros Hq. cbn.
  destruct (decide (x = q)) as [->|Hx]; [done|]. apply elem_of_cons in Hq as [->|Hq]; [done|].
  cbn. by rewrite <-IH.
Qed.

Lemma seg_last nxt prv h a l b u :
  seg nxt prv h a l b -> last (a :: l) = Some u -> lk nxt prv h u b.
Proof.
  revert a. induction l as [|x l IH]; intros a; cbn [seg].
  - intros H Hu. by injection Hu as ->.
  - intros [_ H] Hu. by apply (IH x).
Qed.

Definition Rows := nat -> list ptr.
Record Built (h : heap) (next : ptr) (rows : list ptr) (R : Rows) (st : cstate) : Prop := {
  b_ring : seg n_right n_left h 1%N st.*1 1%N;
  b_root : fld n_down h 1%N = Some 1%N;
  b_col c ns : (c, ns) ∈ st ->
    seg n_down n_up h c ns c /\ fld n_header h c = Some null /\ forall q, q ∈ ns -> fld n_header h q = Some c;
  b_nd : NoDup (1%N :: fp st);
  b_dom x : is_Some (h !! x) <-> x ∈ 1%N :: fp st;
  b_lt x : x ∈ 1%N :: fp st -> (0 < x < next)%N;
  b_row r x rest : R r = x :: rest -> seg n_right n_left h x rest x;
  b_rnode r q : q ∈ R r -> q ∈ nodes st /\ fld n_row h q = Some r;
  b_noder q : q ∈ nodes st -> exists r, q ∈ R r;
  b_rnd r : NoDup (R r);
  b_rows r : default null (rows !! r) = default null (last (R r));
  b_len r : r < length rows <-> exists r', r <= r' /\ R r' <> [];
  b_sort : StronglySorted N.lt (fp st);
  b_rsort r : StronglySorted N.lt (R r)
}.

Lemma sorted_snoc l p : StronglySorted N.lt l -> (forall x, x ∈ l -> (x < p)%N) -> StronglySorted N.lt (l ++ [p]).
Proof.
  induction 1 as [|x l Hl IH Hx]; intros Hp; cbn; [repeat constructor|]. constructor.
  - apply IH. intros y Hy. apply Hp. by apply elem_of_list_further.
  - apply Forall_app. split; [done|]. repeat constructor. apply Hp, elem_of_list_here.
Qed.

Lemma grow_lookup rows i r : default null (grow rows i !! r) = default null (rows !! r).
Proof.
  unfold grow. destruct (rows !! r) as [x|] eqn:Hx.
  - by rewrite (lookup_app_l_Some _ _ _ _ Hx).
  - apply lookup_ge_None in Hx. rewrite lookup_app_r by done.
    destruct (replicate _ null !! _) as [y|] eqn:Hy; [|done].
    apply lookup_replicate in Hy as [-> _]. done.
Qed.
Lemma grow_length rows i : length (grow rows i) = Nat.max (length rows) (S i).
Proof. unfold grow. rewrite app_length, replicate_length. lia. Qed.

Definition add_row (R : Rows) (i : nat) (p : ptr) : Rows :=
  fun r => if decide (r = i) then R r ++ [p] else R r.
Lemma elem_of_add_row R i p r q : q ∈ add_row R i p r <-> q ∈ R r \/ (q = p /\ r = i).
Proof.
  unfold add_row. destruct (decide (r = i)) as [->|Hr].
  - rewrite elem_of_app, elem_of_list_singleton. tauto.
  - tauto.
Qed.

Lemma nodes_snoc st c ns p : nodes (st ++ [(c, ns ++ [p])]) = nodes (st ++ [(c, ns)]) ++ [p].
Proof.
  unfold nodes. rewrite !fmap_app, !mjoin_app. cbn. rewrite !app_nil_r, <-!app_assoc. done.
Qed.
Lemma fp_snoc st c ns p : fp (st ++ [(c, ns ++ [p])]) = fp (st ++ [(c, ns)]) ++ [p].
Proof. rewrite !fp_app, !fp_cons. change (fp []) with (@nil ptr). rewrite !app_nil_r, <-!app_assoc. done. Qed.

(** One node at the bottom of the last column. *)
Lemma node_new_spec h next rows R st c ns cc i :
  Built h next rows R (st ++ [(c, ns)]) -> last (c :: ns) = Some cc ->
  exists h', node_new next c (default null (last (R i))) cc i h = Ret h' /\
    Built h' (next + 1) (<[i := next]> (grow rows i)) (add_row R i next) (st ++ [(c, ns ++ [next])]) /\
    forall x, is_Some (h !! x) -> fld n_row h' x = fld n_row h x.
Proof.
  intros HB Hcc. set (p := next). set (st0 := st ++ [(c, ns)]) in *.
  pose proof (b_nd _ _ _ _ _ HB) as [Hroot Hnd]%NoDup_cons.
  assert ((c, ns) ∈ st0) as Hc by (unfold st0; rewrite elem_of_app; right; apply elem_of_list_here).
  assert (p ∉ 1%N :: fp st0) as Hp.
  { intros Hin. apply (b_lt _ _ _ _ _ HB) in Hin. unfold p in Hin. lia. }
  assert (h !! p = None) as Hpn.
  { destruct (h !! p) eqn:Hx; [|done]. exfalso. apply Hp, (b_dom _ _ _ _ _ HB). eauto. }
  assert (1 < next)%N as Hnext.
  { pose proof (b_lt _ _ _ _ _ HB 1%N (elem_of_list_here _ _)). lia. }
  assert (p <> null) as Hpnull by (unfold p, null; lia).
  assert (forall x, x ∈ fp st0 -> x <> p) as Hfpp.
  { intros x Hx ->. apply Hp. by apply elem_of_list_further. }
  assert (forall x, x ∈ 1%N :: fp st0 -> x <> null /\ is_Some (h !! x)) as Hlive.
  { intros x Hx. split; [apply (b_lt _ _ _ _ _ HB) in Hx; unfold null; lia|by apply (b_dom _ _ _ _ _ HB)]. }
  assert (forall x, x ∈ c :: ns -> x ∈ fp st0) as Hcolfp.
  { intros x Hx. apply elem_of_fp. exists c, ns. split; [done|]. by apply elem_of_cons in Hx. }
  assert (cc ∈ c :: ns) as Hccin.
  { apply last_Some in Hcc as [l' ->]. rewrite elem_of_app. right. apply elem_of_list_here. }
  destruct (b_col _ _ _ _ _ HB c ns Hc) as (Hcseg&Hch&Hcnh).
  destruct (seg_last _ _ _ _ _ _ _ Hcseg Hcc) as [Lc1 Lc2].
  pose proof (NoDup_key_split _ _ _ Hc Hnd) as Hcnd. pose proof Hcnd as [Hcns Hnsnd]%NoDup_cons.
  assert (forall r q, q ∈ R r -> q ∈ fp st0) as HRfp.
  { intros r q Hq. apply nodes_fp. by apply (b_rnode _ _ _ _ _ HB r). }
  assert (forall r q, q ∈ R r -> q ∉ 1%N :: st0.*1) as HRkey.
  { intros r q Hq. apply (b_rnode _ _ _ _ _ HB r) in Hq as [Hq _]. intros [->|Hin]%elem_of_cons.
    - apply Hroot. by apply nodes_fp.
    - apply elem_of_list_fmap in Hin as ([d ms]&->&Hd). cbn in Hq.
      apply elem_of_nodes in Hq as (e&es&He&Hq).
      destruct (fp_disjoint _ _ _ _ _ d Hnd He Hd) as [-> ->]; [by apply elem_of_list_further|apply elem_of_list_here|].
      apply (NoDup_key_split _ _ _ Hd) in Hnd. by apply NoDup_cons in Hnd as []. }
  (* the neighbours in the row *)
  assert (exists h1 lft rgt,
    (let nd := Node c p p p p i in
     if decide (default null (last (R i)) = null) then Ret (nd, h)
     else
       let! rp := load h (default null (last (R i))) in
       let nd := set_right (n_right rp) (set_left (default null (last (R i))) nd) in
       let! h := modify (set_left p) (n_right rp) h in
       let! h := modify (set_right p) (default null (last (R i))) h in
       Ret (nd, h)) = Ret (Node c lft rgt p p i, h1) /\
    (forall x, is_Some (h1 !! x) <-> is_Some (h !! x)) /\
    (forall x, fld n_up h1 x = fld n_up h x /\ fld n_down h1 x = fld n_down h x /\
       fld n_header h1 x = fld n_header h x /\ fld n_row h1 x = fld n_row h x) /\
    (forall x, x ∉ R i -> h1 !! x = h !! x) /\
    (forall h', (forall x, x <> p -> fld n_left h' x = fld n_left h1 x /\ fld n_right h' x = fld n_right h1 x) ->
       fld n_left h' p = Some lft -> fld n_right h' p = Some rgt ->
       forall r x rest, add_row R i p r = x :: rest -> seg n_right n_left h' x rest x))
    as (h1&lft&rgt&Erow&Hdom1&Hf1&Hout1&Hrow1).
  { assert (forall r y ys, r <> i -> R r = y :: ys -> forall x, x ∈ y :: ys -> x ∉ R i) as Hri.
    { intros r y ys Hr HR x Hx Hx'. rewrite <-HR in Hx.
      apply (b_rnode _ _ _ _ _ HB) in Hx as [_ E1], Hx' as [_ E2]. congruence. }
    destruct (R i) as [|f l] eqn:HRi.
    - exists h, p, p. cbn [last default]. rewrite decide_True by done. split_and!; [done|done|done|done|].
      intros h' Hk Hl Hr' r x rest Hadd. unfold add_row in Hadd. destruct (decide (r = i)) as [->|Hr].
      + rewrite HRi in Hadd. injection Hadd as <- <-. cbn. by split.
      + pose proof (b_row _ _ _ _ _ HB _ _ _ Hadd) as Hs.
        eapply seg_frame; [| |exact Hs]; intros y Hy; apply Hk, Hfpp;
          apply (HRfp r); rewrite Hadd; [done|].
        rewrite elem_of_app, elem_of_list_singleton in Hy. rewrite elem_of_cons. tauto.
    - destruct (last (f :: l)) as [u|] eqn:Hu; [|by apply last_None in Hu]. change (default null (Some u)) with u.
      pose proof (b_row _ _ _ _ _ HB _ _ _ HRi) as Hs.
      destruct (seg_last _ _ _ _ _ _ _ Hs Hu) as [Lu1 Lu2].
      assert (u ∈ R i) as Huin.
      { rewrite HRi. apply last_Some in Hu as [l' ->]. rewrite elem_of_app. right. apply elem_of_list_here. }
      assert (f ∈ R i) as Hfin by (rewrite HRi; apply elem_of_list_here).
      pose proof (HRfp _ _ Huin) as Hufp. pose proof (HRfp _ _ Hfin) as Hffp.
      rewrite decide_False by (apply Hlive; by apply elem_of_list_further).
      apply fld_Some in Lu1 as (nu&Hnu&Hnuf). unfold load. rewrite Hnu. cbn [bind]. rewrite Hnuf.
      rewrite modify_alter by (apply Hlive; by apply elem_of_list_further). cbn [bind].
      rewrite modify_alter by (apply is_Some_alter; eauto). cbn [bind].
      exists (alter (set_right p) u (alter (set_left p) f h)), u, f. split_and!.
      + done.
      + intros x. by rewrite !is_Some_alter.
      + intros x. split_and!; by rewrite !fld_alter_same.
      + intros x Hx. rewrite <-HRi in Hx. rewrite !lookup_alter_ne; [done|..]; by intros <-.
      + intros h' Hk Hl Hr' r x rest Hadd. unfold add_row in Hadd.
        assert (forall y, y <> p -> y <> f -> fld n_left h' y = fld n_left h y) as Kl.
        { intros y Hy Hyf. destruct (Hk y Hy) as [-> _]. rewrite fld_alter_same by done. by apply fld_alter_ne. }
        assert (forall y, y <> p -> y <> u -> fld n_right h' y = fld n_right h y) as Kr.
        { intros y Hy Hyu. destruct (Hk y Hy) as [_ ->]. rewrite fld_alter_ne by done. by apply fld_alter_same. }
        destruct (decide (r = i)) as [->|Hr].
        * rewrite HRi in Hadd. cbn in Hadd. injection Hadd as <- <-.
          pose proof (b_rnd _ _ _ _ _ HB i) as Hndi. rewrite HRi in Hndi.
          eapply (seg_snoc n_right n_left h h' f l p f u); try done.
          -- by apply NoDup_cons in Hndi as [].
          -- rewrite <-HRi. intros Hin. by eapply (Hfpp p (HRfp _ _ Hin)).
          -- apply not_eq_sym. by apply Hfpp.
          -- intros y Hy Hyp. by apply Kr.
          -- intros y Hy Hyp. by apply Kl.
          -- destruct (Hk u) as [_ ->]; [by apply Hfpp|]. apply fld_alter_eq; [|done]. apply is_Some_alter. eauto.
          -- destruct (Hk f) as [-> _]; [by apply Hfpp|]. rewrite fld_alter_same by done.
             apply fld_alter_eq; [|done]. apply Hlive. by apply elem_of_list_further.
        * pose proof (b_row _ _ _ _ _ HB _ _ _ Hadd) as Hs'. rewrite <-HRi in Hri.
          assert (forall y, y ∈ x :: rest -> y <> p /\ y <> u /\ y <> f) as Hy3.
          { intros y Hy. split_and!; [apply Hfpp, (HRfp r); by rewrite Hadd|..];
              intros ->; by eapply (Hri r x rest Hr Hadd). }
          eapply seg_frame; [| |exact Hs']; intros y Hy.
          -- apply Kr; by apply Hy3.
          -- assert (y ∈ x :: rest) as Hy'.
             { rewrite elem_of_app, elem_of_list_singleton in Hy. rewrite elem_of_cons. tauto. }
             apply Kl; by apply Hy3. }
  unfold node_new. fold p. cbv zeta in Erow |- *. rewrite Erow. cbn [bind].
  destruct (Hlive cc) as [Hccn _]; [apply elem_of_list_further; by apply Hcolfp|].
  rewrite decide_False by done.
  assert (fld n_down h1 cc = Some c) as Hccd by (destruct (Hf1 cc) as (_&->&_); done).
  apply fld_Some in Hccd as (ncc&Hncc&Hnccd). unfold load. rewrite Hncc. cbn [bind]. rewrite Hnccd.
  assert (is_Some (h1 !! c)) as Sc.
  { apply Hdom1, Hlive, elem_of_list_further, Hcolfp, elem_of_list_here. }
  rewrite modify_alter by done. cbn [bind].
  rewrite modify_alter by (apply is_Some_alter; eauto). cbn [bind].
  cbv delta [set_down set_up] beta iota. cbn [n_header n_left n_right n_up n_down n_row].
  fold (set_up p) (set_down p).
  change (fun n : node => Node (n_header n) (n_left n) (n_right n) p (n_down n) (n_row n)) with (set_up p).
  change (fun n : node => Node (n_header n) (n_left n) (n_right n) (n_up n) p (n_row n)) with (set_down p).
  set (h2 := alter (set_down p) cc (alter (set_up p) c h1)).
  set (h' := <[p := Node c lft rgt cc c i]> h2).
  assert (cc <> p) as Hccp by (apply Hfpp; by apply Hcolfp).
  assert (c <> p) as Hcp by (apply Hfpp, Hcolfp, elem_of_list_here).
  assert (forall {A} (f : node -> A) x, x <> p -> fld f h' x = fld f h2 x) as K'.
  { intros A f x Hx. unfold h'. apply fld_eq. by rewrite lookup_insert_ne. }
  assert (forall {A} (f : node -> A), fld f h' p = Some (f (Node c lft rgt cc c i))) as Kp.
  { intros A f. unfold h', fld. by rewrite lookup_insert. }
  assert (forall x, x <> p -> fld n_header h' x = fld n_header h x) as Kh.
  { intros x Hx. rewrite K' by done. unfold h2. rewrite !fld_alter_same by done. apply Hf1. }
  assert (forall x, x <> p -> fld n_row h' x = fld n_row h x) as Kw.
  { intros x Hx. rewrite K' by done. unfold h2. rewrite !fld_alter_same by done. apply Hf1. }
  assert (forall x, x <> p -> fld n_left h' x = fld n_left h1 x /\ fld n_right h' x = fld n_right h1 x) as Klr.
  { intros x Hx. rewrite !K' by done. unfold h2. by rewrite !fld_alter_same by done. }
  assert (forall x, x <> p -> x <> cc -> fld n_down h' x = fld n_down h x) as Kd.
  { intros x Hx Hxc. rewrite K' by done. unfold h2. rewrite fld_alter_ne by done.
    rewrite fld_alter_same by done. apply Hf1. }
  assert (forall x, x <> p -> x <> c -> fld n_up h' x = fld n_up h x) as Ku.
  { intros x Hx Hxc. rewrite K' by done. unfold h2. rewrite fld_alter_same by done.
    rewrite fld_alter_ne by done. apply Hf1. }
  exists h'. split_and!; [done| |].
  2:{ intros x [nx Hx]. apply Kw. intros ->. congruence. }
  assert (forall d ms, (d, ms) ∈ st ++ [(c, ns ++ [p])] -> ((d, ms) ∈ st0 /\ d <> c) \/ (d = c /\ ms = ns ++ [p])) as Hsplit.
  { intros d ms [Hd|Hd]%elem_of_app.
    - left. split; [unfold st0; rewrite elem_of_app; by left|]. intros ->.
      unfold st0 in Hnd. rewrite fp_app in Hnd. apply NoDup_app in Hnd as (_&Hnd&_).
      apply (Hnd c); [apply elem_of_fp; eauto|]. rewrite fp_cons. apply elem_of_list_here.
    - apply elem_of_list_singleton in Hd. injection Hd as -> ->. by right. }
  assert (forall x, x ∈ 1%N :: st0.*1 -> x <> p) as Hkp.
  { intros x [->|Hx]%elem_of_cons; [intros Heq; apply Hp; rewrite <-Heq; apply elem_of_list_here|].
    by apply Hfpp, keys_fp. }
  split.
  - assert ((st ++ [(c, ns ++ [p])]).*1 = st0.*1) as -> by (unfold st0; by rewrite !fmap_app).
    eapply seg_frame; [| |exact (b_ring _ _ _ _ _ HB)]; intros y Hy.
    + destruct (Klr y (Hkp y Hy)) as [_ ->]. apply fld_eq, Hout1. intros Hin. by eapply HRkey.
    + assert (y ∈ 1%N :: st0.*1) as Hy'.
      { rewrite elem_of_app, elem_of_list_singleton in Hy. rewrite elem_of_cons. tauto. }
      destruct (Klr y (Hkp y Hy')) as [-> _]. apply fld_eq, Hout1. intros Hin. by eapply HRkey.
  - rewrite Kd; [apply (b_root _ _ _ _ _ HB)|apply Hkp, elem_of_list_here|].
    intros Heq. apply Hroot. rewrite Heq. by apply Hcolfp.
  - intros d ms [[Hd Hdc]|[-> ->]]%Hsplit.
    + destruct (b_col _ _ _ _ _ HB d ms Hd) as (Hdseg&Hdh&Hdn).
      assert (forall y, y ∈ d :: ms -> y <> p /\ y <> cc /\ y <> c) as Hy3.
      { intros y Hy. split_and!.
        - apply Hfpp, elem_of_fp. exists d, ms. split; [done|]. by apply elem_of_cons in Hy.
        - intros ->. destruct (fp_disjoint _ _ _ _ _ cc Hnd Hd Hc); done.
        - intros ->. destruct (fp_disjoint _ _ _ _ _ c Hnd Hd Hc); [done|apply elem_of_list_here|done]. }
      split_and!.
      * eapply seg_frame; [| |exact Hdseg]; intros y Hy.
        -- apply Kd; by apply Hy3.
        -- assert (y ∈ d :: ms) as Hy'.
           { rewrite elem_of_app, elem_of_list_singleton in Hy. rewrite elem_of_cons. tauto. }
           apply Ku; by apply Hy3.
      * rewrite Kh; [done|]. apply Hy3, elem_of_list_here.
      * intros q Hq. rewrite Kh; [by apply Hdn|]. apply Hy3. by apply elem_of_list_further.
    + split_and!.
      * eapply (seg_snoc n_down n_up h h' c ns p c cc); try done.
        -- intros Hin. by eapply (Hfpp p (Hcolfp _ Hin)).
        -- intros y Hy Hyp. by apply Kd.
        -- intros y Hy Hyp. by apply Ku.
        -- rewrite K' by done. unfold h2. apply fld_alter_eq; [|done]. apply is_Some_alter. eauto.
        -- by rewrite Kp.
        -- by rewrite Kp.
        -- rewrite K' by done. unfold h2. rewrite fld_alter_same by done. by apply fld_alter_eq.
      * by rewrite Kh.
      * intros q [Hq| ->%elem_of_list_singleton]%elem_of_app; [|by rewrite Kp].
        rewrite Kh; [by apply Hcnh|]. apply Hfpp, Hcolfp. by apply elem_of_list_further.
  - rewrite fp_snoc. rewrite app_comm_cons. apply NoDup_app. split_and!.
    + apply (b_nd _ _ _ _ _ HB).
    + intros x Hx ->%elem_of_list_singleton. done.
    + apply NoDup_singleton.
  - intros x. rewrite fp_snoc, app_comm_cons, elem_of_app, elem_of_list_singleton. fold st0. rewrite <-(b_dom _ _ _ _ _ HB).
    unfold h'. destruct (decide (x = p)) as [->|Hx].
    + rewrite lookup_insert. split; [by right|eauto].
    + rewrite lookup_insert_ne by done. unfold h2. rewrite !is_Some_alter, Hdom1. tauto.
  - intros x. rewrite fp_snoc, app_comm_cons, elem_of_app, elem_of_list_singleton.
    intros [Hx| ->]; [apply (b_lt _ _ _ _ _ HB) in Hx|unfold p]; lia.
  - apply Hrow1; [done|by rewrite Kp|by rewrite Kp].
  - intros r q [Hq|[-> ->]]%elem_of_add_row; rewrite nodes_snoc, elem_of_app.
    + pose proof (b_rnode _ _ _ _ _ HB r q Hq) as [H1 H2]. split; [by left|]. rewrite Kw; [done|].
      by apply Hfpp, (HRfp r).
    + split; [right; apply elem_of_list_here|]. by rewrite Kp.
  - intros q. rewrite nodes_snoc, elem_of_app, elem_of_list_singleton. intros [Hq| ->].
    + apply (b_noder _ _ _ _ _ HB) in Hq as [r Hr]. exists r. apply elem_of_add_row. by left.
    + exists i. apply elem_of_add_row. by right.
  - intros r. unfold add_row. destruct (decide (r = i)) as [->|Hr]; [|apply (b_rnd _ _ _ _ _ HB)].
    apply NoDup_app. split_and!; [apply (b_rnd _ _ _ _ _ HB)| |apply NoDup_singleton].
    intros x Hx ->%elem_of_list_singleton. by eapply (Hfpp p (HRfp _ _ Hx)).
  - intros r. unfold add_row. destruct (decide (r = i)) as [->|Hr].
    + rewrite list_lookup_insert by (rewrite grow_length; lia). by rewrite last_snoc.
    + rewrite list_lookup_insert_ne by done. rewrite grow_lookup. apply (b_rows _ _ _ _ _ HB).
  - intros r. rewrite insert_length, grow_length.
    assert (r < length rows `max` S i <-> r < length rows \/ r <= i) as -> by lia.
    rewrite (b_len _ _ _ _ _ HB). unfold add_row. split.
    + intros [(r'&H1&H2)|H].
      * exists r'. split; [done|]. destruct (decide (r' = i)); [|done]. by intros [_ ?]%app_eq_nil.
      * exists i. split; [done|]. rewrite decide_True by done. by intros [_ ?]%app_eq_nil.
    + intros (r'&H1&H2). destruct (decide (r' = i)) as [->|Hr]; [by right|left]. eauto.
  - rewrite fp_snoc. apply sorted_snoc; [apply (b_sort _ _ _ _ _ HB)|]. intros x Hx.
    apply (b_lt _ _ _ _ _ HB x). by apply elem_of_list_further.
  - intros r. unfold add_row. destruct (decide (r = i)) as [->|Hr]; [|apply (b_rsort _ _ _ _ _ HB)].
    apply sorted_snoc; [apply (b_rsort _ _ _ _ _ HB)|]. intros x Hx.
    apply (b_lt _ _ _ _ _ HB x). by apply elem_of_list_further, (HRfp i).
Qed.
