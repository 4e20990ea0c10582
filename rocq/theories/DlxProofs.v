(** The properties of the dancing links matrix. *)
From Verif Require Import Base Dlx DlxSeg DlxCover DlxColumn SpecDlx SpecDlxSearch DlxSets DlxSearch DlxBuild DlxNew DlxAdd DlxReady.

Lemma solve_decides cs fuel :
  Forall NoDup cs -> matrix_size cs < fuel ->
  exists mx, matrix_new cs = Ret mx /\
    ((exists rows h, solve fuel mx = Ret (Ok rows, h) /\ exact_cover cs rows) \/
     (exists h, solve fuel mx = Ret (Err DlxNoSolution, h)) /\ ~ exists rows, exact_cover cs rows).
Proof.
  intros Hnd Hf. destruct (ready_new cs Hnd) as (mx&E&Hp&HR). exists mx. split; [done|].
  destruct (ready_solve fuel cs [] mx (HR fuel Hf)) as [(sol&Es&Hsol)|[Es Hno]].
  - left. rewrite Hp in Es. eauto.
  - right. split; [eauto|]. intros [rows Hr]. by eapply Hno.
Qed.

Lemma memory cs fuel :
  Forall NoDup cs -> matrix_size cs < fuel ->
  exists mx, matrix_new cs = Ret mx /\
    (exists r, solve fuel mx = Ret (r, ∅)) /\
    matrix_drop fuel (d_root mx) (d_heap mx) = Ret ∅.
Proof.
  intros Hnd Hf. destruct (ready_new cs Hnd) as (mx&E&Hp&HR). exists mx. split_and!; [done| |by eapply ready_drop, HR].
  destruct (ready_solve fuel cs [] mx (HR fuel Hf)) as [(sol&Es&Hsol)|[Es Hno]]; eauto.
Qed.

Lemma compatible_nil cs : compatible cs [].
Proof. intros [|] r l2 H; done. Qed.

Lemma add_all_app fuel l1 l2 mx :
  add_all fuel (l1 ++ l2) mx =
    (let! r := add_all fuel l1 mx in
     match r with Ok mx => add_all fuel l2 mx | Err e => Ret (Err e) end).
Proof.
  revert mx. induction l1 as [|x l1 IH]; intros mx; cbn; [done|].
  destruct (add_solution fuel mx x) as [[[[]|e] mx']|]; cbn; [apply IH|done|done].
Qed.

Lemma ready_add_all fuel cs added mx0 :
  Ready fuel cs [] mx0 -> d_partial mx0 = [] -> compatible cs added ->
  exists mx, add_all fuel added mx0 = Ret (Ok mx) /\ Ready fuel cs added mx /\ d_partial mx = added.
Proof.
  intros HR Hp. induction added as [|r added IH] using rev_ind; intros Hc.
  - exists mx0. done.
  - destruct IH as (mx&E&HR'&Hp').
    { intros l1 x l2 Hl. apply (Hc l1 x (l2 ++ [r])). by rewrite Hl, <-app_assoc. }
    destruct (Hc added r [] eq_refl) as [Ho Hn].
    destruct (ready_ok fuel cs added mx r HR' Ho Hn) as (mx'&E'&HR''&Hp''). exists mx'.
    rewrite add_all_app, E. cbn [bind add_all]. rewrite E'. cbn [bind]. split_and!; [done|done|]. by rewrite Hp'', Hp'.
Qed.

Lemma compatible_NoDup cs added : compatible cs added -> NoDup added.
Proof.
  induction added as [|r added IH] using rev_ind; intros Hc; [constructor|].
  apply NoDup_app. split_and!.
  - apply IH. intros l1 x l2 Hl. apply (Hc l1 x (l2 ++ [r])). by rewrite Hl, <-app_assoc.
  - intros x Hx ->%elem_of_list_singleton. destruct (Hc added r [] eq_refl) as [(k&Hk&Hrk) Hn].
    apply Hn. exists k, r. done.
  - apply NoDup_singleton.
Qed.

Lemma add_fixes cs added fuel :
  Forall NoDup cs -> compatible cs added -> matrix_size cs < fuel ->
  exists mx0 mx, matrix_new cs = Ret mx0 /\ add_all fuel added mx0 = Ret (Ok mx) /\
    matrix_drop fuel (d_root mx) (d_heap mx) = Ret ∅ /\
    ((exists sol, solve fuel mx = Ret (Ok (added ++ sol), ∅) /\ exact_cover cs (added ++ sol)) \/
     (solve fuel mx = Ret (Err DlxNoSolution, ∅) /\ forall s, exact_cover cs s -> ~ added ⊆ s)).
Proof.
  intros Hnd Hc Hf. destruct (ready_new cs Hnd) as (mx0&E0&Hp0&HR0).
  destruct (ready_add_all fuel cs added mx0 (HR0 fuel Hf) Hp0 Hc) as (mx&E&HR&Hp).
  exists mx0, mx. split_and!; [done|done|by eapply ready_drop|].
  destruct (ready_solve fuel cs added mx HR) as [(sol&Es&Hsol)|[Es Hno]].
  - left. rewrite Hp in Es. eauto.
  - right. split; [done|]. intros s Hs Hsub.
    assert (exists sel, s ≡ₚ added ++ sel) as [sel Hsel].
    { apply submseteq_Permutation. apply NoDup_submseteq; [by eapply compatible_NoDup|]. apply Hsub. }
    eapply Hno. by eapply exact_cover_perm.
Qed.

Lemma search_order cs added fuel :
  Forall NoDup cs -> compatible cs added -> matrix_size cs < fuel ->
  exists mx0 mx, matrix_new cs = Ret mx0 /\ add_all fuel added mx0 = Ret (Ok mx) /\
    solve fuel mx = Ret (match knuth (foldl choose cs added) with
                         | Some sol => Ok (added ++ sol)
                         | None => Err DlxNoSolution
                         end, ∅).
Proof.
  intros Hnd Hc Hf. destruct (ready_new cs Hnd) as (mx0&E0&Hp0&HR0).
  destruct (ready_add_all fuel cs added mx0 (HR0 fuel Hf) Hp0 Hc) as (mx&E&HR&Hp).
  exists mx0, mx. split_and!; [done|done|]. rewrite (ready_knuth fuel cs added mx HR). by rewrite Hp.
Qed.

(** Outcomes of one more [add_solution]. *)
Section outcome.
  Context (cs : list (list nat)) (added : list nat) (fuel : nat) (mx0 mx : matrix) (r : nat).
  Context (Hnd : Forall NoDup cs) (Hc : compatible cs added) (Hf : matrix_size cs < fuel)
    (E0 : matrix_new cs = Ret mx0) (E : add_all fuel added mx0 = Ret (Ok mx)).
  Lemma outcome_ready : Ready fuel cs added mx /\ d_partial mx = added.
  Proof using Hnd Hc Hf E0 E.
    destruct (ready_new cs Hnd) as (mx0'&E0'&Hp0&HR0). assert (mx0' = mx0) as -> by congruence.
    destruct (ready_add_all fuel cs added mx0 (HR0 fuel Hf) Hp0 Hc) as (mx'&E'&HR&Hp).
    assert (mx' = mx) as -> by congruence. done.
  Qed.

  Lemma outcome_index : (forall r', occurs cs r' -> r' < r) -> add_solution fuel mx r = Ret (Err IndexError, mx).
  Proof using All. destruct outcome_ready as [HR _]. by apply ready_index_error with (1 := HR). Qed.

  Lemma outcome_invalid :
    (exists r', r <= r' /\ occurs cs r') -> ~ occurs cs r \/ nulled cs added r ->
    exists mx', add_solution fuel mx r = Ret (Err InvalidRow, mx') /\
      d_heap mx' = d_heap mx /\ d_rows mx' = d_rows mx /\ d_root mx' = d_root mx /\
      d_partial mx' = added ++ [r].
  Proof using All.
    intros H1 H2. destruct outcome_ready as [HR Hp].
    rewrite (ready_invalid fuel cs added mx r HR H1 H2). eexists. split_and!; [done..|]. cbn. by rewrite Hp.
  Qed.

  Lemma outcome_ub : occurs cs r -> conflict cs added r -> ~ nulled cs added r -> add_solution fuel mx r = Fault UB.
  Proof using All. destruct outcome_ready as [HR _]. by apply ready_ub. Qed.
End outcome.

(** Search states. *)
Definition Alive (fuel : nat) (h : heap) : Prop :=
  exists G st, good_rows G /\ Live G 1%N fuel h st /\ length st < fuel.

Lemma fwd_closed dir h a l b x y :
  fwd dir h a l b -> x ∈ a :: l -> fld dir h x = Some y -> y ∈ l ++ [b].
Proof.
  revert a. induction l as [|z l IH]; intros a; cbn.
  - intros H ->%elem_of_list_singleton Hy. rewrite H in Hy. injection Hy as ->. apply elem_of_list_here.
  - intros [H1 H2] [->|Hx]%elem_of_cons Hy.
    + rewrite H1 in Hy. injection Hy as ->. apply elem_of_list_here.
    + apply elem_of_list_further. by eapply IH.
Qed.

Lemma in_ring_keys root h st c : Rep root h st -> in_ring h root c -> c ∈ st.*1.
Proof.
  intros HR [Hne Hrt]. enough (c ∈ root :: st.*1) as [?|?]%elem_of_cons by done.
  pose proof (seg_fwd _ _ _ _ _ _ (rep_ring _ _ _ HR)) as Hfwd.
  assert (forall a, rtc (fun a b => exists n, h !! a = Some n /\ n_right n = b) a c ->
    a ∈ root :: st.*1 -> c ∈ root :: st.*1) as H.
  { induction 1 as [|a b c' (n&Hn&Hb) Hrt' IH]; [done|]. intros Ha. apply IH; [done..|].
    eapply (fwd_closed _ _ _ _ _ a b) in Hfwd; [|done|unfold fld; rewrite Hn; by cbn; rewrite Hb].
    rewrite elem_of_app, elem_of_list_singleton in Hfwd. rewrite elem_of_cons. tauto. }
  apply (H root Hrt), elem_of_list_here.
Qed.

Lemma in_column_to_header h p c : in_column h p c -> to_header h p = Ret c.
Proof.
  intros (n&Hn&[[<- Hc]|[Hh ->]]); unfold to_header, load; rewrite Hn; cbn [bind].
  - by rewrite decide_False.
  - by rewrite decide_True.
Qed.

Lemma alive_step fuel h p c :
  Alive fuel h -> in_ring h 1%N c -> in_column h p c ->
  exists h', cover_column fuel p h = Ret h' /\ uncover_column fuel p h' = Ret h /\ Alive fuel h'.
Proof.
  intros (G&st&HG&HL&Hlen) Hr Hc%in_column_to_header.
  apply (in_ring_keys _ _ _ _ (lv_rep _ _ _ _ _ HL)) in Hr as ([c' ns]&Heq&Hin)%elem_of_list_fmap. cbn in Heq. subst c'.
  destruct (live_cover G HG 1%N fuel h st c ns p HL Hin Hc) as (h'&E&HL'&U&_). exists h'. split_and!; [done|done|].
  exists G, (coverset G [c] st). split_and!; [done|done|]. eapply Nat.le_lt_trans; [apply coverset_length_le|done].
Qed.

Lemma alive_search fuel h0 h : Alive fuel h0 -> search_state fuel 1%N h0 h -> Alive fuel h.
Proof.
  intros H0. induction 1 as [|h p c h' _ IH Hr Hc E]; [done|].
  destruct (alive_step fuel h p c IH Hr Hc) as (h''&E'&_&HA). by assert (h'' = h') as -> by congruence.
Qed.

Lemma ready_alive fuel cs added mx : Ready fuel cs added mx -> d_root mx = 1%N /\ Alive fuel (d_heap mx).
Proof.
  intros (Hf&Hroot&G&st0&HS&HL&Hown&_&Hec). split; [done|]. exists G, (coverset G (fixed G added) st0).
  split_and!; [apply (s_good _ _ _ HS)|done|].
  eapply Nat.le_lt_trans; [|exact Hf]. rewrite <-(s_size _ _ _ HS).
  etrans; [apply coverset_length_le|]. clear. induction st0 as [|[c ns] st IH]; [done|].
  rewrite fp_cons. cbn [length]. rewrite app_length. lia.
Qed.

Lemma cover_uncover cs added fuel mx0 mx h p c :
  Forall NoDup cs -> compatible cs added -> matrix_size cs < fuel ->
  matrix_new cs = Ret mx0 -> add_all fuel added mx0 = Ret (Ok mx) ->
  search_state fuel (d_root mx) (d_heap mx) h -> in_ring h (d_root mx) c -> in_column h p c ->
  exists h', cover_column fuel p h = Ret h' /\ uncover_column fuel p h' = Ret h.
Proof.
  intros Hnd Hc Hf E0 E Hs Hr Hp. destruct (outcome_ready cs added fuel mx0 mx Hnd Hc Hf E0 E) as [HR _].
  apply ready_alive in HR as [Hroot HA]. rewrite Hroot in *. apply alive_search in Hs; [|done].
  destruct (alive_step fuel h p c Hs Hr Hp) as (h'&?&?&_). eauto.
Qed.

Lemma search_restores cs added fuel mx0 mx h partial :
  Forall NoDup cs -> compatible cs added -> matrix_size cs < fuel ->
  matrix_new cs = Ret mx0 -> add_all fuel added mx0 = Ret (Ok mx) ->
  search_state fuel (d_root mx) (d_heap mx) h ->
  exists h' partial' found, solve_helper fuel fuel (d_root mx) h partial = Ret (h', partial', found) /\
    (found = false -> h' = h /\ partial' = partial).
Proof.
  intros Hnd Hc Hf E0 E Hs. destruct (outcome_ready cs added fuel mx0 mx Hnd Hc Hf E0 E) as [HR _].
  apply ready_alive in HR as [Hroot HA]. rewrite Hroot in *. apply alive_search in Hs; [|done].
  destruct Hs as (G&st&HG&HL&Hlen).
  destruct (solve_helper_spec G HG 1%N fuel fuel h st partial (within_live G _ _ Hlen) HL) as [(sol&h'&E'&_)|[E' _]].
  - rewrite E'. eexists _, _, _. split; [done|]. done.
  - rewrite E'. eexists _, _, _. split; [done|]. done.
Qed.

Lemma compatible_one cs a : occurs cs a -> compatible cs [a].
Proof.
  intros Ha l1 r l2 Hl. destruct l1 as [|b [|]]; cbn in Hl; simplify_eq. split; [done|].
  intros (k&b&_&?%elem_of_nil&_). done.
Qed.

(** Comparing heaps by computation. *)
Definition show {A} (x : res (A * heap)) : res (A * bool) := let! (r, h) := x in Ret (r, bool_decide (h = ∅)).
Lemma show_inv {A} (x : res (A * heap)) r : show x = Ret (r, true) -> x = Ret (r, ∅).
Proof.
  unfold show. destruct x as [[a h]|]; cbn; [|done]. intros H. injection H as -> H.
  by apply bool_decide_eq_true in H as ->.
Qed.

Lemma rejected_refuted :
  (exists cs added r mx0 mx mx', Forall NoDup cs /\ compatible cs added /\ conflict cs added r /\
     matrix_new cs = Ret mx0 /\ add_all 9 added mx0 = Ret (Ok mx) /\
     add_solution 9 mx r = Ret (Err InvalidRow, mx') /\ d_partial mx' <> d_partial mx /\
     solve 9 mx' = Ret (Ok (added ++ [r]), ∅) /\ ~ exact_cover cs (added ++ [r])) /\
  (exists cs added r mx0 mx, Forall NoDup cs /\ compatible cs added /\ conflict cs added r /\
     matrix_new cs = Ret mx0 /\ add_all 9 added mx0 = Ret (Ok mx) /\
     add_solution 9 mx r = Fault UB).
Proof.
  split.
  - assert (Forall NoDup [[0; 1]]) as Hnd by (by apply (bool_decide_unpack _)).
    assert (compatible [[0; 1]] [0]) as Hc.
    { apply compatible_one. exists [0; 1]. by split; apply (bool_decide_unpack _). }
    destruct (ready_new _ Hnd) as (mx0&E0&Hp0&HR0).
    destruct (ready_add_all 9 _ [0] mx0 (HR0 9 ltac:(cbn; lia)) Hp0 Hc) as (mx&E&HR&Hp).
    destruct (outcome_invalid [[0; 1]] [0] 9 mx0 mx 1) as (mx'&E'&_&_&_&Hp'); try done.
    { cbn; lia. }
    { exists 1. split; [done|]. exists [0; 1]. by split; apply (bool_decide_unpack _). }
    { right. exists [], 0, []. split_and!; [done|apply conflict_nil|]. exists [0; 1]. split; [done|].
      by apply (bool_decide_unpack _). }
    exists [[0; 1]], [0], 1, mx0, mx, mx'. split_and!; try done.
    + exists [0; 1], 0. split_and!; by apply (bool_decide_unpack _).
    + rewrite Hp', Hp. done.
    + apply show_inv.
      assert (show (let! mx0 := matrix_new [[0; 1]] in let! r := add_all 9 [0] mx0 in
        match r with Ok mx => let! (_, mx') := add_solution 9 mx 1 in solve 9 mx' | _ => Fault Panic end)
        = Ret (Ok [0; 1], true)) as Hcomp by (vm_compute; reflexivity).
      rewrite E0 in Hcomp. cbn [bind] in Hcomp. rewrite E in Hcomp. cbn [bind] in Hcomp. by rewrite E' in Hcomp.
    + intros (_&H&_). destruct (H [0; 1]) as (r&_&Hu); [apply elem_of_list_here|].
      assert (r = 0) by (apply Hu; by split; apply (bool_decide_unpack _)).
      assert (r = 1) by (apply Hu; by split; apply (bool_decide_unpack _)). congruence.
  - assert (Forall NoDup [[0; 1]; [0]]) as Hnd by (by apply (bool_decide_unpack _)).
    assert (compatible [[0; 1]; [0]] [0]) as Hc.
    { apply compatible_one. exists [0; 1]. by split; apply (bool_decide_unpack _). }
    destruct (ready_new _ Hnd) as (mx0&E0&Hp0&HR0).
    destruct (ready_add_all 9 _ [0] mx0 (HR0 9 ltac:(cbn; lia)) Hp0 Hc) as (mx&E&HR&Hp).
    exists [[0; 1]; [0]], [0], 1, mx0, mx.
    assert (conflict [[0; 1]; [0]] [0] 1) as Hcf.
    { exists [0; 1], 0. split_and!; by apply (bool_decide_unpack _). }
    split_and!; try done. apply (outcome_ub [[0; 1]; [0]] [0] 9 mx0 mx 1); try done.
    + cbn; lia.
    + exists [0; 1]. by split; apply (bool_decide_unpack _).
    + intros (l1&a&l2&Hl&_&k&Hk&H1). destruct l1 as [|? [|]]; cbn in Hl; simplify_eq. vm_compute in Hk. simplify_eq.
      revert H1. by apply (bool_decide_unpack _).
Qed.

(** Repeated rows inside a constraint. *)
Lemma new_drop cs fuel : matrix_size cs < fuel ->
  exists mx, matrix_new cs = Ret mx /\ matrix_drop fuel (d_root mx) (d_heap mx) = Ret ∅.
Proof. intros Hf. apply matrix_new_drop. lia. Qed.

Lemma cover_zero cs : cs <> [] -> (forall k, k ∈ cs -> forall r, r ∈ k <-> r = 0) -> exact_cover cs [0].
Proof.
  intros Hne Hk. split_and!.
  - apply NoDup_singleton.
  - intros k Hin. exists 0. split; [split; [apply elem_of_list_here|by apply Hk]|].
    intros r [->%elem_of_list_singleton _]. done.
  - intros r ->%elem_of_list_singleton. destruct cs as [|k cs]; [done|].
    exists k. split; [apply elem_of_list_here|]. apply Hk; [apply elem_of_list_here|done].
Qed.

Lemma repeated_rows :
  (exists cs mx fuel, matrix_size cs < fuel /\ matrix_new cs = Ret mx /\ exact_cover cs [0] /\
     solve fuel mx = Fault UB) /\
  (exists cs mx fuel h, matrix_size cs < fuel /\ matrix_new cs = Ret mx /\ exact_cover cs [0] /\
     solve fuel mx = Ret (Err DlxNoSolution, h) /\ h <> ∅).
Proof.
  split.
  - destruct (matrix_new [[0; 0]; [0]]) as [mx|] eqn:E; [|by vm_compute in E].
    exists [[0; 0]; [0]], mx, 9. split; [cbn; lia|]. split; [done|]. split.
    + apply cover_zero; [done|]. intros k Hk r. rewrite !elem_of_cons in Hk.
      destruct Hk as [->|[->|Hk%elem_of_nil]]; [|..|done]; rewrite !elem_of_cons, elem_of_nil; tauto.
    + assert (show (let! mx := matrix_new [[0; 0]; [0]] in solve 9 mx) = Fault UB) as H by (vm_compute; reflexivity).
      rewrite E in H. cbn [bind] in H. destruct (solve 9 mx) as [[r h]|[]]; try discriminate. done.
  - destruct (matrix_new [[0; 0]]) as [mx|] eqn:E; [|by vm_compute in E].
    assert (show (let! mx := matrix_new [[0; 0]] in solve 9 mx) = Ret (Err DlxNoSolution, false)) as H by (vm_compute; reflexivity).
    rewrite E in H. cbn [bind] in H. destruct (solve 9 mx) as [[r h]|[]] eqn:Es; try discriminate.
    cbn in H. injection H as -> Hh. apply bool_decide_eq_false in Hh.
    exists [[0; 0]], mx, 9, h. split; [cbn; lia|]. split; [done|]. split; [|done].
    apply cover_zero; [done|]. intros k Hk r. apply elem_of_list_singleton in Hk as ->.
    rewrite !elem_of_cons, elem_of_nil. tauto.
Qed.

Lemma repeated_alone :
  (exists k mx fuel, matrix_size [k] < fuel /\ matrix_new [k] = Ret mx /\ exact_cover [k] [1] /\
     solve fuel mx = Fault UB) /\
  (exists k mx fuel, matrix_size [k] < fuel /\ matrix_new [k] = Ret mx /\ exact_cover [k] [0] /\
     solve fuel mx = Fault Panic) /\
  (exists k mx fuel h, matrix_size [k] < fuel /\ matrix_new [k] = Ret mx /\ exact_cover [k] [1] /\
     solve fuel mx = Ret (Ok [1], h) /\ h <> ∅).
Proof.
  assert (forall k r, r ∈ k -> exact_cover [k] [r]) as Hone.
  { intros k r Hr. split_and!.
    - apply NoDup_singleton.
    - intros k' Hk%elem_of_list_singleton. subst k'. exists r.
      split; [split; [by apply elem_of_list_singleton|done]|].
      intros r' [->%elem_of_list_singleton _]. done.
    - intros r' ->%elem_of_list_singleton. exists k. split; [by apply elem_of_list_singleton|done]. }
  split_and!.
  - destruct (matrix_new [[0; 1; 0]]) as [mx|] eqn:E; [|by vm_compute in E].
    exists [0; 1; 0], mx, 9. split; [cbn; lia|]. split; [done|]. split; [apply Hone; set_solver|].
    assert (show (let! mx := matrix_new [[0; 1; 0]] in solve 9 mx) = Fault UB) as H by (vm_compute; reflexivity).
    rewrite E in H. cbn [bind] in H. destruct (solve 9 mx) as [[r h]|[]]; try discriminate. done.
  - destruct (matrix_new [[0; 0; 0]]) as [mx|] eqn:E; [|by vm_compute in E].
    exists [0; 0; 0], mx, 9. split; [cbn; lia|]. split; [done|]. split; [apply Hone; set_solver|].
    assert (show (let! mx := matrix_new [[0; 0; 0]] in solve 9 mx) = Fault Panic) as H by (vm_compute; reflexivity).
    rewrite E in H. cbn [bind] in H. destruct (solve 9 mx) as [[r h]|[]]; try discriminate. done.
  - destruct (matrix_new [[0; 0; 1]]) as [mx|] eqn:E; [|by vm_compute in E].
    assert (show (let! mx := matrix_new [[0; 0; 1]] in solve 9 mx) = Ret (Ok [1], false)) as H by (vm_compute; reflexivity).
    rewrite E in H. cbn [bind] in H. destruct (solve 9 mx) as [[r h]|[]] eqn:Es; try discriminate.
    cbn in H. injection H as -> Hh. apply bool_decide_eq_false in Hh.
    exists [0; 0; 1], mx, 9, h. split; [cbn; lia|]. split; [done|]. split; [apply Hone; set_solver|done].
Qed.
