(** Proofs for C102: row numbers of one word. *)
From Verif Require Import Base Dlx MazeCapacity DlxCapacity SpecDlx SpecWord DlxNew WordProofs.

(** * The nodes that are live *)
Definition heap_to (h : heap) (next : ptr) : Prop := forall x, is_Some (h !! x) <-> (1 <= x < next)%N.
Lemma modify_dom f p h h' : modify f p h = Ret h' -> forall x, is_Some (h' !! x) <-> is_Some (h !! x).
Proof.
  unfold modify. destruct (h !! p) as [n|] eqn:E; [|done]. intros [= <-] x.
  destruct (decide (x = p)) as [->|Hx]; [rewrite lookup_insert, E; split; eauto|by rewrite lookup_insert_ne].
Qed.
Lemma insert_dom (h : heap) p nd next : p = next -> (1 <= next)%N -> heap_to h next -> heap_to (<[p := nd]> h) (next + 1)%N.
Proof.
  intros -> Hn H x. destruct (decide (x = next)) as [->|Hx].
  - rewrite lookup_insert. split; [lia|eauto].
  - rewrite lookup_insert_ne by done. rewrite (H x). lia.
Qed.
Lemma heap_to_mono h h' next : (forall x, is_Some (h' !! x) <-> is_Some (h !! x)) -> heap_to h next -> heap_to h' next.
Proof. intros He H x. by rewrite He. Qed.
Lemma node_new_to next hd rp cp i h h' : (1 <= next)%N -> heap_to h next -> node_new next hd rp cp i h = Ret h' -> heap_to h' (next + 1)%N.
Proof.
  intros Hn H. unfold node_new.
  destruct (decide (rp = null)) as [_|_]; cbn [bind].
  - destruct (decide (cp = null)) as [_|_]; cbn [bind]; [intros [= <-]; by apply insert_dom|].
    destruct (load h cp) as [nd|]; [|done]. cbn [bind].
    destruct (modify _ _ h) as [h1|] eqn:E1; [|done]. cbn [bind]. destruct (modify _ _ h1) as [h2|] eqn:E2; [|done]. cbn [bind].
    intros [= <-]. apply insert_dom; [done|done|].
    eapply heap_to_mono; [eapply modify_dom; exact E2|]. eapply heap_to_mono; [eapply modify_dom; exact E1|done].
  - destruct (load h rp) as [nd|]; [|done]. cbn [bind].
    destruct (modify _ _ h) as [h1|] eqn:E1; [|done]. cbn [bind]. destruct (modify _ _ h1) as [h2|] eqn:E2; [|done]. cbn [bind].
    assert (heap_to h2 next) as H2.
    { eapply heap_to_mono; [eapply modify_dom; exact E2|]. eapply heap_to_mono; [eapply modify_dom; exact E1|done]. }
    clear H E1 E2. destruct (decide (cp = null)) as [_|_]; cbn [bind]; [intros [= <-]; by apply insert_dom|].
    destruct (load h2 cp) as [nd2|]; [|done]. cbn [bind].
    destruct (modify _ _ h2) as [h3|] eqn:E1; [|done]. cbn [bind]. destruct (modify _ _ h3) as [h4|] eqn:E2; [|done]. cbn [bind].
    intros [= <-]. apply insert_dom; [done|done|].
    eapply heap_to_mono; [eapply modify_dom; exact E2|]. eapply heap_to_mono; [eapply modify_dom; exact E1|done].
Qed.
Lemma new_header_to next pv k h h' : (1 <= next)%N -> heap_to h next -> node_new_header next pv k h = Ret h' -> heap_to h' (next + 1)%N.
Proof.
  intros Hn H. unfold node_new_header.
  destruct (decide (pv = null)) as [_|_]; cbn [bind]; [intros [= <-]; by apply insert_dom|].
  destruct (load h pv) as [nd|]; [|done]. cbn [bind].
  destruct (modify _ _ h) as [h1|] eqn:E1; [|done]. cbn [bind]. destruct (modify _ _ h1) as [h2|] eqn:E2; [|done]. cbn [bind].
  intros [= <-]. apply insert_dom; [done|done|].
  eapply heap_to_mono; [eapply modify_dom; exact E2|]. eapply heap_to_mono; [eapply modify_dom; exact E1|done].
Qed.
Lemma heap_to_size h next : (1 <= next)%N -> heap_to h next -> size h = N.to_nat next - 1.
Proof.
  intros Hn H.
  assert (dom h = (list_to_set (N.of_nat <$> seq 1 (N.to_nat next - 1)) : gset N)) as Hd.
  { apply set_eq. intros x. rewrite elem_of_dom, (H x), elem_of_list_to_set, elem_of_list_fmap. split.
    - intros Hx. exists (N.to_nat x). split; [by rewrite N2Nat.id|]. apply elem_of_seq. lia.
    - intros (y&->&Hy%elem_of_seq). lia. }
  rewrite <-size_dom, Hd, size_list_to_set, fmap_length, seq_length; [done|].
  apply NoDup_fmap_2; [|apply NoDup_seq]. intros a b Hab. lia.
Qed.

Section growth.
Context (m : mode) (growth : N -> N -> N) (Hgrow : grows_rows growth).

Definition small_row (i : nat) : Prop := (2 * pointer_bytes m * (N.of_nat i + 1) < memory_limit m)%N.
Definition huge_row (i : nat) : Prop := (memory_limit m <= pointer_bytes m * (N.of_nat i + 1))%N.
Definition room (rows : list ptr) (cap : N) : Prop := (N.of_nat (length rows) <= cap /\ word_bytes m * cap <= isize_max m)%N.

(** The step that can panic. *)
Definition step_row (rows : list ptr) (cap : N) (index : nat) : res (list ptr * N * ptr) :=
  let! (rows, cap) := resize_checked m growth rows cap index in
  let! rp := vec_get rows index in
  Ret (rows, cap, rp).
Lemma resize_cases rows cap index : room rows cap ->
  resize_checked m growth rows cap index = Fault Panic \/
  exists rows' cap', resize_checked m growth rows cap index = Ret (rows', cap') /\
    (index < length rows' -> rows' = grow rows index /\ room rows' cap' /\ ~ huge_row index).
Proof using Hgrow.
  intros [Hr1 Hr2]. unfold resize_checked. destruct (decide (length rows <= index)) as [Hl|Hl].
  2: { right. exists rows, cap. split; [done|]. intros _. split.
       - unfold grow. replace (S index - length rows) with 0 by lia. cbn. by rewrite app_nil_r.
       - split; [done|]. unfold huge_row in *. words (word_of m); lia. }
  destruct (n_add m index 1) as [n|f] eqn:En.
  2: { unfold n_add, usize_add, arith in En. destruct (_ <? _)%N; [done|]. destruct (profile_of m); [|done]. injection En as <-. by left. }
  cbn [bind].
  assert (n = S index \/ n <= index) as Hn.
  { unfold n_add, usize_add, arith in En. destruct (N.ltb_spec (N.of_nat index + N.of_nat 1) (usize_size m)) as [Hs|Hs]; cbn [bind] in En.
    - injection En as <-. left. lia.
    - destruct (profile_of m); cbn [bind] in En; [done|]. injection En as <-. right.
      assert ((N.of_nat index + N.of_nat 1) mod usize_size m < usize_size m)%N by (apply N.mod_lt; pose proof (usize_pos m); lia). lia. }
  assert (length (take n rows ++ replicate (n - length rows) null) = n) as Hlen.
  { rewrite app_length, take_length, replicate_length. lia. }
  assert (n = S index -> take n rows ++ replicate (n - length rows) null = grow rows index) as Hg.
  { intros ->. rewrite take_ge by lia. done. }
  destruct (decide (N.of_nat n <= cap)%N) as [Hc|Hc].
  - right. eexists _, _. split; [done|]. rewrite Hlen. intros Hi. split; [apply Hg; lia|]. split.
    + split; [by rewrite Hlen|done].
    + unfold huge_row in *. words (word_of m); lia.
  - destruct (Hgrow cap (N.of_nat n)) as [G1 G2]. destruct (decide (word_bytes m * growth cap (N.of_nat n) <= isize_max m)%N) as [Hd|Hd]; [|by left].
    right. eexists _, _. split; [done|]. rewrite Hlen. intros Hi. split; [apply Hg; lia|]. split.
    + split; [by rewrite Hlen|done].
    + unfold huge_row in *. words (word_of m); lia.
Qed.
Lemma step_cases rows cap index : room rows cap ->
  step_row rows cap index = Fault Panic \/
  exists cap' rp, step_row rows cap index = Ret (grow rows index, cap', rp) /\ vec_get (grow rows index) index = Ret rp /\
    room (grow rows index) cap' /\ ~ huge_row index.
Proof using Hgrow.
  intros Hr. unfold step_row. destruct (resize_cases rows cap index Hr) as [->|(rows'&cap'&->&H)]; [by left|]. cbn [bind].
  unfold vec_get. destruct (rows' !! index) as [rp|] eqn:E; cbn [expect bind]; [|by left].
  destruct H as (->&Hr'&Hh); [by eapply lookup_lt_Some|]. right. exists cap', rp. rewrite E. done.
Qed.
Lemma step_small rows cap index : small_row index -> step_row rows cap index <> Fault Panic.
Proof using Hgrow.
  intros Hs. unfold small_row in Hs. unfold step_row.
  assert (exists rows' cap', resize_checked m growth rows cap index = Ret (rows', cap') /\ index < length rows') as (rows'&cap'&->&Hi).
  { unfold resize_checked. destruct (decide (length rows <= index)) as [Hl|Hl]; [|eexists _, _; split; [done|lia]].
    assert (n_add m index 1 = Ret (S index)) as ->.
    { unfold n_add, usize_add, arith. destruct (N.ltb_spec (N.of_nat index + N.of_nat 1) (usize_size m)) as [Hlt|Hge]; [|exfalso; words (word_of m); lia].
      cbn [bind]. f_equal. lia. }
    cbn [bind]. assert (index < length (take (S index) rows ++ replicate (S index - length rows) null)) as Hlen.
    { rewrite app_length, take_length, replicate_length. lia. }
    destruct (decide _) as [Hc|Hc]; [eauto|]. destruct (Hgrow cap (N.of_nat (S index))) as [G1 G2].
    rewrite decide_True; [eauto|]. words (word_of m); lia. }
  cbn [bind]. unfold vec_get. destruct (rows' !! index) eqn:E; [done|]. apply lookup_ge_None in E. lia.
Qed.

(** One column. *)
Lemma nodes_to header k : forall cc h next rows h' next' rows', (1 <= next)%N -> heap_to h next ->
  add_nodes header cc k h next rows = Ret (h', next', rows') -> heap_to h' next' /\ next' = (next + N.of_nat (length k))%N.
Proof.
  induction k as [|i k IH]; intros cc h next rows h' next' rows' Hn Hh; cbn [add_nodes].
  - intros [= <- <- <-]. split; [done|cbn; lia].
  - destruct (vec_get (grow rows i) i) as [rp|]; [|done]. cbn [bind].
    destruct (node_new next header rp cc i h) as [h1|] eqn:Eh; [|done]. cbn [bind].
    destruct (vec_set (grow rows i) i next) as [rows1|]; [|done]. cbn [bind]. intros E.
    apply IH in E as [H1 H2]; [|lia|by eapply node_new_to]. split; [done|]. cbn [length]. lia.
Qed.
Lemma nodes_checked header k : forall cc h next rows cap h' next' rows', (1 <= next)%N -> heap_to h next -> room rows cap ->
  add_nodes header cc k h next rows = Ret (h', next', rows') ->
  (exists cap', add_nodes_checked m growth header cc k h next rows cap = Ret (Ok (h', next', rows', cap')) /\ room rows' cap' /\
     Forall (fun i => ~ huge_row i) k) \/
  (exists a i b hp, k = a ++ i :: b /\ ~ small_row i /\ Forall (fun i => ~ huge_row i) a /\
     add_nodes_checked m growth header cc k h next rows cap = Ret (Err hp) /\
     heap_to hp (next + N.of_nat (length a))%N).
Proof using Hgrow.
  induction k as [|i k IH]; intros cc h next rows cap h' next' rows' Hn Hh Hr; cbn [add_nodes add_nodes_checked].
  - intros [= <- <- <-]. left. eexists. split; [done|]. split; [done|constructor].
  - destruct (vec_get (grow rows i) i) as [rp|] eqn:Erp; [|done]. cbn [bind].
    destruct (node_new next header rp cc i h) as [h1|] eqn:Eh; [|done]. cbn [bind].
    destruct (vec_set (grow rows i) i next) as [rows1|] eqn:Er; [|done]. cbn [bind]. intros E.
    pose proof (node_new_to _ _ _ _ _ _ _ Hn Hh Eh) as Hh1.
    assert (length rows1 = length (grow rows i)) as Hl1.
    { unfold vec_set in Er. destruct (decide _); [|done]. injection Er as <-. apply insert_length. }
    fold (step_row rows cap i).
    destruct (step_cases rows cap i Hr) as [Ep|(cap'&rp'&Es&Erp'&Hr'&Hhi)].
    + right. rewrite Ep. exists [], i, k, h. split; [done|]. split; [intros Hs; by apply (step_small rows cap i Hs)|].
      split; [constructor|]. split; [done|]. cbn. by rewrite N.add_0_r.
    + rewrite Es. rewrite Erp in Erp'. injection Erp' as <-. rewrite Eh. cbn [bind]. rewrite Er. cbn [bind].
      assert (room rows1 cap') as Hr1 by (destruct Hr' as [R1 R2]; split; [by rewrite Hl1|done]).
      assert (1 <= next + 1)%N as Hn1 by lia.
      destruct (IH _ _ _ _ cap' _ _ _ Hn1 Hh1 Hr1 E) as [(c2&E2&Hr2&HF)|(a&j&b&hp&->&Hj&HF&E2&Hp)].
      * left. exists c2. split; [done|]. split; [done|]. by constructor.
      * right. exists (i :: a), j, b, hp. split; [done|]. split; [done|]. split; [by constructor|]. split; [done|].
        cbn [length]. by replace (next + N.of_nat (S (length a)))%N with (next + 1 + N.of_nat (length a))%N by lia.
Qed.

(** All columns. *)
Lemma columns_checked cs : forall curr h next rows cap h' next' rows', (1 <= next)%N -> heap_to h next -> room rows cap ->
  add_columns curr cs h next rows = Ret (h', next', rows') ->
  (add_columns_checked m growth curr cs h next rows cap = Ret (Ok (h', next', rows')) /\
     Forall (Forall (fun i => ~ huge_row i)) cs) \/
  (exists pre a i b post hp, cs = pre ++ (a ++ i :: b) :: post /\ ~ small_row i /\
     Forall (Forall (fun i => ~ huge_row i)) pre /\ Forall (fun i => ~ huge_row i) a /\
     add_columns_checked m growth curr cs h next rows cap = Ret (Err hp) /\
     heap_to hp (next + N.of_nat (matrix_size (pre ++ [a])))%N).
Proof using Hgrow.
  induction cs as [|k cs IH]; intros curr h next rows cap h' next' rows' Hn Hh Hr; cbn [add_columns add_columns_checked].
  - intros [= <- <- <-]. left. split; [done|constructor].
  - destruct (node_new_header next curr (length k) h) as [h1|] eqn:Eh; [|done]. cbn [bind].
    pose proof (new_header_to _ _ _ _ _ Hn Hh Eh) as Hh1.
    destruct (add_nodes next next k h1 (next + 1)%N rows) as [[[h2 n2] r2]|] eqn:Ek; [|done]. cbn [bind]. intros E.
    assert (1 <= next + 1)%N as Hn1 by lia.
    destruct (nodes_to _ _ _ _ _ _ _ _ _ Hn1 Hh1 Ek) as [Hh2 Hn2].
    destruct (nodes_checked _ _ _ _ _ _ cap _ _ _ Hn1 Hh1 Hr Ek) as [(c2&E2&Hr2&HF)|(a&j&b&hp&->&Hj&HF&E2&Hp)].
    + rewrite E2. cbn [bind].
      assert (1 <= n2)%N as Hn3 by lia.
      destruct (IH _ _ _ _ c2 _ _ _ Hn3 Hh2 Hr2 E) as [[E3 HF3]|(pre&a&j&b&post&hp&->&Hj&Hpre&Ha&E3&Hp)].
      * left. split; [done|]. by constructor.
      * right. exists (k :: pre), a, j, b, post, hp. split; [done|]. split; [done|]. split; [by constructor|]. split; [done|].
        split; [done|]. change (matrix_size ((k :: pre) ++ [a])) with (S (length k) + matrix_size (pre ++ [a])).
        subst n2. by replace (next + N.of_nat (S (length k) + matrix_size (pre ++ [a])))%N
          with (next + 1 + N.of_nat (length k) + N.of_nat (matrix_size (pre ++ [a])))%N by lia.
    + right. rewrite E2. cbn [bind]. exists [], a, j, b, cs, hp. split; [done|]. split; [done|]. split; [constructor|]. split; [done|].
      split; [done|]. change (matrix_size ([] ++ [a])) with (S (length a) + 0).
      by replace (next + N.of_nat (S (length a) + 0))%N with (next + 1 + N.of_nat (length a))%N by lia.
Qed.

Lemma new_cases cs : exists mx, matrix_new cs = Ret mx /\
  ((new_checked m growth cs = Ret (Ok mx) /\ Forall (Forall (fun i => ~ huge_row i)) cs) \/
   (exists pre a i b post hp, cs = pre ++ (a ++ i :: b) :: post /\ ~ small_row i /\
     Forall (Forall (fun i => ~ huge_row i)) pre /\ Forall (fun i => ~ huge_row i) a /\
     new_checked m growth cs = Ret (Err hp) /\ size hp = S (matrix_size (pre ++ [a])))).
Proof using Hgrow.
  destruct (matrix_new_built cs) as (h&next&rows&_&_&E&_). eexists. split; [exact E|].
  unfold matrix_new in E. unfold new_checked.
  destruct (node_new_header 1 null 0 ∅) as [h0|] eqn:E0; [|done]. cbn [bind] in E |- *.
  assert (heap_to h0 2%N) as Hh0.
  { apply (new_header_to 1%N null 0 ∅ h0); [done| |done]. intros x. rewrite lookup_empty. split; [by intros []|lia]. }
  destruct (add_columns 1%N cs h0 2%N []) as [[[h' n'] r']|] eqn:Ec; [|done]. cbn [bind] in E. injection E as -> -> ->.
  assert (room [] 0%N) as Hroom by (split; [done|]; words (word_of m); lia).
  destruct (columns_checked cs 1%N h0 2%N [] 0%N h next rows ltac:(lia) Hh0 Hroom Ec)
    as [[E3 HF3]|(pre&a&j&b&post&hp&->&Hj&Hpre&Ha&E3&Hp)]; rewrite E3; cbn [bind].
  - left. done.
  - right. exists pre, a, j, b, post, hp. split_and!; try done. apply heap_to_size in Hp; lia.
Qed.

Lemma new_small cs : Forall (Forall small_row) cs -> exists mx, matrix_new cs = Ret mx /\ new_checked m growth cs = Ret (Ok mx).
Proof using Hgrow.
  intros Hs. destruct (new_cases cs) as (mx&E&[[E' _]|(pre&a&i&b&post&hp&->&Hi&_)]); [by exists mx|].
  exfalso. apply Hi. apply Forall_app in Hs as [_ Hs]. apply Forall_cons in Hs as [Hs _].
  apply Forall_app in Hs as [_ Hs]. by apply Forall_cons in Hs as [Hs _].
Qed.
Lemma new_huge cs pre a i b post : cs = pre ++ (a ++ i :: b) :: post ->
  Forall (Forall small_row) pre -> Forall small_row a -> huge_row i ->
  exists h, new_checked m growth cs = Ret (Err h) /\ size h = S (matrix_size (pre ++ [a])).
Proof using Hgrow.
  intros Hcs Hpre Ha Hi. destruct (new_cases cs) as (mx&E&[[E' HF]|(pre'&a'&i'&b'&post'&hp&Hcs'&Hi'&Hpre'&Ha'&E'&Hs)]).
  - exfalso. rewrite Hcs in HF. apply Forall_app in HF as [_ HF]. apply Forall_cons in HF as [HF _].
    apply Forall_app in HF as [_ HF]. by apply Forall_cons in HF as [HF _].
  - exists hp. split; [done|]. rewrite Hs. f_equal. f_equal.
    rewrite Hcs in Hcs'. clear - Hcs' Hpre Ha Hi Hi' Hpre' Ha'.
    assert (forall j, small_row j -> ~ huge_row j) as Hsh by (intros j; unfold small_row, huge_row; words (word_of m); lia).
    revert pre' Hcs' Hpre'. induction Hpre as [|k pre Hk _ IH]; intros [|k' pre'] Hcs' Hpre'; cbn in Hcs'; injection Hcs' as Hk' Hr.
    + enough (a' = a) as -> by done. clear - Hk' Ha Hi Hi' Ha' Hsh. revert a' Hk' Ha'.
      induction Ha as [|x a Hx _ IH]; intros [|x' a'] Hk' Ha'; cbn in Hk'; injection Hk' as Hx' Hr; [done| | |].
      * subst. by apply Forall_cons in Ha' as [Ha' _].
      * subst. done.
      * subst. apply Forall_cons in Ha' as [_ Ha']. f_equal. by apply IH.
    + subst. exfalso. apply Forall_cons in Hpre' as [H _]. apply Forall_app in H as [_ H]. by apply Forall_cons in H as [H _].
    + subst. exfalso. apply Forall_app in Hk as [_ H]. by apply Forall_cons in H as [H _].
    + subst. apply Forall_cons in Hpre' as [_ Hpre']. cbn. f_equal. by apply IH.
Qed.
Lemma new_any_huge cs : Exists (Exists huge_row) cs -> exists h, new_checked m growth cs = Ret (Err h) /\ 0 < size h <= matrix_size cs.
Proof using Hgrow.
  intros H. destruct (new_cases cs) as (mx&E&[[E' HF]|(pre&a&i&b&post&hp&->&Hi&_&_&E'&Hs)]).
  - exfalso. apply Exists_exists in H as (k&Hk&H). apply Exists_exists in H as (i&Hi&H).
    rewrite Forall_forall in HF. specialize (HF k Hk). rewrite Forall_forall in HF. by apply (HF i Hi).
  - exists hp. split; [done|]. rewrite Hs. split; [lia|]. unfold matrix_size.
    rewrite !fmap_app. cbn [fmap list_fmap]. rewrite !sum_list_with_app. cbn. rewrite app_length. cbn. unfold id. lia.
Qed.
End growth.
Lemma std_grows_rows : grows_rows std_growth.
Proof. intros cap need. unfold std_growth. lia. Qed.
Lemma new_only m growth cs : grows_rows growth -> exists mx, matrix_new cs = Ret mx /\
  (new_checked m growth cs = Ret (Ok mx) \/
   exists h, new_checked m growth cs = Ret (Err h) /\ 0 < size h <= matrix_size cs).
Proof.
  intros Hg. destruct (new_cases m growth Hg cs) as (mx&E&[[E' _]|(pre&a&i&b&post&hp&->&_&_&_&E'&Hs)]); exists mx; (split; [done|]); [by left|right].
  exists hp. split; [done|]. rewrite Hs. split; [lia|]. unfold matrix_size.
  rewrite !fmap_app. cbn [fmap list_fmap]. rewrite !sum_list_with_app. cbn. rewrite app_length. cbn. unfold id. lia.
Qed.
Lemma new_same (m : mode) growth cs : grows_rows growth ->
  Forall (Forall (fun i => 2 * pointer_bytes m * (N.of_nat i + 1) < memory_limit m)%N) cs ->
  exists mx, matrix_new cs = Ret mx /\ new_checked m growth cs = Ret (Ok mx).
Proof. intros Hg Hs. by apply new_small. Qed.
Lemma new_panics (m : mode) growth pre a i b post : grows_rows growth ->
  Forall (Forall (fun i => 2 * pointer_bytes m * (N.of_nat i + 1) < memory_limit m)%N) pre -> Forall (fun i => 2 * pointer_bytes m * (N.of_nat i + 1) < memory_limit m)%N a ->
  (memory_limit m <= pointer_bytes m * (N.of_nat i + 1))%N ->
  exists h, new_checked m growth (pre ++ (a ++ i :: b) :: post) = Ret (Err h) /\ size h = 1 + matrix_size (pre ++ [a]).
Proof. intros Hg Hp Ha Hi. by eapply new_huge. Qed.
