(** Proofs for C96: mazes from random words. *)
From Coq Require Import QArith Qcanon.
From Verif Require Import Base Util UtilProofs DisjointSet Maze SpecMaze SpecMazeDfs MazeTree MazeGen MazeDfs MazeDraws
  SpecMazeRandom MazeRandom MazeWords.
Local Open Scope nat_scope.

(** * Accepted words *)

Section accept.
Context (n : N) (Hn : (1 <= n < words)%N).
Local Open Scope N_scope.
Definition share : N := 2 ^ (32 - N.size n).
Lemma size_le : N.size n <= 32.
Proof using Hn.
  rewrite N.size_log2 by lia. assert (N.log2 n < 32); [|lia]. apply N.log2_lt_pow2; [lia|]. apply Hn.
Qed.
Lemma share_pos : 0 < share.
Proof using. clear Hn. unfold share. assert (2 ^ (32 - N.size n) <> 0); [|lia]. by apply N.pow_nonzero. Qed.
Lemma share_le : n * share <= words.
Proof using Hn.
  pose proof size_le as Hs. pose proof (N.size_gt n) as Hg. unfold share, words.
  replace (2 ^ 32) with (2 ^ N.size n * 2 ^ (32 - N.size n)).
  - apply N.mul_le_mono_r. lia.
  - rewrite <-N.pow_add_r. f_equal. lia.
Qed.
Lemma accept_some v i : i * words <= v * n -> v * n < i * words + n * share -> accept n v = Some i.
Proof using Hn.
  intros H1 H2. pose proof share_le as Hs. unfold accept. fold share.
  assert (v * n = words * i + (v * n - i * words)) as E by lia.
  assert (v * n - i * words < words) as Hr by lia.
  rewrite <-(N.div_unique _ _ _ _ Hr E), <-(N.mod_unique _ _ _ _ Hr E).
  destruct (N.leb_spec (v * n - i * words) (n * share - 1)); [done|lia].
Qed.
Lemma accept_none v i : i * words + n * share <= v * n -> v * n < (i + 1) * words -> accept n v = None.
Proof using Hn.
  intros H1 H2. pose proof share_pos as Hp. unfold accept. fold share.
  assert (1 <= n * share) as H1s by nia. rewrite N.mul_add_distr_r, N.mul_1_l in H2.
  assert (v * n = words * i + (v * n - i * words)) as E by lia.
  assert (v * n - i * words < words) as Hr by lia.
  rewrite <-(N.mod_unique _ _ _ _ Hr E).
  destruct (N.leb_spec (v * n - i * words) (n * share - 1)); [lia|done].
Qed.

(** The first word for index [i]. *)
Definition first (i : N) : N := (i * words + n - 1) / n.
Lemma first_bounds i : i * words <= first i * n /\ first i * n <= i * words + n - 1.
Proof using Hn.
  unfold first. pose proof (N.div_mod (i * words + n - 1) n ltac:(lia)) as E.
  pose proof (N.mod_upper_bound (i * words + n - 1) n ltac:(lia)) as Hm.
  revert E Hm. generalize ((i * words + n - 1) / n) ((i * words + n - 1) mod n). generalize (i * words). intros a q r E Hm.
  rewrite N.mul_comm in E. revert E. generalize (q * n). lia.
Qed.
Lemma first_0 : first 0 = 0.
Proof using Hn. unfold first. apply N.div_small. lia. Qed.
Lemma first_n : first n = words.
Proof using Hn. unfold first. symmetry. apply (N.div_unique _ _ _ (n - 1)); lia. Qed.
Lemma first_step i : first i + share <= first (i + 1).
Proof using Hn.
  pose proof (first_bounds i) as [_ H1]. pose proof (first_bounds (i + 1)) as [H2 _]. pose proof share_le as Hs.
  pose proof share_pos as Hp.
  assert ((first i + share - 1) * n < first (i + 1) * n); [|nia].
  rewrite N.mul_sub_distr_r, N.mul_add_distr_r. nia.
Qed.
Lemma accept_first i v : first i <= v < first i + share -> accept n v = Some i.
Proof using Hn.
  intros Hv. pose proof (first_bounds i) as [H1 H2]. pose proof share_pos as Hp. apply accept_some.
  - transitivity (first i * n); [done|]. apply N.mul_le_mono_r. lia.
  - assert (v * n <= (first i + share - 1) * n) as Hle by (apply N.mul_le_mono_r; lia).
    assert (1 <= n * share) by nia. rewrite N.mul_sub_distr_r, N.mul_add_distr_r in Hle. nia.
Qed.
Lemma accept_rest i v : first i + share <= v < first (i + 1) -> accept n v = None.
Proof using Hn.
  intros Hv. pose proof (first_bounds i) as [H1 _]. pose proof (first_bounds (i + 1)) as [_ H2]. apply (accept_none v i).
  - assert ((first i + share) * n <= v * n) as Hle by (apply N.mul_le_mono_r; lia). rewrite N.mul_add_distr_r in Hle. lia.
  - assert (v * n <= (first (i + 1) - 1) * n) as Hle by (apply N.mul_le_mono_r; lia). rewrite N.mul_sub_distr_r in Hle. lia.
Qed.
End accept.

Lemma total_ext {A} (f g : A -> Qc) l : (forall x, x ∈ l -> f x = g x) -> total (f <$> l) = total (g <$> l).
Proof. intros H. f_equal. apply list_fmap_ext. intros i x Hx. apply H. by eapply elem_of_list_lookup_2. Qed.

Section total.
Context (n : N) (Hn : (1 <= n < words)%N) (F : option N -> Qc).
Lemma words_upto i : (N.of_nat i <= n)%N ->
  total ((fun v => F (accept n (N.of_nat v))) <$> seq 0 (N.to_nat (first n (N.of_nat i)))) =
  (qc (N.to_nat (share n)) * total ((fun j => F (Some (N.of_nat j))) <$> seq 0 i) +
   (qc (N.to_nat (first n (N.of_nat i))) - qc (i * N.to_nat (share n))) * F None)%Qc.
Proof using Hn.
  induction i as [|i IH]; intros Hi.
  - rewrite first_0 by done. change (N.to_nat 0) with 0. cbn [seq fmap list_fmap Nat.mul]. rewrite total_nil, qc_0. ring.
  - rewrite Nat2N.inj_succ, <-N.add_1_r. pose proof (first_step n Hn (N.of_nat i)) as Hst.
    set (a := first n (N.of_nat i)) in *. set (b := first n (N.of_nat i + 1)) in *. set (s := share n) in *.
    replace (N.to_nat b) with (N.to_nat a + (N.to_nat s + (N.to_nat b - N.to_nat a - N.to_nat s))) at 1 by lia.
    rewrite seq_app, seq_app, !fmap_app, !total_app. cbn [plus]. rewrite IH by lia.
    rewrite (total_ext _ (fun _ => F (Some (N.of_nat i))) (seq (N.to_nat a) _)).
    2:{ intros v Hv%elem_of_seq. rewrite (accept_first n Hn (N.of_nat i)); [done|]. fold a s. lia. }
    rewrite (total_ext _ (fun _ => F None) (seq (N.to_nat a + _) _)).
    2:{ intros v Hv%elem_of_seq. rewrite (accept_rest n Hn (N.of_nat i)); [done|]. fold a b s. lia. }
    rewrite !total_const, !seq_length. replace (S i) with (i + 1) at 1 by lia. rewrite seq_app, fmap_app, total_app.
    cbn [plus seq fmap list_fmap]. rewrite total_cons, total_nil.
    replace (qc (N.to_nat b)) with (qc (N.to_nat a) + qc (N.to_nat s) + qc (N.to_nat b - N.to_nat a - N.to_nat s))%Qc.
    2:{ rewrite <-!qc_plus. do 3 f_equal. lia. }
    rewrite Nat.mul_succ_l, qc_plus. ring.
Qed.
Lemma words_total :
  total ((fun v => F (accept n (N.of_nat v))) <$> seq 0 (N.to_nat words)) =
  (qc (N.to_nat (share n)) * total ((fun j => F (Some (N.of_nat j))) <$> seq 0 (N.to_nat n)) +
   (qc (N.to_nat words) - qc (N.to_nat n * N.to_nat (share n))) * F None)%Qc.
Proof using Hn.
  pose proof (words_upto (N.to_nat n)) as H. rewrite N2Nat.id, first_n in H by done. apply H. lia.
Qed.
End total.

Lemma accept_count n i : (1 <= n < words)%N -> i < N.to_nat n ->
  length (filter (fun v => accept n (N.of_nat v) = Some (N.of_nat i)) (seq 0 (N.to_nat words))) = N.to_nat (2 ^ (32 - N.size n)).
Proof.
  intros Hn Hi. pose proof (words_total n Hn (fun o => if decide (o = Some (N.of_nat i)) then 1%Qc else 0%Qc)) as H.
  revert H. generalize (N.to_nat words) as W. intros W H.
  assert (forall (g : nat -> Qc) (P : nat -> Prop) `{!forall x, Decision (P x)} l,
    (forall v, g v = if decide (P v) then 1%Qc else 0%Qc) -> total (g <$> l) = qc (length (filter P l))) as Hc.
  { clear. intros g P HP l Hg. induction l as [|x l IH]; [cbn [fmap list_fmap]; by rewrite total_nil|].
    rewrite fmap_cons, total_cons, IH, filter_cons, Hg. destruct (decide (P x)); [cbn [length]; by rewrite qc_S|ring]. }
  match goal with |- length (@filter _ _ _ ?P ?D _) = _ => rewrite (Hc _ P D) in H end; [| (intros v; cbn beta; by repeat case_decide)].
  rewrite decide_False in H by done.
  rewrite (Hc _ (fun j => j = i) (fun j => decide (j = i))) in H.
  2:{ clear H. intros v. cbn beta. case_decide as H1; case_decide as H2; try done; exfalso.
      - injection H1. lia.
      - apply H1. by rewrite H2. }
  assert (forall D : (forall j, Decision (j = i)), length (filter (fun j => j = i) (seq 0 (N.to_nat n))) = 1) as Hp.
  { intros D. change 1 with (length [i]). apply Permutation_length.
    apply NoDup_Permutation; [apply NoDup_filter, NoDup_seq|apply NoDup_singleton|]. intros j.
    rewrite elem_of_list_filter, elem_of_seq, elem_of_list_singleton. split; [by intros [? _]|intros ->; split; [done|lia]]. }
  rewrite Hp in H.
  assert (forall a b, qc a = qc b -> a = b) as Hinj.
  { intros a b E. apply (f_equal this) in E. cbn [this Q2Qc] in E. assert (inject_Z (Z.of_nat a) == inject_Z (Z.of_nat b))%Q as Eq.
    { rewrite <-(Qred_correct (inject_Z (Z.of_nat a))), <-(Qred_correct (inject_Z (Z.of_nat b))). by rewrite E. }
    unfold Qeq in Eq. cbn in Eq. lia. }
  apply Hinj. rewrite H. change (qc 1) with (1%Qc). unfold share. ring.
Qed.

(** * One word *)

Definition rate (n : nat) : Qc := if decide (n = 3) then Q2Qc (3 # 4) else Q2Qc (1 # 2).
Lemma rate_words n : 1 <= n <= 4 ->
  qc (n * N.to_nat (share (N.of_nat n))) = (rate n * qc (N.to_nat words))%Qc.
Proof.
  intros Hn. rewrite Nat2Z.inj_mul, !N_nat_Z.
  assert (n = 1 \/ n = 2 \/ n = 3 \/ n = 4) as [->|[->|[->| ->]]] by lia; apply Qc_is_canon; vm_compute; reflexivity.
Qed.
Lemma word_mean n (F : option N -> Qc) : 1 <= n <= 4 ->
  mean (fun v => F (accept (N.of_nat n) (N.of_nat v))) (seq 0 (N.to_nat words)) =
  ((1 - rate n) * F None + rate n * mean (fun i => F (Some (N.of_nat i))) (seq 0 n))%Qc.
Proof.
  intros Hn. unfold mean at 1. rewrite words_total by (unfold words; lia). rewrite Nat2N.id, seq_length.
  rewrite (mean_total (fun j => F (Some (N.of_nat j)))) by (destruct n; [lia|done]). rewrite seq_length.
  assert (qc (N.to_nat words) <> 0%Qc) as H0 by (apply qc_nonzero; unfold words; lia).
  pose proof (rate_words n Hn) as Hr. rewrite Hr. rewrite qc_mult in Hr.
  set (M := mean _ _). transitivity ((qc n * qc (N.to_nat (share (N.of_nat n))) * M +
    (qc (N.to_nat words) - rate n * qc (N.to_nat words)) * F None) / qc (N.to_nat words))%Qc; [f_equal; ring|].
  rewrite Hr. field. done.
Qed.

(** The probability that [k] words suffice for [x] draws with rate 1/2 and [y]
    draws with rate 3/4. *)
Fixpoint enough (k x y : nat) : Qc :=
  match k with
  | 0 => match x, y with 0, 0 => 1%Qc | _, _ => 0%Qc end
  | S k =>
      match x, y with
      | S x', _ => (Q2Qc (1 # 2) * enough k x y + Q2Qc (1 # 2) * enough k x' y)%Qc
      | 0, S y' => (Q2Qc (1 # 4) * enough k x y + Q2Qc (3 # 4) * enough k x y')%Qc
      | 0, 0 => 1%Qc
      end
  end.
Lemma enough_x k x y : enough (S k) (S x) y = (Q2Qc (1 # 2) * enough k (S x) y + Q2Qc (1 # 2) * enough k x y)%Qc.
Proof. done. Qed.
Lemma enough_0 k : enough k 0 0 = 1%Qc.
Proof. by destruct k. Qed.
Lemma enough_y k : forall x y, enough (S k) x (S y) = (Q2Qc (1 # 4) * enough k x (S y) + Q2Qc (3 # 4) * enough k x y)%Qc.
Proof.
  induction k as [|k IH]; intros [|x] y; [done| |done|].
  - rewrite enough_x. cbn [enough]. destruct x, y; ring.
  - rewrite (enough_x (S k)), !IH.
    transitivity (Q2Qc (1 # 4) * (Q2Qc (1 # 2) * enough k (S x) (S y) + Q2Qc (1 # 2) * enough k x (S y)) +
      Q2Qc (3 # 4) * (Q2Qc (1 # 2) * enough k (S x) y + Q2Qc (1 # 2) * enough k x y))%Qc; [ring|].
    by rewrite <-!(enough_x k), <-(IH (S x)).
Qed.

(** The draws from a list of [n] directions, with lengths [n], ..., 1. *)
Definition halves (n : nat) : nat := if decide (3 <= n) then n - 1 else n.
Definition thirds (n : nat) : nat := if decide (3 <= n) then 1 else 0.
Lemma enough_step k X Y n : 1 <= n <= 4 ->
  enough (S k) (X + halves n) (Y + thirds n) =
  ((1 - rate n) * enough k (X + halves n) (Y + thirds n) + rate n * enough k (X + halves (n - 1)) (Y + thirds (n - 1)))%Qc.
Proof.
  intros Hn. assert (n = 3 \/ n <> 3 /\ halves n = S (halves (n - 1)) /\ thirds n = thirds (n - 1)) as [->|(H3&Hh&Ht)].
  { unfold halves, thirds. destruct (decide (n = 3)); [by left|]. right. repeat case_decide; lia. }
  - change (halves 3) with 2. change (thirds 3) with 1. change (halves (3 - 1)) with 2. change (thirds (3 - 1)) with 0.
    rewrite Nat.add_1_r, Nat.add_0_r, enough_y. replace (rate 3) with (Q2Qc (3 # 4)) by done.
    f_equal.
  - rewrite Ht, Hh, Nat.add_succ_r, enough_x. unfold rate. rewrite decide_False by done. f_equal.
Qed.
Lemma mean_scale {A} (f : A -> Qc) a l : mean (fun x => a * f x)%Qc l = (a * mean f l)%Qc.
Proof.
  unfold mean, Qcdiv. rewrite Qcmult_assoc. f_equal. induction l as [|x l IH]; [cbn [fmap list_fmap]; rewrite total_nil; ring|].
  rewrite !fmap_cons, !total_cons, IH. ring.
Qed.
Lemma accept_lt n v i : (1 <= n)%N -> (v < words)%N -> accept n v = Some i -> (i < n)%N.
Proof.
  intros Hn Hv. unfold accept. case_match; [|done]. intros [= <-]. apply N.div_lt_upper_bound; [done|]. nia.
Qed.

(** * The generator *)

Section generator.
Context (m : mode) (w h : nat).
Context (Hw : 1 <= w) (Hh : 1 <= h) (Hst : storable m w h).
Context (W : nat) (HW0 : W <> 0) (HWl : forall v, v < W -> (N.of_nat v < words)%N).
Context (HWm : forall n (F : option N -> Qc), 1 <= n <= 4 ->
  mean (fun v => F (accept (N.of_nat n) (N.of_nat v))) (seq 0 W) =
  ((1 - rate n) * F None + rate n * mean (fun i => F (Some (N.of_nat i))) (seq 0 n))%Qc).
Local Notation n := (w * h).
Local Notation geo := (geo w h).
Local Notation GI := (GI w h).
Local Notation LI := (LI w h).
Local Notation target := (target w h).
Local Notation valid := (valid w h).
Definition words_state : Type := option nat * list maze_node * dset * list direction * list N.

Lemma visit_mean_w vs mz E c (G : res words_state -> Qc) (C : direction -> Qc) (D : Qc) (X Y : nat) : c ∈ vs ->
  G (Fault OutOfFuel) = 0%Qc ->
  forall k fuel l d, NoDup l -> GI vs mz d E -> length l <= fuel -> length l <= 4 ->
  ((forall dir, dir ∈ l -> ~ valid vs c dir) -> forall d' k', GI vs mz d' E ->
    mean_draws W k' (fun ds => G (Ret (None, mz, d', [], N.of_nat <$> ds))) = (enough k' X Y * D)%Qc) ->
  (forall dir x d' vis' k', dir ∈ l -> geo dir c x -> x ∉ vs -> GI (x :: vs) (opened dir c x mz) d' ((c, x) :: E) ->
    NoDup vis' -> length vis' <= 4 -> (forall dir', dir' ∈ l -> dir' ∉ vis' -> forall j, geo dir' c j -> j ∈ x :: vs) ->
    mean_draws W k' (fun ds => G (Ret (Some x, opened dir c x mz, d', vis', N.of_nat <$> ds))) =
    (enough k' (X + halves (length vis')) (Y + thirds (length vis')) * C dir)%Qc) ->
  mean_draws W k (fun ds => G (visit_words m fuel c w h mz d l (N.of_nat <$> ds))) =
  (enough k (X + halves (length l)) (Y + thirds (length l)) *
    if decide (filter (valid vs c) l = []) then D else mean C (filter (valid vs c) l))%Qc.
Proof.
  intros Hc HG. induction k as [|k IH]; intros fuel l d Hnd HI Hf H4 HD HC.
  - destruct (decide (l = [])) as [->|Hl].
    { rewrite filter_nil. rewrite decide_True by done. change (halves (length [])) with 0. change (thirds (length [])) with 0.
      rewrite !Nat.add_0_r. rewrite <-(HD (fun dir H => False_ind _ (not_elem_of_nil _ H)) d 0 HI). by destruct fuel. }
    cbn [mean_draws]. cbn [fmap list_fmap].
    assert (1 <= halves (length l)) as Hp by (clear -Hl; unfold halves; destruct l; [done|cbn [length]; case_decide; lia]).
    assert (enough 0 (X + halves (length l)) (Y + thirds (length l)) = 0%Qc) as ->.
    { destruct (X + halves (length l)) eqn:Ex; [lia|done]. }
    destruct l as [|v0 l0]; [done|]. destruct fuel as [|fuel]; [cbn in Hf; lia|]. cbn [visit_words]. unfold choose_words. cbn [gen_index bind].
    etrans; [exact HG|ring].
  - destruct (decide (l = [])) as [->|Hl].
    { rewrite filter_nil. rewrite decide_True by done. change (halves (length [])) with 0. change (thirds (length [])) with 0.
      rewrite !Nat.add_0_r. rewrite <-(HD (fun dir H => False_ind _ (not_elem_of_nil _ H)) d (S k) HI). by destruct fuel. }
    assert (length l <> 0) as Hl0 by (by destruct l).
    set (V := if decide (filter (valid vs c) l = []) then D else mean C (filter (valid vs c) l)).
    set (Z := fun dir => if decide (valid vs c dir) then C dir else V).
    set (F o := match o with
      | None => enough k (X + halves (length l)) (Y + thirds (length l)) * V
      | Some i => enough k (X + halves (length l - 1)) (Y + thirds (length l - 1)) *
          Z (default Right (l !! N.to_nat i))
      end%Qc).
    cbn [mean_draws]. rewrite (mean_ext _ (fun v => F (accept (N.of_nat (length l)) (N.of_nat v)))).
    + rewrite HWm by lia. rewrite enough_step by lia. unfold F at 1.
      rewrite (mean_ext (fun i => F (Some (N.of_nat i))) (fun i => enough k (X + halves (length l - 1)) (Y + thirds (length l - 1)) *
          Z (default Right (l !! i)))%Qc).
      2:{ intros i _. unfold F. by rewrite Nat2N.id. }
      rewrite mean_scale. rewrite (mean_seq Z l Right).
      unfold Z. rewrite mean_retry; [ring|done|]. unfold V. case_decide; [by left|by right].
    + intros v0 [_ Hv0%HWl]%elem_of_seq.
      destruct (accept (N.of_nat (length l)) (N.of_nat v0)) as [i|] eqn:Ha.
      2:{ cbn [F]. unfold V. rewrite <-(IH fuel l d) by done. apply mean_draws_ext. intros ds.
          destruct l as [|a l0]; [done|]. destruct fuel as [|fuel]; [cbn in Hf; lia|]. cbn [visit_words]. unfold choose_words.
          cbn [fmap list_fmap gen_index]. by rewrite Ha. }
      destruct fuel as [|fuel]; [lia|].
      apply accept_lt in Ha as Hi; [|lia|done].
      destruct (lookup_lt_is_Some_2 l (N.to_nat i)) as [dir Hdir]; [lia|].
      destruct (swap_remove_spec _ _ _ Hdir) as (rest&Hs&Hperm&_).
      cbn [F]. rewrite Hdir. cbn [default]. unfold Z.
      rewrite (mean_draws_ext _ _ _ (fun ds => G
        (let! (r, d) := visit_dir m c w h dir mz d in
         match r with
         | Some (next, mz) => Ret (Some next, mz, d, rest, N.of_nat <$> ds)
         | None => visit_words m fuel c w h mz d rest (N.of_nat <$> ds)
         end))).
      2:{ intros ds. destruct l as [|a l0]; [done|]. cbn [visit_words]. unfold choose_words.
          cbn [fmap list_fmap gen_index]. rewrite Ha, Hs. done. }
      pose proof (Permutation_length Hperm) as Hlen. cbn [length] in Hlen.
      assert (NoDup (dir :: rest)) as Hnd' by (by rewrite Hperm). apply NoDup_cons in Hnd' as [Hdn Hndr].
      assert (dir ∈ l) as Hdl by (by eapply elem_of_list_lookup_2).
      assert (forall dir', dir' ∈ l <-> dir' = dir \/ dir' ∈ rest) as Hin.
      { intros dir'. rewrite <-Hperm. apply elem_of_cons. }
      assert (c < n) as Hcn by (by apply HI).
      replace (length l - 1) with (length rest) by lia.
      destruct (visit_dir_spec m (fun _ => 0) w h Hw Hh Hst vs mz d E dir c HI Hc) as [(d'&E1&HI'&Hg)|(x&d'&E1&Hg&Hx&HI')];
        rewrite E1; cbn [bind].
      * assert (~ valid vs c dir) as Hnv.
        { intros (j&Hj&Hjv). apply Hjv, Hg. by apply target_spec. }
        rewrite decide_False by done.
        assert (filter (valid vs c) l ≡ₚ filter (valid vs c) rest) as Hfil.
        { rewrite <-Hperm. by rewrite filter_cons_False. }
        rewrite IH; [|done|done|lia|lia|..].
        -- f_equal. unfold V. destruct (decide (filter (valid vs c) rest = [])) as [He|He].
           ++ rewrite decide_True; [done|]. apply Permutation_nil. by rewrite Hfil, He.
           ++ rewrite decide_False; [by apply mean_perm|]. intros He'. apply He. apply Permutation_nil. by rewrite <-Hfil, He'.
        -- intros Hall. apply HD. intros dir' [->|Hd']%Hin; [done|by apply Hall].
        -- intros dir2 x d2 vis' k' Hd2 Hg2 Hx2 HI2 Hnd2 H42 Hdone. apply HC; try done; [apply Hin; by right|].
           intros dir' [->|Hd']%Hin Hnot j Hj; [apply elem_of_cons; right; by apply Hg|by eapply Hdone].
      * assert (valid vs c dir) as Hv.
        { exists x. split; [by apply target_spec|done]. }
        rewrite decide_True by done. apply HC; try done; [lia|].
        intros dir' [->|Hd']%Hin Hnot j Hj; [|done]. apply elem_of_cons. left.
        apply (target_spec w h Hw Hh) in Hj; [|done]. apply (target_spec w h Hw Hh) in Hg; [|done]. congruence.
Qed.

Definition sums (g : nat -> nat) (visit : list (list direction)) : nat := sum_list ((fun l => g (length l)) <$> visit).
Lemma sums_insert g visit i old new : g 0 = 0 -> visit !! i = Some old ->
  sums g (<[i := new]> visit) = sums g (<[i := []]> visit) + g (length new).
Proof using.
  clear. intros Hg. unfold sums. revert i. induction visit as [|a l IH]; intros [|i] Hi; [done..| |].
  - cbn. rewrite Hg. lia.
  - cbn in Hi. change (<[S i := new]> (a :: l)) with (a :: <[i := new]> l). change (<[S i := []]> (a :: l)) with (a :: <[i := []]> l).
    rewrite !fmap_cons. specialize (IH _ Hi). cbn in *. lia.
Qed.
Lemma sums_done g visit : g 0 = 0 -> (forall i l, visit !! i = Some l -> l = []) -> sums g visit = 0.
Proof using.
  clear. intros Hg H. unfold sums. induction visit as [|a l IH]; [done|]. cbn. rewrite (H 0 a eq_refl). cbn. rewrite Hg. apply IH.
  intros i x Hi. by apply (H (S i)).
Qed.

Lemma backtrack_mean_w f k : forall fuel fuel' path vs mz d E visit,
  GI vs mz d E -> LI path vs visit -> Forall (fun l => NoDup l /\ length l <= 4) visit ->
  2 * (n - length vs) + length path < fuel + 1 -> 2 * (n - length vs) + length path < fuel' + 1 ->
  mean_draws W k (fun ds => value f (backtrack_words m fuel w h path mz d visit (N.of_nat <$> ds))) =
  (enough k (sums halves visit) (sums thirds visit) * walk fuel' w h f path vs mz)%Qc.
Proof.
  intros fuel. revert k.
  assert (forall vs mz d E visit g, g 0 = 0 -> GI vs mz d E -> LI [] vs visit -> sums g visit = 0) as Hend.
  { intros vs mz d E visit g Hg HI HL. pose proof (all_reached w h Hw Hh _ _ _ _ _ HI HL) as Hall.
    apply sums_done; [done|]. intros i l Hi. destruct (li_done _ _ _ _ _ HL i) as [Hn|Hd]; [|by apply elem_of_nil in Hn|congruence].
    apply Hall. apply lookup_lt_Some in Hi. by rewrite (li_len _ _ _ _ _ HL) in Hi. }
  induction fuel as [|fuel IH]; intros k fuel' path vs mz d E visit HI HL Hnd Hf Hf'.
  - assert (path = []) as -> by (destruct path; [done|cbn in Hf; lia]).
    rewrite !(Hend _ _ _ _ _ _ eq_refl HI HL), enough_0, Qcmult_1_l. cbn. destruct fuel'; by apply mean_draws_const.
  - destruct path as [|c rest].
    { rewrite !(Hend _ _ _ _ _ _ eq_refl HI HL), enough_0, Qcmult_1_l. cbn; destruct fuel'; by apply mean_draws_const. }
    destruct fuel' as [|fuel']; [cbn in Hf'; lia|].
    assert (c ∈ vs) as Hc by (apply HL; apply elem_of_cons; by left). assert (c < n) as Hcn by (by apply HI).
    destruct (lookup_lt_is_Some_2 visit c) as [l Hl]; [rewrite (li_len _ _ _ _ _ HL); done|].
    pose proof (proj1 (Forall_lookup _ _) Hnd _ _ Hl) as [Hndl H4l].
    pose proof (vs_le w h Hw Hh _ _ _ _ HI) as Hvn.
    set (C x := walk fuel' w h f (x :: c :: rest) (x :: vs) (remove_wall w (c `min` x) (c `max` x) mz)).
    set (G (r : res words_state) := value f (
      let! (r, mz, d, vis, ws) := r in
      let! visit := vec_set visit c vis in
      match r with
      | Some next => backtrack_words m fuel w h (next :: c :: rest) mz d visit ws
      | None => backtrack_words m fuel w h rest mz d visit ws
      end)).
    rewrite (mean_draws_ext _ _ _ (fun ds => G (visit_words m (length l) c w h mz d l (N.of_nat <$> ds)))).
    2:{ intros ds. unfold G. cbn [backtrack_words]. unfold vec_get. rewrite Hl. done. }
    pose proof (fun g (Hg : g 0 = 0) new => sums_insert g _ _ _ new Hg Hl) as Hsi.
    rewrite (visit_mean_w vs mz E c G (fun dir => C (go w h c dir)) (walk fuel' w h f rest vs mz)
      (sums halves (<[c := []]> visit)) (sums thirds (<[c := []]> visit)) Hc eq_refl);
      [|done|done|done|done|..].
    + rewrite <-!Hsi by done. rewrite (list_insert_id visit c l) by done. f_equal.
      cbn [walk]. pose proof (fresh_perm m w h Hw Hh Hst _ _ _ _ _ HL Hl Hndl Hcn) as Hp. case_decide as Hd.
      * rewrite Hd in Hp. apply Permutation_nil in Hp. by rewrite Hp.
      * rewrite <-(mean_fmap C (go w h c)). rewrite (mean_perm _ _ _ Hp).
        destruct (fresh w h vs c) as [|x0 l0] eqn:Hfr; [|done]. exfalso. apply Hd.
        apply Permutation_sym, Permutation_nil in Hp. by apply fmap_nil_inv in Hp.
    + intros Hall d' k' HI'. unfold G. cbn [bind]. unfold vec_set.
      rewrite decide_True by (rewrite (li_len _ _ _ _ _ HL); done). cbn [bind].
      apply (IH k' fuel' _ _ _ _ E); try done.
      * apply li_pop; [done| |done]. intros dir j Hj.
        destruct (decide (j ∈ vs)) as [?|Hjv]; [done|]. destruct (decide (dir ∈ l)) as [Hin|Hin].
        -- exfalso. apply (Hall dir Hin). exists j. split; [by apply (target_spec w h Hw Hh)|done].
        -- by eapply (li_dirs _ _ _ _ _ HL).
      * apply Forall_insert; [done|]. split; [constructor|cbn; lia].
      * cbn in Hf. lia.
      * cbn in Hf'. lia.
    + intros dir x d' vis' k' Hdir Hg Hx HI' Hnd' H4' Hdone. unfold G. cbn [bind]. unfold vec_set.
      rewrite decide_True by (rewrite (li_len _ _ _ _ _ HL); done). cbn [bind].
      pose proof (vs_le w h Hw Hh _ _ _ _ HI') as Hvn'.
      unfold C. pose proof Hg as Ht. apply (target_spec w h Hw Hh) in Ht; [|done]. unfold go. rewrite Ht. cbn [default].
      rewrite <-(opened_remove m w h Hw Hh Hst dir) by done. rewrite <-!Hsi by done. apply (IH k' fuel' _ _ _ _ ((c, x) :: E)); try done.
      * by eapply li_push.
      * by apply Forall_insert.
      * cbn in *. lia.
      * cbn in *. lia.
Qed.

Lemma words_mean_W f k : mean_draws W k (fun ds => value f (recursive_backtrack_words m (N.of_nat <$> ds) w h)) =
  (enough k (3 * n) n * expected w h f)%Qc.
Proof.
  pose proof (n_pos w h Hw Hh) as Hn. unfold expected. change (MazeNode true true) with maze_node_new.
  pose proof (backtrack_mean_w f k (2 * n + 1) (2 * n) [0] [0]
    (replicate n maze_node_new) (with_size n) [] (replicate n [Right; Down; Left; Up])) as H.
  assert (sums halves (replicate n [Right; Down; Left; Up]) = 3 * n /\ sums thirds (replicate n [Right; Down; Left; Up]) = n) as [H1 H2].
  { unfold sums. rewrite !fmap_replicate. cbv beta. change (halves (length [Right; Down; Left; Up])) with 3. change (thirds (length [Right; Down; Left; Up])) with 1. generalize n. intros j. induction j as [|j IH]; cbn in *; lia. }
  rewrite H1, H2 in H. rewrite <-H.
  - apply mean_draws_ext. intros ds. unfold recursive_backtrack_words.
    rewrite n_mul_small by (apply (n_small m w h Hw Hh Hst); lia). done.
  - by apply gi_start.
  - by apply start_li.
  - apply Forall_replicate. split; [|cbn; lia]. by apply (bool_decide_unpack _).
  - cbn [length]. lia.
  - cbn [length]. lia.
Qed.
End generator.

Lemma words_mean (m : mode) w h f k : 1 <= w -> 1 <= h -> storable m w h ->
  mean_draws (N.to_nat words) k (fun ds => value f (recursive_backtrack_words m (N.of_nat <$> ds) w h)) =
  (enough k (3 * (w * h)) (w * h) * expected w h f)%Qc.
Proof.
  intros Hw Hh Hst. apply words_mean_W; [exact Hw|exact Hh|exact Hst|unfold words; lia|intros v Hv; lia|].
  exact word_mean.
Qed.

(** The probability of having enough words. *)
Lemma enough_bounds k : forall x y, (0 <= enough k x y)%Qc /\ (enough k x y <= 1)%Qc.
Proof.
  assert (forall p q a b : Qc, 0 <= p -> 0 <= q -> p + q = 1 -> 0 <= a <= 1 -> 0 <= b <= 1 -> 0 <= p * a + q * b <= 1)%Qc as Hmix.
  { intros p q a b Hp Hq Hs [Ha1 Ha2] [Hb1 Hb2]. split.
    - rewrite <-(Qcplus_0_l 0). apply Qcplus_le_compat; rewrite <-(Qcmult_0_l 0).
      + rewrite (Qcmult_0_l 0), <-(Qcmult_0_l a). by apply Qcmult_le_compat_r.
      + rewrite (Qcmult_0_l 0), <-(Qcmult_0_l b). by apply Qcmult_le_compat_r.
    - rewrite <-Hs. apply Qcplus_le_compat; rewrite (Qcmult_comm _ _).
      + rewrite <-(Qcmult_1_l p) at 2. by apply Qcmult_le_compat_r.
      + rewrite <-(Qcmult_1_l q) at 2. by apply Qcmult_le_compat_r. }
  induction k as [|k IH]; intros x y.
  - cbn [enough]. destruct x, y; done.
  - destruct x as [|x]; [destruct y as [|y]; [done|]|].
    + cbn [enough]. apply Hmix; [done|done|by apply Qc_is_canon|apply IH|apply IH].
    + rewrite enough_x. apply Hmix; [done|done|by apply Qc_is_canon|apply IH|apply IH].
Qed.
Lemma qc_nonneg k : (0 <= qc k)%Qc.
Proof. unfold Qcle. cbn [this Q2Qc]. rewrite !Qred_correct. unfold Qle. cbn. lia. Qed.
Lemma enough_lower k : forall x y, (qc k * (1 - enough k x y) <= qc 2 * qc x + Q2Qc (4 # 3) * qc y)%Qc.
Proof.
  assert (forall a b, 0 <= a -> 0 <= b -> 0 <= a * b)%Qc as Hmul.
  { intros a b Ha Hb. rewrite <-(Qcmult_0_l b). by apply Qcmult_le_compat_r. }
  assert (forall a b, 0 <= a -> 0 <= b -> 0 <= a + b)%Qc as Hadd.
  { intros a b Ha Hb. rewrite <-(Qcplus_0_l 0). by apply Qcplus_le_compat. }
  assert (forall x y, 0 <= qc 2 * qc x + Q2Qc (4 # 3) * qc y)%Qc as Hpos.
  { intros x y. apply Hadd; apply Hmul; try apply qc_nonneg. done. }
  induction k as [|k IH]; intros x y.
  - replace (qc 0 * (1 - enough 0 x y))%Qc with 0%Qc by (rewrite qc_0; ring). apply Hpos.
  - apply Qcle_minus_iff. destruct x as [|x]; [destruct y as [|y]|].
    + rewrite enough_0. match goal with |- (0 <= ?a)%Qc => replace a with (qc 2 * qc 0 + Q2Qc (4 # 3) * qc 0)%Qc by ring end. apply Hpos.
    + pose proof (proj1 (Qcle_minus_iff _ _) (IH 0 (S y))) as H1. pose proof (proj1 (Qcle_minus_iff _ _) (IH 0 y)) as H2.
      pose proof (proj1 (enough_bounds (S k) 0 (S y))) as H3.
      match type of H1 with (0 <= ?a)%Qc => match type of H2 with (0 <= ?b)%Qc => match goal with |- (0 <= ?g)%Qc =>
        replace g with (Q2Qc (1 # 4) * a + Q2Qc (3 # 4) * b + enough (S k) 0 (S y))%Qc end end end.
      * apply Hadd; [apply Hadd; apply Hmul; done|done].
      * rewrite enough_y, !(qc_S k), !(qc_S y). generalize (enough k 0 (S y)) (enough k 0 y) (qc k) (qc y) (qc 0). intros e1 e0 K Y Z.
        apply Qc_is_canon. unfold Qcminus. cbn [this Qcplus Qcmult Qcopp Q2Qc]. rewrite !Qred_correct. ring.
    + pose proof (proj1 (Qcle_minus_iff _ _) (IH (S x) y)) as H1. pose proof (proj1 (Qcle_minus_iff _ _) (IH x y)) as H2.
      pose proof (proj1 (enough_bounds (S k) (S x) y)) as H3.
      match type of H1 with (0 <= ?a)%Qc => match type of H2 with (0 <= ?b)%Qc => match goal with |- (0 <= ?g)%Qc =>
        replace g with (Q2Qc (1 # 2) * a + Q2Qc (1 # 2) * b + enough (S k) (S x) y)%Qc end end end.
      * apply Hadd; [apply Hadd; apply Hmul; done|done].
      * rewrite enough_x, !(qc_S k), !(qc_S x). generalize (enough k (S x) y) (enough k x y) (qc k) (qc x) (qc y). intros e1 e0 K X Y.
        apply Qc_is_canon. unfold Qcminus. cbn [this Qcplus Qcmult Qcopp Q2Qc]. rewrite !Qred_correct. ring.
Qed.

Lemma words_share (m : mode) w h f k : 1 <= w -> 1 <= h -> storable m w h ->
  mean_draws (N.to_nat words) k (fun ds => value f (recursive_backtrack_words m (N.of_nat <$> ds) w h)) =
  (mean_draws (N.to_nat words) k (fun ds => value (fun _ => 1%Qc) (recursive_backtrack_words m (N.of_nat <$> ds) w h)) * expected w h f)%Qc.
Proof.
  intros Hw Hh Hst. rewrite !words_mean by first [exact Hw|exact Hh|exact Hst]. rewrite (mean_one m w h 0 Hw Hh Hst), Qcmult_1_r. reflexivity.
Qed.
Lemma words_enough (m : mode) w h k : 1 <= w -> 1 <= h -> storable m w h -> 1 <= k ->
  (1 - Q2Qc (22 # 3) * qc (w * h) / qc k <=
    mean_draws (N.to_nat words) k (fun ds => value (fun _ => 1%Qc) (recursive_backtrack_words m (N.of_nat <$> ds) w h)))%Qc.
Proof.
  intros Hw Hh Hst Hk. rewrite words_mean by first [exact Hw|exact Hh|exact Hst]. rewrite (mean_one m w h 0 Hw Hh Hst), Qcmult_1_r.
  generalize (w * h). intros n. pose proof (enough_lower k (3 * n) n) as H. revert H. generalize (enough k (3 * n) n). intros e H.
  assert (0 < qc k)%Qc as Hp.
  { destruct (Qcle_lt_or_eq _ _ (qc_nonneg k)) as [?|E]; [done|]. exfalso. apply (qc_nonzero k); [lia|done]. }
  assert (qc k <> 0%Qc) as H0 by (apply qc_nonzero; lia).
  apply Qcnot_lt_le. intros Hlt. apply (Qclt_not_le (qc 2 * qc (3 * n) + Q2Qc (4 # 3) * qc n) (qc k * (1 - e))); [|done].
  replace (qc 2 * qc (3 * n) + Q2Qc (4 # 3) * qc n)%Qc with (Q2Qc (22 # 3) * qc n / qc k * qc k)%Qc.
  - rewrite (Qcmult_comm (qc k)). apply Qcmult_lt_compat_r; [done|]. apply Qclt_minus_iff. apply Qclt_minus_iff in Hlt.
    replace (1 - e + - (Q2Qc (22 # 3) * qc n / qc k))%Qc with (1 - Q2Qc (22 # 3) * qc n / qc k + - e)%Qc by ring. done.
  - transitivity (Q2Qc (22 # 3) * qc n)%Qc; [field; done|]. rewrite qc_mult. generalize (qc n). intros N'.
    apply Qc_is_canon. cbn [this Qcplus Qcmult Qcopp Q2Qc]. rewrite !Qred_correct. cbn. ring.
Qed.

(** * The same mazes *)

Lemma gen_index_rest n ws i ws' : gen_index n ws = Some (i, ws') ->
  (forall t, gen_index n (ws ++ t) = Some (i, ws' ++ t)) /\ (Forall (fun v => v < words)%N ws -> Forall (fun v => v < words)%N ws').
Proof.
  induction ws as [|v ws IH]; cbn [gen_index app]; [done|]. destruct (accept n v); [|intros E; destruct (IH E) as [H1 H2]].
  - intros [= <- <-]. split; [done|]. by intros [_ ?]%Forall_cons.
  - split; [done|]. by intros [_ ?%H2]%Forall_cons.
Qed.
Lemma gen_index_lt n ws i ws' : (1 <= n)%N -> Forall (fun v => v < words)%N ws -> gen_index n ws = Some (i, ws') -> (i < n)%N.
Proof.
  intros Hn. induction ws as [|v ws IH]; cbn [gen_index]; [done|]. intros [Hv Hws]%Forall_cons.
  destruct (accept n v) as [i'|] eqn:Ha; [|by apply IH]. intros [= <- <-]. by eapply accept_lt.
Qed.

Section same.
Context (m : mode) (w h : nat).
Definition agrees (rng : nat -> nat) (k : nat) (is : list nat) : Prop := forall j i, is !! j = Some i -> rng (k + j) = i.
Lemma visit_append c fuel : forall mz d l ws r t, visit_words m fuel c w h mz d l ws = Ret r ->
  visit_words m fuel c w h mz d l (ws ++ t) = Ret (let '(a, ws') := r in (a, ws' ++ t)) /\
  (Forall (fun v => v < words)%N ws -> Forall (fun v => v < words)%N r.2).
Proof.
  induction fuel as [|fuel IH]; intros mz d l ws r t; (destruct l as [|a l0]; [intros [= <-]; done|]); [done|].
  cbn [visit_words]. unfold choose_words. destruct (gen_index _ ws) as [[i ws']|] eqn:Eg; [|done].
  apply gen_index_rest in Eg as [E1 E2]. rewrite E1. destruct (expect _) as [[dir rest]|f]; cbn [bind]; [|done].
  destruct (visit_dir _ _ _ _ _ _ _) as [[[[next mz']|] d']|f]; cbn [bind]; [|..|done].
  - intros [= <-]. done.
  - intros E. destruct (IH _ _ _ _ _ t E) as [H1 H2]. split; [done|]. intros H. by apply H2, E2.
Qed.
Lemma backtrack_append fuel : forall path mz d visit ws g t, backtrack_words m fuel w h path mz d visit ws = Ret g ->
  backtrack_words m fuel w h path mz d visit (ws ++ t) = Ret g.
Proof.
  induction fuel as [|fuel IH]; intros path mz d visit ws g t; (destruct path as [|c rest]; [done|]); [done|].
  cbn [backtrack_words]. destruct (vec_get _ _) as [vis|f]; cbn [bind]; [|done].
  destruct (visit_words _ _ _ _ _ _ _ _ ws) as [r|f] eqn:Ev; cbn [bind]; [|done].
  apply (visit_append _ _ _ _ _ _ _ t) in Ev as [Ev _]. rewrite Ev. destruct r as [[[[r mz'] d'] vis'] ws']. cbn [bind].
  destruct (vec_set _ _ _) as [visit'|f]; cbn [bind]; [|done]. destruct r; apply IH.
Qed.

Lemma visit_sim c fuel : forall mz d l ws, Forall (fun v => v < words)%N ws ->
  visit_words m fuel c w h mz d l ws = Fault OutOfFuel \/
  exists is, forall rng k, agrees rng k is ->
    visit_loop m rng fuel c w h mz d l k =
    (let! (r, mz, d, vis, _) := visit_words m fuel c w h mz d l ws in Ret (r, mz, d, vis, k + length is)).
Proof.
  induction fuel as [|fuel IH]; intros mz d l ws Hws; (destruct l as [|a l0]; [right; exists []; intros rng k _; cbn; by rewrite Nat.add_0_r|]);
    [by left|].
  cbn [visit_words]. unfold choose_words. destruct (gen_index _ ws) as [[i ws']|] eqn:Eg; [|by left].
  pose proof Eg as Hi. apply gen_index_lt in Hi; [|cbn [length]; lia|done]. apply gen_index_rest in Eg as [_ Hws']. specialize (Hws' Hws).
  assert (forall j, j = N.to_nat i -> choose_random j (a :: l0) = swap_remove (a :: l0) (N.to_nat i)) as Hch.
  { intros j ->. unfold choose_random. rewrite Nat.mod_small by lia. done. }
  assert (forall rng k is, agrees rng k (N.to_nat i :: is) -> rng k = N.to_nat i /\ agrees rng (S k) is) as Hag.
  { intros rng k is H. split; [rewrite <-(Nat.add_0_r k); by apply H|]. intros j x Hj. rewrite Nat.add_succ_comm. by apply H. }
  destruct (swap_remove (a :: l0) (N.to_nat i)) as [[dir rest]|] eqn:Es; cbn [expect bind].
  2:{ right. exists [N.to_nat i]. intros rng k [Hr _]%Hag. cbn [visit_loop]. rewrite Hch by done. done. }
  destruct (visit_dir m c w h dir mz d) as [[[[next mz']|] d']|f] eqn:Ev; cbn [bind].
  - right. exists [N.to_nat i]. intros rng k [Hr _]%Hag. cbn [visit_loop]. rewrite Hch by done. cbn [expect bind]. rewrite Ev. cbn [bind length].
    by rewrite Nat.add_1_r.
  - destruct (IH mz d' rest ws' Hws') as [->|(is&His)]; [by left|]. right. exists (N.to_nat i :: is). intros rng k [Hr Hr']%Hag.
    cbn [visit_loop]. rewrite Hch by done. cbn [expect bind]. rewrite Ev. cbn [bind length]. rewrite (His _ _ Hr').
    by rewrite Nat.add_succ_comm.
  - right. exists [N.to_nat i]. intros rng k [Hr _]%Hag. cbn [visit_loop]. rewrite Hch by done. cbn [expect bind]. rewrite Ev. done.
Qed.
Lemma backtrack_sim fuel : forall path mz d visit ws, Forall (fun v => v < words)%N ws ->
  backtrack_words m fuel w h path mz d visit ws = Fault OutOfFuel \/
  exists is, forall rng k, agrees rng k is ->
    backtrack_loop m rng fuel w h path (GState mz d visit k) = backtrack_words m fuel w h path mz d visit ws.
Proof.
  induction fuel as [|fuel IH]; intros path mz d visit ws Hws; (destruct path as [|c rest]; [right; by exists []|]); [by left|].
  cbn [backtrack_words backtrack_loop g_visit g_maze g_conn g_draws].
  destruct (vec_get visit c) as [vis|f]; cbn [bind]; [|right; by exists []]. unfold visit_next.
  destruct (visit_sim c (length vis) mz d vis ws Hws) as [->|(is&His)]; [by left|].
  destruct (visit_words m (length vis) c w h mz d vis ws) as [[[[[r mz'] d'] vis'] ws']|f] eqn:Ev; cbn [bind].
  2:{ right. exists is. intros rng k Ha. rewrite (His _ _ Ha). done. }
  apply (visit_append _ _ _ _ _ _ _ []) in Ev as [_ Hws']. specialize (Hws' Hws). cbn in Hws'.
  destruct (vec_set visit c vis') as [visit'|f] eqn:Es; cbn [bind].
  2:{ right. exists is. intros rng k Ha. rewrite (His _ _ Ha). cbn [bind]. by rewrite Es. }
  set (path' := match r with Some next => next :: c :: rest | None => rest end).
  destruct (IH path' mz' d' visit' ws' Hws') as [E|(is'&His')].
  - left. by destruct r.
  - right. exists (is ++ is'). intros rng k Ha.
    assert (agrees rng k is) as Ha1 by (intros j i Hj; apply Ha; by apply lookup_app_l_Some).
    assert (agrees rng (k + length is) is') as Ha2.
    { intros j i Hj. rewrite <-Nat.add_assoc. apply Ha. rewrite lookup_app_r by lia. by replace (length is + j - length is) with j by lia. }
    rewrite (His _ _ Ha1). cbn [bind]. rewrite Es. cbn [bind]. specialize (His' _ _ Ha2). by destruct r.
Qed.
Lemma words_same ws : Forall (fun v => v < words)%N ws ->
  recursive_backtrack_words m ws w h = Fault OutOfFuel \/
  exists rng, recursive_backtrack_words m ws w h = recursive_backtrack m rng w h.
Proof.
  intros Hws. unfold recursive_backtrack_words, recursive_backtrack. destruct (n_mul m w h) as [n|f]; cbn [bind]; [|right; by exists (fun _ => 0)].
  destruct (backtrack_sim (2 * n + 1) [0] (replicate n maze_node_new) (with_size n) (replicate n [Right; Down; Left; Up]) ws Hws)
    as [E|(is&His)]; [by left|]. right. exists (rng_of is). symmetry. apply His. intros j i Hj. unfold rng_of. cbn. by rewrite Hj.
Qed.
Lemma words_append ws t g : recursive_backtrack_words m ws w h = Ret g -> recursive_backtrack_words m (ws ++ t) w h = Ret g.
Proof.
  unfold recursive_backtrack_words. destruct (n_mul m w h) as [n|f]; cbn [bind]; [|done]. apply backtrack_append.
Qed.
End same.
Lemma accept_fair n : (1 <= n < words)%N -> exists c, 1 <= c /\ N.to_nat words <= 2 * (N.to_nat n * c) /\
  (forall i, i < N.to_nat n ->
    length (filter (fun v => accept n (N.of_nat v) = Some (N.of_nat i)) (seq 0 (N.to_nat words))) = c) /\
  (forall v i, (v < words)%N -> accept n v = Some i -> (i < n)%N).
Proof.
  intros Hn. exists (N.to_nat (share n)). split_and!.
  - pose proof (share_pos n). lia.
  - assert (words <= 2 * (n * share n))%N; [|lia]. pose proof (size_le n Hn) as Hs. unfold share, words.
    replace (2 ^ 32)%N with (2 ^ N.size n * 2 ^ (32 - N.size n))%N by (rewrite <-N.pow_add_r; f_equal; lia).
    assert (2 ^ N.size n <= 2 * n)%N as H2.
    { rewrite N.size_log2 by lia. rewrite N.pow_succ_r'. pose proof (N.log2_spec n). lia. }
    generalize (2 ^ (32 - N.size n))%N. intros q. nia.
  - intros i Hi. exact (accept_count n i Hn Hi).
  - intros v i Hv. apply accept_lt; [lia|exact Hv].
Qed.
