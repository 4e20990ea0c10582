(** Proofs for C73: the distribution of the generated mazes. *)
From Coq Require Import QArith Qcanon.
From Verif Require Import Base Util UtilProofs DisjointSet Maze SpecMaze SpecMazeDfs MazeTree MazeGen MazeDfs MazeDraws SpecMazeRandom.
Local Open Scope nat_scope.

(** * Means *)

Notation qc n := (Q2Qc (inject_Z (Z.of_nat n))).
Lemma qc_plus a b : qc (a + b) = (qc a + qc b)%Qc.
Proof. rewrite Nat2Z.inj_add. apply Qc_is_canon. cbn [this Q2Qc Qcplus]. rewrite !Qred_correct. by rewrite inject_Z_plus. Qed.
Lemma qc_S n : qc (S n) = (1 + qc n)%Qc.
Proof. apply (qc_plus 1). Qed.
Lemma qc_mult a b : qc (a * b) = (qc a * qc b)%Qc.
Proof. rewrite Nat2Z.inj_mul. apply Qc_is_canon. cbn [this Q2Qc Qcmult]. rewrite !Qred_correct. by rewrite inject_Z_mult. Qed.
Lemma qc_0 : qc 0 = 0%Qc.
Proof. by apply Qc_is_canon. Qed.
Lemma qc_nonzero n : n <> 0 -> qc n <> 0%Qc.
Proof.
  intros Hn E. apply (f_equal this) in E. cbn [this Q2Qc] in E. assert (inject_Z (Z.of_nat n) == 0)%Q as Eq.
  { rewrite <-(Qred_correct (inject_Z _)). by rewrite E. }
  unfold Qeq in Eq. cbn in Eq. lia.
Qed.

Lemma total_nil : total [] = 0%Qc.
Proof. done. Qed.
Lemma total_cons x l : total (x :: l) = (x + total l)%Qc.
Proof. done. Qed.
Lemma total_app l1 l2 : total (l1 ++ l2) = (total l1 + total l2)%Qc.
Proof. induction l1 as [|x l1 IH]; cbn [app]; [rewrite total_nil; ring|]. rewrite !total_cons, IH. ring. Qed.
Lemma total_perm l1 l2 : l1 ≡ₚ l2 -> total l1 = total l2.
Proof. induction 1; rewrite ?total_cons; [done|by rewrite IHPermutation| |by etrans]. ring. Qed.
Lemma total_const {A} (l : list A) x : total ((fun _ => x) <$> l) = (qc (length l) * x)%Qc.
Proof.
  induction l as [|y l IH]; [cbn [fmap list_fmap length]; rewrite total_nil, qc_0; ring|].
  rewrite fmap_cons, total_cons, IH. cbn [length]. rewrite qc_S. ring.
Qed.

Lemma mean_ext {A} (f g : A -> Qc) l : (forall x, x ∈ l -> f x = g x) -> mean f l = mean g l.
Proof. intros H. unfold mean. do 2 f_equal. apply list_fmap_ext. intros i x Hx. apply H. by eapply elem_of_list_lookup_2. Qed.
Lemma mean_perm {A} (f : A -> Qc) l l' : l ≡ₚ l' -> mean f l = mean f l'.
Proof. intros H. unfold mean. rewrite (total_perm (f <$> l) (f <$> l')) by (by apply fmap_Permutation). by rewrite H. Qed.
Lemma mean_fmap {A B} (f : B -> Qc) (g : A -> B) l : mean f (g <$> l) = mean (fun x => f (g x)) l.
Proof. unfold mean. rewrite fmap_length. by rewrite <-list_fmap_compose. Qed.
Lemma mean_const {A} (l : list A) x : l <> [] -> mean (fun _ => x) l = x.
Proof.
  intros Hl. unfold mean. rewrite total_const. field. apply qc_nonzero. by destruct l.
Qed.
Lemma mean_total {A} (f : A -> Qc) l : l <> [] -> total (f <$> l) = (qc (length l) * mean f l)%Qc.
Proof. intros Hl. unfold mean. field. apply qc_nonzero. by destruct l. Qed.

(** Trying again until a good element is found. *)
Lemma mean_retry {A} (f : A -> Qc) (good : A -> Prop) `{!forall x, Decision (good x)} l x : l <> [] ->
  (filter good l = [] \/ x = mean f (filter good l)) ->
  mean (fun y => if decide (good y) then f y else x) l = x.
Proof.
  intros Hl Hx.
  assert (forall l, total ((fun y => if decide (good y) then f y else x) <$> l) =
    (total (f <$> filter good l) + (qc (length l) - qc (length (filter good l))) * x)%Qc) as Ht.
  { clear. induction l as [|y l IH].
    - rewrite filter_nil. cbn [fmap list_fmap length]. rewrite total_nil, qc_0. ring.
    - rewrite fmap_cons, total_cons. cbn [length]. rewrite IH, qc_S. destruct (decide (good y)) as [Hy|Hy].
      + rewrite filter_cons_True by done. rewrite fmap_cons, total_cons. cbn [length]. rewrite qc_S. ring.
      + rewrite filter_cons_False by done. ring. }
  unfold mean at 1. rewrite Ht. assert (qc (length l) <> 0%Qc) as Hn by (apply qc_nonzero; by destruct l).
  destruct (decide (filter good l = [])) as [->|Hg].
  - cbn [fmap list_fmap length]. rewrite total_nil, qc_0. field. done.
  - destruct Hx as [Hx| ->]; [done|]. rewrite mean_total by done. field. done.
Qed.

(** A random number modulo the length of the list. *)
Lemma mean_seq {A} (f : A -> Qc) (l : list A) (a : A) : mean (fun i => f (default a (l !! i))) (seq 0 (length l)) = mean f l.
Proof.
  rewrite <-(mean_fmap f (fun i => default a (l !! i))). f_equal. apply list_eq. intros i. rewrite list_lookup_fmap.
  destruct (decide (i < length l)) as [Hi|Hi].
  - rewrite lookup_seq_lt by done. cbn. by destruct (lookup_lt_is_Some_2 l i Hi) as [x ->].
  - rewrite lookup_seq_ge by lia. symmetry. apply lookup_ge_None. lia.
Qed.
Lemma mean_mod (f : nat -> Qc) n q : n <> 0 -> q <> 0 -> mean (fun d => f (d mod n)) (seq 0 (n * q)) = mean f (seq 0 n).
Proof.
  intros Hn Hq.
  assert (forall q, total ((fun d => f (d mod n)) <$> seq 0 (n * q)) = (qc q * total (f <$> seq 0 n))%Qc) as Ht.
  { clear q Hq. induction q as [|q IH].
    - rewrite Nat.mul_0_r, qc_0. cbn [seq fmap list_fmap]. rewrite total_nil. ring.
    - rewrite Nat.mul_succ_r, seq_app, fmap_app, total_app, IH, qc_S. cbn [plus].
      assert ((fun d => f (d mod n)) <$> seq (n * q) n = f <$> seq 0 n) as ->.
      { apply list_eq. intros i. rewrite !list_lookup_fmap. destruct (decide (i < n)) as [Hi|Hi].
        - rewrite !lookup_seq_lt by done. cbn. rewrite (Nat.mul_comm n q), (Nat.add_comm (q * n)), Nat.mod_add by done.
          by rewrite Nat.mod_small.
        - by rewrite !lookup_seq_ge by lia. }
      ring. }
  unfold mean. rewrite Ht, !seq_length, qc_mult. field. split; by apply qc_nonzero.
Qed.

Lemma mean_draws_ext k n : forall f g, (forall ds, f ds = g ds) -> mean_draws k n f = mean_draws k n g.
Proof. induction n as [|n IH]; intros f g H; cbn; [apply H|]. apply mean_ext. intros d _. apply IH. intros ds. apply H. Qed.
Lemma mean_draws_const k n x : k <> 0 -> mean_draws k n (fun _ => x) = x.
Proof.
  intros Hk. induction n as [|n IH]; cbn; [done|]. rewrite (mean_ext _ (fun _ => x)) by (intros d _; apply IH).
  apply mean_const. by destruct k.
Qed.

(** * The generator *)

Section random.
Context (m : mode) (w h : nat).
Context (Hw : 1 <= w) (Hh : 1 <= h) (Hst : storable m w h).
Context (K : nat) (HK : exists q, K = 12 * S q).
Local Notation n := (w * h).
Local Notation geo := (geo w h).
Local Notation GI := (GI w h).
Local Notation LI := (LI w h).
Local Notation target := (target w h).

Lemma K_mult k : 1 <= k <= 4 -> exists q, K = k * q /\ q <> 0.
Proof.
  intros Hk. destruct HK as [q ->].
  assert (k = 1 \/ k = 2 \/ k = 3 \/ k = 4) as [->|[->|[->| ->]]] by lia.
  - exists (12 * S q). lia.
  - exists (6 * S q). lia.
  - exists (4 * S q). lia.
  - exists (3 * S q). lia.
Qed.

Definition valid (vs : list nat) (c : nat) (dir : direction) : Prop :=
  exists j, target dir c = Some j /\ j ∉ vs.
Global Instance valid_dec vs c dir : Decision (valid vs c dir).
Proof.
  unfold valid. destruct (target dir c) as [j|]; [|right; by intros (j&[=]&_)].
  destruct (decide (j ∈ vs)) as [Hj|Hj]; [right; by intros (j'&[= <-]&?)|left; by exists j].
Defined.

Lemma rng_of_app pre d ds : rng_of (pre ++ d :: ds) (length pre) = d.
Proof. unfold rng_of. by rewrite lookup_app_r, Nat.sub_diag by lia. Qed.

Definition visited_state : Type := option nat * list maze_node * dset * list direction * nat.

Lemma visit_mean vs mz E c (G : list nat -> res visited_state -> Qc) (C : direction -> Qc) (D : Qc) (O : nat) : c ∈ vs ->
  forall fuel l d pre N, NoDup l -> GI vs mz d E -> length l <= fuel -> length l <= 4 -> length l + O <= N ->
  ((forall dir, dir ∈ l -> ~ valid vs c dir) -> forall d' pre' N', GI vs mz d' E -> O <= N' ->
    mean_draws K N' (fun ds => G (pre' ++ ds) (Ret (None, mz, d', [], length pre'))) = D) ->
  (forall dir x d' vis' pre' N', dir ∈ l -> geo dir c x -> x ∉ vs -> GI (x :: vs) (opened dir c x mz) d' ((c, x) :: E) ->
    NoDup vis' -> length vis' <= 4 -> (forall dir', dir' ∈ l -> dir' ∉ vis' -> forall j, geo dir' c j -> j ∈ x :: vs) ->
    length vis' + O <= N' ->
    mean_draws K N' (fun ds => G (pre' ++ ds) (Ret (Some x, opened dir c x mz, d', vis', length pre'))) = C dir) ->
  mean_draws K N (fun ds => G (pre ++ ds) (visit_loop m (rng_of (pre ++ ds)) fuel c w h mz d l (length pre))) =
  if decide (filter (valid vs c) l = []) then D else mean C (filter (valid vs c) l).
Proof.
  intros Hc. induction fuel as [|fuel IH]; intros l d pre N Hnd HI Hf H4 HN HD HC.
  - destruct l; [|cbn in Hf; lia]. rewrite filter_nil. rewrite decide_True by done. cbn [visit_loop]. apply HD; [|done|cbn in HN; lia].
    intros dir H; by apply elem_of_nil in H.
  - destruct (decide (l = [])) as [->|Hl].
    { rewrite filter_nil. rewrite decide_True by done. cbn [visit_loop]. apply HD; [|done|cbn in HN; lia].
      intros dir H; by apply elem_of_nil in H. }
    assert (length l <> 0) as Hl0 by (by destruct l).
    destruct N as [|N]; [lia|]. cbn [mean_draws].
    set (V := if decide (filter (valid vs c) l = []) then D else mean C (filter (valid vs c) l)).
    rewrite (mean_ext _ (fun d0 => (fun i => (fun dir => if decide (valid vs c dir) then C dir else V)
      (default Right (l !! i))) (d0 mod length l))).
    + destruct (K_mult (length l)) as (q&HKq&Hq); [lia|]. rewrite HKq.
      etrans; [exact (mean_mod (fun i => (fun dir => if decide (valid vs c dir) then C dir else V) (default Right (l !! i))) (length l) q Hl0 Hq)|].
      etrans; [exact (mean_seq (fun dir => if decide (valid vs c dir) then C dir else V) l Right)|]. apply mean_retry; [done|].
      unfold V. case_decide; [by left|by right].
    + intros d0 _. cbn beta.
      destruct (lookup_lt_is_Some_2 l (d0 mod length l)) as [dir Hdir]; [by apply Nat.mod_upper_bound|].
      rewrite Hdir. cbn [default].
      destruct (swap_remove_spec _ _ _ Hdir) as (rest&Hs&Hperm&_).
      assert (choose_random d0 l = Some (dir, rest)) as Hch by (unfold choose_random; by destruct l).
      rewrite (mean_draws_ext _ _ _ (fun ds => G ((pre ++ [d0]) ++ ds)
        (let! (r, d) := visit_dir m c w h dir mz d in
         match r with
         | Some (next, mz) => Ret (Some next, mz, d, rest, length (pre ++ [d0]))
         | None => visit_loop m (rng_of ((pre ++ [d0]) ++ ds)) fuel c w h mz d rest (length (pre ++ [d0]))
         end))).
      2:{ intros ds. rewrite <-app_assoc. cbn [app]. f_equal. destruct l as [|v0 l0]; [done|]. cbn [visit_loop].
          rewrite rng_of_app, Hch. cbn [expect bind]. rewrite app_length. cbn [length].
          by replace (length pre + 1) with (S (length pre)) by lia. }
      pose proof (Permutation_length Hperm) as Hlen. cbn [length] in Hlen.
      assert (NoDup (dir :: rest)) as Hnd' by (by rewrite Hperm). apply NoDup_cons in Hnd' as [Hdn Hndr].
      assert (dir ∈ l) as Hdl by (by eapply elem_of_list_lookup_2).
      assert (forall dir', dir' ∈ l <-> dir' = dir \/ dir' ∈ rest) as Hin.
      { intros dir'. rewrite <-Hperm. apply elem_of_cons. }
      assert (c < n) as Hcn by (by apply HI).
      destruct (visit_dir_spec m (fun _ => 0) w h Hw Hh Hst vs mz d E dir c HI Hc) as [(d'&E1&HI'&Hg)|(x&d'&E1&Hg&Hx&HI')];
        rewrite E1; cbn [bind].
      * assert (~ valid vs c dir) as Hnv.
        { intros (j&Hj&Hjv). apply Hjv, Hg. by apply target_spec. }
        rewrite decide_False by done.
        assert (filter (valid vs c) l ≡ₚ filter (valid vs c) rest) as Hfil.
        { rewrite <-Hperm. by rewrite filter_cons_False. }
        rewrite IH; [|done|done|lia|lia|lia|..].
        -- unfold V. destruct (decide (filter (valid vs c) rest = [])) as [He|He].
           ++ rewrite decide_True; [done|]. apply Permutation_nil. by rewrite Hfil, He.
           ++ rewrite decide_False; [by apply mean_perm|]. intros He'. apply He. apply Permutation_nil. by rewrite <-Hfil, He'.
        -- intros Hall. apply HD. intros dir' [->|Hd']%Hin; [done|by apply Hall].
        -- intros dir2 x d2 vis' pre' N' Hd2 Hg2 Hx2 HI2 Hnd2 H42 Hdone HN'. apply HC; try done; [apply Hin; by right|].
           intros dir' [->|Hd']%Hin Hnot j Hj; [apply elem_of_cons; right; by apply Hg|by eapply Hdone].
      * assert (valid vs c dir) as Hv.
        { exists x. split; [by apply target_spec|done]. }
        rewrite decide_True by done. apply HC; try done; [lia| |lia].
        intros dir' [->|Hd']%Hin Hnot j Hj; [|done]. apply elem_of_cons. left.
        apply (target_spec w h Hw Hh) in Hj; [|done]. apply (target_spec w h Hw Hh) in Hg; [|done]. congruence.
Qed.

(** * Directions and neighbours *)

Lemma target_inj dir dir' c j : c < n -> target dir c = Some j -> target dir' c = Some j -> dir = dir'.
Proof.
  intros Hc H1 H2. apply (target_spec w h Hw Hh) in H1 as (_&_&H1); [|done].
  apply (target_spec w h Hw Hh) in H2 as (_&_&H2); [|done].
  destruct dir, dir'; try done; exfalso; cbn in H1, H2; unfold beside, below in *; try lia.
  - destruct H1 as [-> H1]. assert (w = 1) as -> by lia. rewrite !Nat.div_1_r in H1. lia.
  - destruct H2 as [-> H2]. assert (w = 1) as -> by lia. rewrite !Nat.div_1_r in H2. lia.
  - destruct H1 as [-> H1]. assert (w = 1) as -> by lia. rewrite !Nat.div_1_r in H1. lia.
  - destruct H2 as [-> H2]. assert (w = 1) as -> by lia. rewrite !Nat.div_1_r in H2. lia.
Qed.

Definition go (c : nat) (dir : direction) : nat := default 0 (target dir c).

Lemma fresh_perm path vs visit c l : LI path vs visit -> visit !! c = Some l -> NoDup l -> c < n ->
  go c <$> filter (valid vs c) l ≡ₚ fresh w h vs c.
Proof.
  intros HL Hl Hnd Hc. apply NoDup_Permutation.
  - apply NoDup_fmap_2_strong; [|by apply NoDup_filter].
    intros a b (( ja &Ha&_)&_)%elem_of_list_filter ((jb&Hb&_)&_)%elem_of_list_filter. unfold go. rewrite Ha, Hb. cbn.
    intros ->. by eapply target_inj.
  - unfold fresh. apply NoDup_filter, NoDup_seq.
  - intros j. unfold fresh. rewrite elem_of_list_fmap, elem_of_list_filter, elem_of_seq. split.
    + intros (dir&Hgo&((j'&Hj&Hjv)&Hd)%elem_of_list_filter). unfold go in Hgo. rewrite Hj in Hgo. cbn in Hgo. subst j'.
      apply (target_spec w h Hw Hh) in Hj as (_&Hjn&Hj); [|done]. split; [|lia]. split; [|done].
      destruct dir; cbn in Hj; tauto.
    + intros ((Hb&Hjv)&_&Hjn). assert (exists dir, geo dir c j) as (dir&Hg).
      { destruct Hb as [Hb|[Hb|[Hb|Hb]]]; [exists Right|exists Down|exists Left|exists Up]; done. }
      exists dir. pose proof Hg as Ht. apply (target_spec w h Hw Hh) in Ht; [|done]. unfold go. rewrite Ht. split; [done|].
      apply elem_of_list_filter. split; [by exists j|]. destruct (decide (dir ∈ l)) as [?|Hd]; [done|]. exfalso.
      apply Hjv. by eapply (li_dirs _ _ _ _ _ HL).
Qed.

Lemma opened_remove dir c x mz : geo dir c x -> opened dir c x mz = remove_wall w (c `min` x) (c `max` x) mz.
Proof.
  intros (Hc&Hx&Hl).
  assert (forall a b, beside w a b -> a `min` b = a /\ a `max` b = b /\ b `min` a = a /\ b `max` a = b /\
    open_r a mz = remove_wall w a b mz) as Hbs.
  { intros a b Hb. pose proof Hb as [-> Hr]. split_and!; [lia..|]. unfold open_r, remove_wall. apply list_eq. intros i.
    rewrite list_lookup_imap. destruct (decide (i = a)) as [->|Hi].
    - rewrite list_lookup_alter. destruct (mz !! a) as [nd|]; [|done]. cbn [fmap option_fmap option_map].
      rewrite (bool_decide_eq_true_2 (beside _ _ _)) by done. rewrite (bool_decide_eq_false_2 (below _ _ _)).
      + by rewrite andb_false_r, andb_true_r.
      + unfold below. intros H. assert (w = 1) as -> by lia. rewrite !Nat.div_1_r in Hr. lia.
    - rewrite list_lookup_alter_ne by done. destruct (mz !! i) as [nd|]; done. }
  assert (forall a b, below w a b -> a `min` b = a /\ a `max` b = b /\ b `min` a = a /\ b `max` a = b /\
    open_d a mz = remove_wall w a b mz) as Hbl.
  { intros a b Hb. pose proof Hb as Hr. unfold below in Hr. subst b. split_and!; [lia..|]. unfold open_d, remove_wall. apply list_eq.
    intros i. rewrite list_lookup_imap. destruct (decide (i = a)) as [->|Hi].
    - rewrite list_lookup_alter. destruct (mz !! a) as [nd|]; [|done]. cbn [fmap option_fmap option_map].
      rewrite (bool_decide_eq_true_2 (below _ _ _)) by done. rewrite (bool_decide_eq_false_2 (beside _ _ _)).
      + by rewrite andb_false_r, andb_true_r.
      + unfold beside. intros [H1 H2]. assert (w = 1) as -> by lia. rewrite !Nat.div_1_r in H2. lia.
    - rewrite list_lookup_alter_ne by done. destruct (mz !! i) as [nd|]; done. }
  destruct dir; cbn in Hl |- *.
  - by destruct (Hbs _ _ Hl) as (->&->&_&_&->).
  - by destruct (Hbl _ _ Hl) as (->&->&_&_&->).
  - by destruct (Hbs _ _ Hl) as (_&_&->&->&->).
  - by destruct (Hbl _ _ Hl) as (_&_&->&->&->).
Qed.

(** * The main loop *)

Lemma backtrack_mean f : forall fuel fuel' path vs mz d E visit pre N,
  GI vs mz d E -> LI path vs visit -> Forall (fun l => NoDup l /\ length l <= 4) visit -> pending visit <= N ->
  2 * (n - length vs) + length path < fuel + 1 -> 2 * (n - length vs) + length path < fuel' + 1 ->
  mean_draws K N (fun ds => value f (backtrack_loop m (rng_of (pre ++ ds)) fuel w h path (GState mz d visit (length pre)))) =
  walk fuel' w h f path vs mz.
Proof.
  assert (K <> 0) as HK0 by (destruct HK as [q ->]; lia).
  induction fuel as [|fuel IH]; intros fuel' path vs mz d E visit pre N HI HL Hnd HN Hf Hf'.
  - assert (path = []) as -> by (destruct path; [done|cbn in Hf; lia]). cbn. destruct fuel'; by apply mean_draws_const.
  - destruct path as [|c rest]; [cbn; destruct fuel'; by apply mean_draws_const|].
    destruct fuel' as [|fuel']; [cbn in Hf'; lia|].
    assert (c ∈ vs) as Hc by (apply HL; apply elem_of_cons; by left). assert (c < n) as Hcn by (by apply HI).
    destruct (lookup_lt_is_Some_2 visit c) as [l Hl]; [rewrite (li_len _ _ _ _ _ HL); done|].
    pose proof (proj1 (Forall_lookup _ _) Hnd _ _ Hl) as [Hndl H4l].
    pose proof (vs_le w h Hw Hh _ _ _ _ HI) as Hvn.
    set (C x := walk fuel' w h f (x :: c :: rest) (x :: vs) (remove_wall w (c `min` x) (c `max` x) mz)).
    set (G full (r : res visited_state) := value f (
      let! (r, mz, d, vis, k) := r in
      let! visit := vec_set visit c vis in
      match r with
      | Some next => backtrack_loop m (rng_of full) fuel w h (next :: c :: rest) (GState mz d visit k)
      | None => backtrack_loop m (rng_of full) fuel w h rest (GState mz d visit k)
      end)).
    rewrite (mean_draws_ext _ _ _ (fun ds => G (pre ++ ds) (visit_loop m (rng_of (pre ++ ds)) (length l) c w h mz d l (length pre)))).
    2:{ intros ds. unfold G. cbn [backtrack_loop g_visit g_maze g_conn g_draws]. unfold vec_get. rewrite Hl. done. }
    pose proof (fun new => pending_insert _ _ _ new Hl) as Hpi.
    rewrite (visit_mean vs mz E c G (fun dir => C (go c dir)) (walk fuel' w h f rest vs mz) (pending (<[c := []]> visit)) Hc);
      [|done|done|done|done|specialize (Hpi []); cbn in Hpi; lia|..].
    + cbn [walk]. pose proof (fresh_perm _ _ _ _ _ HL Hl Hndl Hcn) as Hp. case_decide as Hd.
      * rewrite Hd in Hp. apply Permutation_nil in Hp. by rewrite Hp.
      * rewrite <-(mean_fmap C (go c)). rewrite (mean_perm _ _ _ Hp).
        destruct (fresh w h vs c) as [|x0 l0] eqn:Hfr; [|done]. exfalso. apply Hd.
        apply Permutation_sym, Permutation_nil in Hp. by apply fmap_nil_inv in Hp.
    + intros Hall d' pre' N' HI' HN'. unfold G. cbn [bind]. unfold vec_set.
      rewrite decide_True by (rewrite (li_len _ _ _ _ _ HL); done). cbn [bind].
      apply (IH fuel' _ _ _ _ E); try done.
      * apply li_pop; [done| |done]. intros dir j Hj.
        destruct (decide (j ∈ vs)) as [?|Hjv]; [done|]. destruct (decide (dir ∈ l)) as [Hin|Hin].
        -- exfalso. apply (Hall dir Hin). exists j. split; [by apply (target_spec w h Hw Hh)|done].
        -- by eapply (li_dirs _ _ _ _ _ HL).
      * apply Forall_insert; [done|]. split; [constructor|cbn; lia].
      * cbn in Hf. lia.
      * cbn in Hf'. lia.
    + intros dir x d' vis' pre' N' Hdir Hg Hx HI' Hnd' H4' Hdone HN'. unfold G. cbn [bind]. unfold vec_set.
      rewrite decide_True by (rewrite (li_len _ _ _ _ _ HL); done). cbn [bind].
      pose proof (vs_le w h Hw Hh _ _ _ _ HI') as Hvn'.
      unfold C. pose proof Hg as Ht. apply (target_spec w h Hw Hh) in Ht; [|done]. unfold go. rewrite Ht. cbn [default].
      rewrite <-(opened_remove dir) by done. apply (IH fuel' _ _ _ _ ((c, x) :: E)); try done.
      * by eapply li_push.
      * by apply Forall_insert.
      * pose proof (Hpi vis') as H1. pose proof (Hpi []) as H2. cbn in H2. lia.
      * cbn in *. lia.
      * cbn in *. lia.
Qed.

Lemma generator_mean f : mean_draws K (4 * n) (fun ds => value f (recursive_backtrack m (rng_of ds) w h)) = expected w h f.
Proof.
  pose proof (n_pos w h Hw Hh) as Hn. unfold expected. change (MazeNode true true) with maze_node_new. rewrite <-(backtrack_mean f (2 * n + 1) (2 * n) [0] [0]
    (replicate n maze_node_new) (with_size n) [] (replicate n [Right; Down; Left; Up]) [] (4 * n)).
  - apply mean_draws_ext. intros ds. unfold recursive_backtrack.
    rewrite n_mul_small by (apply (n_small m w h Hw Hh Hst); lia). done.
  - by apply gi_start.
  - by apply start_li.
  - apply Forall_replicate. split; [|cbn; lia]. by apply (bool_decide_unpack _).
  - unfold pending. rewrite fmap_replicate. generalize n. intros k. induction k as [|k IH]; cbn in *; lia.
  - cbn [length]. lia.
  - cbn [length]. lia.
Qed.
End random.

Lemma mean_one (m : mode) (w h q : nat) : 1 <= w -> 1 <= h -> storable m w h -> expected w h (fun _ => 1%Qc) = 1%Qc.
Proof.
  intros Hw Hh Hst. rewrite <-(generator_mean m w h Hw Hh Hst (12 * S q)) by eauto.
  rewrite (mean_draws_ext _ _ _ (fun _ => 1%Qc)); [apply mean_draws_const; lia|].
  intros ds. destruct (gen_dfs m w h Hw Hh Hst (rng_of ds)) as (mz&->&_). done.
Qed.
