(** Proofs for C100: the sizes for which a maze is created. *)
From Verif Require Import Base Util UtilProofs DisjointSet Maze MazeFind MazeCapacity SpecMaze MazeGen MazeFindProofs MazeCostProofs.
From Verif Require Import WordProofs SpecWord.
From Verif Require MazeProofs.

Local Instance path_node_dec : EqDecision path_node.
Proof. solve_decision. Defined.

(** * A product that wraps around always panics *)

Section wrapped.
Context (ws : word) (w h n : nat) (Hw : 1 <= w) (Hh : 1 <= h) (Hn : 1 <= n).
Local Notation SI := (SI n).

Definition outcome {A} (P : A -> Prop) (r : res A) : Prop := r = Fault Panic \/ exists a, r = Ret a /\ P a.
Lemma outcome_panic {A} (P : A -> Prop) : outcome P (Fault Panic).
Proof. by left. Qed.
Lemma outcome_ret {A} (P : A -> Prop) a : P a -> outcome P (Ret a).
Proof. right. eauto. Qed.
Lemma outcome_bind {A B} (P : A -> Prop) (Q : B -> Prop) r k : outcome P r -> (forall a, P a -> outcome Q (k a)) -> outcome Q (bind r k).
Proof. intros [->|(a&->&Ha)] Hk; [by left|]. by apply Hk. Qed.
Lemma sub_any x y : outcome (fun _ => True) (n_sub (Mode Release ws) x y).
Proof. unfold n_sub. destruct (decide _); by apply outcome_ret. Qed.
Lemma add_any x y : outcome (fun _ => True) (n_add (Mode Release ws) x y).
Proof. unfold n_add, usize_add, arith. destruct (_ <? _)%N; by apply outcome_ret. Qed.
Lemma mul_any x y : outcome (fun _ => True) (n_mul (Mode Release ws) x y).
Proof. unfold n_mul, usize_mul, arith. destruct (_ <? _)%N; by apply outcome_ret. Qed.
Lemma rem_any x : outcome (fun _ => True) (n_rem x w).
Proof. unfold n_rem. rewrite decide_False by lia. by apply outcome_ret. Qed.
Lemma open_right_any mz c : outcome (fun mz' => length mz' = length mz) (open_right mz c).
Proof.
  unfold open_right, vec_get. destruct (mz !! c) as [nd|]; cbn [expect bind]; [|by left]. unfold vec_set.
  destruct (decide _); [|by left]. apply outcome_ret. apply insert_length.
Qed.
Lemma open_down_any mz c : outcome (fun mz' => length mz' = length mz) (open_down mz c).
Proof.
  unfold open_down, vec_get. destruct (mz !! c) as [nd|]; cbn [expect bind]; [|by left]. unfold vec_set.
  destruct (decide _); [|by left]. apply outcome_ret. apply insert_length.
Qed.

Definition after_open (vs : list nat) (x : nat) (r : option (list maze_node) * dset * list nat) : Prop :=
  match r with
  | (None, d, _) => SI vs d
  | (Some mz, d, _) => SI (x :: vs) d /\ length mz = n
  end.
Lemma open_any vs c x wall mz d t : SI vs d -> c ∈ vs -> length mz = n -> (forall mz, outcome (fun mz' => length mz' = length mz) (wall mz)) ->
  outcome (after_open vs x) (open_calls c x wall mz d t).
Proof.
  intros HS Hc Hl Hwall. unfold open_calls, common_calls. rewrite (find_in n _ _ _ _ HS Hc). cbn [bind].
  destruct (decide (x < n)) as [Hx|Hx].
  - destruct (decide (x ∈ vs)) as [Hv|Hv].
    + rewrite (find_in n _ _ _ _ HS Hv). cbn [bind expect Nat.eqb]. by apply outcome_ret.
    + rewrite (find_out n _ _ _ _ HS Hx Hv). cbn [bind expect]. assert (x <> 0) as Hx0 by (intros ->; apply Hv; apply HS).
      destruct (Nat.eqb_spec 0 x) as [|_]; [lia|]. eapply outcome_bind; [apply Hwall|]. cbn beta. intros mz' Hl'.
      destruct (union_star n vs d c x (1 :: base c :: t) HS Hc Hx Hv) as (d'&Eu&HS'). rewrite Eu. cbn [bind expect].
      apply outcome_ret. split; [done|lia].
  - unfold find_calls at 1. rewrite (si_len _ _ _ HS). rewrite decide_True by lia. cbn [bind expect]. by left.
Qed.

Definition after_dir (vs : list nat) (r : option (nat * list maze_node) * dset * list nat) : Prop :=
  match r with
  | (None, d, _) => SI vs d
  | (Some (x, mz), d, _) => SI (x :: vs) d /\ length mz = n
  end.
Lemma dir_any vs c dir mz d t : SI vs d -> c ∈ vs -> length mz = n -> outcome (after_dir vs) (dir_calls (Mode Release ws) c w h dir mz d t).
Proof.
  intros HS Hc Hl. assert (forall x wall, (forall mz, outcome (fun mz' => length mz' = length mz) (wall mz)) ->
    outcome (after_dir vs) (let! r := open_calls c x wall mz d t in
      match r with (Some mz, d, t) => Ret (Some (x, mz), d, t) | (None, d, t) => Ret (None, d, t) end)) as Hf.
  { intros x wall Hwall. eapply outcome_bind; [by apply (open_any vs)|]. intros [[[mz'|] d'] t'] H; by apply outcome_ret. }
  unfold dir_calls. destruct dir.
  - eapply outcome_bind; [apply rem_any|]. intros r _. eapply outcome_bind; [apply sub_any|]. intros w1 _.
    destruct (Nat.eqb r w1); [by apply outcome_ret|]. eapply outcome_bind; [apply add_any|]. intros x _. apply Hf. intros mz'. apply open_right_any.
  - eapply outcome_bind; [apply sub_any|]. intros h1 _. eapply outcome_bind; [apply mul_any|]. intros l _.
    destruct (Nat.leb l c); [by apply outcome_ret|]. eapply outcome_bind; [apply add_any|]. intros x _. apply Hf. intros mz'. apply open_down_any.
  - eapply outcome_bind; [apply rem_any|]. intros r _.
    destruct (Nat.eqb r 0); [by apply outcome_ret|]. eapply outcome_bind; [apply sub_any|]. intros x _. apply Hf. intros mz'. apply open_right_any.
  - destruct (Nat.ltb c w); [by apply outcome_ret|]. eapply outcome_bind; [apply sub_any|]. intros x _. apply Hf. intros mz'. apply open_down_any.
Qed.

Definition after_visit (vs : list nat) (r : option nat * list maze_node * dset * list direction * nat * list nat) : Prop :=
  match r with
  | (None, mz, d, _, _, _) => SI vs d /\ length mz = n
  | (Some x, mz, d, _, _, _) => SI (x :: vs) d /\ length mz = n
  end.
Lemma visit_any rng vs c : c ∈ vs -> forall fuel mz d visitable k t, SI vs d -> length mz = n -> length visitable <= fuel ->
  outcome (after_visit vs) (visit_calls (Mode Release ws) rng fuel c w h mz d visitable k t).
Proof.
  intros Hc. induction fuel as [|fuel IH]; intros mz d visitable k t HS Hl Hf.
  - destruct visitable; [|cbn in Hf; lia]. by apply outcome_ret.
  - destruct visitable as [|v0 vs0] eqn:Hv; [by apply outcome_ret|]. rewrite <-Hv in *.
    destruct (choose_random (rng k) visitable) as [[dir rest]|] eqn:Hch.
    2:{ rewrite Hv in *. cbn [visit_calls]. rewrite Hch. by left. }
    assert (length rest <= fuel) as Hr by (apply MazeDraws.choose_random_length in Hch; lia).
    assert (visit_calls (Mode Release ws) rng (S fuel) c w h mz d visitable k t =
      let! (r, d, t) := dir_calls (Mode Release ws) c w h dir mz d t in
      match r with
      | Some (next, mz) => Ret (Some next, mz, d, rest, S k, t)
      | None => visit_calls (Mode Release ws) rng fuel c w h mz d rest (S k) t
      end) as ->.
    { rewrite Hv in *. cbn [visit_calls]. rewrite Hch. done. }
    eapply outcome_bind; [by apply (dir_any vs)|]. intros [[[[x mz']|] d'] t'] H.
    + by apply outcome_ret.
    + by apply IH.
Qed.

Lemma si_count vs d : SI vs d -> length vs <= n.
Proof.
  intros HS. rewrite <-(seq_length n 0). apply submseteq_length, NoDup_submseteq; [apply HS|].
  intros i Hi. apply elem_of_seq. apply HS in Hi. lia.
Qed.
Lemma backtrack_any rng : forall fuel path vs mz d visit k t,
  SI vs d -> length mz = n -> length visit = n -> (forall i, i ∈ path -> i ∈ vs) -> 2 * (n - length vs) + length path < fuel + 1 ->
  outcome (fun r => length r.1.1 = n) (backtrack_calls (Mode Release ws) rng fuel w h path (GState mz d visit k) t).
Proof.
  induction fuel as [|fuel IH]; intros path vs mz d visit k t HS Hl Hv Hp Hf.
  - assert (path = []) as -> by (destruct path; [done|cbn in Hf; lia]). by apply outcome_ret.
  - destruct path as [|c rest]; [by apply outcome_ret|]. cbn [backtrack_calls g_visit g_maze g_conn g_draws].
    assert (c ∈ vs) as Hc by (apply Hp; apply elem_of_cons; by left). pose proof (si_bound _ _ _ HS _ Hc) as Hcn.
    destruct (lookup_lt_is_Some_2 visit c) as [l Hlk]; [lia|]. unfold vec_get at 1. rewrite Hlk. cbn [expect bind].
    eapply outcome_bind; [by apply (visit_any rng vs)|]. intros [[[[[r mz'] d'] vis'] k'] t'] H.
    unfold vec_set. rewrite decide_True by lia. cbn [bind]. destruct r as [x|]; destruct H as [HS' Hl'].
    + pose proof (si_count _ _ HS') as Hle. apply (IH _ (x :: vs)); [done|done|by rewrite insert_length| |cbn in *; lia].
      intros i Hi. apply elem_of_cons in Hi as [->|Hi]; apply elem_of_cons; [by left|right]. by apply Hp.
    + apply (IH _ vs); [done|done|by rewrite insert_length| |cbn in *; lia]. intros i Hi. apply Hp. apply elem_of_cons. by right.
Qed.

(** * The traversal *)

Definition left_over (t : list path_node) : nat := length (filter (fun p => p = PUnvisited) t).
Lemma left_over_insert t i c : t !! i = Some PUnvisited -> S (left_over (<[i := PPath c]> t)) = left_over t.
Proof.
  unfold left_over. revert i. induction t as [|p t IH]; intros [|i] Hi; [done..| |].
  - injection Hi as ->. done.
  - cbn in Hi. change (<[S i := PPath c]> (p :: t)) with (p :: <[i := PPath c]> t). rewrite !filter_cons. specialize (IH _ Hi).
    destruct (decide (p = PUnvisited)); cbn [length]; lia.
Qed.
Definition expanding (k : nat) (r : list path_node * list nat) : Prop :=
  length r.1 = n /\ left_over r.1 + length r.2 = k /\ Forall (fun i => i < n) r.2.
Lemma try_any k wall c x t q : outcome (fun _ => True) wall -> expanding k (t, q) -> outcome (expanding k) (bfs_try wall c x t q).
Proof.
  intros Hwall (Hl&Hk&Hq). cbn [fst snd] in *. unfold bfs_try. eapply outcome_bind; [exact Hwall|]. intros b _. destruct b; [by apply outcome_ret|].
  unfold unvisited, vec_get. destruct (t !! x) as [p|] eqn:Hx; cbn [expect bind]; [|by left].
  pose proof (lookup_lt_Some _ _ _ Hx). destruct p; try by apply outcome_ret.
  unfold vec_set. rewrite decide_True by done. cbn [bind]. apply outcome_ret. split; [|split]; cbn [fst snd].
  - by rewrite insert_length.
  - pose proof (left_over_insert t x c Hx). rewrite app_length. cbn [length]. lia.
  - apply Forall_app. split; [done|]. apply Forall_singleton. lia.
Qed.
Lemma wall_right_any mz i : outcome (fun _ => True) (wall_right mz i).
Proof. unfold wall_right, vec_get. destruct (mz !! i); [by apply outcome_ret|by left]. Qed.
Lemma wall_down_any mz i : outcome (fun _ => True) (wall_down mz i).
Proof. unfold wall_down, vec_get. destruct (mz !! i); [by apply outcome_ret|by left]. Qed.
Lemma expand_any k mz c t q : expanding k (t, q) -> outcome (expanding k) (bfs_expand (Mode Release ws) w mz c t q).
Proof.
  intros H. unfold bfs_expand. eapply outcome_bind; [apply add_any|]. intros r _.
  eapply outcome_bind; [apply (try_any k); [apply wall_right_any|done]|]. intros [t1 q1] H1.
  eapply outcome_bind; [apply add_any|]. intros dn _.
  eapply outcome_bind; [apply (try_any k); [apply wall_down_any|done]|]. intros [t2 q2] H2.
  apply (outcome_bind (expanding k)).
  - destruct (decide _); [apply try_any; [apply wall_right_any|done]|by apply outcome_ret].
  - intros [t3 q3] H3. destruct (decide _); [apply try_any; [apply wall_down_any|done]|by apply outcome_ret].
Qed.
(** No cell is in the last row. *)
Lemma bfs_panics mz : (forall i, i < n -> i / w <> h - 1) -> forall fuel t q found k,
  expanding k (t, q) -> k < fuel -> bfs_loop (Mode Release ws) fuel w h mz t q found = Fault Panic.
Proof.
  intros Hlast. induction fuel as [|fuel IH]; intros t q found k (Hl&Hk&Hq) Hf; [lia|]. cbn [bfs_loop fst snd] in *.
  destruct q as [|c q]; [done|]. apply Forall_cons in Hq as [Hc Hq]. unfold n_div. rewrite decide_False by lia. cbn [bind].
  rewrite n_sub_ok by done. cbn [bind]. destruct (Nat.eqb_spec (c / w) (h - 1)) as [He|_]; [by apply Hlast in He|]. cbn [andb].
  cbn [length] in Hk. destruct (expand_any (k - 1) mz c t q) as [->|([t' q']&->&H)]; [split; [done|split; [cbn [fst snd]; lia|done]]|done|].
  cbn [bind]. apply (IH _ _ _ (k - 1)); [done|lia].
Qed.
End wrapped.

Lemma create_wrapped (m : mode) rng w h n : 1 <= w -> 1 <= h -> (N.of_nat w < usize_size m)%N -> (usize_size m <= N.of_nat (w * h))%N ->
  n_mul m w h = Ret n -> create_maze m rng w h = Fault Panic.
Proof.
  intros Hw Hh Hws Hbig. unfold create_maze, recursive_backtrack. intros Hn. rewrite Hn. cbn [bind].
  assert (profile_of m = Release /\ N.of_nat n = N.of_nat (w * h) mod usize_size m)%N as [Hrel Hmod].
  { revert Hn. unfold n_mul, usize_mul, arith. rewrite <-Nat2N.inj_mul. destruct (N.ltb_spec (N.of_nat (w * h)) (usize_size m)); [lia|].
    destruct (profile_of m); cbn [bind]; [done|]. intros [= <-]. split; [done|]. apply N2Nat.id. }
  destruct m as [p ws]. cbn in Hrel. subst p. cbn [word_of] in *. pose proof (usize_pos ws) as Hu0.
  destruct n as [|n'] eqn:En; [done|]. rewrite <-En in *. assert (1 <= n) as Hn1 by lia.
  rewrite <-(backtrack_calls_same (Mode Release ws) rng w h _ _ _ []).
  destruct (backtrack_any ws w h n Hw Hh Hn1 rng (2 * n + 1) [0] [0] (replicate n maze_node_new) (with_size n)
    (replicate n [Right; Down; Left; Up]) 0 []) as [->|([[mz d] t]&->&Hl)]; [by apply si_start|apply replicate_length..|done|cbn [length]; lia|done|].
  cbn [forget bind]. unfold vec_set. rewrite replicate_length, decide_True by lia. cbn [bind].
  apply (bfs_panics ws w h n Hw Hh Hn1) with (k := n); [| |lia].
  - intros i Hi He. pose proof (Nat.div_mod i w ltac:(lia)) as Hd. rewrite He in Hd.
    assert (N.of_nat (w * h) = usize_size ws * (N.of_nat (w * h) / usize_size ws) + N.of_nat n)%N as Hq by (rewrite Hmod; apply N.div_mod; lia).
    assert (1 <= N.of_nat (w * h) / usize_size ws)%N as Hge by (apply N.div_le_lower_bound; lia).
    revert Hws Hq Hge. generalize (N.of_nat (w * h) / usize_size ws)%N. intros q Hws Hq Hge.
    assert (usize_size ws <= usize_size ws * q)%N by nia. assert (w * h = w * (h - 1) + w) by nia. lia.
  - split; [cbn [fst]; by rewrite insert_length, replicate_length|]. split; [|by apply Forall_singleton]. cbn [fst snd length].
    unfold left_over. destruct n as [|k]; [lia|]. cbn [replicate]. change (<[0:=PStart]> (PUnvisited :: replicate k PUnvisited)) with (PStart :: replicate k PUnvisited). rewrite filter_cons_False by done.
    assert (forall k, length (filter (fun p => p = PUnvisited) (replicate k PUnvisited)) = k) as ->; [|lia].
    clear. induction k as [|k IH]; [done|]. cbn [replicate]. rewrite filter_cons_True by done. cbn. by rewrite IH.
Qed.
Lemma create_sizes (m : mode) rng w h : (N.of_nat w < usize_size m)%N -> create_checked m rng w h =
  if decide (1 <= w /\ 1 <= h /\ (3 * word_bytes m * N.of_nat (w * h) <= isize_max m)%N) then create_maze m rng w h else Fault Panic.
Proof.
  intros Hws. assert (isize_max m < usize_size m)%N as Hm by (pose proof (isize_usize m); lia). assert (4 <= word_bytes m)%N as Hb by (by destruct (word_of m)).
  destruct (decide (w = 0 \/ h = 0)) as [H0|H0].
  { rewrite decide_False by lia. assert (w * h = 0) as Hz by nia.
    unfold create_checked, generate_checked. rewrite n_mul_small by (rewrite Hz; apply usize_pos). rewrite Hz. cbn [bind]. unfold reserve. by destruct (word_of m). }
  destruct (decide (N.of_nat (w * h) < usize_size m)%N) as [Hlt|Hge].
  - unfold create_checked, generate_checked, create_maze, recursive_backtrack. rewrite n_mul_small by done. cbn [bind].
    destruct (decide (1 <= w /\ 1 <= h /\ (3 * word_bytes m * N.of_nat (w * h) <= isize_max m)%N)) as [(_&_&Hc)|Hc].
    + unfold reserve. do 3 rewrite decide_True by nia. cbn [bind].
      destruct (backtrack_loop m rng _ w h [0] _) as [g|f]; cbn [bind]; done.
    + unfold reserve. destruct (decide (2 * _ <= _)%N); cbn [bind]; [|done]. destruct (decide (2 * word_bytes m * _ <= _)%N); cbn [bind]; [|done].
      rewrite decide_False by lia. done.
  - rewrite decide_False by nia. unfold create_checked, generate_checked.
    destruct (n_mul m w h) as [n|f] eqn:En; cbn [bind].
    2:{ revert En. unfold n_mul, usize_mul, arith. destruct (_ <? _)%N; cbn [bind]; [done|]. by destruct (profile_of m); cbn [bind]; [intros [= <-]|]. }
    assert (create_maze m rng w h = Fault Panic) as Hp by (apply (create_wrapped m rng w h n); [lia|lia|done|lia|done]).
    revert Hp. unfold create_maze, recursive_backtrack. rewrite En. cbn [bind]. unfold reserve.
    destruct (decide (2 * _ <= _)%N); cbn [bind]; [|done]. destruct (decide (2 * word_bytes m * _ <= _)%N); cbn [bind]; [|done].
    destruct (decide (3 * word_bytes m * _ <= _)%N); cbn [bind]; [|done].
    destruct (backtrack_loop m rng _ w h [0] _) as [g|f]; cbn [bind]; [|done]. done.
Qed.
Lemma create_checked_ret (m : mode) rng w h g sol : (N.of_nat w < usize_size m)%N -> create_checked m rng w h = Ret (g, sol) ->
  storable m w h /\ create_maze m rng w h = Ret (g, sol).
Proof.
  intros Hws. rewrite create_sizes by done. destruct (decide _) as [(_&_&Hc)|_]; [|done]. intros Hr. split; [|done].
  unfold storable. pose proof (isize_usize m). assert (4 <= word_bytes m)%N as Hb by (by destruct (word_of m)). nia.
Qed.
Lemma create_capacity (m : mode) rng w h : (N.of_nat w < limit m)%N ->
  (1 <= w -> 1 <= h -> (3 * pointer_bytes m * N.of_nat (w * h) < memory_limit m)%N ->
     create_checked m rng w h = create_maze m rng w h /\ storable m w h) /\
  (w = 0 \/ h = 0 \/ (memory_limit m <= 3 * pointer_bytes m * N.of_nat (w * h))%N -> create_checked m rng w h = Fault Panic).
Proof.
  intros Hws. rewrite <-usize_limit in Hws. rewrite create_sizes by done. rewrite <-!word_bytes_pointer.
  pose proof (bytes_max m (3 * word_bytes m * N.of_nat (w * h))) as Hmax. split.
  - intros Hw Hh Hc. apply Hmax in Hc. rewrite decide_True by done. split; [done|]. unfold storable. words (word_of m); lia.
  - intros H. rewrite decide_False; [done|]. intros (?&?&Hc). apply Hmax in Hc. lia.
Qed.
