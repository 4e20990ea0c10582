(** Proofs for C99: the work of the maze generator in its disjoint set. *)
From Verif Require Import Base Util UtilProofs DisjointSet DisjointSetProofs Maze MazeFind SpecMaze SpecMazeDfs SpecMazeFind
  MazeTree MazeGen MazeDfs MazeDraws MazeDfsProofs MazeCostProofs.
From Verif Require MazeProofs.

(** * The record changes nothing *)

Lemma find_helper_same : forall fuel d i, forget (find_helper_calls fuel d i) = find_helper fuel d i.
Proof.
  induction fuel as [|fuel IH]; intros d i; cbn [find_helper_calls find_helper]; [done|].
  destruct (vec_get d i) as [e|f]; cbn [bind]; [|done]. destruct (e_root e); [done|].
  rewrite <-IH. destruct (find_helper_calls fuel d (e_value e)) as [[[r d'] k]|f]; cbn [bind forget]; [|done].
  destruct (vec_get d' i) as [e'|f]; cbn [bind]; [|done]. by destruct (vec_set d' i _).
Qed.
Lemma find_same d i t : forget (find_calls d i t) = ds_find d i.
Proof.
  unfold find_calls, ds_find. destruct (decide _); [done|]. rewrite <-find_helper_same.
  by destruct (find_helper_calls _ d i) as [[[r d'] k]|f].
Qed.
Lemma common_same d i j t : forget (common_calls d i j t) = common_set d i j.
Proof.
  unfold common_calls, common_set. rewrite <-(find_same d i t). destruct (find_calls d i t) as [[[[a|] d'] t']|f]; cbn [bind forget]; [|done..].
  rewrite <-(find_same d' j t'). by destruct (find_calls d' j t') as [[[[b|] d2] t2]|f].
Qed.
Lemma union_same d i j t : forget (union_calls d i j t) = ds_union d i j.
Proof.
  unfold union_calls, ds_union. rewrite <-(find_same d i t). destruct (find_calls d i t) as [[[[a|] d'] t']|f]; cbn [bind forget]; [|done..].
  rewrite <-(find_same d' j t'). destruct (find_calls d' j t') as [[[[b|] d2] t2]|f]; cbn [bind forget]; [|done..].
  destruct (Nat.eqb a b); [done|]. destruct (vec_get d2 a) as [e1|f]; cbn [bind]; [|done].
  destruct (vec_get d2 b) as [e2|f]; cbn [bind]; [|done].
  destruct (if Nat.ltb (e_value e1) (e_value e2) then (a, b) else (b, a)) as [sm la].
  destruct (vec_get d2 sm) as [es|f]; cbn [bind]; [|done]. destruct (vec_get d2 la) as [el|f]; cbn [bind]; [|done].
  destruct (vec_set d2 la _) as [d3|f]; cbn [bind]; [|done]. by destruct (vec_set d3 sm _).
Qed.
Lemma open_same c x wall mz d t : forget (open_calls c x wall mz d t) = try_open c x wall mz d.
Proof.
  unfold open_calls, try_open. rewrite <-(common_same d c x t).
  destruct (common_calls d c x t) as [[[[[]|] d'] t']|f]; cbn [bind forget expect]; [done| |done..].
  destruct (wall mz) as [mz'|f]; cbn [bind]; [|done]. rewrite <-(union_same d' c x t').
  by destruct (union_calls d' c x t') as [[[[u|] d2] t2]|f].
Qed.
Lemma dir_same m c w h dir mz d t : forget (dir_calls m c w h dir mz d t) = visit_dir m c w h dir mz d.
Proof.
  assert (forall x wall, forget (let! r := open_calls c x wall mz d t in
      match r with (Some mz, d, t) => Ret (Some (x, mz), d, t) | (None, d, t) => Ret (None, d, t) end) =
    let! r := try_open c x wall mz d in
      match r with (Some mz, d) => Ret (Some (x, mz), d) | (None, d) => Ret (None, d) end) as Hf.
  { intros x wall. rewrite <-(open_same c x wall mz d t). by destruct (open_calls c x wall mz d t) as [[[[mz'|] d'] t']|f]. }
  unfold dir_calls, visit_dir. destruct dir.
  - destruct (n_rem c w) as [r|f]; cbn [bind]; [|done]. destruct (n_sub m w 1) as [w1|f]; cbn [bind]; [|done].
    destruct (Nat.eqb r w1); [done|]. destruct (n_add m c 1) as [x|f]; cbn [bind]; [|done]. apply Hf.
  - destruct (n_sub m h 1) as [h1|f]; cbn [bind]; [|done]. destruct (n_mul m w h1) as [l|f]; cbn [bind]; [|done].
    destruct (Nat.leb l c); [done|]. destruct (n_add m c w) as [x|f]; cbn [bind]; [|done]. apply Hf.
  - destruct (n_rem c w) as [r|f]; cbn [bind]; [|done]. destruct (Nat.eqb r 0); [done|].
    destruct (n_sub m c 1) as [x|f]; cbn [bind]; [|done]. apply Hf.
  - destruct (Nat.ltb c w); [done|]. destruct (n_sub m c w) as [x|f]; cbn [bind]; [|done]. apply Hf.
Qed.
Lemma visit_same m rng c w h : forall fuel mz d vis k t,
  forget (visit_calls m rng fuel c w h mz d vis k t) = visit_loop m rng fuel c w h mz d vis k.
Proof.
  induction fuel as [|fuel IH]; intros mz d vis k t; destruct vis as [|v vis]; cbn [visit_calls visit_loop]; [done..|].
  destruct (expect (choose_random (rng k) (v :: vis))) as [[dir rest]|f]; cbn [bind]; [|done].
  rewrite <-(dir_same m c w h dir mz d t). destruct (dir_calls m c w h dir mz d t) as [[[[[x mz']|] d'] t']|f]; cbn [bind forget]; [done| |done].
  apply IH.
Qed.
Lemma backtrack_calls_same m rng w h : forall fuel path s t,
  forget (forget (backtrack_calls m rng fuel w h path s t)) = backtrack_loop m rng fuel w h path s.
Proof.
  induction fuel as [|fuel IH]; intros [|c rest] s t; cbn [backtrack_calls backtrack_loop]; [done..|].
  destruct (vec_get (g_visit s) c) as [vis|f]; cbn [bind]; [|done]. unfold visit_next.
  rewrite <-(visit_same m rng c w h _ _ _ _ _ t).
  destruct (visit_calls m rng _ c w h (g_maze s) (g_conn s) vis (g_draws s) t) as [[[[[[r mz] d] vis'] k'] t']|f]; cbn [bind forget]; [|done].
  destruct (vec_set (g_visit s) c vis') as [visit|f]; cbn [bind]; [|done]. destruct r; apply IH.
Qed.
Lemma generate_same m rng w h : forget (forget (generate_calls m rng w h)) = recursive_backtrack m rng w h.
Proof.
  unfold generate_calls, recursive_backtrack. destruct (n_mul m w h) as [n|f]; cbn [bind]; [|done]. apply backtrack_calls_same.
Qed.

(** * The disjoint set is always a star *)

Section star.
Context (n : nat).
Record SI (vs : list nat) (d : dset) : Prop := MkSI {
  si_len : length d = n;
  si_nodup : NoDup vs;
  si_bound i : i ∈ vs -> i < n;
  si_zero : 0 ∈ vs;
  si_root : d !! 0 = Some (Element true (length vs));
  si_in i : i ∈ vs -> i <> 0 -> d !! i = Some (Element false 0);
  si_out i : i < n -> i ∉ vs -> d !! i = Some (Element true 1)
}.
Definition base (i : nat) : nat := if Nat.eqb i 0 then 1 else 2.
Lemma base_ne i : i <> 0 -> base i = 2.
Proof. intros Hi. unfold base. by destruct (Nat.eqb_spec i 0). Qed.
Lemma base_range i : 1 <= base i <= 2.
Proof. unfold base. destruct (Nat.eqb i 0); lia. Qed.

Lemma find_in vs d i t : SI vs d -> i ∈ vs -> find_calls d i t = Ret (Some 0, d, base i :: t).
Proof.
  intros HS Hi. pose proof (si_bound _ _ HS i Hi) as Hn. unfold find_calls. rewrite (si_len _ _ HS).
  rewrite decide_False by lia. destruct n as [|n'] eqn:En; [lia|]. cbn [find_helper_calls]. unfold vec_get at 1. 
  destruct (decide (i = 0)) as [->|Hne].
  - rewrite (si_root _ _ HS). done.
  - rewrite (si_in _ _ HS i Hi Hne). cbn [expect bind e_root e_value]. destruct n' as [|n2]; [lia|]. cbn [find_helper_calls].
    unfold vec_get at 1. rewrite (si_root _ _ HS). cbn [expect bind e_root]. unfold vec_get. rewrite (si_in _ _ HS i Hi Hne).
    cbn [expect bind e_root]. unfold vec_set. rewrite decide_True by (rewrite (si_len _ _ HS); lia). cbn [bind].
    rewrite list_insert_id by (by apply (si_in _ _ HS)). by rewrite base_ne.
Qed.
Lemma find_out vs d i t : SI vs d -> i < n -> i ∉ vs -> find_calls d i t = Ret (Some i, d, 1 :: t).
Proof.
  intros HS Hn Hi. pose proof (si_out _ _ HS i Hn Hi) as Ho. unfold find_calls. rewrite (si_len _ _ HS). rewrite decide_False by lia.
  destruct n as [|n'] eqn:En; [lia|]. cbn [find_helper_calls]. unfold vec_get. rewrite Ho. done.
Qed.
Lemma union_star vs d c x t : SI vs d -> c ∈ vs -> x < n -> x ∉ vs ->
  exists d', union_calls d c x t = Ret (Some x, d', 1 :: base c :: t) /\ SI (x :: vs) d'.
Proof.
  intros HS Hc Hn Hx. assert (x <> 0) as Hx0 by (intros ->; apply Hx; apply HS). unfold union_calls.
  rewrite (find_in _ _ _ _ HS Hc). cbn [bind]. rewrite (find_out _ _ _ _ HS Hn Hx). cbn [bind].
  destruct (Nat.eqb_spec 0 x) as [|_]; [lia|].
  assert (1 <= length vs) as Hlv.
  { pose proof (si_zero _ _ HS) as H0. destruct vs; [by apply elem_of_nil in H0|cbn; lia]. }
  unfold vec_get at 1 2. rewrite (si_root _ _ HS), (si_out _ _ HS x Hn Hx). cbn [expect bind e_value].
  destruct (Nat.ltb_spec (length vs) 1) as [|_]; [lia|]. unfold vec_get. rewrite (si_root _ _ HS), (si_out _ _ HS x Hn Hx).
  cbn [expect bind e_value e_root]. unfold vec_set at 1. rewrite decide_True by (rewrite (si_len _ _ HS); lia). cbn [bind].
  unfold vec_set. rewrite decide_True by (rewrite insert_length, (si_len _ _ HS); lia). cbn [bind].
  eexists. split; [done|]. split.
  - rewrite !insert_length. apply HS.
  - apply NoDup_cons. split; [done|apply HS].
  - intros i Hi. apply elem_of_cons in Hi as [->|Hi]; [done|by apply HS].
  - apply elem_of_cons. right. apply HS.
  - rewrite list_lookup_insert_ne by done. rewrite list_lookup_insert by (rewrite (si_len _ _ HS); lia). cbn [length]. by rewrite Nat.add_1_r.
  - intros i Hi Hi0. unfold from_parent. destruct (decide (i = x)) as [->|Hix].
    + rewrite list_lookup_insert; [done|]. rewrite insert_length, (si_len _ _ HS). lia.
    + apply elem_of_cons in Hi as [->|Hi]; [done|]. rewrite list_lookup_insert_ne by done. rewrite list_lookup_insert_ne by done. by apply HS.
  - intros i Hi Hiv. apply not_elem_of_cons in Hiv as [Hix Hiv]. rewrite list_lookup_insert_ne by done.
    rewrite list_lookup_insert_ne by (intros <-; apply Hiv; apply HS). by apply HS.
Qed.
Lemma si_start : 1 <= n -> SI [0] (with_size n).
Proof.
  intros Hn. unfold with_size. split.
  - apply replicate_length.
  - apply NoDup_singleton.
  - intros i ->%elem_of_list_singleton. lia.
  - by apply elem_of_list_singleton.
  - by apply lookup_replicate.
  - by intros i ->%elem_of_list_singleton.
  - intros i Hi _. by apply lookup_replicate.
Qed.
Lemma si_end vs d : SI vs d -> (forall i, i < n -> i ∈ vs) -> d = SpecMazeFind.star n.
Proof.
  intros HS Hall. assert (length vs = n) as Hl.
  { rewrite <-(seq_length n 0). apply Permutation_length, NoDup_Permutation; [apply HS|apply NoDup_seq|].
    intros i. rewrite elem_of_seq. split; [intros Hi%(si_bound _ _ HS); lia|]. intros Hi. apply Hall. lia. }
  pose proof (si_bound _ _ HS 0 (si_zero _ _ HS)) as Hn.
  apply list_eq. intros i. unfold SpecMazeFind.star. destruct i as [|i].
  - rewrite (si_root _ _ HS), Hl. done.
  - cbn. destruct (decide (S i < n)) as [Hi|Hi].
    + rewrite (si_in _ _ HS) by (by apply Hall || done). symmetry. apply lookup_replicate. split; [done|lia].
    + rewrite lookup_ge_None_2 by (rewrite (si_len _ _ HS); lia). symmetry. apply lookup_ge_None_2. rewrite replicate_length. lia.
Qed.
End star.

(** * The counts *)

Section count.
Context (m : mode) (w h : nat).
Context (Hw : 1 <= w) (Hh : 1 <= h) (Hst : storable m w h).
Local Notation n := (w * h).
Local Notation GI := (GI w h).
Local Notation LI := (LI w h).
Local Notation geo := (geo w h).
Local Notation target := (target w h).
Local Notation SI := (SI n).

Lemma dir_calls_eq dir c mz d t : c < n ->
  dir_calls m c w h dir mz d t =
  match target dir c with
  | None => Ret (None, d, t)
  | Some next =>
      let! r := open_calls c next (wall_of dir c next) mz d t in
      match r with
      | (Some mz, d, t) => Ret (Some (next, mz), d, t)
      | (None, d, t) => Ret (None, d, t)
      end
  end.
Proof.
  intros Hc. pose proof (w_le_n w h Hw Hh). unfold dir_calls, n_rem. destruct dir; cbn [MazeGen.target].
  - rewrite decide_False by lia. cbn [bind]. rewrite n_sub_ok by done. cbn [bind].
    destruct (Nat.eqb _ _); [done|]. rewrite n_add_small by (apply (n_small m w h Hw Hh Hst); lia). done.
  - rewrite n_sub_ok by done. cbn [bind]. rewrite n_mul_small by (apply (n_small m w h Hw Hh Hst); nia). cbn [bind].
    destruct (Nat.leb _ _); [done|]. rewrite n_add_small by (apply (n_small m w h Hw Hh Hst); lia). done.
  - rewrite decide_False by lia. cbn [bind]. destruct (Nat.eqb_spec (c mod w) 0) as [He|He]; [done|].
    rewrite n_sub_ok; [done|]. destruct c; [rewrite Nat.mod_0_l in He by lia; done|lia].
  - destruct (Nat.ltb_spec c w) as [He|He]; [done|]. rewrite n_sub_ok by done. done.
Qed.

(** Calls for testing one direction, once the neighbour is visited. *)
Definition weight (c : nat) (dir : direction) : nat :=
  match target dir c with Some x => base c + base x | None => 0 end.
Definition present (c : nat) (dir : direction) : nat :=
  match target dir c with Some _ => 1 | None => 0 end.
Definition total {A} (f : A -> nat) (l : list A) : nat := sum_list (f <$> l).
Lemma total_cons {A} (f : A -> nat) a l : total f (a :: l) = f a + total f l.
Proof. done. Qed.
Lemma total_perm {A} (f : A -> nat) l l' : l ≡ₚ l' -> total f l = total f l'.
Proof. induction 1; rewrite ?total_cons; lia. Qed.

Local Notation short := (Forall (fun k => 1 <= k <= 2)).

Lemma dir_cases vs mz d E dir c t : GI vs mz d E -> SI vs d -> c ∈ vs ->
  (exists s, dir_calls m c w h dir mz d t = Ret (None, d, s ++ t) /\ (forall j, geo dir c j -> j ∈ vs) /\
    sum_list s = weight c dir /\ length s = 2 * present c dir /\ short s) \/
  (exists x d' s, dir_calls m c w h dir mz d t = Ret (Some (x, opened dir c x mz), d', s ++ t) /\ geo dir c x /\ x ∉ vs /\
    GI (x :: vs) (opened dir c x mz) d' ((c, x) :: E) /\ SI (x :: vs) d' /\
    sum_list s = weight c dir + base c /\ length s = 2 * present c dir + 2 /\ short s).
Proof.
  intros HI HS Hc. assert (c < n) as Hcn by (by apply HI). rewrite dir_calls_eq by done.
  pose proof (base_range c) as Hbc. unfold weight, present.
  destruct (target dir c) as [x|] eqn:Ht.
  - pose proof Ht as Ht'. apply target_spec in Ht'; [|done..]. pose proof Ht' as (_&Hxn&_). pose proof (base_range x) as Hbx.
    unfold open_calls, common_calls. rewrite (find_in n _ _ _ _ HS Hc). cbn [bind].
    destruct (decide (x ∈ vs)) as [Hx|Hx].
    + left. rewrite (find_in n _ _ _ _ HS Hx). cbn [bind expect Nat.eqb]. exists [base x; base c]. split; [done|].
      split; [|split; [cbn; lia|split; [done|repeat (apply Forall_cons_2; [lia|]); apply Forall_nil_2]]].
      intros j Hj. apply target_spec in Hj; [|done..]. congruence.
    + right. rewrite (find_out n _ _ _ _ HS Hxn Hx). cbn [bind expect].
      assert (x <> 0) as Hx0 by (intros ->; apply Hx; apply HS). destruct (Nat.eqb_spec 0 x) as [|_]; [lia|].
      rewrite (wall_of_eq w h Hw Hh) by (done || by apply HI). cbn [bind].
      destruct (union_star n vs d c x (1 :: base c :: t) HS Hc Hxn Hx) as (d'&Eu&HS'). rewrite Eu. cbn [bind expect].
      exists x, d', [1; base c; 1; base c]. split; [done|]. split; [done|]. split; [done|].
      split; [|split; [done|]].
      * pose proof (union_same d c x (1 :: base c :: t)) as Es. rewrite Eu in Es. cbn [forget bind] in Es.
        destruct (ds_union_spec d n E c x (gi_ds _ _ _ _ _ _ HI) Hcn Hxn) as (a&d2&E2&HI2).
        rewrite E2 in Es. injection Es as <- <-. by eapply (gi_open (fun _ => 0)).
      * rewrite (base_ne x) by done. cbn. split; [lia|]. split; [done|]. repeat (apply Forall_cons_2; [lia|]); apply Forall_nil_2.
  - left. exists []. split; [done|]. split; [|done]. intros j Hj. apply target_spec in Hj; [|done..]. congruence.
Qed.

Lemma sum_app l l' : sum_list (l ++ l') = sum_list l + sum_list l'.
Proof. induction l as [|a l IH]; [done|]. cbn in IH |- *. lia. Qed.

Lemma visit_calls_cases rng vs mz E c : c ∈ vs -> forall fuel visitable d k t, GI vs mz d E -> SI vs d -> length visitable <= fuel ->
  (exists k' s, visit_calls m rng fuel c w h mz d visitable k t = Ret (None, mz, d, [], k', s ++ t) /\
    (forall dir, dir ∈ visitable -> forall j, geo dir c j -> j ∈ vs) /\
    sum_list s = total (weight c) visitable /\ length s = 2 * total (present c) visitable /\ short s) \/
  (exists dir x d' vis' k' s, visit_calls m rng fuel c w h mz d visitable k t = Ret (Some x, opened dir c x mz, d', vis', k', s ++ t) /\
    geo dir c x /\ x ∉ vs /\ GI (x :: vs) (opened dir c x mz) d' ((c, x) :: E) /\ SI (x :: vs) d' /\
    (forall dir', dir' ∈ visitable -> dir' ∉ vis' -> forall j, geo dir' c j -> j ∈ x :: vs) /\
    sum_list s + total (weight c) vis' = total (weight c) visitable + base c /\
    length s + 2 * total (present c) vis' = 2 * total (present c) visitable + 2 /\ short s).
Proof.
  intros Hc. induction fuel as [|fuel IH]; intros visitable d k t HI HS Hf.
  - destruct visitable; [|cbn in Hf; lia]. left. exists k, []. split; [done|]. split; [|done].
    intros dir H; by apply elem_of_nil in H.
  - destruct visitable as [|v0 vs0] eqn:Hv.
    { left. exists k, []. split; [done|]. split; [|done]. intros dir H; by apply elem_of_nil in H. }
    rewrite <-Hv in *.
    assert (exists dir rest, choose_random (rng k) visitable = Some (dir, rest)) as (dir&rest&Hch).
    { destruct (choose_random_perm (rng k) visitable) as [Hn _].
      destruct (choose_random (rng k) visitable) as [[dir rest]|] eqn:Hch; [eauto|].
      exfalso. assert (visitable = []) as He by (by apply Hn). congruence. }
    destruct (choose_random_perm (rng k) visitable) as [_ Hperm]. specialize (Hperm _ _ Hch).
    assert (visit_calls m rng (S fuel) c w h mz d visitable k t =
      let! (r, d, t) := dir_calls m c w h dir mz d t in
      match r with
      | Some (next, mz) => Ret (Some next, mz, d, rest, S k, t)
      | None => visit_calls m rng fuel c w h mz d rest (S k) t
      end) as ->.
    { rewrite Hv in *. cbn [visit_calls]. rewrite Hch. done. }
    pose proof (Permutation_length Hperm) as Hlen. cbn in Hlen.
    pose proof (total_perm (weight c) _ _ Hperm) as HW. pose proof (total_perm (present c) _ _ Hperm) as HP.
    rewrite total_cons in HW, HP.
    destruct (dir_cases vs mz d E dir c t HI HS Hc) as [(s&Ed&Hd&Hs&Hl&Hsh)|(x&d'&s&Ed&Hg&Hx&HI'&HS'&Hs&Hl&Hsh)]; rewrite Ed; cbn [bind].
    + destruct (IH rest d (S k) (s ++ t) HI HS) as
        [(k'&s'&Er&Hd'&Hs'&Hl'&Hsh')|(dir'&x&d'&vis'&k'&s'&Er&Hg&Hx&HI'&HS'&Hd'&Hs'&Hl'&Hsh')]; [lia|left|right]; rewrite Er.
      * exists k', (s' ++ s). rewrite <-app_assoc. split; [done|]. split; [|rewrite sum_app, app_length; split; [lia|split; [lia|by apply Forall_app]]].
        intros dir' Hin j Hj. rewrite <-Hperm in Hin. apply elem_of_cons in Hin as [->|Hin]; [by apply Hd|by eapply Hd'].
      * exists dir', x, d', vis', k', (s' ++ s). rewrite <-app_assoc. split; [done|]. split; [done|]. split; [done|]. split; [done|]. split; [done|].
        split; [|rewrite sum_app, app_length; split; [lia|split; [lia|by apply Forall_app]]].
        intros dir2 Hin Hnin j Hj. rewrite <-Hperm in Hin. apply elem_of_cons in Hin as [->|Hin]; [apply elem_of_cons; right; by apply Hd|by eapply Hd'].
    + right. exists dir, x, d', rest, (S k), s. split; [done|]. split; [done|]. split; [done|]. split; [done|]. split; [done|].
      split; [|split; [lia|split; [lia|done]]].
      intros dir' Hin Hnin j Hj. rewrite <-Hperm in Hin. apply elem_of_cons in Hin as [->|Hin]; [|done].
      assert (j = x) as ->; [|apply elem_of_cons; by left].
      apply target_spec in Hj; [|done..|by apply HI]. apply target_spec in Hg; [|done..|by apply HI]. congruence.
Qed.

(** Calls still to come from the untested directions of all cells. *)
Definition all (f : nat -> direction -> nat) (visit : list (list direction)) : nat := sum_list (imap (fun c l => total (f c) l) visit).
Lemma all_insert f visit c old new : visit !! c = Some old ->
  all f (<[c := new]> visit) + total (f c) old = all f visit + total (f c) new.
Proof.
  unfold all. revert f c. induction visit as [|a visit IH]; intros f [|c] Hc; [done..| |].
  - injection Hc as ->. cbn. lia.
  - cbn in Hc. change (<[S c := new]> (a :: visit)) with (a :: <[c := new]> visit). rewrite !imap_cons. cbn [sum_list foldr].
    specialize (IH (fun c => f (S c)) _ Hc). cbn in *. unfold compose in *. cbn in *. lia.
Qed.
Lemma all_done f visit : (forall i l, visit !! i = Some l -> l = []) -> all f visit = 0.
Proof.
  unfold all. revert f. induction visit as [|a visit IH]; intros f H; [done|]. rewrite imap_cons. cbn [sum_list foldr].
  rewrite (H 0 a eq_refl). cbn. apply (IH (fun c => f (S c))). intros i l Hi. by apply (H (S i)).
Qed.

Lemma backtrack_calls_count rng : forall fuel path vs mz d E visit k t,
  GI vs mz d E -> SI vs d -> LI path vs visit -> vs = E.*2 ++ [0] -> short t -> 2 * (n - length vs) + length path < fuel + 1 ->
  exists mz' d' t' E' vs', backtrack_calls m rng fuel w h path (GState mz d visit k) t = Ret (mz', d', t') /\
    GI vs' mz' d' E' /\ SI vs' d' /\ vs' = E'.*2 ++ [0] /\ (forall i, i < n -> i ∈ vs') /\ short t' /\
    sum_list t' + total base E.*1 = sum_list t + all weight visit + total base E'.*1 /\
    length t' + 2 * length E = length t + 2 * all present visit + 2 * length E'.
Proof.
  assert (forall vs mz d E visit k t fuel, GI vs mz d E -> SI vs d -> LI [] vs visit -> vs = E.*2 ++ [0] -> short t ->
    exists mz' d' t' E' vs', backtrack_calls m rng fuel w h [] (GState mz d visit k) t = Ret (mz', d', t') /\
    GI vs' mz' d' E' /\ SI vs' d' /\ vs' = E'.*2 ++ [0] /\ (forall i, i < n -> i ∈ vs') /\ short t' /\
    sum_list t' + total base E.*1 = sum_list t + all weight visit + total base E'.*1 /\
    length t' + 2 * length E = length t + 2 * all present visit + 2 * length E') as Hend.
  { intros vs mz d E visit k t fuel HI HS HL HE Ht. pose proof (all_reached w h Hw Hh _ _ _ _ _ HI HL) as Hall.
    exists mz, d, t, E, vs. split; [by destruct fuel|]. split; [done|]. split; [done|]. split; [done|]. split; [done|]. split; [done|].
    rewrite !all_done; [lia|..]; intros i l Hi; (destruct (li_done _ _ _ _ _ HL i) as [Hn|Hd]; [|by apply elem_of_nil in Hn|congruence]);
      apply Hall; apply lookup_lt_Some in Hi; by rewrite (li_len _ _ _ _ _ HL) in Hi. }
  induction fuel as [|fuel IH]; intros path vs mz d E visit k t HI HS HL HE Ht Hf.
  - assert (path = []) as -> by (destruct path; [done|cbn in Hf; lia]). by eapply Hend.
  - destruct path as [|c rest]; [by eapply Hend|].
    cbn [backtrack_calls g_visit g_maze g_conn g_draws].
    assert (c ∈ vs) as Hc by (apply HL; apply elem_of_cons; by left). assert (c < n) as Hcn by (by apply HI).
    destruct (lookup_lt_is_Some_2 visit c) as [l Hl]; [rewrite (li_len _ _ _ _ _ HL); done|].
    unfold vec_get at 1. rewrite Hl. cbn [expect bind].
    pose proof (vs_le w h Hw Hh _ _ _ _ HI) as Hvn.
    destruct (visit_calls_cases rng vs mz E c Hc (length l) l d k t HI HS) as
      [(k'&s&E1&Hd&Hs&Hls&Hsh)|(dir&x&d'&vis'&k'&s&E1&Hg&Hx&HI'&HS'&Hd&Hs&Hls&Hsh)];
      [done|..]; rewrite E1; cbn [bind]; unfold vec_set; rewrite decide_True by (rewrite (li_len _ _ _ _ _ HL); done); cbn [bind].
    + assert (forall dir j, geo dir c j -> j ∈ vs) as Hall.
      { intros dir j Hj. destruct (decide (dir ∈ l)) as [Hin|Hin]; [by eapply Hd|]. by eapply (li_dirs _ _ _ _ _ HL). }
      destruct (IH rest vs mz d E (<[c := []]> visit) k' (s ++ t) HI HS) as (mz'&d2&t'&E'&vs'&->&HI'&HS'&HE'&Hall'&Ht'&H1&H2);
        [by apply li_pop|done|by apply Forall_app|cbn in Hf; lia|].
      exists mz', d2, t', E', vs'. split; [done|]. split; [done|]. split; [done|]. split; [done|]. split; [done|]. split; [done|].
      pose proof (all_insert weight _ _ _ [] Hl) as A1. pose proof (all_insert present _ _ _ [] Hl) as A2.
      rewrite sum_app in H1. rewrite app_length in H2. change (total (weight c) []) with 0 in A1. change (total (present c) []) with 0 in A2. lia.
    + pose proof (vs_le w h Hw Hh _ _ _ _ HI') as Hvn'. cbn [length] in Hvn'.
      destruct (IH (x :: c :: rest) (x :: vs) (opened dir c x mz) d' _ (<[c := vis']> visit) k' (s ++ t) HI' HS')
        as (mz'&d2&t'&E'&vs'&->&HI2&HS2&HE'&Hall'&Ht'&H1&H2);
        [by eapply li_push|by rewrite HE|by apply Forall_app|cbn in Hf |- *; lia|].
      exists mz', d2, t', E', vs'. split; [done|]. split; [done|]. split; [done|]. split; [done|]. split; [done|]. split; [done|].
      pose proof (all_insert weight _ _ _ vis' Hl) as A1. pose proof (all_insert present _ _ _ vis' Hl) as A2.
      rewrite sum_app in H1. rewrite app_length in H2. rewrite fmap_cons, total_cons in H1. cbn [fst length] in H1, H2. lia.
Qed.

(** * Closed forms *)

Fixpoint sumf (k : nat) (F : nat -> nat) : nat := match k with 0 => 0 | S k => sumf k F + F k end.
Lemma sumf_ext k F G : (forall i, i < k -> F i = G i) -> sumf k F = sumf k G.
Proof. induction k as [|k IH]; intros H; [done|]. cbn. rewrite IH by (intros i Hi; apply H; lia). by rewrite H by lia. Qed.
Lemma sumf_add k F G : sumf k (fun i => F i + G i) = sumf k F + sumf k G.
Proof. induction k as [|k IH]; [done|]. cbn. lia. Qed.
Lemma sumf_mul k a F : sumf k (fun i => a * F i) = a * sumf k F.
Proof. induction k as [|k IH]; [cbn; lia|]. cbn. lia. Qed.
Lemma sumf_app k l F : sumf (k + l) F = sumf k F + sumf l (fun i => F (k + i)).
Proof. induction l as [|l IH]; [rewrite Nat.add_0_r; cbn; lia|]. rewrite Nat.add_succ_r. cbn. lia. Qed.
Lemma sumf_point k a G : sumf k (fun i => if Nat.eqb i a then G i else 0) = if Nat.ltb a k then G a else 0.
Proof.
  induction k as [|k IH]; [done|]. cbn [sumf]. rewrite IH. destruct (Nat.ltb_spec a k), (Nat.ltb_spec a (S k)), (Nat.eqb_spec k a); subst; lia.
Qed.
Lemma sumf_except k a : a < k -> sumf k (fun i => if Nat.eqb i a then 0 else 1) = k - 1.
Proof.
  intros Ha. assert (forall k, sumf k (fun _ => 1) = k) as Hone by (clear; induction k as [|k IH]; [done|cbn; lia]).
  pose proof (sumf_point k a (fun _ => 1)) as Hp. destruct (Nat.ltb_spec a k); [|lia].
  pose proof (sumf_add k (fun i => if Nat.eqb i a then 0 else 1) (fun i => if Nat.eqb i a then 1 else 0)) as Hs.
  rewrite (sumf_ext k _ (fun _ => 1)) in Hs by (intros i _; by destruct (Nat.eqb i a)). rewrite Hone in Hs. lia.
Qed.
Lemma sumf_below k b : sumf k (fun i => if Nat.leb b i then 0 else 1) = min b k.
Proof. induction k as [|k IH]; [cbn; lia|]. cbn [sumf]. rewrite IH. destruct (Nat.leb_spec b k); lia. Qed.
Lemma sumf_above k b : sumf k (fun i => if Nat.ltb i b then 0 else 1) = k - b.
Proof. induction k as [|k IH]; [done|]. cbn [sumf]. rewrite IH. destruct (Nat.ltb_spec k b); lia. Qed.
Lemma sumf_mod a : a < w -> forall r, sumf (w * r) (fun i => if Nat.eqb (i mod w) a then 0 else 1) = (w - 1) * r.
Proof.
  intros Ha. induction r as [|r IH]; [by rewrite !Nat.mul_0_r|]. rewrite Nat.mul_succ_r, sumf_app, IH.
  rewrite (sumf_ext w _ (fun i => if Nat.eqb i a then 0 else 1)); [rewrite sumf_except by done; lia|].
  intros i Hi. rewrite Nat.add_comm, Nat.mul_comm, Nat.mod_add by lia. by rewrite Nat.mod_small.
Qed.

Lemma all_replicate f l k : all f (replicate k l) = sumf k (fun c => total (f c) l).
Proof.
  unfold all. induction k as [|k IH]; [done|]. rewrite replicate_S_end, imap_app, sum_app, IH. cbn.
  rewrite replicate_length, !Nat.add_0_r. done.
Qed.

Lemma present_sum : sumf n (fun c => present c Right) = (w - 1) * h /\ sumf n (fun c => present c Down) = w * (h - 1) /\
  sumf n (fun c => present c Left) = (w - 1) * h /\ sumf n (fun c => present c Up) = w * (h - 1).
Proof.
  unfold present. cbn [MazeGen.target]. split; [|split; [|split]].
  - etransitivity; [|apply (sumf_mod (w - 1)); lia]. apply sumf_ext. intros i _. by destruct (Nat.eqb _ _).
  - pose proof (sumf_below n (w * (h - 1))) as Hb. replace (min (w * (h - 1)) n) with (w * (h - 1)) in Hb by nia. etransitivity; [|exact Hb].
    apply sumf_ext. intros i _. by destruct (Nat.leb _ _).
  - etransitivity; [|apply (sumf_mod 0); lia]. apply sumf_ext. intros i _. by destruct (Nat.eqb _ _).
  - pose proof (sumf_above n w) as Hb. replace (n - w) with (w * (h - 1)) in Hb by nia. etransitivity; [|exact Hb].
    apply sumf_ext. intros i _. by destruct (Nat.ltb _ _).
Qed.

Definition least (a b : nat) : nat := if Nat.leb a b then 1 else 0.
Lemma weight_dir dir a : (forall c, c < n -> weight c dir + (if Nat.eqb c a then present c dir else 0) = 4 * present c dir) ->
  sumf n (fun c => weight c dir) + (if Nat.ltb a n then present a dir else 0) = 4 * sumf n (fun c => present c dir).
Proof.
  intros H. rewrite <-(sumf_point n a (fun c => present c dir)), <-sumf_mul, <-sumf_add. by apply sumf_ext.
Qed.
Lemma base_0 : base 0 = 1.
Proof. done. Qed.
Lemma weight_sum :
  sumf n (fun c => weight c Right) + least 2 w = 4 * ((w - 1) * h) /\
  sumf n (fun c => weight c Down) + least 2 h = 4 * (w * (h - 1)) /\
  sumf n (fun c => weight c Left) + least 2 w = 4 * ((w - 1) * h) /\
  sumf n (fun c => weight c Up) + least 2 h = 4 * (w * (h - 1)).
Proof.
  destruct present_sum as (P1&P2&P3&P4). pose proof (n_pos w h Hw Hh) as Hn.
  pose proof (weight_dir Right 0) as W1. pose proof (weight_dir Down 0) as W2. pose proof (weight_dir Left 1) as W3. pose proof (weight_dir Up w) as W4.
  rewrite P1 in W1. rewrite P2 in W2. rewrite P3 in W3. rewrite P4 in W4.
  split; [|split; [|split]].
  - rewrite <-W1.
    + f_equal. destruct (Nat.ltb_spec 0 n); [|lia]. unfold present, least. cbn [MazeGen.target]. rewrite Nat.mod_0_l by lia.
      destruct (Nat.eqb_spec 0 (w - 1)), (Nat.leb_spec 2 w); lia.
    + intros c Hc. unfold weight, present. cbn [MazeGen.target]. destruct (Nat.eqb (c mod w) (w - 1)); [by destruct (Nat.eqb c 0)|].
      rewrite (base_ne (c + 1)) by lia. unfold base. destruct (Nat.eqb c 0); lia.
  - rewrite <-W2.
    + f_equal. destruct (Nat.ltb_spec 0 n); [|lia]. unfold present, least. cbn [MazeGen.target].
      destruct (Nat.leb_spec (w * (h - 1)) 0), (Nat.leb_spec 2 h); nia.
    + intros c Hc. unfold weight, present. cbn [MazeGen.target]. destruct (Nat.leb (w * (h - 1)) c); [by destruct (Nat.eqb c 0)|].
      rewrite (base_ne (c + w)) by lia. unfold base. destruct (Nat.eqb c 0); lia.
  - rewrite <-W3.
    + f_equal. unfold present, least. cbn [MazeGen.target]. destruct (Nat.leb_spec 2 w) as [H2|H2].
      * rewrite Nat.mod_1_l by lia. destruct (Nat.ltb_spec 1 n); [done|nia].
      * replace w with 1 by lia. by destruct (Nat.ltb 1 (1 * h)).
    + intros c Hc. unfold weight, present. cbn [MazeGen.target]. destruct (Nat.eqb_spec (c mod w) 0) as [H0|H0]; [by destruct (Nat.eqb c 1)|].
      assert (c <> 0) as Hc0 by (intros ->; rewrite Nat.mod_0_l in H0; lia).
      rewrite (base_ne c) by lia. unfold base. destruct (Nat.eqb_spec c 1), (Nat.eqb_spec (c - 1) 0); lia.
  - rewrite <-W4.
    + f_equal. unfold present, least. cbn [MazeGen.target]. rewrite Nat.ltb_irrefl. destruct (Nat.leb_spec 2 h), (Nat.ltb_spec w n); nia.
    + intros c Hc. unfold weight, present. cbn [MazeGen.target]. destruct (Nat.ltb_spec c w) as [H0|H0].
      * destruct (Nat.eqb_spec c w); lia.
      * rewrite (base_ne c) by lia. unfold base. destruct (Nat.eqb_spec c w), (Nat.eqb_spec (c - w) 0); lia.
Qed.

Lemma all_start f : all f (replicate n [Right; Down; Left; Up]) =
  sumf n (fun c => f c Right) + sumf n (fun c => f c Down) + sumf n (fun c => f c Left) + sumf n (fun c => f c Up).
Proof. rewrite all_replicate, <-!sumf_add. apply sumf_ext. intros i _. unfold total. cbn. lia. Qed.

(** Passages leaving cell 0. *)
Lemma from_zero (E : list (nat * nat)) x : (forall y, (0, y) ∈ E <-> y = x) -> NoDup E.*2 -> total base E.*1 + 1 = 2 * length E.
Proof.
  intros Hx Hnd. assert (forall E : list (nat * nat), NoDup E.*2 -> (forall y, (0, y) ∈ E -> y = x) ->
    total base E.*1 + (if decide ((0, x) ∈ E) then 1 else 0) = 2 * length E) as Hgen.
  { clear. induction E as [|[a b] E IH]; intros Hnd Hx; [done|]. rewrite !fmap_cons in *. rewrite total_cons. cbn [fst snd length] in *.
    apply NoDup_cons in Hnd as [Hb Hnd]. specialize (IH Hnd). assert (forall y, (0, y) ∈ E -> y = x) as Hx' by (intros y Hy; apply Hx; apply elem_of_cons; by right).
    specialize (IH Hx'). destruct (decide (a = 0)) as [->|Ha].
    - assert (b = x) as -> by (apply Hx; apply elem_of_cons; by left). rewrite base_0.
      rewrite decide_True by (apply elem_of_cons; by left). rewrite decide_False in IH; [lia|].
      intros Hin. apply Hb. apply elem_of_list_fmap. by exists (0, x).
    - rewrite base_ne by done. destruct (decide ((0, x) ∈ E)) as [Hin|Hin].
      + rewrite decide_True by (apply elem_of_cons; by right). lia.
      + rewrite decide_False; [lia|]. intros Hin'. apply elem_of_cons in Hin' as [[= <- _]|?]; done. }
  specialize (Hgen E Hnd (fun y Hy => proj1 (Hx y) Hy)). rewrite decide_True in Hgen; [lia|]. by apply Hx.
Qed.
End count.

Lemma generate_count (m : mode) rng w h : 1 <= w -> 1 <= h -> storable m w h -> exists g d t,
  generate_calls m rng w h = Ret (g, d, t) /\ d = star (w * h) /\ Forall (fun k => 1 <= k <= 2) t /\
  length t = 4 * shared_sides w h + 2 * (w * h - 1) /\ sum_list t = helper_calls w h.
Proof.
  intros Hw Hh Hst. pose proof (n_pos w h Hw Hh) as Hn.
  unfold generate_calls. rewrite n_mul_small by (apply (n_small m w h Hw Hh Hst); lia). cbn [bind].
  destruct (backtrack_calls_count m w h Hw Hh Hst rng (2 * (w * h) + 1) [0] [0] (replicate (w * h) maze_node_new) (with_size (w * h)) []
    (replicate (w * h) [Right; Down; Left; Up]) 0 []) as (g&d&t&E&vs&Er&HI&HS&HE&Hall&Ht&H1&H2).
  - by apply gi_start.
  - by apply si_start.
  - apply start_li.
  - done.
  - apply Forall_nil_2.
  - cbn [length]. lia.
  - exists g, d, t. split; [done|]. split; [by eapply si_end|]. split; [done|].
    pose proof (si_end _ _ _ HS Hall) as Hd. pose proof (si_root _ _ _ HS) as Hr. rewrite Hd in Hr. injection Hr as Hlv.
    assert (length E = w * h - 1) as HlE by (rewrite HE, app_length, fmap_length in Hlv; cbn in Hlv; lia).
    rewrite all_start in H1, H2 by done. destruct (present_sum w h Hw Hh) as (P1&P2&P3&P4). destruct (weight_sum w h Hw Hh) as (W1&W2&W3&W4).
    rewrite P1, P2, P3, P4 in H2. unfold shared_sides. cbn in H2. split; [lia|].
    cbn in H1. destruct (decide (w * h = 1)) as [H11|H11].
    { assert (E = []) as -> by (destruct E; [done|cbn in HlE; lia]). cbn in H1.
      assert (w = 1) as -> by nia. assert (h = 1) as -> by lia. change (helper_calls 1 1) with 0. unfold least in *. cbn in W1, W2, W3, W4, H1. lia. }
    assert (total base E.*1 + 1 = 2 * length E) as HB.
    { destruct (gen_dfs m w h Hw Hh Hst rng) as (mz&Eg&Hlen&Hwl&Hpf&Hdf).
      pose proof (generate_same m rng w h) as Es. unfold generate_calls in Es. rewrite n_mul_small in Es by (apply (n_small m w h Hw Hh Hst); lia).
      cbn [bind] in Es. rewrite Er, Eg in Es. cbn [forget bind] in Es. injection Es as <-.
      destruct (dead_end w h g Hw Hh ltac:(lia) Hlen Hpf Hdf) as [x Hx]. pose proof (si_nodup _ _ _ HS) as Hnd. rewrite HE in Hnd.
      apply NoDup_app in Hnd as (Hnd&H0&_). refine (from_zero w h Hw Hh E x _ Hnd). intros y. rewrite <-Hx. split.
      - apply HI.
      - intros [Hy|Hy]%(gi_joined _ _ _ _ _ _ HI); [done|]. exfalso. apply (H0 0); [|by apply elem_of_list_singleton].
        apply elem_of_list_fmap. by exists (y, 0). }
    assert (sum_list t + 2 * least 2 w + 2 * least 2 h + 1 = 8 * ((w - 1) * h) + 8 * (w * (h - 1)) + 2 * (w * h - 1)) as HT by lia.
    clear - HT Hw Hh H11. unfold helper_calls, least in *. destruct (decide (w = 1 /\ h = 1)) as [[-> ->]|_]; [lia|].
    destruct (decide (w = 1 \/ h = 1)) as [[-> | ->]|Hd1].
    + destruct (Nat.leb_spec 2 h); cbn in HT; lia.
    + destruct (Nat.leb_spec 2 w); cbn in HT; lia.
    + destruct (Nat.leb_spec 2 h); [|lia]. destruct (Nat.leb_spec 2 w); [|lia].
      destruct w as [|w']; [lia|]. destruct h as [|h']; [lia|]. cbn [Nat.sub] in HT. rewrite !Nat.sub_0_r in HT. nia.
Qed.

Lemma generate_erase m rng w h :
  match generate_calls m rng w h with
  | Ret (g, _, _) => recursive_backtrack m rng w h = Ret g
  | Fault f => recursive_backtrack m rng w h = Fault f
  end.
Proof. rewrite <-generate_same. by destruct (generate_calls m rng w h) as [[[g d] t]|f]. Qed.
Lemma generate_calls_count (m : mode) rng w h : 1 <= w -> 1 <= h -> storable m w h ->
  exists g t, generate_calls m rng w h = Ret (g, star (w * h), t) /\
    length t = 4 * shared_sides w h + 2 * (w * h - 1) /\
    Forall (fun k => 1 <= k <= 2) t /\ sum_list t = helper_calls w h.
Proof.
  intros Hw Hh Hst. destruct (generate_count m rng w h Hw Hh Hst) as (g&d&t&E&->&Ht&Hl&Hs). exists g, t. done.
Qed.
