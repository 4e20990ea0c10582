(** Proofs for C92: every walk that visits no cell twice is part of a generated
    maze; C93: which columns can have the exit. *)
From Verif Require Import Base Util DisjointSet Maze SpecMaze SpecMazeDfs SpecMazeWalk MazeTree MazeGen MazeDfs.
From Verif Require MazeProofs MazeDfsProofs MazeTour.

(** * Following a walk *)

Section walk.
Context (m : mode) (w h : nat).
Context (Hw : 1 <= w) (Hh : 1 <= h) (Hst : storable m w h).
Local Notation n := (w * h).
Local Notation GI := (GI w h).
Local Notation LI := (LI w h).
Local Notation nb := (nb w h).

Lemma backtrack_keeps rng : forall fuel stack vs mz d E visit k,
  GI vs mz d E -> LI stack vs visit -> 2 * (n - length vs) + length stack < fuel + 1 ->
  exists mz', backtrack_loop m rng fuel w h stack (GState mz d visit k) = Ret mz' /\
    forall a b, joined w mz a b -> joined w mz' a b.
Proof.
  induction fuel as [|fuel IH]; intros stack vs mz d E visit k HI HL Hf.
  - assert (stack = []) as -> by (destruct stack; [done|cbn in Hf; lia]). cbn. eauto.
  - destruct stack as [|c rest]; [cbn; eauto|].
    pose proof (vs_le w h Hw Hh _ _ _ _ HI) as Hvn.
    destruct (step_cases m w h Hw Hh Hst rng fuel c rest vs mz d E visit k HI HL)
      as [(d'&k'&Hall&->&HI'&HL')|(dir&x&d'&vis'&k'&Hg&Hx&->&HI'&HL')].
    + apply (IH _ vs _ _ E); [done|done|cbn in Hf; lia].
    + pose proof (vs_le w h Hw Hh _ _ _ _ HI') as Hvn'.
      destruct (IH (x :: c :: rest) (x :: vs) _ _ ((c, x) :: E) _ k' HI' HL') as (mz'&E1&Hk); [cbn in *; lia|].
      exists mz'. split; [done|]. intros a b Hab. apply Hk.
      apply (opened_joined w h Hw Hh dir c x mz (gi_len _ _ _ _ _ _ HI) Hg). by left.
Qed.

Lemma backtrack_walk : forall p fuel c rest vs mz d E visit k,
  GI vs mz d E -> LI (c :: rest) vs visit -> 2 * (n - length vs) + length (c :: rest) < fuel + 1 ->
  NoDup p -> (forall x, x ∈ p -> x ∉ vs) ->
  (forall i a b, (c :: p) !! i = Some a -> (c :: p) !! S i = Some b -> nb a b) ->
  exists rng mz', backtrack_loop m rng fuel w h (c :: rest) (GState mz d visit k) = Ret mz' /\
    (forall a b, joined w mz a b -> joined w mz' a b) /\
    (forall i a b, (c :: p) !! i = Some a -> (c :: p) !! S i = Some b -> joined w mz' a b).
Proof.
  induction p as [|x p IH]; intros fuel c rest vs mz d E visit k HI HL Hf Hnd Hp Hnb.
  - exists (fun _ => 0). destruct (backtrack_keeps (fun _ => 0) fuel (c :: rest) vs mz d E visit k HI HL Hf) as (mz'&E1&Hk).
    exists mz'. split_and!; [done|done|]. intros [|i] a b Ha Hb; done.
  - assert (x ∉ vs) as Hx by (apply Hp, elem_of_list_here). pose proof (vs_le w h Hw Hh _ _ _ _ HI) as Hvn.
    destruct fuel as [|fuel]; [cbn in Hf; lia|]. destruct (Hnb 0 c x eq_refl eq_refl) as (dir&Hg).
    destruct (step_open m w h Hw Hh Hst fuel c rest vs mz d E visit k dir x HI HL Hg Hx) as (draw&d'&vis'&Hstep&HI'&HL').
    pose proof (vs_le w h Hw Hh _ _ _ _ HI') as Hvn'. apply NoDup_cons in Hnd as [Hxp Hnd].
    pose proof (opened_joined w h Hw Hh dir c x mz (gi_len _ _ _ _ _ _ HI) Hg) as Hop.
    destruct (IH fuel x (c :: rest) (x :: vs) _ _ _ _ (S k) HI' HL') as (rng&mz'&E1&Hk&Hj).
    + cbn in *. lia.
    + done.
    + intros y Hy Hin. apply elem_of_cons in Hin as [->|Hin]; [done|]. apply (Hp y); [|done]. apply elem_of_cons. by right.
    + intros i a b Ha Hb. by apply (Hnb (S i)).
    + exists (fun i => if Nat.eqb i k then draw else rng i), mz'. split_and!.
      * rewrite Hstep by (by rewrite Nat.eqb_refl). rewrite <-E1. apply (backtrack_ext m w h Hw Hh). intros i Hi.
        destruct (Nat.eqb_spec i k); [lia|done].
      * intros a b Hab. apply Hk, Hop. by left.
      * intros [|i] a b Ha Hb; [|by apply (Hj i)]. injection Ha as <-. injection Hb as <-. apply Hk, Hop. right. by left.
Qed.

Lemma walk_generated l : simple_walk w h l -> exists rng mz, recursive_backtrack m rng w h = Ret mz /\
  forall k i j, l !! k = Some i -> l !! S k = Some j -> joined w mz i j.
Proof.
  intros (Hhd&Hnd&Hnb). destruct l as [|x p]; [done|]. injection Hhd as ->. apply NoDup_cons in Hnd as [H0 Hnd].
  unfold recursive_backtrack. pose proof (n_pos w h Hw Hh) as Hn.
  rewrite n_mul_small by (apply (n_small m w h Hw Hh Hst); lia). cbn [bind].
  destruct (backtrack_walk p (2 * n + 1) 0 [] [0] (replicate n maze_node_new) (with_size n) []
    (replicate n [Right; Down; Left; Up]) 0) as (rng&mz&E&_&Hj).
  - by apply gi_start.
  - by apply start_li.
  - cbn [length]. lia.
  - done.
  - intros y Hy ->%elem_of_list_singleton. done.
  - intros i a b Ha Hb. destruct (Hnb i a b Ha Hb) as [H|H]; [|apply nb_sym]; by apply neighbours_nb.
  - exists rng, mz. done.
Qed.
End walk.

Lemma create_walk (m : mode) w h l : 1 <= w -> 1 <= h -> storable m w h -> simple_walk w h l ->
  exists rng g sol, create_maze m rng w h = Ret (g, sol) /\
    forall k i j, l !! k = Some i -> l !! S k = Some j -> joined w g i j.
Proof.
  intros Hw Hh Hst Hl. destruct (walk_generated m w h Hw Hh Hst l Hl) as (rng&mz&E&Hj).
  destruct (gen_dfs m w h Hw Hh Hst rng) as (mz'&E2&Hlen&_). rewrite E in E2. injection E2 as <-.
  destruct (MazeDfsProofs.create_from m rng w h mz Hw Hh Hst E) as (e&sol&He&E').
  exists rng, (open_d e mz), sol. split; [done|]. intros k i j Hi Hj'.
  apply (MazeProofs.exit_joined m rng w h _ _ E' mz e Hlen He). by apply (Hj k).
Qed.

(** * The way to the exit *)

Lemma path_simplify (R : nat -> nat -> Prop) l : forall i j, path R i l j ->
  exists l', path R i l' j /\ NoDup l' /\ length l' <= length l.
Proof.
  induction l as [|x l IH]; intros i j Hp; [by destruct Hp|].
  pose proof Hp as (H1&H2&_). injection H1 as ->. destruct l as [|y l].
  - injection H2 as ->. exists [j]. split_and!; [apply path_single|apply NoDup_singleton|done].
  - apply path_tail in Hp as [HR Hp]. destruct (IH _ _ Hp) as (l'&Hp'&Hnd&Hle).
    destruct (decide (i ∈ l')) as [Hin|Hin].
    + apply elem_of_list_split in Hin as (l1&l2&->). exists (i :: l2). split_and!.
      * destruct Hp' as (_&Hl&Hk). split_and!; [done| |].
        -- rewrite last_app_cons in Hl. done.
        -- intros k a b Ha Hb. apply (Hk (length l1 + k)).
           ++ rewrite lookup_app_r by lia. rewrite <-Ha. f_equal. lia.
           ++ rewrite lookup_app_r by lia. rewrite <-Hb. f_equal. lia.
      * by apply NoDup_app in Hnd as (_&_&?).
      * rewrite app_length in Hle. cbn [length] in *. lia.
    + exists (i :: l'). split_and!; [by eapply path_cons|by apply NoDup_cons|]. cbn [length] in *. lia.
Qed.

Section exit.
Context (m : mode) (rng : nat -> nat) (w h : nat) (g : list maze_node) (sol : list direction).
Context (Hst : storable m w h) (Hrun : create_maze m rng w h = Ret (g, sol)).
Local Notation n := (w * h).

Lemma one_path b l l' : b < n -> path (joined w g) 0 l b -> NoDup l -> path (joined w g) 0 l' b -> NoDup l' -> l = l'.
Proof.
  intros Hb H1 H2 H3 H4. destruct (MazeProofs.create_perfect m rng w h g sol Hst Hrun 0 b) as (l0&_&Hu); [lia|done|].
  rewrite (Hu l), (Hu l') by done. done.
Qed.

(** No cell of the last row has a longer way than the exit. *)
Lemma exit_far e b l l' : is_exit w h g e -> in_last_row w h b -> path (joined w g) 0 l e -> NoDup l ->
  path (joined w g) 0 l' b -> NoDup l' -> length l' <= length l.
Proof.
  intros He Hb H1 H2 H3 H4. destruct (MazeProofs.create_shortest m rng w h g sol Hst Hrun) as (e'&He'&_&Hmin&Hfar).
  assert (e' = e) as ->.
  { destruct He as [Hr He], He' as [Hr' He'].
    destruct (lookup_lt_is_Some_2 g e') as [nd Hnd].
    { rewrite (MazeProofs.create_length m rng w h g sol Hst Hrun). apply Hr'. }
    apply (He e' nd); [done|done|]. by apply (He' e' nd). }
  destruct (Hfar b Hb) as (q&Hq&Hle). destruct (path_simplify _ _ _ _ Hq) as (q'&Hq'&Hnd&Hle').
  rewrite (one_path b l' q'); [|apply Hb|done|done|done|done]. specialize (Hmin l H1). lia.
Qed.

Lemma prefix_path l1 c l2 e : path (joined w g) 0 (l1 ++ c :: l2) e -> NoDup (l1 ++ c :: l2) ->
  path (joined w g) 0 (l1 ++ [c]) c /\ NoDup (l1 ++ [c]).
Proof.
  intros Hp Hnd. split; [by apply path_split in Hp as [Hp _]|].
  replace (l1 ++ c :: l2) with ((l1 ++ [c]) ++ l2) in Hnd by (by rewrite <-app_assoc). by apply NoDup_app in Hnd as [? _].
Qed.

(** The neighbours of the exit in the last row are on the way to it. *)
Lemma exit_neighbour e b l : is_exit w h g e -> in_last_row w h b -> b <> e ->
  neighbours w h e b \/ neighbours w h b e -> path (joined w g) 0 l e -> NoDup l -> b ∈ l.
Proof.
  intros He Hb Hne Hnb Hp Hnd. pose proof (MazeDfsProofs.create_dfs m rng w h g sol Hst Hrun) as Hd.
  assert (ancestor w g b e \/ ancestor w g e b) as [(l'&Hp'&Hnd'&Hin)|(l'&Hp'&Hnd'&Hin)].
  { destruct Hnb as [Hnb|Hnb]; apply Hd in Hnb; tauto. }
  - rewrite (one_path e l l'); [done|apply He|done|done|done|done].
  - exfalso. apply elem_of_list_split in Hin as (l1&l2&->).
    destruct (prefix_path _ _ _ _ Hp' Hnd') as [Hp1 Hnd1].
    assert (l1 ++ [e] = l) as <- by (apply (one_path e); [apply He|done..]).
    pose proof (exit_far e b _ _ He Hb Hp Hnd Hp' Hnd') as Hle. rewrite !app_length in Hle. cbn [length] in Hle.
    destruct l2 as [|x l2]; [|cbn [length] in Hle; lia]. destruct Hp' as (_&Hl&_). rewrite last_snoc in Hl. congruence.
Qed.

(** A cell on the way to [e] with no neighbours but [a] and [e]. *)
Lemma way_end a c e l : c <> 0 -> c <> e -> (forall x, joined w g c x -> x = a \/ x = e) ->
  path (joined w g) 0 l e -> NoDup l -> c ∈ l -> exists t, l = t ++ [a; c; e].
Proof.
  intros Hc0 Hce Hside Hp Hnd Hin. apply elem_of_list_split in Hin as (l1&l2&->).
  pose proof Hp as (Hhd&Hl&Hk).
  assert (l1 <> []) as Hl1 by (intros ->; cbn in Hhd; congruence).
  destruct (exists_last Hl1) as (t&p&->).
  destruct l2 as [|s l2]; [rewrite last_snoc in Hl; congruence|].
  assert (joined w g p c) as Hpc.
  { apply (Hk (length t)).
    - rewrite <-app_assoc. rewrite lookup_app_r by lia. by rewrite Nat.sub_diag.
    - rewrite <-app_assoc. rewrite lookup_app_r by lia. by replace (S (length t) - length t) with 1 by lia. }
  assert (joined w g c s) as Hcs.
  { apply (Hk (S (length t))).
    - rewrite <-app_assoc. rewrite lookup_app_r by lia. by replace (S (length t) - length t) with 1 by lia.
    - rewrite <-app_assoc. rewrite lookup_app_r by lia. by replace (S (S (length t)) - length t) with 2 by lia. }
  rewrite <-app_assoc in Hnd, Hl. cbn [app] in Hnd, Hl. apply NoDup_app in Hnd as (_&_&Hnd).
  apply NoDup_cons in Hnd as [Hpn Hnd]. apply NoDup_cons in Hnd as [Hcn Hnd]. apply NoDup_cons in Hnd as [Hsn Hnd].
  rewrite last_app_cons in Hl. assert (last (s :: l2) = Some e) as Hl' by (by destruct l2).
  assert (e ∈ s :: l2) as He by (by apply last_Some_elem_of).
  assert (p <> e) as Hpe by (intros ->; apply Hpn; rewrite elem_of_cons; by right).
  assert (p <> s) as Hps by (intros ->; apply Hpn; rewrite !elem_of_cons; tauto).
  destruct (Hside p (jsym _ _ _ _ Hpc)) as [->|?]; [|done].
  destruct (Hside s Hcs) as [-> | ->]; [done|].
  destruct l2 as [|y l2]; [exists t; by rewrite <-app_assoc|]. exfalso. apply Hsn.
  assert (last (y :: l2) = Some e) as H by done. by apply last_Some_elem_of.
Qed.
End exit.

(** * Columns without exit *)

Lemma no_jump (R : nat -> nat -> Prop) l : (forall a b, R a b -> b <= a + 1) -> forall i j, path R i l j ->
  forall x, i <= x <= j -> x ∈ l.
Proof.
  intros HR. induction l as [|y l IH]; intros i j Hp x Hx; [by destruct Hp|].
  pose proof Hp as (H1&H2&_). injection H1 as ->. destruct l as [|y l].
  - injection H2 as ->. assert (x = j) as -> by lia. apply elem_of_list_here.
  - apply path_tail in Hp as [Hy Hp]. apply elem_of_cons. destruct (decide (x = i)) as [|Hne]; [by left|right].
    apply (IH _ _ Hp). specialize (HR _ _ Hy). lia.
Qed.

Lemma columns_only (m : mode) rng w h g sol e : storable m w h -> create_maze m rng w h = Ret (g, sol) -> is_exit w h g e ->
  exit_column w h (e mod w).
Proof.
  intros Hst Hrun He. destruct (MazeProofs.create_dims m rng w h g sol Hrun) as [Hw Hh].
  pose proof He as [[Hen Her] _]. pose proof (Nat.mod_upper_bound e w ltac:(lia)) as Hx.
  pose proof (Nat.div_mod e w ltac:(lia)) as Ee. rewrite Her in Ee. set (x := e mod w) in *.
  pose proof (MazeProofs.create_length m rng w h g sol Hst Hrun) as Hlen.
  destruct (MazeProofs.create_perfect m rng w h g sol Hst Hrun 0 e) as (l&[Hp Hnd]&_); [lia|done|].
  assert (forall y, y < w -> in_last_row w h (w * (h - 1) + y)) as Hrow.
  { intros y Hy. split; [nia|]. rewrite Nat.mul_comm, Nat.add_comm, Nat.div_add, Nat.div_small by lia. done. }
  assert (forall y, S y < w -> neighbours w h (w * (h - 1) + y) (w * (h - 1) + S y)) as Hnb.
  { intros y Hy. destruct (Hrow y) as [H1 H2]; [lia|]. destruct (Hrow (S y)) as [H3 H4]; [lia|].
    split_and!; [done|done|]. left. split; [lia|congruence]. }
  split; [done|]. split.
  - intros ->. destruct (decide (x = w - 1)) as [|Hne]; [done|]. exfalso.
    assert (e + 1 ∈ l) as Hin.
    { apply (exit_neighbour m rng w 1 g sol Hst Hrun e (e + 1) l He); [|lia| |done|done].
      - pose proof (Hrow (x + 1) ltac:(lia)) as H. replace (w * (1 - 1) + (x + 1)) with (e + 1) in H by lia. done.
      - left. pose proof (Hnb x ltac:(lia)) as H. replace (w * (1 - 1) + x) with e in H by lia.
        replace (w * (1 - 1) + S x) with (e + 1) in H by lia. done. }
    apply elem_of_list_split in Hin as (l1&l2&->). destruct (prefix_path w g _ _ _ _ Hp Hnd) as [Hp1 _].
    assert (e ∈ l1 ++ [e + 1]) as Hin.
    { eapply (no_jump (joined w g)); [|exact Hp1|lia]. intros a b Hab.
      destruct (joined_nb w 1 Hw Hh g a b Hlen Hab) as ([]&Ha&Hb&Hg); cbn in Hg; unfold beside, below in Hg; lia. }
    apply elem_of_app in Hin as [Hin|Hin]; [|apply elem_of_list_singleton in Hin; lia].
    destruct Hp as (_&Hl&_). rewrite last_app_cons in Hl.
    assert (e ∈ e + 1 :: l2) as Hin2 by (by apply last_Some_elem_of).
    apply NoDup_app in Hnd as (_&Hd&_). by apply (Hd e).
  - intros H2 Hx1. destruct (decide (w = 2)) as [|Hw2]; [by left|right]. rewrite Hx1 in *.
    set (c := w * (h - 1)) in *.
    assert (w * h = c + w) as Hn by (unfold c; nia).
    assert (c mod w = 0) as Hcm by (unfold c; rewrite Nat.mul_comm; apply Nat.mod_mul; lia).
    assert (w <= c) as Hcw by (unfold c; nia).
    assert (exists t, l = t ++ [c - w; c; e]) as (t&Ht).
    { apply (way_end w g (c - w) c e l); [lia|lia| |done|done|].
      - intros y Hy. destruct (joined_nb w h Hw Hh g c y Hlen Hy) as ([]&_&Hyn&Hg); cbn in Hg; unfold beside, below in Hg.
        + right. lia.
        + lia.
        + exfalso. destruct Hg as [Hg1 Hg2]. assert (1 <= c) as Hc1 by lia.
          apply (beside_iff_left w h Hw Hh c Hc1); [|done]. replace (c - 1) with y by lia. by split.
        + left. lia.
      - apply (exit_neighbour m rng w h g sol Hst Hrun e c l He); [|lia| |done|done].
        + pose proof (Hrow 0 ltac:(lia)) as H. by rewrite Nat.add_0_r in H.
        + right. pose proof (Hnb 0 ltac:(lia)) as H. rewrite Nat.add_0_r in H. by rewrite Ee. }
    assert (c + 2 ∈ l) as Hin.
    { apply (exit_neighbour m rng w h g sol Hst Hrun e (c + 2) l He); [apply Hrow; lia|lia| |done|done].
      left. rewrite Ee. apply (Hnb 1). lia. }
    split.
    + destruct (decide (w = 3)) as [Hw3|]; [|lia]. exfalso.
      destruct (way_end w g (c + 2 - w) (c + 2) e l) as (t'&Ht'); [lia|lia| |done|done|done|].
      * intros y Hy. destruct (joined_nb w h Hw Hh g (c + 2) y Hlen Hy) as ([]&_&Hyn&Hg); cbn in Hg; unfold beside, below in Hg; lia.
      * rewrite Ht in Ht'. apply app_inj_2 in Ht' as [_ [= ? ?]]; [lia|done].
    + destruct (decide (h = 2)) as [Hh2|]; [|lia]. exfalso.
      assert (c - w = 0) as E0 by (unfold c; rewrite Hh2; nia). rewrite E0 in Ht.
      destruct t as [|y t].
      * rewrite Ht in Hin. cbn [app] in Hin. rewrite !elem_of_cons in Hin. destruct Hin as [?|[?|[?|H%elem_of_nil]]]; [lia|lia|lia|done].
      * destruct Hp as (Hhd&_). rewrite Ht in Hhd, Hnd. injection Hhd as ->. cbn [app] in Hnd.
        apply NoDup_cons in Hnd as [Hnd _]. apply Hnd. apply elem_of_app. right. apply elem_of_list_here.
Qed.

(** * Walks along the last row *)

Section coords.
  Context (w h L : nat) (Hw : 1 <= w) (Hh : 1 <= h) (c : nat -> nat * nat).
  Context (HL : 1 <= L) (Hb : forall k, k < L -> fst (c k) < w /\ snd (c k) < h).
  Context (H0 : c 0 = (0, 0)).
  Context (Hinj : forall k k', k < k' -> k' < L -> fst (c k) = fst (c k') -> snd (c k) = snd (c k') -> False).
  Context (Hadj : forall k, S k < L ->
    (snd (c (S k)) = snd (c k) /\ (fst (c (S k)) = S (fst (c k)) \/ fst (c k) = S (fst (c (S k))))) \/
    (fst (c (S k)) = fst (c k) /\ (snd (c (S k)) = S (snd (c k)) \/ snd (c k) = S (snd (c (S k)))))).

  Definition coords_walk : list nat := map (fun k => MazeTour.cell w (c k)) (seq 0 L).

  Lemma walk_lookup k i : coords_walk !! k = Some i <-> k < L /\ i = MazeTour.cell w (c k).
  Proof.
    unfold coords_walk. rewrite list_lookup_fmap, fmap_Some. split.
    - intros (k'&[-> Hk]%lookup_seq&->). done.
    - intros [Hk ->]. exists k. split; [|done]. by apply lookup_seq.
  Qed.
  Lemma walk_ok : simple_walk w h coords_walk.
  Proof.
    split_and!.
    - assert (coords_walk !! 0 = Some 0) as H; [|by destruct coords_walk]. apply walk_lookup. rewrite H0. split; [lia|done].
    - apply NoDup_alt. intros a b i [Ha ->]%walk_lookup [Hb' E]%walk_lookup.
      destruct (Hb a Ha) as [H1 _], (Hb b Hb') as [H2 _].
      assert (fst (c a) = fst (c b)) as E1.
      { rewrite <-(MazeTour.cell_col w Hw (c a)), <-(MazeTour.cell_col w Hw (c b)) by done. by rewrite E. }
      assert (snd (c a) = snd (c b)) as E2.
      { rewrite <-(MazeTour.cell_row w Hw (c a)), <-(MazeTour.cell_row w Hw (c b)) by done. by rewrite E. }
      destruct (lt_eq_lt_dec a b) as [[Hlt| ->]|Hlt]; [exfalso|done|exfalso].
      + by apply (Hinj a b).
      + by apply (Hinj b a).
    - intros k i j [Hk ->]%walk_lookup [Hk' ->]%walk_lookup. destruct (Hb k Hk) as [X1 Y1], (Hb (S k) Hk') as [X2 Y2].
      pose proof (MazeTour.cell_lt w Hw h _ X1 Y1) as L1. pose proof (MazeTour.cell_lt w Hw h _ X2 Y2) as L2.
      destruct (Hadj k Hk') as [[Hy [Hx|Hx]]|[Hx [Hy|Hy]]]; [left|right|left|right]; (split; [done|]; split; [done|]).
      + left. split; [unfold MazeTour.cell; rewrite Hy, Hx; lia|]. rewrite !(MazeTour.cell_row w Hw) by done. done.
      + left. split; [unfold MazeTour.cell; rewrite Hy, Hx; lia|]. rewrite !(MazeTour.cell_row w Hw) by done. done.
      + right. unfold below, MazeTour.cell. rewrite Hx, Hy. lia.
      + right. unfold below, MazeTour.cell. rewrite Hx, Hy. lia.
  Qed.

  (** A walk through all cells of the last row that ends there. *)
  Lemma walk_exit (m : mode) x : storable m w h -> (forall y, y < w -> exists k, k < L /\ c k = (y, h - 1)) ->
    c (L - 1) = (x, h - 1) ->
    exists rng g sol e, create_maze m rng w h = Ret (g, sol) /\ is_exit w h g e /\ e mod w = x.
  Proof.
    intros Hst Hall Hend. destruct (create_walk m w h coords_walk Hw Hh Hst walk_ok) as (rng&g&sol&Hrun&Hj).
    destruct (MazeProofs.create_shortest m rng w h g sol Hst Hrun) as (e&He&_).
    exists rng, g, sol, e. split; [done|]. split; [done|].
    assert (Hpre : forall k, k < L -> path (joined w g) 0 (take (S k) coords_walk) (MazeTour.cell w (c k)) /\
      NoDup (take (S k) coords_walk) /\ length (take (S k) coords_walk) = S k).
    { intros k Hk. pose proof walk_ok as (Hhd&Hnd&_).
      assert (length coords_walk = L) as Hl by (unfold coords_walk; by rewrite map_length, seq_length).
      split; [split_and!|split].
      - revert Hhd; by destruct coords_walk.
      - rewrite last_lookup, take_length, Nat.min_l by lia. cbn [pred]. rewrite lookup_take by lia. by apply walk_lookup.
      - intros a i j Hi Hj'. pose proof (lookup_lt_Some _ _ _ Hj') as Hlt. rewrite take_length in Hlt.
        rewrite lookup_take in Hi, Hj' by lia. by apply (Hj a).
      - rewrite <-(take_drop (S k) coords_walk) in Hnd. by apply NoDup_app in Hnd as [? _].
      - rewrite take_length. lia. }
    pose proof He as [[Hen Her] _]. pose proof (Nat.mod_upper_bound e w ltac:(lia)) as Hx.
    destruct (Hall _ Hx) as (k&Hk&Ek).
    assert (MazeTour.cell w (c k) = e) as Ece.
    { rewrite Ek. unfold MazeTour.cell. cbn [fst snd]. pose proof (Nat.div_mod e w ltac:(lia)) as E. rewrite Her in E. lia. }
    destruct (Hpre k Hk) as (P1&P2&P3). destruct (Hpre (L - 1) ltac:(lia)) as (Q1&Q2&Q3). rewrite Ece in P1.
    assert (S (L - 1) <= S k) as Hle.
    { rewrite <-P3, <-Q3. apply (exit_far m rng w h g sol Hst Hrun e (MazeTour.cell w (c (L - 1)))); [done| |done|done|done|done].
      destruct (Hb (L - 1) ltac:(lia)) as [X Y]. split; [by apply (MazeTour.cell_lt w Hw)|].
      rewrite (MazeTour.cell_row w Hw) by done. by rewrite Hend. }
    assert (k = L - 1) as -> by lia. rewrite Hend in Ek. by injection Ek.
  Qed.
End coords.

(** Down the first column and right. *)
Definition walk_last (w h k : nat) : nat * nat := if decide (k < h) then (0, k) else (k - (h - 1), h - 1).
Lemma column_last (m : mode) w h : 1 <= w -> 1 <= h -> storable m w h ->
  exists rng g sol e, create_maze m rng w h = Ret (g, sol) /\ is_exit w h g e /\ e mod w = w - 1.
Proof.
  intros Hw Hh Hst. apply (walk_exit w h (w + h - 1) Hw Hh (walk_last w h)); unfold walk_last.
  - lia.
  - intros k Hk. destruct (decide (k < h)); cbn; lia.
  - by rewrite decide_True by lia.
  - intros k k' Hk Hk'. destruct (decide (k < h)), (decide (k' < h)); cbn [fst snd]; lia.
  - intros k Hk. destruct (decide (k < h)), (decide (S k < h)); cbn [fst snd]; lia.
  - done.
  - intros y Hy. exists (h - 1 + y). split; [lia|]. destruct (decide _); f_equal; lia.
  - destruct (decide _); f_equal; lia.
Qed.

(** Along the first row, down the last column and left. *)
Definition walk_first (w h k : nat) : nat * nat :=
  if decide (k < w) then (k, 0) else
  if decide (k < w + h - 1) then (w - 1, k - (w - 1)) else (w - 1 - (k - (w + h - 2)), h - 1).
Lemma column_first (m : mode) w h : 2 <= w -> 2 <= h -> storable m w h ->
  exists rng g sol e, create_maze m rng w h = Ret (g, sol) /\ is_exit w h g e /\ e mod w = 0.
Proof.
  intros Hw Hh Hst. apply (walk_exit w h (w + h - 1 + (w - 1)) ltac:(lia) ltac:(lia) (walk_first w h)); unfold walk_first.
  - lia.
  - intros k Hk. repeat case_decide; cbn [fst snd]; lia.
  - by rewrite decide_True by lia.
  - intros k k' Hk Hk'. repeat case_decide; cbn [fst snd]; lia.
  - intros k Hk. repeat case_decide; cbn [fst snd]; lia.
  - done.
  - intros y Hy. exists (w + h - 2 + (w - 1 - y)). split; [lia|]. repeat case_decide; f_equal; lia.
  - repeat case_decide; f_equal; lia.
Qed.

(** Down the first column, right to column [x - 1], up, right along the row
    above the last one, down and left. *)
Definition walk_inner (w h x k : nat) : nat * nat :=
  if decide (k < h) then (0, k) else
  if decide (k < h + x - 1) then (k - (h - 1), h - 1) else
  if decide (k < h + w) then (k - h, h - 2) else (w - 1 - (k - (h + w)), h - 1).
Lemma column_inner (m : mode) w h x : 2 <= x -> x + 2 <= w -> 2 <= h -> storable m w h ->
  exists rng g sol e, create_maze m rng w h = Ret (g, sol) /\ is_exit w h g e /\ e mod w = x.
Proof.
  intros Hx Hw Hh Hst. apply (walk_exit w h (h + w + (w - x)) ltac:(lia) ltac:(lia) (walk_inner w h x)); unfold walk_inner.
  - lia.
  - intros k Hk. repeat case_decide; cbn [fst snd]; lia.
  - by rewrite decide_True by lia.
  - intros k k' Hk Hk'. repeat case_decide; cbn [fst snd]; lia.
  - intros k Hk. repeat case_decide; cbn [fst snd]; lia.
  - done.
  - intros y Hy. destruct (decide (y < x)).
    + exists (h - 1 + y). split; [lia|]. repeat case_decide; f_equal; lia.
    + exists (h + w + (w - 1 - y)). split; [lia|]. repeat case_decide; f_equal; lia.
  - repeat case_decide; f_equal; lia.
Qed.

(** Along the first row, down the last column, left to column 2, up, left along
    the row above the last one, down and right. *)
Definition walk_second (w h k : nat) : nat * nat :=
  if decide (k < w) then (k, 0) else
  if decide (k < w + h - 1) then (w - 1, k - (w - 1)) else
  if decide (k < 2 * w + h - 4) then (w - 1 - (k - (w + h - 2)), h - 1) else
  if decide (k < 2 * w + h - 1) then (2 - (k - (2 * w + h - 4)), h - 2) else (k - (2 * w + h - 1), h - 1).
Lemma column_second (m : mode) w h : 4 <= w -> 3 <= h -> storable m w h ->
  exists rng g sol e, create_maze m rng w h = Ret (g, sol) /\ is_exit w h g e /\ e mod w = 1.
Proof.
  intros Hw Hh Hst. apply (walk_exit w h (2 * w + h + 1) ltac:(lia) ltac:(lia) (walk_second w h)); unfold walk_second.
  - lia.
  - intros k Hk. repeat case_decide; cbn [fst snd]; lia.
  - by rewrite decide_True by lia.
  - intros k k' Hk Hk'. repeat case_decide; cbn [fst snd]; lia.
  - intros k Hk. repeat case_decide; cbn [fst snd]; lia.
  - done.
  - intros y Hy. destruct (decide (y < 2)).
    + exists (2 * w + h - 1 + y). split; [lia|]. repeat case_decide; f_equal; lia.
    + exists (w + h - 2 + (w - 1 - y)). split; [lia|]. repeat case_decide; f_equal; lia.
  - repeat case_decide; f_equal; lia.
Qed.

Lemma exit_columns (m : mode) w h x : 1 <= w -> 1 <= h -> storable m w h -> exit_column w h x <->
  exists rng g sol e, create_maze m rng w h = Ret (g, sol) /\ is_exit w h g e /\ e mod w = x.
Proof.
  intros Hw Hh Hst. split.
  - intros (Hx&H1&H2). destruct (decide (x = w - 1)) as [->|Hl]; [by apply column_last|].
    assert (2 <= h) as Hh2 by (destruct (decide (h = 1)); [|lia]; exfalso; auto).
    destruct (decide (x = 0)) as [->|Hx0]; [apply column_first; [lia|done|done]|].
    destruct (decide (x = 1)) as [->|Hx1]; [|apply column_inner; [lia|lia|done|done]].
    destruct (H2 Hh2 eq_refl) as [->|[H3 H4]]; [done|]. by apply column_second.
  - intros (rng&g&sol&e&Hrun&He&<-). by eapply columns_only.
Qed.

Lemma only_walks (m : mode) rng w h g sol l b : storable m w h -> create_maze m rng w h = Ret (g, sol) ->
  path (joined w g) 0 l b -> NoDup l -> simple_walk w h l.
Proof.
  intros Hst Hrun (Hhd&_&Hk) Hnd. destruct (MazeProofs.create_dims m rng w h g sol Hrun) as [Hw Hh]. split_and!; [done|done|].
  intros k i j Hi Hj. apply nb_neighbours, (joined_nb w h Hw Hh g); [|by apply (Hk k)].
  by eapply MazeProofs.create_length.
Qed.
