(** Proofs for C78: tours of the grid are generated; C77: the bounds for the
    length of the solution are attained. *)
From Verif Require Import Base Maze SpecMaze SpecMazeDfs SpecMazeTour.
From Verif Require Import MazeTree MazeDfs.
From Verif Require MazeProofs MazeDfsProofs.

Definition linked (l : list nat) (i j : nat) : Prop := next_in l i j \/ next_in l j i.

Lemma next_in_cons x c l a b : next_in (x :: c :: l) a b <-> next_in (c :: l) a b \/ (a = x /\ b = c).
Proof.
  split.
  - intros [[|k] [H1 H2]]; [right; by injection H1 as <-; injection H2 as <-|left; by exists k].
  - intros [(k&H)|[-> ->]]; [by exists (S k)|by exists 0].
Qed.
Lemma next_in_elem l a b : next_in l a b -> a ∈ l /\ b ∈ l.
Proof. intros (k&H1&H2). split; by eapply elem_of_list_lookup_2. Qed.
Lemma linked_tree l : NoDup l -> forall i j, i ∈ l -> j ∈ l -> unique_simple_path (linked l) i j.
Proof.
  induction l as [|x l IH]; intros Hnd; [intros i j Hi; by apply elem_of_nil in Hi|].
  apply NoDup_cons in Hnd as [Hx Hnd]. destruct l as [|c l].
  - intros i j Hi%elem_of_list_singleton Hj%elem_of_list_singleton. subst. exists [x].
    split; [split; [apply path_single|apply NoDup_singleton]|]. intros l' [Hp Hn]. by eapply path_loop.
  - apply (leaf_tree (linked (c :: l)) _ (c :: l) c x).
    + intros a b. unfold linked. tauto.
    + intros a b [[? ?]%next_in_elem|[? ?]%next_in_elem]; done.
    + apply elem_of_list_here.
    + done.
    + intros a b. unfold linked. rewrite !next_in_cons. tauto.
    + by apply IH.
Qed.

(** Positions change by one with each step. *)
Lemma linked_far l l' : NoDup l -> forall i j k a, path (linked l) i l' j -> l !! a = Some i -> l !! k = Some j ->
  k < a + length l'.
Proof.
  intros Hnd. induction l' as [|x l' IH]; intros i j k a Hp Hi Hj; [by destruct Hp|].
  pose proof Hp as (H1&H2&_). injection H1 as ->. destruct l' as [|y l'].
  - injection H2 as ->. rewrite (NoDup_lookup _ _ _ _ Hnd Hi Hj). cbn. lia.
  - apply path_tail in Hp as [HR Hp]. assert (exists b, l !! b = Some y /\ b <= S a) as (b&Hb&Hle).
    { destruct HR as [(b&Hb1&Hb2)|(b&Hb1&Hb2)].
      - rewrite (NoDup_lookup _ _ _ _ Hnd Hi Hb1). by exists (S b).
      - rewrite (NoDup_lookup _ _ _ _ Hnd Hi Hb2). exists b. split; [done|lia]. }
    pose proof (IH _ _ _ _ Hp Hb Hj). cbn [length] in *. lia.
Qed.
Lemma linked_take l k i j : head l = Some i -> l !! k = Some j -> path (linked l) i (take (S k) l) j.
Proof.
  intros Hi Hj. pose proof (lookup_lt_Some _ _ _ Hj) as Hl. split_and!.
  - by destruct l.
  - rewrite last_lookup, take_length, Nat.min_l by lia. cbn. by rewrite lookup_take by lia.
  - intros a x y Hx Hy. left. exists a. pose proof (lookup_lt_Some _ _ _ Hy) as Hlt. rewrite take_length in Hlt.
    rewrite lookup_take in Hx, Hy by lia. done.
Qed.

Section tour.
  Context (w h : nat) (l : list nat) (Hw : 1 <= w) (Hh : 1 <= h) (Ht : tour w h l).
  Notation n := (w * h).

  Lemma tour_nodup : NoDup l.
  Proof. destruct Ht as (_&Hp&_). rewrite Hp. apply NoDup_seq. Qed.
  Lemma tour_elem i : i ∈ l <-> i < n.
  Proof. destruct Ht as (_&Hp&_). rewrite Hp, elem_of_seq. lia. Qed.

  #[local] Instance next_in_dec i j : Decision (next_in l i j).
  Proof.
    destruct (decide (Exists (fun k => l !! k = Some i /\ l !! S k = Some j) (seq 0 (length l)))) as [e|e]; [left|right].
    - apply Exists_exists in e as (k&_&H). by exists k.
    - intros (k&H1&H2). apply e, Exists_exists. exists k. split; [|done].
      apply elem_of_seq. apply lookup_lt_Some in H1. lia.
  Defined.
  #[local] Instance beside_dec i j : Decision (beside w i j).
  Proof. unfold beside. apply _. Defined.
  #[local] Instance linked_dec i j : Decision (linked l i j).
  Proof. unfold linked. apply _. Defined.

  Definition tour_maze : list maze_node := map (fun i =>
    MazeNode (negb (bool_decide (linked l i (i + 1) /\ beside w i (i + 1)))) (negb (bool_decide (linked l i (i + w))))) (seq 0 n).

  Lemma tour_lookup i nd : tour_maze !! i = Some nd <-> i < n /\
    nd = MazeNode (negb (bool_decide (linked l i (i + 1) /\ beside w i (i + 1)))) (negb (bool_decide (linked l i (i + w)))).
  Proof.
    unfold tour_maze. rewrite list_lookup_fmap, fmap_Some. split.
    - intros (k&[-> Hk]%lookup_seq&->). done.
    - intros [Hi ->]. exists i. split; [|done]. by apply lookup_seq.
  Qed.
  Lemma tour_length : length tour_maze = n.
  Proof. unfold tour_maze. by rewrite map_length, seq_length. Qed.
  Lemma linked_lt i j : linked l i j -> i < n /\ j < n.
  Proof. intros [[H1 H2]%next_in_elem|[H1 H2]%next_in_elem]; apply tour_elem in H1, H2; done. Qed.
  Lemma tour_opening i j : opening w tour_maze i j <-> linked l i j /\ (beside w i j \/ below w i j).
  Proof.
    unfold opening. rewrite tour_length. split.
    - intros (Hj&nd&[Hi ->]%tour_lookup&[[H1 H2]|[H1 H2]]); cbn in H1; apply negb_false_iff, bool_decide_eq_true in H1.
      + pose proof H2 as [-> _]. split; [apply H1|by left].
      + rewrite H2. split; [done|by right].
    - intros [Hl Hd]. destruct (linked_lt _ _ Hl) as [Hi Hj]. split; [done|]. eexists. split; [by apply tour_lookup|]. cbn.
      destruct Hd as [Hd|Hd]; [left|right]; (split; [|done]); apply negb_false_iff, bool_decide_eq_true.
      + pose proof Hd as [-> _]. done.
      + rewrite <-Hd. done.
  Qed.
  Lemma tour_joined i j : joined w tour_maze i j <-> linked l i j.
  Proof.
    unfold joined. rewrite !tour_opening. split; [unfold linked; tauto|]. intros Hl.
    assert (neighbours w h i j \/ neighbours w h j i) as Hd.
    { destruct Hl as [H|H]; apply (proj2 (proj2 Ht)) in H; tauto. }
    destruct Hd as [(_&_&Hd)|(_&_&Hd)]; [by left|]. right. split; [unfold linked in *; tauto|done].
  Qed.
  Lemma tour_perfect : perfect w h tour_maze.
  Proof.
    intros i j Hi Hj. eapply MazeProofs.unique_ext; [|apply linked_tree; [apply tour_nodup|by apply tour_elem..]].
    intros a b. by rewrite tour_joined.
  Qed.
  Lemma tour_dfs : depth_first w h tour_maze.
  Proof.
    assert (forall i j a b, l !! a = Some i -> l !! b = Some j -> a <= b -> ancestor w tour_maze i j) as H.
    { intros i j a b Ha Hb Hab. exists (take (S b) l). split_and!.
      - eapply path_sub; [|apply linked_take; [apply Ht|done]]. intros x y. apply tour_joined.
      - pose proof tour_nodup as Hnd. rewrite <-(take_drop (S b) l) in Hnd. by apply NoDup_app in Hnd as [? _].
      - apply elem_of_list_lookup. exists a. rewrite lookup_take by lia. done. }
    intros i j (Hi&Hj&_). apply tour_elem in Hi, Hj. apply elem_of_list_lookup in Hi as [a Ha].
    apply elem_of_list_lookup in Hj as [b Hb]. destruct (decide (a <= b)); [left|right]; eapply H; try done. lia.
  Qed.
  Lemma tour_walled : walled w h tour_maze.
  Proof.
    split; intros i nd [Hi Hc] [_ ->]%tour_lookup; cbn; apply negb_true_iff, bool_decide_eq_false.
    - intros [_ [_ E]]. pose proof (Nat.div_mod i w ltac:(lia)). pose proof (Nat.div_mod (i + 1) w ltac:(lia)).
      pose proof (Nat.mod_upper_bound (i + 1) w ltac:(lia)). rewrite <-E in H0. lia.
    - intros [_ Hl]%linked_lt. pose proof (Nat.div_mod i w ltac:(lia)). rewrite Hc in H. nia.
  Qed.

  Lemma tour_generated (m : mode) : storable m w h -> exists rng g sol, create_maze m rng w h = Ret (g, sol) /\
    (forall i j, joined w g i j <-> linked l i j) /\
    (exists e, in_last_row w h e /\ l !! length sol = Some e) /\
    forall k b, in_last_row w h b -> l !! k = Some b -> k <= length sol.
  Proof.
    intros Hst. destruct (MazeDfsProofs.create_every m w h tour_maze Hw Hh Hst tour_length tour_walled tour_perfect tour_dfs)
      as (rng&e&sol&He&E). exists rng, (with_exit e tour_maze), sol. split; [done|].
    assert (forall i j, joined w (with_exit e tour_maze) i j <-> linked l i j) as Hj.
    { intros i j. rewrite <-tour_joined. assert (forall i j, opening w (with_exit e tour_maze) i j <-> opening w tour_maze i j) as Ho.
      { intros a b. unfold opening, with_exit. rewrite imap_length, list_lookup_imap. split; intros (Hb&nd&Ha&Hd); (split; [done|]).
        - apply fmap_Some in Ha as (nd0&Ha&->). exists nd0. split; [done|]. destruct (Nat.eqb_spec a e) as [->|Hne]; cbn in Hd; [|done].
          destruct Hd as [Hd|[_ Hd]]; [by left|]. exfalso. rewrite tour_length in Hb. rewrite Hd in Hb.
          destruct He as [He1 He2]. pose proof (Nat.div_mod e w ltac:(lia)) as Hm. rewrite He2 in Hm. nia.
        - rewrite Ha. eexists. split; [done|]. destruct (Nat.eqb a e); cbn; tauto. }
      unfold joined. by rewrite !Ho. }
    destruct (MazeProofs.create_shortest _ _ _ _ _ _ Hst E) as (e'&[He' _]&(p&Hp&Hpl)&Hmin&Hfar).
    assert (forall i q j, path (joined w (with_exit e tour_maze)) i q j <-> path (linked l) i q j) as Hpath.
    { intros i q j. split; apply path_sub; intros a b; apply Hj. }
    pose proof (proj1 Ht) as Hhead. assert (l !! 0 = Some 0) as H0 by (by destruct l).
    assert (forall k b, in_last_row w h b -> l !! k = Some b -> k <= length sol) as Hmax.
    { intros k b Hb Hk. destruct (Hfar b Hb) as (q&Hq&Hle). apply Hpath in Hq.
      pose proof (linked_far l q tour_nodup _ _ _ _ Hq H0 Hk). lia. }
    split_and!; [done| |done]. exists e'. split; [done|]. pose proof (proj2 (tour_elem e') (proj1 He')) as [k Hk]%elem_of_list_lookup_1.
    pose proof (Hmax _ _ He' Hk) as Hle. pose proof (linked_take l k 0 e' Hhead Hk) as Hq. apply Hpath, Hmin in Hq.
    rewrite take_length in Hq. by replace (length sol) with k by lia.
  Qed.
End tour.

(** * Two tours given by coordinates *)

Section cell.
  Context (w : nat) (Hw : 1 <= w).
  Definition cell (p : nat * nat) : nat := fst p + snd p * w.
  Lemma cell_row p : fst p < w -> cell p / w = snd p.
  Proof. intros H. unfold cell. rewrite Nat.div_add, Nat.div_small by lia. done. Qed.
  Lemma cell_col p : fst p < w -> cell p mod w = fst p.
  Proof. intros H. unfold cell. rewrite Nat.mod_add, Nat.mod_small by lia. done. Qed.
  Lemma cell_lt h p : fst p < w -> snd p < h -> cell p < w * h.
  Proof. unfold cell. nia. Qed.
End cell.

Section coords.
  Context (w h : nat) (Hw : 1 <= w) (Hh : 1 <= h) (c : nat -> nat * nat).
  Context (Hb : forall k, k < w * h -> fst (c k) < w /\ snd (c k) < h).
  Context (H0 : c 0 = (0, 0)).
  Context (Hinj : forall k k', k < w * h -> k' < w * h -> c k = c k' -> k = k').
  Context (Hadj : forall k, S k < w * h ->
    (snd (c (S k)) = snd (c k) /\ (fst (c (S k)) = S (fst (c k)) \/ fst (c k) = S (fst (c (S k))))) \/
    (fst (c (S k)) = fst (c k) /\ (snd (c (S k)) = S (snd (c k)) \/ snd (c k) = S (snd (c (S k)))))).

  Definition coords_tour : list nat := map (fun k => cell w (c k)) (seq 0 (w * h)).

  Lemma coords_lookup k i : coords_tour !! k = Some i <-> k < w * h /\ i = cell w (c k).
  Proof.
    unfold coords_tour. rewrite list_lookup_fmap, fmap_Some. split.
    - intros (k'&[-> Hk]%lookup_seq&->). done.
    - intros [Hk ->]. exists k. split; [|done]. by apply lookup_seq.
  Qed.
  Lemma coords_ok : tour w h coords_tour.
  Proof.
    split_and!.
    - assert (coords_tour !! 0 = Some 0) as H; [|by destruct coords_tour]. apply coords_lookup. rewrite H0. split; [nia|done].
    - assert (NoDup coords_tour) as Hnd.
      { apply NoDup_alt. intros a b i [Ha ->]%coords_lookup [Hb' E]%coords_lookup. apply Hinj; [done|done|].
        destruct (Hb a Ha) as [H1 _], (Hb b Hb') as [H2 _]. apply injective_projections.
        - rewrite <-(cell_col w Hw (c a)), <-(cell_col w Hw (c b)) by done. by rewrite E.
        - rewrite <-(cell_row w Hw (c a)), <-(cell_row w Hw (c b)) by done. by rewrite E. }
      apply submseteq_Permutation_length_eq; [unfold coords_tour; by rewrite map_length|].
      apply NoDup_submseteq; [done|]. intros i [k [Hk ->]%coords_lookup]%elem_of_list_lookup. apply elem_of_seq.
      destruct (Hb k Hk). pose proof (cell_lt w Hw h (c k)). lia.
    - intros i j (k&[Hk ->]%coords_lookup&[Hk' ->]%coords_lookup). destruct (Hb k Hk) as [X1 Y1], (Hb (S k) Hk') as [X2 Y2].
      pose proof (cell_lt w Hw h _ X1 Y1) as L1. pose proof (cell_lt w Hw h _ X2 Y2) as L2.
      destruct (Hadj k Hk') as [[Hy [Hx|Hx]]|[Hx [Hy|Hy]]]; [left|right|left|right]; (split; [done|]; split; [done|]).
      + left. split; [unfold cell; rewrite Hy, Hx; lia|]. rewrite !(cell_row w Hw) by done. done.
      + left. split; [unfold cell; rewrite Hy, Hx; lia|]. rewrite !(cell_row w Hw) by done. done.
      + right. unfold below, cell. rewrite Hx, Hy. lia.
      + right. unfold below, cell. rewrite Hx, Hy. lia.
  Qed.
  Lemma coords_last_row k b : in_last_row w h b -> coords_tour !! k = Some b -> k < w * h /\ snd (c k) = h - 1.
  Proof. intros [_ Hr] [Hk ->]%coords_lookup. split; [done|]. destruct (Hb k Hk). by rewrite <-Hr, (cell_row w Hw). Qed.
  Lemma coords_row_last k : k < w * h -> snd (c k) = h - 1 -> in_last_row w h (cell w (c k)).
  Proof. intros Hk Hy. destruct (Hb k Hk). split; [by apply (cell_lt w Hw)|]. by rewrite (cell_row w Hw). Qed.
End coords.

Lemma even_S' n : Nat.even (S n) = negb (Nat.even n).
Proof. by rewrite Nat.even_succ, <-Nat.negb_even. Qed.
(** Position [k + 1] in rows of length [w]. *)
Lemma next_pos w k : 1 <= w -> (S (k mod w) < w /\ S k mod w = S (k mod w) /\ S k / w = k / w) \/
  (S (k mod w) = w /\ S k mod w = 0 /\ S k / w = S (k / w)).
Proof.
  intros Hw. pose proof (Nat.div_mod k w ltac:(lia)) as E. pose proof (Nat.mod_upper_bound k w ltac:(lia)) as Hu.
  destruct (decide (S (k mod w) < w)) as [H|H]; [left|right]; split; [done| |lia|].
  - assert (S k = S (k mod w) + k / w * w) as E' by lia. rewrite E'.
    rewrite Nat.mod_add, Nat.div_add, (Nat.mod_small (S _)), (Nat.div_small (S _)) by lia. done.
  - assert (S k = 0 + S (k / w) * w) as E' by lia. rewrite E'.
    rewrite Nat.mod_add, Nat.div_add, (Nat.mod_small 0), (Nat.div_small 0) by lia. done.
Qed.
Lemma same_pos w k k' : 1 <= w -> k mod w = k' mod w -> k / w = k' / w -> k = k'.
Proof.
  intros Hw H1 H2. pose proof (Nat.div_mod k w ltac:(lia)). pose proof (Nat.div_mod k' w ltac:(lia)). rewrite H1, H2 in H. lia.
Qed.

(** Row by row, alternately to the right and to the left. *)
Definition snake (w k : nat) : nat * nat :=
  (if Nat.even (k / w) then k mod w else w - 1 - k mod w, k / w).
Lemma longest (m : mode) w h : 1 <= w -> 1 <= h -> storable m w h -> exists rng g sol, create_maze m rng w h = Ret (g, sol) /\ length sol = w * h - 1.
Proof.
  intros Hw Hh Hst.
  assert (forall k, k < w * h -> fst (snake w k) < w /\ snd (snake w k) < h) as Hb.
  { intros k Hk. pose proof (Nat.mod_upper_bound k w ltac:(lia)). cbn. split; [destruct (Nat.even _); lia|].
    apply Nat.div_lt_upper_bound; lia. }
  assert (tour w h (coords_tour w h (snake w))) as Ht.
  { apply coords_ok; [done|done|done|..].
    - unfold snake. by rewrite Nat.div_0_l, Nat.mod_0_l by lia.
    - intros k k' _ _ [= E1 E2]. rewrite E2 in E1. apply (same_pos w); [done| |done].
      pose proof (Nat.mod_upper_bound k w ltac:(lia)). pose proof (Nat.mod_upper_bound k' w ltac:(lia)).
      destruct (Nat.even (k' / w)); lia.
    - intros k Hk. unfold snake. cbn [fst snd]. destruct (next_pos w k Hw) as [(H1&->&->)|(H1&->&->)].
      + left. split; [done|]. destruct (Nat.even _); lia.
      + right. rewrite even_S'. destruct (Nat.even _); cbn [negb]; lia. }
  destruct (tour_generated w h _ Hw Hh Ht m Hst) as (rng&g&sol&E&_&(e&_&He)&Hmax). exists rng, g, sol. split; [done|].
  apply coords_lookup in He as [He _]. assert (w * h - 1 < w * h) as Hk by nia.
  assert (snd (snake w (w * h - 1)) = h - 1) as Hr.
  { cbn. replace (w * h - 1) with ((w - 1) + (h - 1) * w) by nia. rewrite Nat.div_add, Nat.div_small by lia. done. }
  pose proof (Hmax (w * h - 1) _ (coords_row_last w h Hw _ Hb _ Hk Hr)) as Hge.
  feed pose proof Hge; [by apply coords_lookup|lia].
Qed.

Ltac hide k d :=
  generalize dependent (k mod d); generalize dependent (k / d); intros.

(** Down the first column, along the last row, then back up row by row. *)
Definition hook (w h k : nat) : nat * nat :=
  if decide (k < h) then (0, k) else
  if decide (k < h + (w - 1)) then (k - (h - 1), h - 1) else
  let k' := k - (h + (w - 1)) in
  (if Nat.even (k' / (w - 1)) then w - 1 - k' mod (w - 1) else 1 + k' mod (w - 1), h - 2 - k' / (w - 1)).
Lemma shortest (m : mode) w h : 1 <= w -> 1 <= h -> storable m w h -> exists rng g sol, create_maze m rng w h = Ret (g, sol) /\ length sol = w + h - 2.
Proof.
  intros Hw Hh Hst.
  assert (forall k, k < w * h -> h + (w - 1) <= k -> 2 <= w /\ 2 <= h /\ (k - (h + (w - 1))) / (w - 1) < h - 1) as Hp.
  { intros k Hk Hge. assert (2 <= w) by nia. assert (2 <= h) by nia. split; [done|]. split; [done|].
    apply Nat.div_lt_upper_bound; [lia|]. assert (w * h = (w - 1) * (h - 1) + (w - 1) + h); [|lia].
    destruct w as [|w']; [lia|]. destruct h as [|h']; [lia|]. cbn [Nat.sub]. rewrite !Nat.sub_0_r. lia. }
  assert (forall k, k < w * h -> (k < h /\ hook w h k = (0, k)) \/
    (h <= k < h + (w - 1) /\ hook w h k = (k - (h - 1), h - 1)) \/
    exists q r, k = h + (w - 1) + (q * (w - 1) + r) /\ r < w - 1 /\ q < h - 1 /\
      hook w h k = (if Nat.even q then w - 1 - r else 1 + r, h - 2 - q)) as Hc.
  { intros k Hk. unfold hook. destruct (decide (k < h)); [by left|right]. destruct (decide (k < h + (w - 1))); [left; split; [lia|done]|right].
    destruct (Hp k Hk ltac:(lia)) as (H1&H2&H3). eexists _, _. split_and!; [|apply Nat.mod_upper_bound; lia|exact H3|done].
    pose proof (Nat.div_mod (k - (h + (w - 1))) (w - 1) ltac:(lia)). lia. }
  assert (forall k, k < w * h -> fst (hook w h k) < w /\ snd (hook w h k) < h) as Hb.
  { intros k Hk. destruct (Hc k Hk) as [[Hl ->]|[[Hl ->]|(q&r&Hl&Hr&Hq&->)]]; cbn [fst snd]; [lia|lia|].
    split; [destruct (Nat.even q); lia|lia]. }
  assert (tour w h (coords_tour w h (hook w h))) as Ht.
  { apply coords_ok; [done|done|done|..].
    - unfold hook. by rewrite decide_True by lia.
    - intros k k' Hk Hk'. destruct (Hc k Hk) as [[Hl ->]|[[Hl ->]|(q&r&Hl&Hr&Hq&->)]];
        destruct (Hc k' Hk') as [[Hl' ->]|[[Hl' ->]|(q'&r'&Hl'&Hr'&Hq'&->)]]; clear Hp Hb Hc Hk Hk'; intros E;
        pose proof (f_equal fst E) as E1; pose proof (f_equal snd E) as E2; cbn [fst snd] in E1, E2; clear E; try lia.
      + destruct (Nat.even q'); lia.
      + destruct (Nat.even q); lia.
      + assert (q = q') as -> by lia. assert (r = r') as -> by (destruct (Nat.even q'); lia). lia.
    - intros k Hk. unfold hook.
      destruct (decide (S k < h)) as [D1|D1]; [rewrite decide_True by lia; cbn; lia|].
      destruct (decide (S k < h + (w - 1))) as [D2|D2].
      { destruct (decide (k < h)); [cbn; lia|]. rewrite decide_True by lia. cbn. lia. }
      destruct (Hp _ Hk ltac:(lia)) as (H1&H2&H3). rewrite (decide_False (P := k < h)) by lia.
      destruct (decide (k < h + (w - 1))) as [D3|D3].
      { replace (S k - (h + (w - 1))) with 0 by lia. rewrite Nat.div_0_l, Nat.mod_0_l by lia. cbn. lia. }
      replace (S k - (h + (w - 1))) with (S (k - (h + (w - 1)))) in * by lia.
      set (k' := k - (h + (w - 1))) in *. cbv zeta. cbn [fst snd].
      destruct (next_pos (w - 1) k' ltac:(lia)) as [(E1&E2&E3)|(E1&E2&E3)]; rewrite E3 in H3; rewrite E2, E3; hide k' (w - 1).
      + left. split; [done|]. destruct (Nat.even _); lia.
      + right. rewrite even_S'. destruct (Nat.even _); cbn [negb]; lia. }
  destruct (tour_generated w h _ Hw Hh Ht m Hst) as (rng&g&sol&E&_&(e&He&Hl)&Hmax). exists rng, g, sol. split; [done|].
  apply (coords_last_row w h Hw _ Hb _ _ He) in Hl as [Hl Hy].
  assert (w + h - 2 < w * h) as Hk by nia.
  assert (snd (hook w h (w + h - 2)) = h - 1) as Hr.
  { unfold hook. destruct (decide (w + h - 2 < h)); [cbn; lia|]. rewrite decide_True by lia. done. }
  pose proof (Hmax (w + h - 2) _ (coords_row_last w h Hw _ Hb _ Hk Hr)) as Hge.
  feed pose proof Hge; [by apply coords_lookup|].
  destruct (Hc _ Hl) as [[Hl' _]|[[Hl' _]|(q&r&Hl'&Hr'&Hq&Eq)]]; [lia|lia|].
  rewrite Eq in Hy. cbn [snd] in Hy. lia.
Qed.
