(** Proofs for C48: sizes for which every perfect maze can be generated. *)
From Verif Require Import Base Maze SpecMaze SpecMazeDfs.
From Verif Require Import MazeTree MazeDfs.
From Verif Require MazeProofs MazeDfsProofs.

(** * Trees in which every cell is attached to an earlier one *)

Definition attached (p : nat -> nat) (n : nat) (a b : nat) : Prop :=
  (1 <= b < n /\ a = p b) \/ (1 <= a < n /\ b = p a).
Lemma attached_tree p n : 1 <= n -> (forall b, 1 <= b -> p b < b) ->
  forall i j, i < n -> j < n -> unique_simple_path (attached p n) i j.
Proof.
  intros Hn Hp. induction n as [|n IH]; [lia|]. destruct (decide (n = 0)) as [->|H0].
  - intros i j Hi Hj. assert (i = 0) as -> by lia. assert (j = 0) as -> by lia. exists [0].
    split; [split; [apply path_single|apply NoDup_singleton]|]. intros l' [Hl Hnd]. by eapply path_loop.
  - assert (forall i j, i ∈ n :: seq 0 n -> j ∈ n :: seq 0 n -> unique_simple_path (attached p (S n)) i j) as H.
    { pose proof (Hp n ltac:(lia)) as Hpn. apply (leaf_tree (attached p n) _ _ (p n) n).
      - intros a b. unfold attached. tauto.
      - intros a b. rewrite !elem_of_seq. unfold attached. intros [[H1 ->]|[H1 ->]].
        + pose proof (Hp b ltac:(lia)). lia.
        + pose proof (Hp a ltac:(lia)). lia.
      - rewrite elem_of_seq. lia.
      - rewrite elem_of_seq. lia.
      - intros a b. unfold attached. split.
        + intros [[H1 ->]|[H1 ->]].
          * destruct (decide (b = n)) as [->|]; [right; left; done|left; left; split; [lia|done]].
          * destruct (decide (a = n)) as [->|]; [right; right; done|left; right; split; [lia|done]].
        + intros [[[H1 ->]|[H1 ->]]|[[-> ->]|[-> ->]]].
          * left. split; [lia|done].
          * right. split; [lia|done].
          * left. split; [lia|done].
          * right. split; [lia|done].
      - intros i j Hi%elem_of_seq Hj%elem_of_seq. apply IH; lia. }
    intros i j Hi Hj. apply H; rewrite elem_of_cons, elem_of_seq; lia.
Qed.

(** * The comb: all rows open, connected along the first column *)

Section comb.
  Context (w h : nat) (Hw : 1 <= w) (Hh : 1 <= h).
  Definition comb_parent (i : nat) : nat := if decide (i mod w = 0) then i - w else i - 1.
  Definition comb_node (i : nat) : maze_node :=
    MazeNode (bool_decide (i mod w = w - 1)) (negb (bool_decide (i mod w = 0 /\ i + w < w * h))).
  Definition comb : list maze_node := comb_node <$> seq 0 (w * h).
  Lemma comb_length : length comb = w * h.
  Proof using. unfold comb. by rewrite fmap_length, seq_length. Qed.
  Lemma comb_lookup i nd : comb !! i = Some nd <-> i < w * h /\ nd = comb_node i.
  Proof using.
    unfold comb. rewrite list_lookup_fmap, fmap_Some. split.
    - intros (k&[-> Hk]%lookup_seq&->). done.
    - intros [Hi ->]. exists i. split; [|done]. by apply lookup_seq.
  Qed.
  Lemma beside_mod i : beside w i (i + 1) <-> i mod w <> w - 1.
  Proof using Hw.
    clear Hh. unfold beside. pose proof (Nat.div_mod i w ltac:(lia)) as E1. pose proof (Nat.div_mod (i + 1) w ltac:(lia)) as E2.
    pose proof (Nat.mod_upper_bound i w ltac:(lia)) as B1. pose proof (Nat.mod_upper_bound (i + 1) w ltac:(lia)) as B2. split.
    - intros [_ E] H. rewrite <-E in E2. lia.
    - intros H. split; [done|]. apply (Nat.div_unique _ _ _ (i mod w + 1)); lia.
  Qed.
  Lemma comb_opening a b : opening w comb a b <-> 1 <= b < w * h /\ a = comb_parent b.
  Proof using Hw Hh.
    unfold opening. rewrite comb_length. unfold comb_parent. split.
    - intros (Hb&nd&[Ha ->]%comb_lookup&[[H1 H2]|[H1 H2]]); cbn in H1.
      + apply bool_decide_eq_false in H1. pose proof H2 as [-> _]. split; [lia|]. rewrite decide_False; [lia|].
        pose proof (Nat.div_mod a w ltac:(lia)) as E1. pose proof (Nat.div_mod (a + 1) w ltac:(lia)) as E2. destruct H2 as [_ E].
        rewrite <-E in E2. lia.
      + apply negb_false_iff, bool_decide_eq_true in H1 as [H0 Hlt]. unfold below in H2. subst b. split; [lia|].
        rewrite decide_True; [lia|]. replace (a + w) with (a + 1 * w) by lia. rewrite Nat.mod_add by lia. done.
    - intros [Hb ->]. split; [lia|]. pose proof (Nat.div_mod b w ltac:(lia)) as E. pose proof (Nat.mod_upper_bound b w ltac:(lia)) as B.
      destruct (decide (b mod w = 0)) as [H0|H0].
      + assert (w <= b) as Hle by (destruct (b / w) eqn:Eq; nia). eexists. split; [apply comb_lookup; split; [lia|done]|]. right. cbn.
        split; [|unfold below; lia]. apply negb_false_iff, bool_decide_eq_true. split; [|lia].
        replace b with (b - w + 1 * w) in H0 by lia. by rewrite Nat.mod_add in H0 by lia.
      + assert ((b - 1) mod w = b mod w - 1) as Hm.
        { symmetry. apply (Nat.mod_unique _ _ (b / w)); lia. }
        eexists. split; [apply comb_lookup; split; [lia|done]|]. left. cbn. split.
        * apply bool_decide_eq_false. lia.
        * replace b with (b - 1 + 1) at 2 by lia. apply beside_mod. lia.
  Qed.
  Lemma comb_joined a b : joined w comb a b <-> attached comb_parent (w * h) a b.
  Proof using Hw Hh. unfold joined, attached. by rewrite !comb_opening. Qed.
  Lemma comb_perfect : perfect w h comb.
  Proof using Hw Hh.
    intros i j Hi Hj. eapply MazeProofs.unique_ext; [|apply attached_tree; [|..|exact Hi|exact Hj]].
    - intros a b. by rewrite comb_joined.
    - nia.
    - intros b Hb. unfold comb_parent. destruct (decide _); lia.
  Qed.
  Lemma comb_walled : walled w h comb.
  Proof using Hw Hh.
    split; intros i nd [Hi Hc] [_ ->]%comb_lookup; cbn.
    - by apply bool_decide_eq_true.
    - apply negb_true_iff, bool_decide_eq_false. intros [_ Hlt]. pose proof (Nat.div_mod i w ltac:(lia)) as E. rewrite Hc in E.
      pose proof (Nat.mod_upper_bound i w ltac:(lia)). nia.
  Qed.
  Lemma comb_corner : 2 <= w -> 2 <= h -> joined w comb 0 1 /\ joined w comb 0 w.
  Proof using Hw Hh.
    intros H2w H2h. rewrite !comb_joined. unfold attached, comb_parent. split; left.
    - split; [nia|]. rewrite Nat.mod_small by lia. done.
    - split; [nia|]. rewrite Nat.mod_same, decide_True by (lia || done). lia.
  Qed.
End comb.

(** * A single row or column *)

Lemma path_between (R : nat -> nat -> Prop) k : (forall a b, R a b -> b = a + 1 \/ a = b + 1) ->
  forall l i j, path R i l j -> i <= k <= j -> k ∈ l.
Proof.
  intros HR. induction l as [|x l IH]; intros i j Hp Hk; [by destruct Hp|].
  pose proof Hp as (H1&H2&_). injection H1 as ->. destruct (decide (k = i)) as [->|Hne]; [apply elem_of_list_here|].
  apply elem_of_list_further. destruct l as [|y l]; [injection H2 as ->; lia|]. apply path_tail in Hp as [Hs Hp].
  apply (IH y j Hp). apply HR in Hs. lia.
Qed.
Lemma line_joined w h g a b : w = 1 \/ h = 1 -> length g = w * h -> joined w g a b -> b = a + 1 \/ a = b + 1.
Proof.
  intros Hd Hl. assert (forall a b, opening w g a b -> b = a + 1) as K.
  { intros x y (Hy&nd&Hx%lookup_lt_Some&[[_ [-> _]]|[_ H]]); [done|]. unfold below in H. destruct Hd as [-> | ->]; lia. }
  intros [H|H]; apply K in H; lia.
Qed.
Lemma line_depth_first w h g : w = 1 \/ h = 1 -> length g = w * h -> perfect w h g -> depth_first w h g.
Proof.
  intros Hd Hl Hp i j (Hi&Hj&H). left. destruct (Hp 0 j) as (l&[Hpath Hnd]&_); [lia|done|]. exists l. split_and!; [done|done|].
  apply (path_between (joined w g) i) with (i := 0) (j := j); [|done|].
  - intros a b. by apply (line_joined w h).
  - unfold beside, below in H. lia.
Qed.

Lemma perfect_sizes (m : mode) w h : 1 <= w -> 1 <= h -> storable m w h ->
  w = 1 \/ h = 1 <->
  forall g, length g = w * h -> walled w h g -> perfect w h g ->
    exists rng e sol, in_last_row w h e /\ create_maze m rng w h = Ret (with_exit e g, sol).
Proof.
  intros Hw Hh Hst. split.
  - intros Hd g Hl Hwl Hp. apply (MazeDfsProofs.create_every m w h g); try done. by apply line_depth_first.
  - intros H. destruct (decide (w = 1 \/ h = 1)) as [|Hd]; [done|]. exfalso.
    destruct (H (comb w h) (comb_length w h) (comb_walled w h Hw Hh) (comb_perfect w h Hw Hh)) as (rng&e&sol&_&E).
    destruct (MazeDfsProofs.create_dead_end m rng w h _ _ Hst E ltac:(nia)) as [j Hj].
    destruct (comb_corner w h Hw Hh ltac:(lia) ltac:(lia)) as [J1 J2].
    assert (forall a b, joined w (comb w h) a b -> joined w (with_exit e (comb w h)) a b) as K.
    { assert (forall a b, opening w (comb w h) a b -> opening w (with_exit e (comb w h)) a b) as K.
      { intros a b (Hb&nd&Ha&Hd'). split; [unfold with_exit; by rewrite imap_length|].
        exists (if Nat.eqb a e then MazeNode (m_right nd) false else nd). split; [unfold with_exit; by rewrite list_lookup_imap, Ha|].
        destruct (Nat.eqb a e); [|done]. cbn. destruct Hd' as [Hd'|[_ Hd']]; [by left|by right]. }
      intros a b [Hab|Hab]; [left|right]; by apply K. }
    apply K, Hj in J1. apply K, Hj in J2. lia.
Qed.
