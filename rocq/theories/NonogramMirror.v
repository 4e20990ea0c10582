(** The solver commutes with mirroring the puzzle. *)
From Verif Require Import Base Nonogram SpecNonogram SpecNonogramDeduce SpecNonogramMirror.
From Verif Require Import NonogramStates NonogramLine NonogramDeduce NonogramGrid NonogramProofs NonogramForced.

(** * Lines *)

Lemma fits_rev_iff rule line b : fits (rev rule) (rev line) (rev b) <-> fits rule line b.
Proof.
  split; [|apply fits_rev]. intros H%fits_rev. by rewrite !rev_involutive in H.
Qed.
Lemma rev_lookup_l {A} (l : list A) i : i < length l -> rev l !! i = l !! (length l - 1 - i).
Proof. intros Hi. rewrite rev_reverse, reverse_lookup by done. f_equal. lia. Qed.

Lemma block_no_rev (b : list bool) i (v : bool) : b !! i = Some v ->
  block_no b i + block_no (rev b) (length b - 1 - i) = length (clue_of b) + (if v then 1 else 0).
Proof.
  intros Hv. assert (i < length b) as Hi by (by eapply lookup_lt_Some).
  destruct (lv_rev b i Hi) as (l&r&Hl&Hr&Hs).
  pose proof (lv_count b i v l Hv Hl) as H1.
  assert (rev b !! (length b - 1 - i) = Some v) as Hv'.
  { rewrite rev_lookup_l by lia. by replace (length b - 1 - (length b - 1 - i)) with i by lia. }
  pose proof (lv_count (rev b) _ v r Hv' Hr) as H2. destruct v; lia.
Qed.

Lemma forced_rev rule line i v : i < length line ->
  forced (rev rule) (rev line) (length line - 1 - i) v -> forced rule line i v.
Proof.
  intros Hi [k Hk]. exists (nz rule + (if v then 1 else 0) - k). intros b Hb.
  pose proof (fits_length _ _ _ Hb) as Hl. destruct (Hk (rev b)) as [H1 H2]; [by apply fits_rev|].
  rewrite rev_lookup_l in H1 by lia. replace (length b - 1 - (length line - 1 - i)) with i in H1 by lia.
  split; [done|]. pose proof (block_no_rev b i v H1) as H3. destruct Hb as [Hb%spells_clue _]. rewrite Hb in H3.
  fold (nz rule) in H3. rewrite Hl in H3. lia.
Qed.
Lemma closed_rev rule line : closed rule line -> closed (rev rule) (rev line).
Proof.
  intros [[b Hb] Hc]. split; [exists (rev b); by apply fits_rev|].
  intros i v Hi Hf. assert (i < length line) as Hlt by (apply lookup_lt_Some in Hi; by rewrite rev_length in Hi).
  rewrite rev_lookup_l in Hi by done. apply (Hc _ v Hi).
  apply forced_rev; [lia|]. by replace (length line - 1 - (length line - 1 - i)) with i by lia.
Qed.

(** * Grids *)

Lemma list_eq_bounded {A} n (l k : list A) : length l = n -> length k = n ->
  (forall i, i < n -> l !! i = k !! i) -> l = k.
Proof.
  intros Hl Hk H. apply list_eq. intros i. destruct (decide (i < n)) as [Hi|Hi]; [by apply H|].
  rewrite !lookup_ge_None_2; [done|lia|lia].
Qed.

Section symmetry.
Context (n : nat) (s : nat -> nat) (Hs : forall i, i < n -> s i < n /\ s (s i) = i).
Local Notation S := (s <$> seq 0 n).
Lemma perm_bounded {A} (g : list A) : length g = n -> bounded (length g) S.
Proof. intros ->. apply Forall_fmap, Forall_forall. intros i Hi%elem_of_seq. apply Hs. lia. Qed.
Lemma perm_length {A} (g : list A) : length g = n -> length (sel S g) = n.
Proof. intros Hg. rewrite sel_length by (by apply perm_bounded). by rewrite fmap_length, seq_length. Qed.
Lemma perm_lookup {A} (g : list A) i : length g = n -> i < n -> sel S g !! i = g !! s i.
Proof.
  intros Hg Hi. rewrite sel_lookup by (by apply perm_bounded). rewrite list_lookup_fmap, lookup_seq_lt by done. done.
Qed.
Lemma perm_involutive {A} (g : list A) : length g = n -> sel S (sel S g) = g.
Proof.
  intros Hg. apply (list_eq_bounded n); [by apply perm_length, perm_length|done|]. intros i Hi.
  rewrite perm_lookup; [|by apply perm_length|done]. destruct (Hs i Hi) as [H1 H2]. rewrite perm_lookup by done. by rewrite H2.
Qed.

Lemma solve_symmetry (m : mode) col row col' row' : Forall proper col -> Forall proper row ->
  Forall proper col' -> Forall proper row' -> length col' = length col -> length row' = length row ->
  length col * length row = n -> (N.of_nat n < usize_size m)%N -> 1 <= length row \/ length col <= 1 ->
  (forall k, closed_grid col row k -> closed_grid col' row' (sel S k)) ->
  (forall k, closed_grid col' row' k -> closed_grid col row (sel S k)) ->
  solve_nonogram m col' row' =
    match solve_nonogram m col row with
    | Ret (Ok g) => Ret (Ok (sel S g))
    | r => r
    end.
Proof.
  intros Hc Hr Hc' Hr' Lc Lr Ln Hn Hd H1 H2.
  assert (forall k, closed_grid col row k -> length k = n) as Hl by (intros k [Hk _]; lia).
  assert (forall k, closed_grid col' row' k -> length k = n) as Hl' by (intros k [Hk _]; rewrite Hk, Lc, Lr; lia).
  destruct (solve_least m col row) as [(k&Hk&Hmin&E)|[Hno E]]; [done|done|by rewrite Ln|done|..]; rewrite E;
  (destruct (solve_least m col' row') as [(k'&Hk'&Hmin'&E')|[Hno' E']];
    [done|done|by rewrite Lc, Lr, Ln|by rewrite Lc, Lr|..]); rewrite E'.
  - assert (refines k' (sel S k)) as G1 by (by apply Hmin', H1).
    assert (refines k (sel S k')) as G2 by (by apply Hmin, H2).
    apply (sel_Forall2 _ S) in G2; [|apply perm_bounded; by apply Hl]. rewrite perm_involutive in G2 by (by apply Hl').
    assert (k' = sel S k) as -> by (by apply refines_antisym).
    do 2 f_equal. apply shown_sel.
  - exfalso. by eapply Hno', H1.
  - exfalso. by eapply Hno, H2.
  - done.
Qed.
End symmetry.

Section grid.
Context (w h : nat).
Lemma grid_row_length {A} (g : list A) y : length g = w * h -> y < h -> length (grid_row w g y) = w.
Proof. intros Hg Hy. unfold grid_row. rewrite take_length, drop_length. nia. Qed.
Lemma grid_row_at {A} (g : list A) y x : x < w -> grid_row w g y !! x = g !! (w * y + x).
Proof. intros Hx. unfold grid_row. by rewrite lookup_take, lookup_drop by done. Qed.

Definition smirror (i : nat) : nat := w * (i / w) + (w - 1 - i mod w).
Definition sflip (i : nat) : nat := w * (h - 1 - i / w) + i mod w.
Lemma smirror_at x y : x < w -> smirror (w * y + x) = w * y + (w - 1 - x).
Proof.
  intros Hx. unfold smirror. rewrite (Nat.mul_comm w y). rewrite Nat.div_add_l by lia. rewrite Nat.div_small by done.
  rewrite Nat.add_comm with (n := y * w), Nat.mod_add by lia. rewrite Nat.mod_small by done. lia.
Qed.
Lemma sflip_at x y : x < w -> sflip (w * y + x) = w * (h - 1 - y) + x.
Proof.
  intros Hx. unfold sflip. rewrite (Nat.mul_comm w y). rewrite Nat.div_add_l by lia. rewrite Nat.div_small by done.
  rewrite Nat.add_comm with (n := y * w), Nat.mod_add by lia. rewrite Nat.mod_small by done.
  by replace (y + 0) with y by lia.
Qed.
Lemma smirror_perm i : i < w * h -> smirror i < w * h /\ smirror (smirror i) = i.
Proof.
  intros Hi. destruct (coordinates w h i Hi) as (x&y&Hx&Hy&->). rewrite !smirror_at by lia. split; [nia|]. lia.
Qed.
Lemma sflip_perm i : i < w * h -> sflip i < w * h /\ sflip (sflip i) = i.
Proof.
  intros Hi. destruct (coordinates w h i Hi) as (x&y&Hx&Hy&->). rewrite !sflip_at by lia. split; [nia|].
  by replace (h - 1 - (h - 1 - y)) with y by lia.
Qed.

Context {A : Type} (g : list A) (Hg : length g = w * h).
Lemma mirror_sel : mirror w h g = sel (smirror <$> seq 0 (w * h)) g.
Proof.
  assert (Forall (fun l : list A => length l = w) ((fun y => rev (grid_row w g y)) <$> seq 0 h)) as HF.
  { apply Forall_fmap, Forall_forall. intros y Hy%elem_of_seq. cbn. rewrite rev_length. apply grid_row_length; [done|lia]. }
  apply (list_eq_bounded (w * h)).
  - unfold mirror. rewrite (concat_length w) by done. by rewrite fmap_length, seq_length.
  - by apply (perm_length _ _ smirror_perm).
  - intros i Hi. rewrite (perm_lookup _ _ smirror_perm) by done. destruct (coordinates w h i Hi) as (x&y&Hx&Hy&->).
    rewrite smirror_at by done. unfold mirror. rewrite (concat_lookup w) by done.
    rewrite list_lookup_fmap, lookup_seq_lt by done. cbn. rewrite rev_lookup_l by (by rewrite grid_row_length).
    rewrite grid_row_length by done. apply grid_row_at. lia.
Qed.
Lemma flip_sel : flip w h g = sel (sflip <$> seq 0 (w * h)) g.
Proof.
  assert (Forall (fun l : list A => length l = w) ((fun y => grid_row w g (h - 1 - y)) <$> seq 0 h)) as HF.
  { apply Forall_fmap, Forall_forall. intros y Hy%elem_of_seq. cbn. apply grid_row_length; [done|lia]. }
  apply (list_eq_bounded (w * h)).
  - unfold flip. rewrite (concat_length w) by done. by rewrite fmap_length, seq_length.
  - by apply (perm_length _ _ sflip_perm).
  - intros i Hi. rewrite (perm_lookup _ _ sflip_perm) by done. destruct (coordinates w h i Hi) as (x&y&Hx&Hy&->).
    rewrite sflip_at by done. unfold flip. rewrite (concat_lookup w) by done.
    rewrite list_lookup_fmap, lookup_seq_lt by done. cbn. by apply grid_row_at.
Qed.

Lemma mirror_row y : y < h -> grid_row w (sel (smirror <$> seq 0 (w * h)) g) y = rev (grid_row w g y).
Proof.
  intros Hy. assert (length (sel (smirror <$> seq 0 (w * h)) g) = w * h) as Hl by (by apply (perm_length _ _ smirror_perm)).
  apply (list_eq_bounded w); [by apply grid_row_length|by rewrite rev_length, grid_row_length|]. intros x Hx.
  rewrite grid_row_at, (perm_lookup _ _ smirror_perm), smirror_at by (done || nia).
  rewrite rev_lookup_l by (by rewrite grid_row_length). rewrite grid_row_length by done. symmetry. apply grid_row_at. lia.
Qed.
Lemma mirror_col x : x < w -> grid_col w h (sel (smirror <$> seq 0 (w * h)) g) x = grid_col w h g (w - 1 - x).
Proof.
  intros Hx. assert (length (sel (smirror <$> seq 0 (w * h)) g) = w * h) as Hl by (by apply (perm_length _ _ smirror_perm)).
  apply (list_eq_bounded h); [by apply grid_col_length|apply grid_col_length; [done|lia]|]. intros y Hy.
  rewrite !grid_col_lookup by (done || lia). by rewrite (perm_lookup _ _ smirror_perm), smirror_at by (done || nia).
Qed.
Lemma flip_row y : y < h -> grid_row w (sel (sflip <$> seq 0 (w * h)) g) y = grid_row w g (h - 1 - y).
Proof.
  intros Hy. assert (length (sel (sflip <$> seq 0 (w * h)) g) = w * h) as Hl by (by apply (perm_length _ _ sflip_perm)).
  apply (list_eq_bounded w); [by apply grid_row_length|apply grid_row_length; [done|lia]|]. intros x Hx.
  rewrite grid_row_at, (perm_lookup _ _ sflip_perm), sflip_at by (done || nia). symmetry. by apply grid_row_at.
Qed.
Lemma flip_col x : x < w -> grid_col w h (sel (sflip <$> seq 0 (w * h)) g) x = rev (grid_col w h g x).
Proof.
  intros Hx. assert (length (sel (sflip <$> seq 0 (w * h)) g) = w * h) as Hl by (by apply (perm_length _ _ sflip_perm)).
  apply (list_eq_bounded h); [by apply grid_col_length|rewrite rev_length; by apply grid_col_length|]. intros y Hy.
  rewrite rev_lookup_l by (by rewrite grid_col_length). rewrite grid_col_length by done.
  rewrite !grid_col_lookup by (done || lia). by rewrite (perm_lookup _ _ sflip_perm), sflip_at by (done || nia).
Qed.
End grid.

Lemma rev_lookup_Some {A} (l : list A) i x : rev l !! i = Some x -> i < length l /\ l !! (length l - 1 - i) = Some x.
Proof.
  intros H. assert (i < length l) as Hi by (apply lookup_lt_Some in H; by rewrite rev_length in H).
  split; [done|]. by rewrite <-rev_lookup_l.
Qed.

Lemma closed_mirror col row k : closed_grid col row k ->
  closed_grid (rev col) (map (@rev nat) row) (sel (smirror (length col) <$> seq 0 (length col * length row)) k).
Proof.
  intros (Hl&Hc&Hr). unfold closed_grid. rewrite rev_length, map_length.
  split; [by apply (perm_length _ _ (smirror_perm _ _))|]. split.
  - intros x rule Hx. apply rev_lookup_Some in Hx as [Hlt Hx]. rewrite mirror_col by done. by apply Hc.
  - intros y rule Hy. change (map (@rev nat) row) with (@rev nat <$> row) in Hy.
    rewrite list_lookup_fmap in Hy. destruct (row !! y) as [rule'|] eqn:E; [|done]. injection Hy as <-.
    rewrite mirror_row by (done || by eapply lookup_lt_Some). by apply closed_rev, Hr.
Qed.
Lemma closed_flip col row k : closed_grid col row k ->
  closed_grid (map (@rev nat) col) (rev row) (sel (sflip (length col) (length row) <$> seq 0 (length col * length row)) k).
Proof.
  intros (Hl&Hc&Hr). unfold closed_grid. rewrite rev_length, map_length.
  split; [by apply (perm_length _ _ (sflip_perm _ _))|]. split.
  - intros x rule Hx. change (map (@rev nat) col) with (@rev nat <$> col) in Hx.
    rewrite list_lookup_fmap in Hx. destruct (col !! x) as [rule'|] eqn:E; [|done]. injection Hx as <-.
    rewrite flip_col by (done || by eapply lookup_lt_Some). by apply closed_rev, Hc.
  - intros y rule Hy. apply rev_lookup_Some in Hy as [Hlt Hy]. rewrite flip_row by done. by apply Hr.
Qed.

Lemma map_rev_rev (l : list (list nat)) : map (@rev nat) (map (@rev nat) l) = l.
Proof. rewrite map_map. rewrite <-(map_id l) at 2. apply map_ext. intros x. apply rev_involutive. Qed.
Lemma proper_map_rev l : Forall proper l -> Forall proper (map (@rev nat) l).
Proof. intros H. apply Forall_fmap. eapply Forall_impl; [done|]. intros x Hx. by apply proper_rev. Qed.

Lemma solve_mirror (m : mode) col row : Forall proper col -> Forall proper row ->
  (N.of_nat (length col * length row) < usize_size m)%N -> 1 <= length row \/ length col <= 1 ->
  solve_nonogram m (rev col) (map (@rev nat) row) =
    match solve_nonogram m col row with
    | Ret (Ok g) => Ret (Ok (mirror (length col) (length row) g))
    | r => r
    end.
Proof.
  intros Hc Hr Hn Hd.
  rewrite (solve_symmetry _ (smirror (length col)) (smirror_perm _ (length row)) m col row); try done.
  - destruct (solve_least m col row Hc Hr Hn Hd) as [(k&(Hl&_)&_&E)|[_ E]]; rewrite E; [|done].
    rewrite mirror_sel; [done|by rewrite map_length].
  - by apply Forall_rev.
  - by apply proper_map_rev.
  - apply rev_length.
  - apply map_length.
  - intros k. apply closed_mirror.
  - intros k Hk%closed_mirror. rewrite rev_involutive, map_rev_rev, rev_length, map_length in Hk. exact Hk.
Qed.
Lemma solve_flip (m : mode) col row : Forall proper col -> Forall proper row ->
  (N.of_nat (length col * length row) < usize_size m)%N -> 1 <= length row \/ length col <= 1 ->
  solve_nonogram m (map (@rev nat) col) (rev row) =
    match solve_nonogram m col row with
    | Ret (Ok g) => Ret (Ok (flip (length col) (length row) g))
    | r => r
    end.
Proof.
  intros Hc Hr Hn Hd.
  rewrite (solve_symmetry _ (sflip (length col) (length row)) (sflip_perm _ (length row)) m col row); try done.
  - destruct (solve_least m col row Hc Hr Hn Hd) as [(k&(Hl&_)&_&E)|[_ E]]; rewrite E; [|done].
    rewrite flip_sel; [done|by rewrite map_length].
  - by apply proper_map_rev.
  - by apply Forall_rev.
  - apply map_length.
  - apply rev_length.
  - intros k. apply closed_flip.
  - intros k Hk%closed_flip. rewrite rev_involutive, map_rev_rev, rev_length, map_length in Hk. exact Hk.
Qed.
