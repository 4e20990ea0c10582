(** Proofs for C75: mazes with two rows or two columns are equally likely. *)
From Coq Require Import QArith Qcanon.
From Verif Require Import Base Util UtilProofs DisjointSet Maze SpecMaze SpecMazeDfs MazeTree MazeGen MazeDfs MazeDfsProofs MazeDraws.
From Verif Require Import SpecMazeRandom MazeRandom MazeRandomSym MazeRandomFirst MazeRandomBound.
Local Open Scope nat_scope.

Local Notation half := (Q2Qc (1 # 2)).

Lemma mean_one_elem {A} (f : A -> Qc) x : mean f [x] = f x.
Proof. unfold mean. cbn [fmap list_fmap length]. rewrite total_cons, total_nil. change (qc 1) with 1%Qc. by field. Qed.

Lemma path_suffix (R : nat -> nat -> Prop) l1 : forall i a l2 j, path R i (l1 ++ a :: l2) j -> path R a (a :: l2) j.
Proof.
  induction l1 as [|b l1 IH]; intros i a l2 j Hp.
  - destruct Hp as (H1&H2&H3). done.
  - destruct l1 as [|b' l1].
    + cbn [app] in Hp. assert (i = b) as -> by (destruct Hp as (H1&_&_); by injection H1). by apply path_tail in Hp as [_ ?].
    + cbn [app] in Hp. assert (i = b) as -> by (destruct Hp as (H1&_&_); by injection H1). apply path_tail in Hp as [_ Hp].
      by eapply IH.
Qed.

(** A wall that is missing too much stays missing. *)
Section zero.
Context (m : mode) (w h : nat) (Hw : 1 <= w) (Hh : 1 <= h) (Hst : storable m w h).
Lemma walk_zero g a b : ~ joined w g a b -> forall fuel path vs mz, (forall i, i ∈ path -> i < w * h) -> length mz = w * h ->
  joined w mz a b -> walk fuel w h (exactly g) path vs mz = 0%Qc.
Proof.
  intros Hg. induction fuel as [|fuel IH]; intros [|c rest] vs mz Hp Hl Hj; cbn [walk].
  - unfold exactly. rewrite decide_False; [done|]. intros ->. done.
  - done.
  - unfold exactly. rewrite decide_False; [done|]. intros ->. done.
  - assert (c < w * h) as Hc by (apply Hp; apply elem_of_cons; by left).
    destruct (fresh w h vs c) as [|x l] eqn:Hf; [apply IH; [|done|done]; intros i Hi; apply Hp; apply elem_of_cons; by right|].
    rewrite (mean_ext _ (fun _ => 0%Qc)); [by apply mean_const|]. intros j Hjl. rewrite <-Hf in Hjl.
    apply (elem_fresh w h Hw Hh) in Hjl as [[dir Hgeo] _]; [|done]. pose proof Hgeo as (_&Hjn&_).
    apply IH.
    + intros i Hi. apply elem_of_cons in Hi as [->|Hi]; [done|]. by apply Hp.
    + unfold remove_wall. by rewrite imap_length.
    + rewrite <-(opened_remove m w h Hw Hh Hst dir) by done. apply (opened_joined w h Hw Hh); [done|done|]. by left.
Qed.
End zero.

Section two.
Context (m : mode) (w : nat).
Context (Hw : 1 <= w) (Hst : storable m w 2).
Local Notation n := (w * 2).
Local Notation H2 := (le_S 1 1 (le_n 1)).
Local Notation geo := (geo w 2).
Local Notation GI := (GI w 2).
Local Notation LI := (LI w 2).
Local Notation nb := (nb w 2).

Definition cell (r x : nat) : nat := w * r + x.

Lemma cell_lt r x : r < 2 -> x < w -> cell r x < n.
Proof. unfold cell. intros. assert (r = 0 \/ r = 1) as [-> | ->] by lia; lia. Qed.
Lemma cell_coord r x : x < w -> cell r x / w = r /\ cell r x mod w = x.
Proof. intros Hx. by apply coord. Qed.
Lemma cell_inj r x r' x' : x < w -> x' < w -> cell r x = cell r' x' -> r = r' /\ x = x'.
Proof.
  intros Hx Hx' E. destruct (cell_coord r x Hx) as [H1 H3]. destruct (cell_coord r' x' Hx') as [H4 H5].
  rewrite E in H1, H3. split; congruence.
Qed.
Lemma cell_of c : c < n -> exists r x, r < 2 /\ x < w /\ c = cell r x.
Proof.
  intros Hc. exists (c / w), (c mod w). split; [apply Nat.div_lt_upper_bound; lia|]. split; [apply Nat.mod_upper_bound; lia|].
  unfold cell. apply Nat.div_mod. lia.
Qed.
Lemma nb_cell r x j : r < 2 -> x < w -> nb (cell r x) j <->
  j = cell (1 - r) x \/ (S x < w /\ j = cell r (S x)) \/ (1 <= x /\ j = cell r (x - 1)).
Proof.
  intros Hr Hx. destruct (cell_coord r x Hx) as [E1 E2]. split.
  - intros (dir&Hc&Hj&Hg). destruct (cell_of j Hj) as (r'&x'&Hr'&Hx'&->).
    destruct (cell_coord r' x' Hx') as [E3 E4].
    destruct dir; cbn in Hg; rewrite ?beside_coord, ?below_coord in Hg by done; rewrite E1, E2, E3, E4 in Hg; destruct Hg as [G1 G2].
    + right. left. subst. done.
    + left. subst. f_equal. lia.
    + right. right. subst. split; [lia|]. f_equal. lia.
    + left. subst. f_equal. lia.
  - assert (cell r x < n) as Hc by (by apply cell_lt).
    intros [->|[[Hx' ->]|[Hx' ->]]].
    + assert (cell (1 - r) x < n) as Hj by (apply cell_lt; lia). destruct (cell_coord (1 - r) x Hx) as [E3 E4].
      assert (r = 0 \/ r = 1) as [-> | ->] by lia; [exists Down|exists Up]; (split_and!; [done|done|]); cbn [leads];
        rewrite below_coord by done; rewrite E1, E2, E3, E4; done.
    + destruct (cell_coord r (S x) Hx') as [E3 E4]. exists Right. split_and!; [done|by apply cell_lt|].
      cbn. rewrite beside_coord by done. by rewrite E1, E2, E3, E4.
    + destruct (cell_coord r (x - 1) ltac:(lia)) as [E3 E4]. exists Left. split_and!; [done|apply cell_lt; lia|].
      cbn. rewrite beside_coord by done. rewrite E1, E2, E3, E4. split; [done|lia].
Qed.
Lemma nb_col a b : nb a b -> a mod w <= S (b mod w) /\ b mod w <= S (a mod w).
Proof.
  intros (dir&Ha&Hb&Hg). destruct dir; cbn in Hg; rewrite ?beside_coord, ?below_coord in Hg by done; lia.
Qed.

(** [M] is the last column that was visited; [full] tells whether both of its
    cells were.  If not, the walk is in this column. *)
Record VI (path vs : list nat) (M : nat) (full : bool) : Prop := MkVI {
  vi_M : M < w;
  vi_bound r x : r < 2 -> x < w -> cell r x ∈ vs -> x <= M;
  vi_link x : x < M -> exists s, s < 2 /\ cell s x ∈ vs /\ cell s (S x) ∈ vs;
  vi_top : if full then forall r, r < 2 -> cell r M ∈ vs
    else exists r rest, r < 2 /\ path = cell r M :: rest /\ cell r M ∈ vs /\ cell (1 - r) M ∉ vs
}.

Lemma vi_start : VI [0] [0] 0 false.
Proof.
  assert (cell 0 0 = 0) as E by (unfold cell; lia). split.
  - lia.
  - intros r x Hr Hx Hin. apply elem_of_list_singleton in Hin. rewrite <-E in Hin. apply cell_inj in Hin; lia.
  - intros x Hx. lia.
  - exists 0, []. rewrite E. split_and!; [lia|done|by apply elem_of_list_singleton|].
    intros Hin%elem_of_list_singleton. unfold cell in Hin. lia.
Qed.

(** The unvisited neighbours in a column entered for the first time. *)
Lemma single_fresh r rest vs M : VI (cell r M :: rest) vs M false -> r < 2 -> cell r M ∈ vs -> cell (1 - r) M ∉ vs ->
  forall j, j ∈ fresh w 2 vs (cell r M) <-> j = cell (1 - r) M \/ (S M < w /\ j = cell r (S M)).
Proof.
  intros HV Hr Hin Hout j. pose proof (vi_M _ _ _ _ HV) as HM.
  rewrite (elem_fresh w 2 Hw H2) by (by apply cell_lt). rewrite nb_cell by done. split.
  - intros [[->|[[Hx ->]|[Hx ->]]] Hv]; [by left|by right|]. exfalso.
    destruct (vi_link _ _ _ _ HV (M - 1)) as (s&Hs&H1&H3); [lia|]. replace (S (M - 1)) with M in H3 by lia.
    assert (s = r) as -> by (destruct (decide (s = r)); [done|]; replace s with (1 - r) in H3 by lia; done). done.
  - intros [->|[Hx ->]]; [split; [by left|done]|]. split; [tauto|]. intros Hv.
    apply (vi_bound _ _ _ _ HV) in Hv; lia.
Qed.

(** Entering cells. *)
Lemma vi_vert path vs M r : VI path vs M false -> r < 2 -> cell r M ∈ vs ->
  VI (cell (1 - r) M :: path) (cell (1 - r) M :: vs) M true.
Proof.
  intros HV Hr Hin. split.
  - apply HV.
  - intros r' x Hr' Hx H. apply elem_of_cons in H as [H|H]; [|by eapply (vi_bound _ _ _ _ HV)].
    apply cell_inj in H; [lia|done|apply HV].
  - intros x Hx. destruct (vi_link _ _ _ _ HV x Hx) as (s&Hs&H1&H3). exists s. rewrite !elem_of_cons. tauto.
  - intros r' Hr'. rewrite elem_of_cons. destruct (decide (r' = r)) as [->|]; [by right|]. left. f_equal. lia.
Qed.
Lemma vi_right path vs M full r : VI path vs M full -> r < 2 -> S M < w -> cell r M ∈ vs ->
  VI (cell r (S M) :: path) (cell r (S M) :: vs) (S M) false.
Proof.
  intros HV Hr HM Hin. split.
  - done.
  - intros r' x Hr' Hx H. apply elem_of_cons in H as [H|H]; [apply cell_inj in H; lia|].
    apply (vi_bound _ _ _ _ HV) in H; lia.
  - intros x Hx. destruct (decide (x = M)) as [->|].
    + exists r. rewrite !elem_of_cons. tauto.
    + destruct (vi_link _ _ _ _ HV x) as (s&Hs&H1&H3); [lia|]. exists s. rewrite !elem_of_cons. tauto.
  - exists r, path. split_and!; [done|done|apply elem_of_cons; by left|].
    rewrite not_elem_of_cons. split; [intros E; apply cell_inj in E; lia|].
    intros H. apply (vi_bound _ _ _ _ HV) in H; lia.
Qed.
Lemma vi_old path path' vs M r x : VI path vs M true -> x <= M -> x < w ->
  VI path' (cell r x :: vs) M true.
Proof.
  intros HV Hx Hxw. split.
  - apply HV.
  - intros r' x' Hr' Hx' H. apply elem_of_cons in H as [H|H]; [|by eapply (vi_bound _ _ _ _ HV)].
    apply cell_inj in H; [lia|done|done].
  - intros x' Hx'. destruct (vi_link _ _ _ _ HV x' Hx') as (s&Hs&H1&H3). exists s. rewrite !elem_of_cons. tauto.
  - intros r' Hr'. rewrite elem_of_cons. right. by apply (vi_top _ _ _ _ HV).
Qed.
Lemma vi_pop path path' vs M : VI path vs M true -> VI path' vs M true.
Proof. intros HV. split; apply HV. Qed.

Section target.
Context (g : list maze_node) (Hlen : length g = n) (Hwall : walled w 2 g) (Hperf : perfect w 2 g) (Hdf : depth_first w 2 g).
Local Notation TI := (TI w g).

(** A path between two sides of a column passes through it. *)
Lemma crossing x j : forall l a, path (joined w g) a l j ->
  (a mod w < x < j mod w \/ j mod w < x < a mod w) -> exists b, b ∈ l /\ b < n /\ b mod w = x.
Proof.
  induction l as [|a' l IH]; intros a Hp Hx; [by destruct Hp as (?&_)|].
  assert (a' = a) as -> by (destruct Hp as (H1&_&_); by injection H1).
  destruct l as [|b l].
  - destruct Hp as (_&Hl&_). cbn in Hl. injection Hl as ->. lia.
  - apply path_tail in Hp as [Hj Hp]. pose proof (joined_nb w 2 Hw H2 g a b Hlen Hj) as Hn.
    pose proof (nb_col a b Hn) as Hcol. destruct Hn as (dir&_&Hbn&_).
    destruct (decide (b mod w = x)) as [Hb|Hb].
    + exists b. split_and!; [|done|done]. rewrite !elem_of_cons. tauto.
    + destruct (IH b Hp) as (b'&Hb'&Hrest); [lia|]. exists b'. split; [|done]. apply elem_of_cons. by right.
Qed.

(** Of the descendants of the current cell only unvisited cells matter: a
    neighbour that is not a child is reached through another unvisited one. *)
Lemma not_child c rest vs mz j : TI (c :: rest) vs mz -> (forall i, i ∈ c :: rest -> i ∈ vs) -> c < n -> nb c j -> j ∉ vs ->
  joined w g c j \/ exists a l, joined w g c a /\ a ∉ vs /\ a <> j /\ path (joined w g) a (a :: l) j /\
    c ∉ a :: l /\ (forall b, b ∈ a :: l -> b ∉ vs).
Proof.
  intros HT Hst' Hc Hn Hj.
  assert (ancestor w g c j) as (l&Hp&Hnd&Hin).
  { assert (ancestor w g c j \/ ancestor w g j c) as [Ha|(l&Hp&Hnd&Hin)]; [|done|].
    - destruct (nb_neighbours w 2 c j) as [H|H]; [done|by apply Hdf|]. apply Hdf in H. tauto.
    - exfalso. rewrite (ti_stack w 2 Hw H2 g Hlen Hperf c rest vs mz HT Hc l Hp Hnd) in Hin. apply Hj, Hst'. by apply elem_of_reverse. }
  apply elem_of_list_split in Hin as (l1&l2&->). destruct (path_split _ _ _ _ _ _ Hp) as [Hp1 Hnext].
  assert (l1 ++ [c] = reverse (c :: rest)) as Hstack.
  { eapply (ti_stack w 2 Hw H2 g Hlen Hperf); [done|done|done|].
    replace (l1 ++ c :: l2) with ((l1 ++ [c]) ++ l2) in Hnd by (by rewrite <-app_assoc). by apply NoDup_app in Hnd as [? _]. }
  destruct l2 as [|a l3].
  { exfalso. destruct Hp as (_&Hl&_). rewrite last_snoc in Hl. injection Hl as ->. by eapply (nb_irrefl w 2 Hw H2). }
  specialize (Hnext a l3 eq_refl). destruct (decide (a = j)) as [->|Hne]; [by left|]. right. exists a, l3.
  assert (path (joined w g) a (a :: l3) j) as Hsuf.
  { apply (path_suffix _ (l1 ++ [c]) 0). rewrite <-app_assoc. done. }
  assert (forall b, b ∈ a :: l3 -> b ∉ c :: rest) as Hdisj.
  { intros b Hb Hbs. replace (l1 ++ c :: a :: l3) with ((l1 ++ [c]) ++ a :: l3) in Hnd by (by rewrite <-app_assoc).
    apply NoDup_app in Hnd as (_&Hnd&_). apply (Hnd b); [|done]. rewrite Hstack. by apply elem_of_reverse. }
  assert (forall b, b ∈ a :: l3 -> b ∉ vs) as Hfresh.
  { intros b Hb Hbv. apply Hj. apply (ti_done _ _ _ _ _ HT b j); [done|by apply Hdisj|].
    exists (l1 ++ c :: a :: l3). split_and!; [done|done|]. rewrite elem_of_app, elem_of_cons. tauto. }
  split_and!; [done| |done|done| |done].
  - apply Hfresh. apply elem_of_cons. by left.
  - intros Hb. apply (Hdisj c Hb). apply elem_of_cons. by left.
Qed.

(** When both cells of the last column are visited, every unvisited neighbour is a child. *)
Lemma all_children c rest vs mz M j : TI (c :: rest) vs mz -> (forall i, i ∈ c :: rest -> i ∈ vs) -> c < n ->
  VI (c :: rest) vs M true -> j ∈ fresh w 2 vs c -> joined w g c j.
Proof.
  intros HT Hst' Hc HV Hjf. pose proof Hjf as [Hn Hj]%(elem_fresh w 2 Hw H2); [|done].
  destruct (not_child c rest vs mz j HT Hst' Hc Hn Hj) as [?|(a&l&Hja&Hav&Hne&Hp&_&Hfresh)]; [done|]. exfalso.
  assert (nb c a) as Hna by (by apply (joined_nb w 2 Hw H2 g)).
  destruct (cell_of c Hc) as (r&x&Hr&Hx&->).
  assert (cell r x ∈ vs) as Hcv by (apply Hst'; apply elem_of_cons; by left).
  pose proof (vi_bound _ _ _ _ HV r x Hr Hx Hcv) as HxM. pose proof (vi_M _ _ _ _ HV) as HM.
  pose proof (vi_top _ _ _ _ HV) as Htop. cbn in Htop.
  assert (forall y, cell (1 - r) x ∉ vs -> nb (cell r x) y -> y ∉ vs -> y = cell (1 - r) x) as Hvert.
  { intros y Hv Hy Hyv. assert (x < M) as HxM' by (destruct (decide (x = M)) as [->|]; [exfalso; apply Hv, Htop; lia|lia]).
    apply nb_cell in Hy as [->|[[Hx' ->]|[Hx' ->]]]; [done|exfalso..|done|done].
    - destruct (vi_link _ _ _ _ HV x HxM') as (s&Hs&H1&H3).
      assert (s = r) as -> by (destruct (decide (s = r)); [done|]; replace s with (1 - r) in H1 by lia; done). done.
    - destruct (vi_link _ _ _ _ HV (x - 1)) as (s&Hs&H1&H3); [lia|]. replace (S (x - 1)) with x in H3 by lia.
      assert (s = r) as -> by (destruct (decide (s = r)); [done|]; replace s with (1 - r) in H3 by lia; done). done. }
  assert (cell (1 - r) x ∈ vs) as Hv.
  { destruct (decide (cell (1 - r) x ∈ vs)) as [|Hv]; [done|]. exfalso. apply Hne.
    rewrite (Hvert a Hv Hna Hav), (Hvert j Hv Hn Hj). done. }
  assert (a mod w < x < j mod w \/ j mod w < x < a mod w) as Hside.
  { apply nb_cell in Hna as [->|[[Ha ->]|[Ha ->]]]; [done|..|done|done];
      (apply nb_cell in Hn as [->|[[Hx' ->]|[Hx' ->]]]; [done|..|done|done]).
    - done.
    - right. destruct (cell_coord r (S x) Ha) as [_ ->]. destruct (cell_coord r (x - 1) ltac:(lia)) as [_ ->]. lia.
    - left. destruct (cell_coord r (S x) Hx') as [_ ->]. destruct (cell_coord r (x - 1) ltac:(lia)) as [_ ->]. lia.
    - done. }
  destruct (crossing x j (a :: l) a Hp Hside) as (b&Hb&Hbn&Hbx). apply (Hfresh b Hb).
  destruct (cell_of b Hbn) as (s&x'&Hs&Hx'&->). destruct (cell_coord s x' Hx') as [_ E]. rewrite E in Hbx. subst x'.
  destruct (decide (s = r)) as [->|]; [done|]. by replace s with (1 - r) by lia.
Qed.

(** In a new column only one of the two neighbours is a child. *)
Lemma one_child c rest vs mz a b q : TI (c :: rest) vs mz -> (forall i, i ∈ c :: rest -> i ∈ vs) -> c < n ->
  a ∉ vs -> b ∉ vs -> q ∉ vs -> nb a q -> nb b q -> a <> b -> joined w g c a -> joined w g c b -> False.
Proof.
  intros HT Hst' Hc Ha Hb Hq Hna Hnb Hab Hja Hjb. pose proof (n_pos w 2 Hw H2) as Hn.
  assert (forall y, y ∉ vs -> joined w g c y -> path (joined w g) 0 (reverse (y :: c :: rest)) y /\ NoDup (reverse (y :: c :: rest))) as Hpath.
  { intros y Hy Hjy. split.
    - apply path_reverse; [apply jsym|]. apply (path_cons _ y c); [by apply jsym|]. eapply path_sub; [apply HT|]. by eapply ti_path.
    - apply NoDup_reverse. apply NoDup_cons. split; [|apply HT]. intros Hin. by apply Hy, Hst'. }
  assert (forall y, y ∉ vs -> joined w g c y -> nb y q -> exists l', path (joined w g) 0 (reverse (y :: c :: rest) ++ l') q /\
    NoDup (reverse (y :: c :: rest) ++ l')) as Hext.
  { intros y Hy Hjy Hyq. assert (y < n) as Hyn by (destruct Hyq as (dir&?&_); done). destruct (Hpath y Hy Hjy) as [Hp1 Hp2].
    assert (ancestor w g y q) as (l&Hp&Hnd&Hin).
    { assert (ancestor w g y q \/ ancestor w g q y) as [Hanc|(l&Hp&Hnd&Hin)]; [|done|].
      - destruct (nb_neighbours w 2 y q) as [H|H]; [done|by apply Hdf|]. apply Hdf in H. tauto.
      - exfalso. destruct (Hperf 0 y) as (l0&_&Hu); [lia|done|]. assert (l = reverse (y :: c :: rest)) as ->.
        { rewrite (Hu l) by done. symmetry. by apply Hu. }
        apply elem_of_reverse, elem_of_cons in Hin as [->|Hin]; [by eapply (nb_irrefl w 2 Hw H2)|]. by apply Hq, Hst'. }
    apply elem_of_list_split in Hin as (l1&l2&->). destruct (path_split _ _ _ _ _ _ Hp) as [Hp3 _]. exists l2.
    assert (l1 ++ [y] = reverse (y :: c :: rest)) as E.
    { destruct (Hperf 0 y) as (l0&_&Hu); [lia|done|]. rewrite (Hu (l1 ++ [y])); [symmetry; by apply Hu|]. split; [done|].
      replace (l1 ++ y :: l2) with ((l1 ++ [y]) ++ l2) in Hnd by (by rewrite <-app_assoc). by apply NoDup_app in Hnd as [? _]. }
    rewrite <-E, <-app_assoc. done. }
  destruct (Hext a Ha Hja Hna) as (la&Hpa&Hnda). destruct (Hext b Hb Hjb Hnb) as (lb&Hpb&Hndb).
  assert (q < n) as Hqn by (destruct Hna as (dir&_&?&_); done). destruct (Hperf 0 q) as (l0&_&Hu); [lia|done|].
  assert (reverse (a :: c :: rest) ++ la = reverse (b :: c :: rest) ++ lb) as E.
  { rewrite (Hu (reverse (a :: c :: rest) ++ la)) by done. symmetry. by apply Hu. }
  apply app_inj_1 in E as [E _]; [|by rewrite !reverse_length]. apply (inj reverse) in E. by injection E.
Qed.

Lemma walk_two : forall fuel path vs mz d E visit M full, GI vs mz d E -> LI path vs visit -> TI path vs mz -> VI path vs M full ->
  2 * (n - length vs) + length path < fuel + 1 ->
  walk fuel w 2 (exactly g) path vs mz = (half ^ (if full then w - 2 - M else w - 1 - M))%Qc.
Proof.
  assert (forall vs mz d E visit M full, GI vs mz d E -> LI [] vs visit -> TI [] vs mz -> VI [] vs M full ->
    exactly g mz = (half ^ (if full then w - 2 - M else w - 1 - M))%Qc) as Hend.
  { intros vs mz d E visit M full HI HL HT HV. destruct (ti_end m w 2 Hw H2 Hst g Hlen Hwall Hperf Hdf vs mz d E visit HI HL HT) as [-> _].
    pose proof (all_reached w 2 Hw H2 _ _ _ _ _ HI HL (cell 0 (w - 1)) ltac:(apply cell_lt; lia)) as Hin.
    apply (vi_bound _ _ _ _ HV) in Hin; [|lia|lia]. unfold exactly. rewrite decide_True by done.
    replace (if full then w - 2 - M else w - 1 - M) with 0 by (destruct full; lia). done. }
  induction fuel as [|fuel IH]; intros path vs mz d E visit M full HI HL HT HV Hf; (destruct path as [|c rest]; cbn [walk]).
  - by eapply Hend.
  - cbn in Hf. lia.
  - by eapply Hend.
  - pose proof (vs_le w 2 Hw H2 _ _ _ _ HI) as Hvn.
    assert (forall i, i ∈ c :: rest -> i ∈ vs) as Hstk by apply HL.
    assert (c ∈ vs) as Hc by (apply Hstk; apply elem_of_cons; by left). assert (c < n) as Hcn by (by apply HI).
    (* entering a child *)
    assert (forall x M' full', x ∉ vs -> joined w g c x -> VI (x :: c :: rest) (x :: vs) M' full' ->
      walk fuel w 2 (exactly g) (x :: c :: rest) (x :: vs) (remove_wall w (c `min` x) (c `max` x) mz) =
      (half ^ (if full' then w - 2 - M' else w - 1 - M'))%Qc) as Hin.
    { intros x M' full' Hx Hj HV'. destruct (joined_nb w 2 Hw H2 g c x Hlen Hj) as (dir&Hg).
      destruct (enter m w 2 Hw H2 Hst c rest vs mz d E visit dir x HI HL Hg Hx) as (d'&visit'&HI'&HL').
      pose proof (vs_le w 2 Hw H2 _ _ _ _ HI') as Hvn'. cbn [length] in Hvn'.
      rewrite <-(opened_remove m w 2 Hw H2 Hst dir) by done. eapply IH; [exact HI'|exact HL'| |exact HV'|cbn in Hf |- *; lia].
      by eapply (ti_push w 2 Hw H2 g). }
    (* entering another cell *)
    assert (forall x, x ∈ fresh w 2 vs c -> ~ joined w g c x ->
      walk fuel w 2 (exactly g) (x :: c :: rest) (x :: vs) (remove_wall w (c `min` x) (c `max` x) mz) = 0%Qc) as Hout.
    { intros x Hx Hj. apply (elem_fresh w 2 Hw H2) in Hx as [(dir&Hg) Hx]; [|done].
      rewrite <-(opened_remove m w 2 Hw H2 Hst dir) by done. pose proof (gi_len _ _ _ _ _ _ HI) as Hl.
      apply (walk_zero m w 2 Hw H2 Hst g c x Hj).
      - intros i Hi. apply elem_of_cons in Hi as [->|Hi]; [by destruct Hg as (_&?&_)|]. by apply HI, Hstk.
      - rewrite (opened_remove m w 2 Hw H2 Hst dir) by done. unfold remove_wall. by rewrite imap_length.
      - apply (opened_joined w 2 Hw H2); [done|done|]. tauto. }
    destruct full.
    + destruct (fresh w 2 vs c) as [|x l] eqn:Hfr.
      * destruct (choose_child w 2 Hw H2 g Hlen vs c Hcn) as [(dir&x&Hg&Hj&Hx)|Hchild].
        { exfalso. assert (x ∈ fresh w 2 vs c) as Hxf by (apply (elem_fresh w 2 Hw H2); [done|]; split; [by exists dir|done]).
          rewrite Hfr in Hxf. by apply elem_of_nil in Hxf. }
        destruct (ti_children w 2 Hw H2 g Hlen Hperf Hdf c rest vs mz d E visit HI HL HT Hchild) as [_ HT'].
        apply (IH rest vs mz d E (<[c := []]> visit) M true); [done| |done|by eapply vi_pop|cbn in Hf; lia].
        apply li_pop; [done| |done]. intros dir j Hj. destruct (decide (j ∈ vs)) as [|Hjv]; [done|]. exfalso.
        assert (j ∈ fresh w 2 vs c) as Hjf by (apply (elem_fresh w 2 Hw H2); [done|]; split; [by exists dir|done]).
        rewrite Hfr in Hjf. by apply elem_of_nil in Hjf.
      * rewrite <-Hfr. rewrite (mean_ext _ (fun _ => (half ^ (w - 2 - M))%Qc)); [apply mean_const; by rewrite Hfr|].
        intros j Hj. pose proof (all_children c rest vs mz M j HT Hstk Hcn HV Hj) as Hjc.
        apply (elem_fresh w 2 Hw H2) in Hj as [Hn Hjv]; [|done].
        destruct (cell_of c Hcn) as (r&x'&Hr&Hx'&->). pose proof (vi_bound _ _ _ _ HV r x' Hr Hx' Hc) as HxM.
        pose proof (vi_M _ _ _ _ HV) as HM.
        apply nb_cell in Hn as [->|[[Hs ->]|[Hs ->]]]; [..|done|done].
        -- apply (Hin _ M true); [done|done|]. by eapply vi_old.
        -- destruct (decide (x' = M)) as [->|].
           ++ replace (w - 2 - M) with (w - 1 - S M) by lia. apply (Hin _ (S M) false); [done|done|]. by eapply vi_right.
           ++ apply (Hin _ M true); [done|done|]. eapply vi_old; [done|lia|done].
        -- apply (Hin _ M true); [done|done|]. eapply vi_old; [done|lia|lia].
    + destruct (vi_top _ _ _ _ HV) as (r&rest'&Hr&[= -> ->]&Hcv&Hvert). pose proof (vi_M _ _ _ _ HV) as HM.
      pose proof (single_fresh r rest' vs M HV Hr Hcv Hvert) as Hfresh.
      destruct (choose_child w 2 Hw H2 g Hlen vs (cell r M) Hcn) as [(dir&x&Hg&Hj&Hx)|Hchild].
      2:{ exfalso. destruct (ti_children w 2 Hw H2 g Hlen Hperf Hdf _ rest' vs mz d E visit HI HL HT Hchild) as [Hnil _].
          assert (cell (1 - r) M ∈ fresh w 2 vs (cell r M)) as Hin' by (apply Hfresh; by left).
          rewrite Hnil in Hin'. by apply elem_of_nil in Hin'. }
      assert (x ∈ fresh w 2 vs (cell r M)) as Hxf by (apply (elem_fresh w 2 Hw H2); [done|]; split; [by exists dir|done]).
      destruct (decide (S M < w)) as [HSM|HSM].
      * assert (fresh w 2 vs (cell r M) ≡ₚ [cell (1 - r) M; cell r (S M)]) as Hperm.
        { apply NoDup_Permutation.
          - apply NoDup_filter, NoDup_seq.
          - apply NoDup_cons. split; [|apply NoDup_singleton]. intros He%elem_of_list_singleton. apply cell_inj in He; lia.
          - intros j. rewrite Hfresh, !elem_of_cons, elem_of_nil. tauto. }
        assert (~ (joined w g (cell r M) (cell (1 - r) M) /\ joined w g (cell r M) (cell r (S M)))) as Hnot.
        { intros [H1 H3]. apply (one_child (cell r M) rest' vs mz (cell (1 - r) M) (cell r (S M)) (cell (1 - r) (S M)) HT Hstk Hcn); try done.
          - intros H. apply (vi_bound _ _ _ _ HV) in H; lia.
          - intros H. apply (vi_bound _ _ _ _ HV) in H; lia.
          - apply nb_cell; [lia|lia|]. right. left. done.
          - apply nb_cell; [lia|lia|]. by left.
          - intros He. apply cell_inj in He; lia. }
        assert (forall a, (a / qc 2)%Qc = (half * a)%Qc) as Hhalf.
        { intros a. assert (half = (/ qc 2)%Qc) as -> by (by apply Qc_is_canon). unfold Qcdiv. ring. }
        destruct (fresh w 2 vs (cell r M)) as [|x0 l0] eqn:Hfr; [by apply elem_of_nil in Hxf|]. rewrite <-Hfr in *.
        rewrite (mean_perm _ _ _ Hperm), mean_two, Hhalf. replace (w - 1 - M) with (S (w - 2 - M)) by lia. cbn [Qcpower]. f_equal.
        apply Hfresh in Hxf as [->|[_ ->]].
        -- rewrite (Hin _ M true); [|done|done|by eapply vi_vert]. rewrite Hout; [ring| |].
           ++ apply Hfresh. by right.
           ++ intros H. by apply Hnot.
        -- rewrite (Hin (cell r (S M)) (S M) false); [|done|done|by eapply vi_right]. rewrite Hout.
           ++ replace (w - 1 - S M) with (w - 2 - M) by lia. ring.
           ++ apply Hfresh. by left.
           ++ intros H. by apply Hnot.
      * assert (fresh w 2 vs (cell r M) ≡ₚ [cell (1 - r) M]) as Hperm.
        { apply NoDup_Permutation.
          - apply NoDup_filter, NoDup_seq.
          - apply NoDup_singleton.
          - intros j. rewrite Hfresh, elem_of_list_singleton. split; [intros [?|[? _]]; done|by left]. }
        destruct (fresh w 2 vs (cell r M)) as [|x0 l0] eqn:Hfr; [by apply elem_of_nil in Hxf|]. rewrite <-Hfr in *.
        rewrite (mean_perm _ _ _ Hperm), mean_one_elem. apply Hfresh in Hxf as [->|[? _]]; [|done].
        rewrite (Hin _ M true); [|done|done|by eapply vi_vert]. by replace (w - 1 - M) with (w - 2 - M) by lia.
Qed.

Lemma expected_two : expected w 2 (exactly g) = (half ^ (w - 1))%Qc.
Proof.
  pose proof (n_pos w 2 Hw H2) as Hn.
  replace (w - 1) with (w - 1 - 0) by lia.
  apply (walk_two (2 * n) [0] [0] (replicate n maze_node_new) (with_size n) [] (replicate n [Right; Down; Left; Up]) 0 false).
  - apply gi_start; [done|lia].
  - apply start_li.
  - apply ti_start.
  - apply vi_start.
  - cbn [length]. lia.
Qed.
End target.
End two.

(** * Two columns *)

Lemma exchanged_twice w h g : 1 <= w -> 1 <= h -> length g = w * h -> exchanged w h (exchanged h w g) = g.
Proof.
  intros Hw Hh Hl. apply list_eq. intros i. destruct (decide (i < w * h)) as [Hi|Hi].
  2:{ rewrite !lookup_ge_None_2; [done|lia|rewrite exchanged_length; lia]. }
  destruct (swap_coord w h Hw Hh i Hi) as (_&_&Hs). rewrite exchanged_lookup by done. rewrite exchanged_lookup by done.
  cbn [default]. rewrite (swap_swap w h Hw Hh i Hi). destruct (lookup_lt_is_Some_2 g i) as [nd Hnd]; [lia|]. rewrite Hnd.
  by destruct nd.
Qed.

Lemma expected_exchanged (m : mode) w h g : 1 <= w -> 1 <= h -> storable m h w -> length g = w * h ->
  expected w h (exactly g) = expected h w (exactly (exchanged h w g)).
Proof.
  intros Hw Hh Hst Hl. rewrite expected_swap by done.
  rewrite <-!(generator_mean m h w Hh Hw Hst 12 (ex_intro _ 0 eq_refl)). apply mean_draws_ext. intros ds.
  destruct (gen_dfs m h w Hh Hw Hst (rng_of ds)) as (mz&->&Hlen&_). cbn [value]. unfold exactly.
  destruct (decide (g = exchanged w h mz)) as [->|Hne].
  - rewrite decide_True; [done|]. by apply exchanged_twice.
  - rewrite decide_False; [done|]. intros <-. apply Hne. symmetry. by apply exchanged_twice.
Qed.

Lemma two_rows (m : mode) w k g : 1 <= w -> storable m w 2 -> length g = w * 2 -> walled w 2 g -> perfect w 2 g -> depth_first w 2 g ->
  mean_draws (12 * S k) (4 * (w * 2)) (fun ds => value (exactly g) (recursive_backtrack m (rng_of ds) w 2)) = (half ^ (w - 1))%Qc.
Proof.
  intros Hw Hst H1 H2 H3 H4. rewrite (generator_mean m w 2 Hw (le_S 1 1 (le_n 1)) Hst) by eauto. by apply (expected_two m).
Qed.
Lemma two_columns (m : mode) h k g : 1 <= h -> storable m 2 h -> length g = 2 * h -> walled 2 h g -> perfect 2 h g -> depth_first 2 h g ->
  mean_draws (12 * S k) (4 * (2 * h)) (fun ds => value (exactly g) (recursive_backtrack m (rng_of ds) 2 h)) = (half ^ (h - 1))%Qc.
Proof.
  intros Hh Hst H1 H2 H3 H4. pose proof (le_S 1 1 (le_n 1)) as T. assert (storable m h 2) as Hst' by (unfold storable in *; lia).
  assert (0 < expected 2 h (exactly g))%Qc as Hpos.
  { rewrite <-(generator_mean m 2 h T Hh Hst 12 (ex_intro _ 0 eq_refl)). by apply (positive_maze m 2 h 0 g). }
  rewrite (generator_mean m 2 h T Hh Hst) by eauto. rewrite (expected_exchanged m) in Hpos |- * by done.
  rewrite <-(generator_mean m h 2 Hh T Hst' 12 (ex_intro _ 0 eq_refl)) in Hpos.
  apply (positive_maze m h 2 0) in Hpos as (G1&G2&G3&G4); [|done|done|done]. by apply (expected_two m).
Qed.

(** * One row or column *)

Lemma mean_le {A} (f : A -> Qc) l x : l <> [] -> (forall y, y ∈ l -> (f y <= x)%Qc) -> (mean f l <= x)%Qc.
Proof.
  intros Hl Hf. assert (length l <> 0) as Hn by (by destruct l).
  assert (total (f <$> l) <= qc (length l) * x)%Qc as H.
  { rewrite <-(total_const l x). clear Hl Hn. induction l as [|y l IH]; cbn [fmap list_fmap]; [apply Qcle_refl|].
    rewrite !total_cons. apply Qcplus_le_compat; [apply Hf; apply elem_of_cons; by left|].
    apply IH. intros z Hz. apply Hf. apply elem_of_cons. by right. }
  unfold mean, Qcdiv. replace x with (qc (length l) * x * / qc (length l))%Qc by (field; by apply qc_nonzero).
  apply Qcmult_le_compat_r; [done|by apply inv_nonneg].
Qed.
Lemma mean_draws_le k n x : k <> 0 -> forall f, (forall ds, (f ds <= x)%Qc) -> (mean_draws k n f <= x)%Qc.
Proof.
  intros Hk. induction n as [|n IH]; intros f Hf; cbn; [done|]. apply mean_le; [by destruct k|]. intros d _. by apply IH.
Qed.
Lemma expected_le (m : mode) w h g : 1 <= w -> 1 <= h -> storable m w h -> (expected w h (exactly g) <= 1)%Qc.
Proof.
  intros Hw Hh Hst. rewrite <-(generator_mean m w h Hw Hh Hst 12 (ex_intro _ 0 eq_refl)). apply mean_draws_le; [done|].
  intros ds. destruct (recursive_backtrack m (rng_of ds) w h) as [g'|]; cbn; [|done]. unfold exactly. by case_decide.
Qed.
Lemma qc_inv_one k : ((/ qc 1) ^ k)%Qc = 1%Qc.
Proof. induction k as [|k IH]; [done|]. cbn [Qcpower]. rewrite IH. by apply Qc_is_canon. Qed.

Lemma expected_one_row (m : mode) w g : 1 <= w -> storable m w 1 -> length g = w * 1 -> walled w 1 g -> perfect w 1 g -> depth_first w 1 g ->
  expected w 1 (exactly g) = 1%Qc.
Proof.
  intros Hw Hst H1 H2 H3 H4. apply Qcle_antisym; [by apply (expected_le m)|]. rewrite <-(qc_inv_one (w * 1 - 1)).
  apply (expected_lower m); try done. intros vs c Hc He. by apply (fresh_one m).
Qed.
Lemma one_row (m : mode) w k g : 1 <= w -> storable m w 1 -> length g = w * 1 -> walled w 1 g -> perfect w 1 g -> depth_first w 1 g ->
  mean_draws (12 * S k) (4 * (w * 1)) (fun ds => value (exactly g) (recursive_backtrack m (rng_of ds) w 1)) = 1%Qc.
Proof.
  intros Hw Hst H1 H2 H3 H4. rewrite (generator_mean m w 1 Hw (le_n 1) Hst) by eauto. by apply (expected_one_row m).
Qed.
Lemma one_column (m : mode) h k g : 1 <= h -> storable m 1 h -> length g = 1 * h -> walled 1 h g -> perfect 1 h g -> depth_first 1 h g ->
  mean_draws (12 * S k) (4 * (1 * h)) (fun ds => value (exactly g) (recursive_backtrack m (rng_of ds) 1 h)) = 1%Qc.
Proof.
  intros Hh Hst H1 H2 H3 H4. assert (storable m h 1) as Hst' by (unfold storable in *; lia).
  assert (0 < expected 1 h (exactly g))%Qc as Hpos.
  { rewrite <-(generator_mean m 1 h (le_n 1) Hh Hst 12 (ex_intro _ 0 eq_refl)). by apply (positive_maze m 1 h 0 g). }
  rewrite (generator_mean m 1 h (le_n 1) Hh Hst) by eauto. rewrite (expected_exchanged m) in Hpos |- * by done.
  rewrite <-(generator_mean m h 1 Hh (le_n 1) Hst' 12 (ex_intro _ 0 eq_refl)) in Hpos.
  apply (positive_maze m h 1 0) in Hpos as (G1&G2&G3&G4); [|done|done|done]. by apply (expected_one_row m).
Qed.

Lemma thin (m : mode) w h k g : 1 <= w -> 1 <= h -> storable m w h -> w <= 2 \/ h <= 2 ->
  length g = w * h -> walled w h g -> perfect w h g -> depth_first w h g ->
  mean_draws (12 * S k) (4 * (w * h)) (fun ds => value (exactly g) (recursive_backtrack m (rng_of ds) w h)) =
  (half ^ ((w - 1) * (h - 1)))%Qc.
Proof.
  intros Hw Hh Hst Hwh H1 H2 H3 H4.
  assert (h = 1 \/ h = 2 \/ w = 1 \/ w = 2) as [-> | [-> | [-> | ->]]] by lia.
  - rewrite one_row by done. by rewrite Nat.mul_0_r.
  - rewrite two_rows by done. by rewrite Nat.mul_1_r.
  - rewrite one_column by done. done.
  - rewrite two_columns by done. by rewrite Nat.mul_1_l.
Qed.
