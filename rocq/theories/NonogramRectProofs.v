(** Proofs about solutions of nonograms on images of all sizes. *)
From Verif Require Import Base Image Dlx Sudoku Nonogram NonogramPrint NonogramRect SpecPrint SpecNonogramRect.
From Coq Require Import ZifyBool ZifyNat ZifyN.
From Verif Require Import ImageProofs MazePrintProofs PrintProofs LargeProofs.
Local Open Scope N_scope.

Lemma i32_arith_ok m z : (- 2 ^ 31 <= z < 2 ^ 31)%Z -> i32_arith m z = Ret z.
Proof. intros H. unfold i32_arith. by rewrite (proj2 (Z.leb_le _ _)), (proj2 (Z.ltb_lt _ _)) by lia. Qed.
Lemma i32_arith_panic ws z : (2 ^ 31 <= z)%Z -> i32_arith (Mode Debug ws) z = Fault Panic.
Proof. intros H. unfold i32_arith. rewrite (proj2 (Z.ltb_ge _ _) H). by rewrite andb_false_r. Qed.
Lemma i32_release ws z : exists z', i32_arith (Mode Release ws) z = Ret z'.
Proof. unfold i32_arith. destruct (_ && _); eauto. Qed.

Lemma rect_end_ok m x n : (- 2 ^ 31 <= x)%Z -> n < 2 ^ 31 -> (0 < x + Z.of_N n < 2 ^ 31)%Z ->
  rect_end m x n = Ret (x + Z.of_N n - 1)%Z.
Proof.
  intros Hx Hn H. unfold rect_end. rewrite as_i32_small by done. rewrite i32_arith_ok by lia. cbn [bind].
  apply i32_arith_ok. lia.
Qed.

Lemma draw_rect_small m im x y w h c :
  0 < i_width im < 2 ^ 31 -> 0 < i_height im < 2 ^ 31 -> 0 < w -> 0 < h ->
  (0 <= x)%Z -> (0 <= y)%Z -> (x + Z.of_N w < 2 ^ 31)%Z -> (y + Z.of_N h < 2 ^ 31)%Z ->
  exists im', draw_rect32 m im x y w h c = Ret im' /\
    painted c (fun a b => (x <=? Z.of_N a)%Z && (Z.of_N a <? x + Z.of_N w)%Z &&
           (y <=? Z.of_N b)%Z && (Z.of_N b <? y + Z.of_N h)%Z &&
           (Z.of_N a <? Z.of_N (i_width im))%Z && (Z.of_N b <? Z.of_N (i_height im))%Z) im im'.
Proof.
  change (2 ^ 31) with 2147483648. change (2 ^ 31)%Z with 2147483648%Z.
  intros HW HH Hw Hh Hx Hy Hxw Hyh. unfold draw_rect32.
  destruct (N.eqb_spec (i_width im) 0) as [|_]; [lia|]. destruct (N.eqb_spec (i_height im) 0) as [|_]; [lia|]. cbn [orb].
  rewrite !rect_end_ok by (change (2 ^ 31) with 2147483648; change (2 ^ 31)%Z with 2147483648%Z; lia). cbn [bind].
  rewrite !Z.max_r by lia.
  set (x1 := Z.min _ (x + Z.of_N w - 1)). set (y1 := Z.min _ (y + Z.of_N h - 1)). cbv zeta.
  destruct (Z.ltb_spec x1 x) as [Hx1|Hx1]; cbn [orb].
  { eexists. split; [done|]. eapply painted_ext; [apply painted_none|]. intros a b. symmetry. apply not_true_is_false. lia. }
  destruct (Z.ltb_spec y1 y) as [Hy1|Hy1].
  { eexists. split; [done|]. eapply painted_ext; [apply painted_none|]. intros a b. symmetry. apply not_true_is_false. lia. }
  edestruct (foldM_painted c (fun dy im => foldM (fun dx im => put_pixel im (Z.to_N x + dx) (Z.to_N y + dy) c)
      (range 0 (Z.to_N (x1 - x) + 1)) im)
    (fun dy a b => existsb (fun dx => (a =? Z.to_N x + dx) && (b =? Z.to_N y + dy)) (range 0 (Z.to_N (x1 - x) + 1)))
    (range 0 (Z.to_N (y1 - y) + 1)) im) as (im'&E&P).
  { intros dy im1 Hdy W1 H1. apply elem_of_range in Hdy. apply foldM_painted. intros dx im2 Hdx W2 H2. apply elem_of_range in Hdx.
    apply put_pixel_painted; lia. }
  exists im'. split; [exact E|]. eapply painted_ext; [exact P|]. intros a b. cbn beta.
  apply eq_true_iff_eq. rewrite range_exists. split.
  - intros (dy&Hdy&Hb). apply range_exists in Hb as (dx&Hdx&Hb). lia.
  - intros Hb. exists (b - Z.to_N y). split; [lia|]. apply range_exists. exists (a - Z.to_N x). lia.
Qed.

Lemma draw_cells_small m width height grid im :
  i_width im = side width -> i_height im = side height -> side width < 2 ^ 31 -> side height < 2 ^ 31 ->
  N.of_nat (length grid) = width * height ->
  exists im', draw_cells32 m width height grid im = Ret im' /\
    painted BLACK_PIXEL (fun x y => existsb (fun p => (p.2 : bool) &&
      interior_bool width height (as_u32 (N.of_nat p.1) mod width) (as_u32 (N.of_nat p.1) / width) x y) (enumerate grid)) im im'.
Proof.
  intros W H Hsw Hsh Hlen. assert (HU : u32_size = 4294967296) by done.
  change (2 ^ 31) with 2147483648 in *.
  unfold draw_cells32. apply foldM_painted. intros [i sq] im1 Hi W1 H1. cbn [fst snd].
  apply elem_of_enumerate in Hi. destruct sq; cbn [negb andb]; [|eexists; split; [done|apply painted_none]].
  assert (N.of_nat i < width * height) as Hlt by (apply lookup_lt_Some in Hi; lia).
  assert (width <> 0) as Hw0 by (intros ->; lia).
  destruct (cell_coords width height i Hw0 Hlt) as [Hc Hr].
  unfold u32_rem, u32_div. destruct (N.eqb_spec width 0); [done|]. cbn [bind].
  revert Hc Hr. generalize (as_u32 (N.of_nat i) mod width) (as_u32 (N.of_nat i) / width). intros c r Hc Hr.
  rewrite u32_mul_ok by (unfold side in *; lia). cbn [bind].
  rewrite !rule_space_ok by lia. cbn [bind].
  rewrite u32_add_ok by (unfold side in *; lia). cbn [bind].
  rewrite u32_add_ok by (unfold side in *; lia). cbn [bind].
  rewrite u32_mul_ok by (unfold side in *; lia). cbn [bind].
  rewrite u32_add_ok by (unfold side in *; lia). cbn [bind].
  rewrite u32_add_ok by (unfold side in *; lia). cbn [bind].
  rewrite !as_i32_small by (change (2 ^ 31) with 2147483648; unfold side in *; lia).
  assert (150 <= margin width) by (unfold margin; lia). assert (150 <= margin height) by (unfold margin; lia).
  edestruct (draw_rect_small m im1) as (im'&E&P); [..|exists im'; split; [exact E|]];
    try (change (2 ^ 31) with 2147483648; change (2 ^ 31)%Z with 2147483648%Z; unfold side in *; lia).
  eapply painted_ext; [exact P|].
  intros a b. unfold interior_bool. rewrite W1, H1, W, H. unfold side in *.
  generalize dependent (margin width). generalize dependent (margin height). intros mh ? ? ? mw. intros.
  apply eq_true_iff_eq. lia.
Qed.

Lemma same_result_refl a : same_result a a.
Proof. by destruct a as [[im|e]|f]; cbn. Qed.

Lemma rect_same (m : mode) width height im grid : width * height < usize_size m -> i_width im < 2 ^ 31 -> i_height im < 2 ^ 31 ->
  side width < 2 ^ 32 -> side height < 2 ^ 32 ->
  same_result (print_solution32 m width height im grid) (print_nonogram_solution m width height im grid).
Proof.
  intros Hn HW HH Hsw Hsh. assert (HU : u32_size = 4294967296) by done.
  change (2 ^ 32) with u32_size in *.
  unfold print_solution32, print_nonogram_solution. rewrite !rule_space_ok by lia. cbn [bind]. rewrite usize_mul_ok by done. cbn [bind].
  destruct (N.eqb_spec (N.of_nat (length grid)) (width * height)) as [Hlen|]; cbn [negb]; [|apply same_result_refl].
  rewrite u32_mul_ok by (unfold side in *; lia). cbn [bind].
  rewrite u32_add_ok by (unfold side in *; lia). cbn [bind]. rewrite !(N.mul_comm _ 50).
  change (50 * width + margin width) with (side width).
  destruct (N.eqb_spec (i_width im) (side width)) as [W|]; cbn [negb]; [|apply same_result_refl].
  rewrite (u32_mul_ok m height 50) by (unfold side in *; lia). cbn [bind].
  rewrite u32_add_ok by (unfold side in *; lia). cbn [bind]. rewrite (N.mul_comm height).
  change (50 * height + margin height) with (side height).
  destruct (N.eqb_spec (i_height im) (side height)) as [H|]; cbn [negb]; [|apply same_result_refl].
  destruct (draw_cells_small m width height grid im) as (im1&->&[W1 H1 P1]); [congruence|congruence|by rewrite <-W|by rewrite <-H|done|].
  destruct (draw_cells_any m width height grid im) as (im2&->&[W2 H2 P2]); [congruence|congruence|by rewrite <-W|by rewrite <-H|done|].
  cbn [bind same_result]. split_and!; [congruence|congruence|]. intros x y. by rewrite P1, P2.
Qed.

(** * Large images *)
Lemma side_not_limit n : side n <> 2 ^ 31.
Proof. unfold side, margin. change (2 ^ 31) with 2147483648. lia. Qed.

Lemma canvas_end m n : n < 2 ^ 32 -> n <> 2 ^ 31 -> 0 < n ->
  exists e, rect_end m 0 n = Ret e /\ (2 ^ 31 <= n -> (e < 0)%Z).
Proof.
  intros Hn Hne H0. unfold rect_end. rewrite Z.add_0_l.
  change (2 ^ 32) with 4294967296 in *. change (2 ^ 31) with 2147483648 in *.
  unfold as_i32. change (2 ^ 31) with 2147483648. change (2 ^ 32)%Z with 4294967296%Z.
  destruct (N.ltb_spec n 2147483648) as [H|H].
  - rewrite i32_arith_ok by (change (2 ^ 31)%Z with 2147483648%Z; lia). cbn [bind].
    rewrite i32_arith_ok by (change (2 ^ 31)%Z with 2147483648%Z; lia). eexists. split; [done|]. lia.
  - rewrite i32_arith_ok by (change (2 ^ 31)%Z with 2147483648%Z; lia). cbn [bind].
    rewrite i32_arith_ok by (change (2 ^ 31)%Z with 2147483648%Z; lia). eexists. split; [done|]. lia.
Qed.

(** The end of a square that begins at [p]. *)
Lemma square_end_release ws p : exists e, rect_end (Mode Release ws) (as_i32 p) 49 = Ret e.
Proof.
  unfold rect_end. destruct (i32_release ws (as_i32 p + as_i32 49)) as [z ->]. cbn [bind]. apply (i32_release ws).
Qed.
Lemma square_end_debug ws p : p < 2 ^ 32 -> ~ (2 ^ 31 - 49 <= p < 2 ^ 31) -> exists e, rect_end (Mode Debug ws) (as_i32 p) 49 = Ret e.
Proof.
  intros Hp Hn. unfold rect_end. rewrite (as_i32_small 49) by done.
  change (2 ^ 32) with 4294967296 in *. change (2 ^ 31) with 2147483648 in *.
  unfold as_i32. change (2 ^ 31) with 2147483648. change (2 ^ 32)%Z with 4294967296%Z.
  destruct (N.ltb_spec p 2147483648) as [H|H];
    (rewrite i32_arith_ok by (change (2 ^ 31)%Z with 2147483648%Z; lia)); cbn [bind];
    (rewrite i32_arith_ok by (change (2 ^ 31)%Z with 2147483648%Z; lia)); eauto.
Qed.
Lemma square_end_panic ws p : 2 ^ 31 - 49 <= p < 2 ^ 31 -> rect_end (Mode Debug ws) (as_i32 p) 49 = Fault Panic.
Proof.
  intros Hp. unfold rect_end. rewrite !as_i32_small by lia. change (2 ^ 31) with 2147483648 in *.
  by rewrite i32_arith_panic by (change (2 ^ 31)%Z with 2147483648%Z; lia).
Qed.
Lemma square_end_total ws p : rect_end (Mode Debug ws) (as_i32 p) 49 = Fault Panic \/ exists e, rect_end (Mode Debug ws) (as_i32 p) 49 = Ret e.
Proof.
  unfold rect_end, i32_arith. destruct (_ && _); cbn [bind]; [|by left]. destruct (_ && _); eauto.
Qed.

Section large.
  Context (width height : N) (im : image).
  Context (HW : i_width im = side width) (HH : i_height im = side height).
  Context (Hsw : side width < 2 ^ 32) (Hsh : side height < 2 ^ 32).
  Context (Hbig : 2 ^ 31 <= side width \/ 2 ^ 31 <= side height).

  Lemma rect_large m x y :
    draw_rect32 m im x y 49 49 BLACK_PIXEL =
    (do! rect_end m x 49 in do! rect_end m y 49 in Ret im).
  Proof using HW HH Hsw Hsh Hbig.
    unfold draw_rect32. rewrite HW, HH.
    assert (0 < side width) by (unfold side, margin; lia). assert (0 < side height) by (unfold side, margin; lia).
    destruct (N.eqb_spec (side width) 0) as [|_]; [lia|]. destruct (N.eqb_spec (side height) 0) as [|_]; [lia|]. cbn [orb].
    destruct (canvas_end m (side width)) as (e&->&He); [done|apply side_not_limit|done|]. cbn [bind].
    destruct (canvas_end m (side height)) as (e'&->&He'); [done|apply side_not_limit|done|].
    destruct (rect_end m x 49) as [r|]; cbn [bind]; [|done].
    destruct (rect_end m y 49) as [b|]; cbn [bind]; [|done]. cbv zeta.
    destruct (Z.ltb_spec (Z.min e r) (Z.max 0 x)) as [|Hx]; [done|].
    destruct (Z.ltb_spec (Z.min e' b) (Z.max 0 y)) as [|Hy]; [done|]. exfalso. lia.
  Qed.

  Definition place_x (i : nat) : N := margin width + 50 * (as_u32 (N.of_nat i) mod width) + 1.
  Definition place_y (i : nat) : N := margin height + 50 * (as_u32 (N.of_nat i) / width) + 1.

  Lemma cell_step m i : N.of_nat i < width * height ->
    (let! c := u32_rem (as_u32 (N.of_nat i)) width in
      let! c50 := u32_mul m c 50 in
      let! rw := rule_space m width in
      let! cx := u32_add m c50 rw in
      let! x := u32_add m cx 1 in
      let! r := u32_div (as_u32 (N.of_nat i)) width in
      let! r50 := u32_mul m r 50 in
      let! rh := rule_space m height in
      let! ry := u32_add m r50 rh in
      let! y := u32_add m ry 1 in
      draw_rect32 m im (as_i32 x) (as_i32 y) 49 49 BLACK_PIXEL) =
    (do! rect_end m (as_i32 (place_x i)) 49 in do! rect_end m (as_i32 (place_y i)) 49 in Ret im) /\
    place_x i < 2 ^ 32 /\ place_y i < 2 ^ 32.
  Proof using HW HH Hsw Hsh Hbig.
    intros Hlt. assert (HU : u32_size = 4294967296) by done. change (2 ^ 32) with 4294967296 in *.
    assert (width <> 0) as Hw0 by (intros ->; lia).
    destruct (cell_coords width height i Hw0 Hlt) as [Hc Hr].
    unfold u32_rem, u32_div, place_x, place_y. destruct (N.eqb_spec width 0); [done|]. cbn [bind].
    revert Hc Hr. generalize (as_u32 (N.of_nat i) mod width) (as_u32 (N.of_nat i) / width). intros c r Hc Hr.
    split; [|clear Hbig; unfold side in *; lia].
    rewrite u32_mul_ok by (unfold side in *; lia). cbn [bind].
    rewrite !rule_space_ok by lia. cbn [bind].
    rewrite u32_add_ok by (unfold side in *; lia). cbn [bind].
    rewrite u32_add_ok by (unfold side in *; lia). cbn [bind].
    rewrite u32_mul_ok by (unfold side in *; lia). cbn [bind].
    rewrite u32_add_ok by (unfold side in *; lia). cbn [bind].
    rewrite u32_add_ok by (unfold side in *; lia). cbn [bind].
    rewrite rect_large. by rewrite !(N.mul_comm _ 50), !(N.add_comm (50 * _) (margin _)).
  Qed.

  Lemma foldM_fixed {A} (f : A -> image -> res image) l : (forall a, a ∈ l -> f a im = Ret im) -> foldM f l im = Ret im.
  Proof using im. induction l as [|a l IH]; intros H; cbn [foldM]; [done|]. rewrite H by apply elem_of_list_here. cbn [bind]. apply IH. intros. apply H. by apply elem_of_list_further. Qed.
  Lemma foldM_fixed_panic {A} (f : A -> image -> res image) l a :
    (forall a, a ∈ l -> f a im = Ret im \/ f a im = Fault Panic) -> a ∈ l -> f a im = Fault Panic -> foldM f l im = Fault Panic.
  Proof using im.
    intros H Ha Hp. induction Ha as [a l|a b l Ha IH]; cbn [foldM]; [by rewrite Hp|].
    destruct (H b) as [E|E]; [apply elem_of_list_here| |by rewrite E]. rewrite E. cbn [bind]. apply IH; [|done].
    intros. apply H. by apply elem_of_list_further.
  Qed.

  Context (grid : list bool) (Hlen : N.of_nat (length grid) = width * height).

  Lemma solution_cells (m : mode) : width * height < usize_size m -> print_solution32 m width height im grid =
    (let! im := draw_cells32 m width height grid im in Ret (Ok im)).
  Proof using All.
    intros Hn. assert (HU : u32_size = 4294967296) by done. change (2 ^ 32) with u32_size in *.
    unfold print_solution32. rewrite !rule_space_ok by lia. cbn [bind]. rewrite usize_mul_ok by done. cbn [bind].
    rewrite (proj2 (N.eqb_eq _ _) Hlen). cbn [negb].
    rewrite u32_mul_ok by (unfold side in *; lia). cbn [bind].
    rewrite u32_add_ok by (unfold side in *; lia). cbn [bind]. rewrite !(N.mul_comm _ 50).
    change (50 * width + margin width) with (side width).
    rewrite (proj2 (N.eqb_eq _ _) HW). cbn [negb].
    rewrite (u32_mul_ok m height 50) by (unfold side in *; lia). cbn [bind].
    rewrite u32_add_ok by (unfold side in *; lia). cbn [bind]. rewrite (N.mul_comm height).
    change (50 * height + margin height) with (side height).
    by rewrite (proj2 (N.eqb_eq _ _) HH).
  Qed.
  Lemma filled_index i : grid !! i = Some true -> N.of_nat i < width * height.
  Proof using All. intros H%lookup_lt_Some. lia. Qed.

  Lemma large_release ws : width * height < usize_size ws -> print_solution32 (Mode Release ws) width height im grid = Ret (Ok im).
  Proof using All.
    intros Hsz. rewrite solution_cells by done. unfold draw_cells32. rewrite foldM_fixed; [done|].
    intros [i sq] Hi. apply elem_of_enumerate in Hi. destruct sq; cbn [negb]; [|done].
    rewrite (proj1 (cell_step (Mode Release ws) i (filled_index i Hi))).
    destruct (square_end_release ws (place_x i)) as [e ->]. cbn [bind].
    destruct (square_end_release ws (place_y i)) as [e' ->]. done.
  Qed.
  Lemma near_place i : near_limit width height i <->
    2 ^ 31 - 49 <= place_x i < 2 ^ 31 \/ 2 ^ 31 - 49 <= place_y i < 2 ^ 31.
  Proof using All. done. Qed.
  Lemma large_debug_same ws : width * height < usize_size ws -> (forall i, grid !! i = Some true -> ~ near_limit width height i) ->
    print_solution32 (Mode Debug ws) width height im grid = Ret (Ok im).
  Proof using All.
    intros Hsz Hn. rewrite solution_cells by done. unfold draw_cells32. rewrite foldM_fixed; [done|].
    intros [i sq] Hi. apply elem_of_enumerate in Hi. destruct sq; cbn [negb]; [|done].
    specialize (Hn i Hi). rewrite near_place in Hn.
    destruct (cell_step (Mode Debug ws) i (filled_index i Hi)) as (->&Hx&Hy).
    destruct (square_end_debug ws (place_x i)) as [e ->]; [done|tauto|]. cbn [bind].
    destruct (square_end_debug ws (place_y i)) as [e' ->]; [done|tauto|]. done.
  Qed.
  Lemma large_debug_panic ws i : width * height < usize_size ws -> grid !! i = Some true -> near_limit width height i ->
    print_solution32 (Mode Debug ws) width height im grid = Fault Panic.
  Proof using All.
    intros Hsz Hi Hn. rewrite solution_cells by done. unfold draw_cells32. erewrite foldM_fixed_panic; [done| |by apply elem_of_enumerate|].
    - intros [j sq] Hj. apply elem_of_enumerate in Hj. destruct sq; cbn [negb]; [|by left].
      rewrite (proj1 (cell_step (Mode Debug ws) j (filled_index j Hj))).
      destruct (square_end_total ws (place_x j)) as [E|[e E]]; rewrite E; [by right|]. cbn [bind].
      destruct (square_end_total ws (place_y j)) as [E'|[e' E']]; rewrite E'; [by right|]. by left.
    - cbn [negb]. rewrite (proj1 (cell_step (Mode Debug ws) i (filled_index i Hi))). rewrite near_place in Hn.
      destruct Hn as [Hn|Hn]; [by rewrite square_end_panic|].
      destruct (square_end_total ws (place_x i)) as [E|[e E]]; rewrite E; [done|]. cbn [bind]. by rewrite square_end_panic.
  Qed.
End large.

(** As stated in [PropNonogramRect]. *)
Lemma large_spec ws width height im grid : width * height < usize_size ws ->
  N.of_nat (length grid) = width * height -> i_width im = side width -> i_height im = side height ->
  side width < 2 ^ 32 -> side height < 2 ^ 32 -> 2 ^ 31 <= side width \/ 2 ^ 31 <= side height ->
  print_solution32 (Mode Release ws) width height im grid = Ret (Ok im) /\
  ((forall i, grid !! i = Some true -> ~ near_limit width height i) ->
     print_solution32 (Mode Debug ws) width height im grid = Ret (Ok im)) /\
  (forall i, grid !! i = Some true -> near_limit width height i ->
     print_solution32 (Mode Debug ws) width height im grid = Fault Panic).
Proof.
  intros. split_and!; [by apply large_release|by apply large_debug_same|intros; by eapply large_debug_panic].
Qed.

Lemma wide_grid n : N.of_nat n = 39999999 -> N.of_nat (length (true :: replicate n false)) = 40000000 * 1.
Proof. intros Hn. cbn [length]. rewrite replicate_length. lia. Qed.
Lemma wide_first : ~ near_limit 40000000 1 0.
Proof. intros [H|H]; destruct H as [H _]; by vm_compute in H. Qed.
Lemma wide_filled n : filled_pixel 40000000 1 (true :: replicate n false) 400000001 151.
Proof. exists 0, 0. split_and!; [done|done|]. by vm_compute. Qed.
Lemma wide_unchanged n m im : N.of_nat n = 39999999 -> i_width im = side 40000000 -> i_height im = side 1 ->
  print_solution32 m 40000000 1 im (true :: replicate n false) = Ret (Ok im).
Proof.
  intros Hn HW HH.
  destruct (large_spec m 40000000 1 im (true :: replicate n false)  ltac:(by destruct (word_of m)) (wide_grid n Hn) HW HH) as (H1&H2&_); [done|done|by left|].
  destruct m as [[] ws]; cbn [word_of] in *; [|exact H1]. apply H2. intros [|i] Hi; [exact wide_first|].
  change (replicate n false !! i = Some true) in Hi. by apply lookup_replicate in Hi as [? _].
Qed.
Lemma large_refuted : exists width height grid x y, N.of_nat (length grid) = width * height /\
  side width < 2 ^ 32 /\ side height < 2 ^ 32 /\ filled_pixel width height grid x y /\
  x < side width /\ y < side height /\
  forall m im, i_width im = side width -> i_height im = side height ->
    print_solution32 m width height im grid = Ret (Ok im).
Proof.
  assert (exists n, N.of_nat n = 39999999) as [n Hn] by (exists (N.to_nat 39999999); apply N2Nat.id).
  exists 40000000, 1, (true :: replicate n false), 400000001, 151.
  split; [exact (wide_grid n Hn)|]. split; [done|]. split; [done|]. split; [apply wide_filled|]. split; [done|]. split; [done|].
  intros m im HW HH. by apply wide_unchanged.
Qed.

(** Signed arithmetic. *)
Lemma i32_arith_spec ws z : exists r, i32_arith (Mode Release ws) z = Ret r /\ (- 2 ^ 31 <= r < 2 ^ 31)%Z /\ (r mod 2 ^ 32 = z mod 2 ^ 32)%Z /\
  (i32_arith (Mode Debug ws) z = Ret z /\ r = z \/ i32_arith (Mode Debug ws) z = Fault Panic /\ r <> z).
Proof.
  unfold i32_arith. change (2 ^ 31)%Z with 2147483648%Z. change (2 ^ 32)%Z with 4294967296%Z.
  destruct (_ && _) eqn:E.
  - exists z. split; [done|]. split; [lia|]. split; [done|]. by left.
  - eexists. split; [done|]. pose proof (Z.mod_pos_bound (z + 2147483648) 4294967296 ltac:(lia)) as Hb.
    split; [lia|]. split.
    + rewrite Zminus_mod_idemp_l. f_equal. lia.
    + right. split; [done|]. lia.
Qed.
