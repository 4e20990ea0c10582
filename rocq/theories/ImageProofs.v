(** Which pixels a drawing loop paints. *)
From Verif Require Import Base Image.
From Verif Require Export WordProofs.

(** [im'] is [im] with colour [c] at the pixels selected by [P]. *)
Record painted (c : rgb) (P : N -> N -> bool) (im im' : image) : Prop := Painted {
  pt_width : i_width im' = i_width im;
  pt_height : i_height im' = i_height im;
  pt_pix x y : i_pix im' x y = if P x y then c else i_pix im x y
}.

Lemma painted_none c im : painted c (fun _ _ => false) im im.
Proof. by split. Qed.
Lemma painted_trans c P Q im1 im2 im3 :
  painted c P im1 im2 -> painted c Q im2 im3 -> painted c (fun x y => P x y || Q x y) im1 im3.
Proof.
  intros [W1 H1 P1] [W2 H2 P2]. split; [congruence|congruence|].
  intros x y. rewrite P2, P1. by destruct (P x y), (Q x y).
Qed.
Lemma painted_ext c P Q im im' :
  painted c P im im' -> (forall x y, P x y = Q x y) -> painted c Q im im'.
Proof. intros [W H HP] HQ. split; [done|done|]. intros x y. by rewrite HP, HQ. Qed.

Lemma put_pixel_painted im x y c : (x < i_width im)%N -> (y < i_height im)%N ->
  exists im', put_pixel im x y c = Ret im' /\
    painted c (fun a b => (a =? x) && (b =? y))%N im im'.
Proof.
  intros Hx Hy. unfold put_pixel.
  destruct (N.ltb_spec x (i_width im)), (N.ltb_spec y (i_height im)); try lia.
  eexists. split; [reflexivity|]. by split.
Qed.

Lemma foldM_painted {A} c (f : A -> image -> res image) (P : A -> N -> N -> bool) l im :
  (forall a im1, a ∈ l -> i_width im1 = i_width im -> i_height im1 = i_height im ->
     exists im', f a im1 = Ret im' /\ painted c (P a) im1 im') ->
  exists im', foldM f l im = Ret im' /\
    painted c (fun x y => existsb (fun a => P a x y) l) im im'.
Proof.
  revert im. induction l as [|a l IH]; intros im H.
  - eexists. split; [reflexivity|]. apply painted_none.
  - destruct (H a im) as (im1&H1&P1); [apply elem_of_list_here|done|done|].
    destruct (IH im1) as (im2&H2&P2).
    { intros b im' Hb HW HH. apply H; [by apply elem_of_list_further| |].
      - by rewrite HW, (pt_width _ _ _ _ P1).
      - by rewrite HH, (pt_height _ _ _ _ P1). }
    exists im2. cbn [foldM]. rewrite H1. cbn [bind]. split; [done|].
    eapply painted_ext; [eapply painted_trans; eassumption|]. done.
Qed.

Lemma elem_of_range a b x : x ∈ range a b <-> (a <= x < b)%N.
Proof.
  unfold range. rewrite elem_of_list_fmap. setoid_rewrite elem_of_seq. split.
  - intros (k&->&?). lia.
  - intros H. exists (N.to_nat (x - a)). lia.
Qed.

Lemma existsb_elem {A} (P : A -> bool) l : existsb P l = true <-> exists a, a ∈ l /\ P a = true.
Proof. rewrite existsb_exists. by setoid_rewrite elem_of_list_In. Qed.

(** Selecting with a decidable proposition. *)
Lemma bool_reflect_eq (b : bool) (P : Prop) `{Decision P} : (b = true <-> P) -> b = bool_decide P.
Proof. intros HP. destruct b; symmetry; [apply bool_decide_eq_true|apply bool_decide_eq_false]; naive_solver. Qed.

Lemma range_exists a b (P : N -> bool) :
  existsb P (range a b) = true <-> exists k, (a <= k < b)%N /\ P k = true.
Proof. rewrite existsb_elem. by setoid_rewrite elem_of_range. Qed.

Lemma u32_add_ok m x y : (x + y < u32_size)%N -> u32_add m x y = Ret (x + y)%N.
Proof. intros H. unfold u32_add, arith. by destruct (N.ltb_spec (x + y) u32_size); [|lia]. Qed.
Lemma u32_mul_ok m x y : (x * y < u32_size)%N -> u32_mul m x y = Ret (x * y)%N.
Proof. intros H. unfold u32_mul, arith. by destruct (N.ltb_spec (x * y) u32_size); [|lia]. Qed.
Lemma u32_sub_ok m x y : (y <= x)%N -> u32_sub m x y = Ret (x - y)%N.
Proof. intros H. unfold u32_sub. by destruct (N.leb_spec y x); [|lia]. Qed.
Lemma u32_add_panic ws x y : (u32_size <= x + y)%N -> u32_add (Mode Debug ws) x y = Fault Panic.
Proof. intros H. unfold u32_add, arith. by destruct (N.ltb_spec (x + y) u32_size); [lia|]. Qed.
Lemma u32_mul_panic ws x y : (u32_size <= x * y)%N -> u32_mul (Mode Debug ws) x y = Fault Panic.
Proof. intros H. unfold u32_mul, arith. by destruct (N.ltb_spec (x * y) u32_size); [lia|]. Qed.
Lemma from_pixel_ok ws w h c : (w * h * 3 <= isize_max ws)%N ->
  from_pixel ws w h c = Ret (Image w h (fun _ _ => c)).
Proof. intros H. unfold from_pixel. by destruct (N.leb_spec (w * h * 3) (isize_max ws)); [|lia]. Qed.
Lemma from_pixel_panic ws w h c : (isize_max ws < w * h * 3)%N -> from_pixel ws w h c = Fault Panic.
Proof. intros H. unfold from_pixel. by destruct (N.leb_spec (w * h * 3) (isize_max ws)); [lia|]. Qed.

Lemma elem_of_enumerate {A} (l : list A) i x : (i, x) ∈ enumerate l <-> l !! i = Some x.
Proof.
  unfold enumerate. rewrite elem_of_lookup_imap. naive_solver.
Qed.
