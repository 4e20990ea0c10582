(** Property C104. *)
From Verif Require Import Base SpecWord Image Nonogram NonogramPrint NonogramRect SpecPrint SpecPrintAll SpecNonogramRect.
From Verif Require NonogramRectProofs.
Local Open Scope N_scope.

(** The signed numbers of 32 bits used for rectangles: the result is congruent to
    the exact one modulo 2^32; with overflow checks it is exact or panics. *)
Theorem C104_arith : forall ws (z : Z), exists r, i32_arith (Mode Release ws) z = Ret r /\
  (- 2 ^ 31 <= r < 2 ^ 31)%Z /\ (r mod 2 ^ 32 = z mod 2 ^ 32)%Z /\
  (i32_arith (Mode Debug ws) z = Ret z /\ r = z \/ i32_arith (Mode Debug ws) z = Fault Panic /\ r <> z).
Proof. exact NonogramRectProofs.i32_arith_spec. Qed.
Print Assumptions C104_arith.

(** Up to sides of 2^31 - 1 pixels nothing is lost by the simpler rectangles. *)
Theorem C104_same : forall (m : mode) width height im grid, width * height < limit m -> i_width im < 2 ^ 31 -> i_height im < 2 ^ 31 ->
  side width < 2 ^ 32 -> side height < 2 ^ 32 ->
  same_result (print_solution32 m width height im grid) (print_nonogram_solution m width height im grid).
Proof. exact NonogramRectProofs.rect_same. Qed.
Print Assumptions C104_same.

(** On larger images no square is painted; with overflow checks a filled square
    whose end is no signed number panics. *)
Theorem C104_large : forall ws width height im grid, width * height < limit ws ->
  N.of_nat (length grid) = width * height -> i_width im = side width -> i_height im = side height ->
  side width < 2 ^ 32 -> side height < 2 ^ 32 -> 2 ^ 31 <= side width \/ 2 ^ 31 <= side height ->
  print_solution32 (Mode Release ws) width height im grid = Ret (Ok im) /\
  ((forall i, grid !! i = Some true -> ~ near_limit width height i) ->
     print_solution32 (Mode Debug ws) width height im grid = Ret (Ok im)) /\
  (forall i, grid !! i = Some true -> near_limit width height i ->
     print_solution32 (Mode Debug ws) width height im grid = Fault Panic).
Proof. exact NonogramRectProofs.large_spec. Qed.
Print Assumptions C104_large.

(** C104 (refuted): "the solution is drawn onto every image of the right size". *)
Theorem C104_refuted : exists width height grid x y, N.of_nat (length grid) = width * height /\
  side width < 2 ^ 32 /\ side height < 2 ^ 32 /\ filled_pixel width height grid x y /\
  x < side width /\ y < side height /\
  forall m im, i_width im = side width -> i_height im = side height ->
    print_solution32 m width height im grid = Ret (Ok im).
Proof. exact NonogramRectProofs.large_refuted. Qed.
Print Assumptions C104_refuted.

(** A small puzzle: the square is painted.  A square near the limit. *)
Example C104_example_small :
  match print_solution32 (Mode Debug W64) 2 1 (Image 250 200 (fun _ _ => WHITE_PIXEL)) [false; true] with
  | Ret (Ok im) => i_pix im 201 199 = BLACK_PIXEL /\ i_pix im 200 199 = WHITE_PIXEL /\ i_pix im 151 151 = WHITE_PIXEL
  | _ => False
  end.
Proof. vm_compute. done. Qed.
Example C104_example_near : exists i, near_limit 40000000 1 i /\ 2 ^ 31 <= side 40000000 < 2 ^ 32.
Proof.
  exists (N.to_nat 34949672). split; [|done]. left. rewrite N2Nat.id. by vm_compute.
Qed.
(** An image without pixels. *)
Example C104_example_empty : draw_rect32 (Mode Release W64) (Image 0 5 (fun _ _ => WHITE_PIXEL)) 1 1 49 49 BLACK_PIXEL = Fault Panic.
Proof. reflexivity. Qed.
