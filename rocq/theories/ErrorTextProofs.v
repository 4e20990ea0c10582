(** Error texts determine the error. *)
From Verif Require Import Base Image Maze MazePrint Dlx Sudoku Nonogram ErrorText NonogramParseProofs.
From Coq Require Import Ascii String.

Lemma to_decimal_inj n n' : to_decimal n = to_decimal n' -> n = n'.
Proof.
  intros E. destruct (to_decimal_spec n) as (ds&H1&_&_&<-). destruct (to_decimal_spec n') as (ds'&H2&_&_&<-). congruence.
Qed.
Lemma error_text_inj e e' : error_text e = error_text e' -> e = e'.
Proof.
  destruct e as [[[[]|[]]|[]]|[]], e' as [[[[]|[]]|[]]|[]]; try done; cbn [error_text maze_error_text sudoku_error_text nonogram_error_text dlx_error_text].
  - intros E. apply app_inv_head in E. injection E as ->. done.
  - intros E. apply app_inv_head, app_inv_tail, to_decimal_inj, Nat2N.inj in E. by subst.
  - intros E. apply app_inv_head, app_inv_tail in E. by subst.
Qed.
