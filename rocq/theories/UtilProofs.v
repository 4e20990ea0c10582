(** Proofs about [choose_random]. *)
From Verif Require Import Base Util.

Lemma swap_remove_spec {A} (l : list A) idx x : l !! idx = Some x ->
  exists l', swap_remove l idx = Some (x, l') /\ x :: l' ≡ₚ l /\
    (forall i y, i <> idx -> S i < length l -> l !! i = Some y -> l' !! i = Some y).
Proof.
  intros Hx. unfold swap_remove. rewrite Hx.
  destruct (last l) as [y|] eqn:Hl.
  2:{ apply last_None in Hl. subst. done. }
  apply last_Some in Hl as [l0 ->]. eexists. split; [reflexivity|].
  rewrite app_length in *. cbn. replace (length l0 + 1 - 1) with (length l0) by lia.
  destruct (decide (idx < length l0)) as [Hi|Hi].
  - rewrite insert_app_l by done. rewrite take_app_alt by (by rewrite insert_length).
    rewrite lookup_app_l in Hx by done. split.
    + apply elem_of_list_split_length in Hx as (l1&l2&->&->).
      rewrite insert_app_r_alt by lia. rewrite Nat.sub_diag. cbn. solve_Permutation.
    + intros i z Hne Hlt Hz. rewrite list_lookup_insert_ne by done.
      rewrite lookup_app_l in Hz; [done|lia].
  - assert (idx = length l0) as ->.
    { apply lookup_lt_Some in Hx. rewrite app_length in Hx. cbn in Hx. lia. }
    rewrite lookup_app_r in Hx by lia. rewrite Nat.sub_diag in Hx. injection Hx as ->.
    rewrite insert_app_r_alt by lia. rewrite Nat.sub_diag. cbn. rewrite take_app. split.
    + apply Permutation_cons_append.
    + intros i z Hne Hlt Hz. rewrite lookup_app_l in Hz; [done|lia].
Qed.

Lemma choose_random_perm {A} (draw : nat) (l : list A) :
  (choose_random draw l = None <-> l = []) /\
  (forall x rest, choose_random draw l = Some (x, rest) -> x :: rest ≡ₚ l).
Proof.
  destruct l as [|a l]; [done|].
  assert (exists x, (a :: l) !! (draw mod length (a :: l)) = Some x) as [x Hx].
  { apply lookup_lt_is_Some. by apply Nat.mod_upper_bound. }
  destruct (swap_remove_spec _ _ _ Hx) as (l'&Hs&Hp&_). cbn [choose_random].
  rewrite Hs. split; [done|]. intros y rest [= <- <-]. done.
Qed.

(** Every element of the vector is chosen for some random number. *)
Lemma choose_random_all {A} (l : list A) i x :
  l !! i = Some x -> exists draw rest, choose_random draw l = Some (x, rest).
Proof.
  intros Hx. exists i. destruct l as [|a l]; [done|].
  destruct (swap_remove_spec _ _ _ Hx) as (l'&Hs&_). cbn [choose_random].
  rewrite Nat.mod_small by (by eapply lookup_lt_Some). eauto.
Qed.
