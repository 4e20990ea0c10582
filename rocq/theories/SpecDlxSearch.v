(** Knuth's Algorithm X on plain lists of constraints, without any links: which
    exact cover a search finds. *)
From Verif Require Import Base.

(** Rows [r] and [s] share a constraint. *)
Definition meets (constraints : list (list nat)) (r s : nat) : Prop :=
  Exists (fun k => r ∈ k /\ s ∈ k) constraints.
(** After choosing row [r]: the constraints it does not satisfy, without the
    rows it rules out. *)
Definition choose (constraints : list (list nat)) (r : nat) : list (list nat) :=
  filter (fun s => ~ meets constraints r s) <$> filter (fun k => r ∉ k) constraints.
(** The first of the shortest lists among [k :: ks]. *)
Fixpoint shortest {A} (k : list A) (ks : list (list A)) : list A :=
  match ks with
  | [] => k
  | k' :: ks => shortest (if decide (length k' < length k) then k' else k) ks
  end.
Fixpoint first_some {A B} (f : A -> option B) (l : list A) : option B :=
  match l with
  | [] => None
  | x :: l => match f x with Some y => Some y | None => first_some f l end
  end.
(** Branch on the first shortest constraint, try its rows in order.  Every
    choice satisfies a constraint, so [length constraints] levels are enough. *)
Fixpoint algorithm_x (levels : nat) (constraints : list (list nat)) : option (list nat) :=
  match constraints, levels with
  | [], _ => Some []
  | _ :: _, O => None
  | k :: ks, S levels =>
      first_some (fun r => cons r <$> algorithm_x levels (choose constraints r)) (shortest k ks)
  end.
Definition knuth (constraints : list (list nat)) : option (list nat) :=
  algorithm_x (length constraints) constraints.
