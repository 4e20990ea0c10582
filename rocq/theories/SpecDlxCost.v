(** How many branches Algorithm X looks at, and when it never has to choose. *)
From Verif Require Import Base SpecSudoku SpecDlxSearch SpecSudokuSearch.

(** The sum of [f] over the elements of [l] up to the first with [stop]. *)
Fixpoint sum_until {A} (stop : A -> bool) (f : A -> nat) (l : list A) : nat :=
  match l with
  | [] => 0
  | x :: l => f x + if stop x then 0 else sum_until stop f l
  end.
(** The partial selections Algorithm X looks at until it finds a cover: this one
    and those after each of the rows tried. *)
Fixpoint branches (levels : nat) (constraints : list (list nat)) : nat :=
  match constraints, levels with
  | [], _ => 1
  | _ :: _, O => 1
  | k :: ks, S levels =>
      1 + sum_until (fun r => bool_decide (is_Some (algorithm_x levels (choose constraints r))))
            (fun r => branches levels (choose constraints r)) (shortest k ks)
  end.
Definition knuth_branches (constraints : list (list nat)) : nat := branches (length constraints) constraints.

(** The constraints can be satisfied one after the other by rows without which
    one of them could not be satisfied any more. *)
Inductive forced : list (list nat) -> list nat -> Prop :=
| forced_nil : forced [] []
| forced_row cs r rows : [r] ∈ cs -> forced (choose cs r) rows -> forced cs (r :: rows).

(** The grids a search like [sudoku_search] looks at until it finds a solution. *)
Fixpoint grids (levels : nat) (p : list nat) : nat :=
  match open_questions p, levels with
  | [], _ => 1
  | _ :: _, O => 1
  | q :: qs, S levels =>
      1 + sum_until (fun x : nat * nat => bool_decide (is_Some (sudoku_search levels (<[x.1 := x.2]> p))))
            (fun x => grids levels (<[x.1 := x.2]> p)) (shortest q qs)
  end.

(** Digit [x.2] belongs into cell [x.1] because no other digit is legal there,
    or because it is legal in no other cell of one of the units of the cell. *)
Definition single (p : list nat) (x : nat * nat) : Prop :=
  legal p x /\ 1 <= x.2 <= 9 /\
  ((forall v, 1 <= v <= 9 -> legal p (x.1, v) -> v = x.2) \/
   exists u, u ∈ units /\ x.1 ∈ u /\ forall c, c ∈ u -> legal p (c, x.2) -> c = x.1).
(** [g] is obtained by such steps. *)
Inductive singles : list nat -> list nat -> Prop :=
| singles_full p : 0 ∉ p -> singles p p
| singles_step p x g : single p x -> singles (<[x.1 := x.2]> p) g -> singles p g.
