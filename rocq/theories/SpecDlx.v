(** Exact cover, and how a matrix is used. *)
From Verif Require Import Base Dlx.

(** A constraint is the list of rows that satisfy it.  A selection of rows is an
    exact cover if it contains exactly one row of every constraint, no row
    twice, and no row that is in no constraint. *)
Definition exact_cover (constraints : list (list nat)) (sel : list nat) : Prop :=
  NoDup sel /\
  (forall k, k ∈ constraints -> exists! r, r ∈ sel /\ r ∈ k) /\
  (forall r, r ∈ sel -> exists k, k ∈ constraints /\ r ∈ k).

(** Row [r] belongs to some constraint. *)
Definition occurs (constraints : list (list nat)) (r : nat) : Prop :=
  exists k, k ∈ constraints /\ r ∈ k.
(** Row [r] shares a constraint with one of the rows [added]. *)
Definition conflict (constraints : list (list nat)) (added : list nat) (r : nat) : Prop :=
  exists k a, k ∈ constraints /\ a ∈ added /\ a ∈ k /\ r ∈ k.
(** Rows that occur and do not conflict with one another. *)
Definition compatible (constraints : list (list nat)) (rows : list nat) : Prop :=
  forall l1 r l2, rows = l1 ++ r :: l2 -> occurs constraints r /\ ~ conflict constraints l1 r.
(** Row [r] is in the last of the constraints that contain row [a]. *)
Definition shares_last (constraints : list (list nat)) (a r : nat) : Prop :=
  exists k, last (filter (fun k => a ∈ k) constraints) = Some k /\ r ∈ k.
(** The first of the rows [added] with which [r] conflicts conflicts with it in
    the last of its constraints. *)
Definition nulled (constraints : list (list nat)) (added : list nat) (r : nat) : Prop :=
  exists l1 a l2, added = l1 ++ a :: l2 /\ ~ conflict constraints l1 r /\ shares_last constraints a r.

(** Number of nodes of a matrix besides its root: bounds every traversal and
    the recursion depth. *)
Definition matrix_size (constraints : list (list nat)) : nat :=
  sum_list ((fun k => S (length k)) <$> constraints).

(** Adding several rows, stopping at the first error. *)
Fixpoint add_all (fuel : nat) (rows : list nat) (mx : matrix) : res (result matrix dlx_error) :=
  match rows with
  | [] => Ret (Ok mx)
  | r :: rows =>
      let! (e, mx) := add_solution fuel mx r in
      match e with Ok _ => add_all fuel rows mx | Err e => Ret (Err e) end
  end.

(** The column headers currently linked into the header ring. *)
Definition in_ring (h : heap) (root c : ptr) : Prop :=
  c <> root /\ rtc (fun a b => exists n, h !! a = Some n /\ n_right n = b) root c.
(** [p] is the header [c] or a node of its column. *)
Definition in_column (h : heap) (p c : ptr) : Prop :=
  exists n, h !! p = Some n /\ (n_header n = c /\ c <> null \/ n_header n = null /\ p = c).
(** The states a search can bring a matrix to. *)
Inductive search_state (fuel : nat) (root : ptr) (h0 : heap) : heap -> Prop :=
| search_start : search_state fuel root h0 h0
| search_cover h p c h' :
    search_state fuel root h0 h -> in_ring h root c -> in_column h p c ->
    cover_column fuel p h = Ret h' -> search_state fuel root h0 h'.
