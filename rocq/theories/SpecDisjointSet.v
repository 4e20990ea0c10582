(** Specification vocabulary for the disjoint-set structure: which partition a
    sequence of calls describes. *)
From Verif Require Import Base DisjointSet.

(** [history d n E]: the set [d] results from some sequence of calls to the
    public functions, it has [n] elements, and [E] are the pairs on which
    [union] was called with both indices in range. *)
Inductive history : dset -> nat -> list (nat * nat) -> Prop :=
| hist_new : history ds_new 0 []
| hist_with_size n : history (with_size n) n []
| hist_add d n E : history d n E -> history (ds_add d) (S n) E
| hist_find d n E i o d' :
    history d n E -> ds_find d i = Ret (o, d') -> history d' n E
| hist_common d n E i j o d' :
    history d n E -> common_set d i j = Ret (o, d') -> history d' n E
| hist_union d n E i j o d' :
    history d n E -> i < n -> j < n -> ds_union d i j = Ret (o, d') ->
    history d' n ((i, j) :: E)
| hist_union_out d n E i j o d' :
    history d n E -> n <= i \/ n <= j -> ds_union d i j = Ret (o, d') ->
    history d' n E.

(** [i] and [j] are joined by a chain of unions. *)
Definition connected (E : list (nat * nat)) (i j : nat) : Prop :=
  rtsc (fun a b => (a, b) ∈ E) i j.

(** [find] answers [r] on [i]. *)
Definition finds (d : dset) (i : nat) (r : option nat) : Prop :=
  exists d', ds_find d i = Ret (r, d').

(** [steps d k i r]: [r] is reached from [i] by exactly [k] parent links, i.e.
    [find_helper] recurses [k] times. *)
Fixpoint steps (d : dset) (k i r : nat) : Prop :=
  match k with
  | 0 => i = r
  | S k => exists p, d !! i = Some (Element false p) /\ steps d k p r
  end.
