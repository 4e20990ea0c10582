(** Model of /repo/src/structures/disjoint_set.rs. *)
From Verif Require Import Base.

(** disjoint_set.rs:5-9 [Element]. *)
Record element := Element { e_root : bool; e_value : nat }.

(** disjoint_set.rs:1-3 [DisjointSet]: the vector of elements. *)
Notation dset := (list element).

(** disjoint_set.rs:12-17 [Element::new]. *)
Definition element_new : element := Element true 1.
(** disjoint_set.rs:19-24 [Element::from_parent]. *)
Definition from_parent (p : nat) : element := Element false p.

(** disjoint_set.rs:29-33 [new]. *)
Definition ds_new : dset := [].
(** disjoint_set.rs:35-39 [with_size]. *)
Definition with_size (n : nat) : dset := replicate n element_new.
(** disjoint_set.rs:42-44 [add]. *)
Definition ds_add (d : dset) : dset := d ++ [element_new].

(** disjoint_set.rs:77-85 [find_helper].  The recursion is cut off by [fuel]
    (recursion depth); the functions below supply [length d]. *)
Fixpoint find_helper (fuel : nat) (d : dset) (idx : nat) : res (nat * dset) :=
  match fuel with
  | 0 => Fault OutOfFuel
  | S fuel =>
      let! e := vec_get d idx in
      if e_root e then Ret (idx, d)
      else
        let! (root, d) := find_helper fuel d (e_value e) in
        let! e := vec_get d idx in
        let! d := vec_set d idx (Element (e_root e) root) in
        Ret (root, d)
  end.

(** disjoint_set.rs:46-52 [find]. *)
Definition ds_find (d : dset) (idx : nat) : res (option nat * dset) :=
  if decide (length d <= idx) then Ret (None, d)
  else let! (r, d) := find_helper (length d) d idx in Ret (Some r, d).

(** disjoint_set.rs:54-56 [common_set]; [?] returns early with the state
    reached so far. *)
Definition common_set (d : dset) (i j : nat) : res (option bool * dset) :=
  let! (a, d) := ds_find d i in
  match a with
  | None => Ret (None, d)
  | Some a =>
      let! (b, d) := ds_find d j in
      match b with
      | None => Ret (None, d)
      | Some b => Ret (Some (Nat.eqb a b), d)
      end
  end.

(** disjoint_set.rs:58-75 [union].  The addition on line 72 cannot exceed the
    number of elements and is modelled without overflow check. *)
Definition ds_union (d : dset) (i j : nat) : res (option nat * dset) :=
  let! (a, d) := ds_find d i in
  match a with
  | None => Ret (None, d)
  | Some root_one =>
      let! (b, d) := ds_find d j in
      match b with
      | None => Ret (None, d)
      | Some root_two =>
          if Nat.eqb root_one root_two then Ret (Some root_one, d)
          else
            let! e1 := vec_get d root_one in
            let! e2 := vec_get d root_two in
            let '(smaller, larger) :=
              if Nat.ltb (e_value e1) (e_value e2) then (root_one, root_two)
              else (root_two, root_one) in
            let! es := vec_get d smaller in
            let! el := vec_get d larger in
            let! d := vec_set d larger (Element (e_root el) (e_value el + e_value es)) in
            let! d := vec_set d smaller (from_parent larger) in
            Ret (Some smaller, d)
      end
  end.
