(** Property C53: the result of [union]. *)
From Verif Require Import Base DisjointSet SpecDisjointSet.
From Verif Require DisjointSetUnion.

(** C53 is false: [union] does not return the representative of the joined set. *)
Theorem C53_refuted : exists d n E i j o d', history d n E /\ i < n /\ j < n /\
  ds_union d i j = Ret (Some o, d') /\ ~ finds d' i (Some o).
Proof. exact DisjointSetUnion.union_refuted. Qed.
Print Assumptions C53_refuted.

(** It never does when two sets are joined. *)
Theorem C53_never : forall d n E i j o d', history d n E -> i < n -> j < n -> ~ connected E i j ->
  ds_union d i j = Ret (Some o, d') -> ~ finds d' i (Some o).
Proof. exact DisjointSetUnion.union_not_rep. Qed.
Print Assumptions C53_never.

(** What [union] does: on one set it returns the representative and changes no
    answer.  On two sets it returns the representative of the smaller one (of
    the second, if equally large), and from then on the elements of that set are
    represented by the representative of the other. *)
Theorem C53_union : forall d n E i j ri rj, history d n E -> finds d i (Some ri) -> finds d j (Some rj) ->
  exists mi mj o d', (NoDup mi /\ forall x, x ∈ mi <-> x < n /\ connected E i x) /\
    (NoDup mj /\ forall x, x ∈ mj <-> x < n /\ connected E j x) /\
    ds_union d i j = Ret (Some o, d') /\
    (ri = rj -> o = ri /\ forall x r, finds d x r <-> finds d' x r) /\
    (ri <> rj -> exists larger, (length mi < length mj -> o = ri /\ larger = rj) /\
       (length mj <= length mi -> o = rj /\ larger = ri) /\
       forall x r, finds d x (Some r) -> finds d' x (Some (if decide (r = o) then larger else r))).
Proof. exact DisjointSetUnion.union_result. Qed.
Print Assumptions C53_union.

(** Joining the single element 0 to the set of 1 and 2. *)
Example C53_example : exists d d', history d 3 [(1, 2)] /\ finds d 0 (Some 0) /\ finds d 2 (Some 1) /\
  ~ connected [(1, 2)] 0 2 /\ ds_union d 0 2 = Ret (Some 0, d') /\ finds d' 0 (Some 1).
Proof.
  assert (history [Element true 1; Element true 2; Element false 1] 3 [(1, 2)]) as Hh.
  { eapply hist_union; [apply (hist_with_size 3)|lia|lia|reflexivity]. }
  eexists _, _. split; [exact Hh|]. split; [eexists; reflexivity|]. split; [eexists; reflexivity|].
  split; [|split; [reflexivity|eexists; reflexivity]].
  intros Hc. inversion Hc as [|x y z Hxy _]; subst.
  destruct Hxy as [Hxy|Hxy]; apply elem_of_list_singleton in Hxy; congruence.
Qed.
