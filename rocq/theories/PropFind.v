(** Property C65: path compression. *)
From Verif Require Import Base DisjointSet SpecDisjointSet.
From Verif Require DisjointSetFind.

(** C65: [find] links every element on the way to the representative directly
    to it and changes nothing else. *)
Theorem C65_find : forall d n E i r d', history d n E -> ds_find d i = Ret (Some r, d') ->
  length d' = length d /\ forall x,
    ((exists k, steps d k i x) -> x <> r -> d' !! x = Some (Element false r)) /\
    (~ (exists k, steps d k i x) \/ x = r -> d' !! x = d !! x).
Proof. exact DisjointSetFind.find_exact. Qed.
Print Assumptions C65_find.

(** So afterwards these elements are at most one link away from it. *)
Theorem C65_flat : forall d n E i r d', history d n E -> ds_find d i = Ret (Some r, d') ->
  forall x, (exists k, steps d k i x) -> forall k, steps d' k x r -> k <= 1.
Proof. exact DisjointSetFind.find_flat. Qed.
Print Assumptions C65_flat.

(** Element 3 is two links away from its representative 0, then one. *)
Example C65_example : exists d d', history d 4 [(1, 3); (2, 3); (0, 1)] /\
  ds_find d 3 = Ret (Some 0, d') /\ steps d 2 3 0 /\ steps d' 1 3 0.
Proof.
  eexists _, _. split_and!.
  - eapply hist_union; [eapply hist_union; [eapply hist_union; [
      apply (hist_with_size 4)|lia|lia|reflexivity]|lia|lia|reflexivity]|lia|lia|reflexivity].
  - reflexivity.
  - cbn. eauto.
  - cbn. eauto.
Qed.
