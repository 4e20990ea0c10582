(** Properties C16-C19. *)
From Verif Require Import Base Util DisjointSet SpecDisjointSet.
From Verif Require UtilProofs DisjointSetProofs DisjointTight.

(** C16: after any calls, [common_set] and [find] answer exactly the
    connectivity generated by the unions made. *)
Theorem C16_partition : forall d n E, history d n E ->
  (forall i j, i < n -> j < n ->
     exists b d', common_set d i j = Ret (Some b, d') /\ (b = true <-> connected E i j)) /\
  (forall i j, i < n -> j < n ->
     exists r1 r2, finds d i (Some r1) /\ finds d j (Some r2) /\ (r1 = r2 <-> connected E i j)) /\
  (forall i r, finds d i (Some r) -> r < n /\ connected E i r).
Proof. exact DisjointSetProofs.partition_lemma. Qed.
Print Assumptions C16_partition.

(** A history with a union, a failed union and queries; not all connected. *)
Example C16_example :
  exists d, history d 4 [(2, 1); (0, 1)] /\ connected [(2, 1); (0, 1)] 0 2 /\ ds_find d 3 = Ret (Some 3, d).
Proof.
  eexists. split_and!.
  - eapply (hist_common _ _ _ 0 2); [eapply (hist_union_out _ _ _ 1 7); [
      eapply hist_union; [eapply (hist_find _ _ _ 2); [
      eapply hist_union; [apply hist_add, (hist_with_size 3)|lia|lia|reflexivity]
      |reflexivity]|lia|lia|reflexivity]|lia|reflexivity]|reflexivity].
  - eapply rtc_l; [left; apply elem_of_list_further, elem_of_list_here|].
    apply rtc_once. right. apply elem_of_list_here.
  - reflexivity.
Qed.

(** C17: queries and failed unions change no representative, and [None] is
    answered exactly for indices out of range; nothing panics. *)
Theorem C17_queries : forall d n E, history d n E ->
  (forall i, exists o d', ds_find d i = Ret (o, d') /\ (o = None <-> n <= i) /\
     forall x r, finds d x r <-> finds d' x r) /\
  (forall i j, exists o d', common_set d i j = Ret (o, d') /\ (o = None <-> n <= i \/ n <= j) /\
     forall x r, finds d x r <-> finds d' x r) /\
  (forall i j, exists o d', ds_union d i j = Ret (o, d') /\ (o = None <-> n <= i \/ n <= j) /\
     (o = None -> forall x r, finds d x r <-> finds d' x r)).
Proof. exact DisjointSetProofs.queries_lemma. Qed.
Print Assumptions C17_queries.

(** A query that does compress a path: the stored vector changes. *)
Example C17_example :
  exists d d', history d 4 [(1, 3); (2, 3); (0, 1)] /\ ds_find d 3 = Ret (Some 0, d') /\ d <> d'.
Proof.
  eexists _, _. split_and!.
  - eapply hist_union; [eapply hist_union; [eapply hist_union; [
      apply (hist_with_size 4)|lia|lia|reflexivity]|lia|lia|reflexivity]|lia|lia|reflexivity].
  - reflexivity.
  - discriminate.
Qed.

(** C18: logarithmic depth, and the counter of a representative is the size of
    its class. *)
Theorem C18_depth : forall d n E i, history d n E -> i < n ->
  exists k r members, steps d k i r /\ d !! r = Some (Element true (length members)) /\
    NoDup members /\ (forall j, j ∈ members <-> j < n /\ connected E i j) /\
    2 ^ k <= length members.
Proof. exact DisjointSetProofs.depth_lemma. Qed.
Print Assumptions C18_depth.

Theorem C18_counts : forall d n E r v, history d n E -> d !! r = Some (Element true v) ->
  exists members, length members = v /\ NoDup members /\
    forall j, j ∈ members <-> j < n /\ connected E r j.
Proof. exact DisjointSetProofs.root_counts. Qed.
Print Assumptions C18_counts.

(** No smaller class allows this depth (C18_depth), and a class of 2^k elements
    does, for every k. *)
Theorem C18_reached : forall k, exists d E i r,
  history d (2 ^ k) E /\ steps d k i r /\ d !! r = Some (Element true (2 ^ k)).
Proof. exact DisjointTight.depth_reached. Qed.
Print Assumptions C18_reached.

(** Depth 2 is reached, by a class of four elements. *)
Example C18_example :
  exists d, history d 4 [(1, 3); (2, 3); (0, 1)] /\ steps d 2 3 0.
Proof.
  eexists. split.
  - eapply hist_union; [eapply hist_union; [eapply hist_union; [
      apply (hist_with_size 4)|lia|lia|reflexivity]|lia|lia|reflexivity]|lia|lia|reflexivity].
  - cbn. eauto.
Qed.

(** C19: [choose_random] is [None] exactly on the empty vector, and otherwise
    splits the vector into the chosen element and the rest; every element can
    be chosen. *)
Theorem C19_choose_random : forall (A : Type) (draw : nat) (l : list A),
  (choose_random draw l = None <-> l = []) /\
  (forall x rest, choose_random draw l = Some (x, rest) -> x :: rest ≡ₚ l).
Proof. exact @UtilProofs.choose_random_perm. Qed.
Print Assumptions C19_choose_random.

Theorem C19_every_element : forall (A : Type) (l : list A) i x,
  l !! i = Some x -> exists draw rest, choose_random draw l = Some (x, rest).
Proof. exact @UtilProofs.choose_random_all. Qed.
Print Assumptions C19_every_element.

Example C19_example : choose_random 4 [10; 20; 30] = Some (20, [10; 30]).
Proof. reflexivity. Qed.
