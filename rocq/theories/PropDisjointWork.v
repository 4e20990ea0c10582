(** Property C115: the amortised work of the disjoint set. *)
From Verif Require Import Base DisjointSet MazeFind SpecDisjointWork.
From Verif Require DisjointWorkProofs.

(** The record changes nothing. *)
Theorem C115_same : forall ops d t,
  match perform ops d t with
  | Ret (d', _) => perform_plain ops d = Ret d'
  | Fault f => perform_plain ops d = Fault f
  end.
Proof. exact DisjointWorkProofs.perform_same. Qed.
Print Assumptions C115_same.

(** C115: any sequence of calls on a new set, with fewer than [tower (S g)]
    elements in the end, works; its calls of [find] together make at most
    [g + 2] calls of [find_helper] each, and [2 g + 1] more for every element. *)
Theorem C115_work : forall g n ops, n + added ops < tower (S g) ->
  exists d t, perform ops (with_size n) [] = Ret (d, t) /\ length d = n + added ops /\
    sum_list t <= (g + 2) * length t + (2 * g + 1) * (n + added ops).
Proof. exact DisjointWorkProofs.perform_bound. Qed.
Print Assumptions C115_work.

(** So for all sizes of 64 bits there are at most 6 per [find] and 9 per element. *)
Theorem C115_word : forall n ops, (N.of_nat (n + added ops) < 2 ^ 64)%N ->
  exists d t, perform ops (with_size n) [] = Ret (d, t) /\ sum_list t <= 6 * length t + 9 * (n + added ops).
Proof. exact DisjointWorkProofs.perform_word. Qed.
Print Assumptions C115_word.

(** Two pairs, their union, an element that is added, and an index out of range;
    the last but one [find] makes three calls of [find_helper]. *)
Example C115_example :
  perform [Union 1 3; Union 2 3; Add; Union 0 4; Common 4 0; Union 0 3; Find 4; Find 7; Find 4] (with_size 4) [] =
    Ret ([Element false 1; Element true 5; Element false 1; Element false 1; Element false 1], [2; 3; 2; 1; 1; 2; 1; 1; 2; 1; 1; 1]) /\
  4 + added [Union 1 3; Union 2 3; Add; Union 0 4; Common 4 0; Union 0 3; Find 4; Find 7; Find 4] = 5 /\ 5 < tower (S 2) /\
  tower 1 = 2 /\ tower 2 = 4 /\ tower 3 = 16.
Proof. split; [vm_compute; reflexivity|]. split; [done|]. split; [vm_compute; lia|done]. Qed.
