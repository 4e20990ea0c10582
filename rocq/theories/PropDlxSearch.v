(** Property C50. *)
From Verif Require Import Base Dlx SpecDlx SpecDlxSearch.
From Verif Require DlxProofs.

(** C50: the linked search returns exactly what Algorithm X on plain lists
    returns: branching on the first shortest constraint, rows in order.  This
    fixes which of several exact covers is found, and the order of its rows. *)
Theorem C50_search_order : forall cs added fuel,
  Forall NoDup cs -> compatible cs added -> matrix_size cs < fuel ->
  exists mx0 mx, matrix_new cs = Ret mx0 /\ add_all fuel added mx0 = Ret (Ok mx) /\
    solve fuel mx = Ret (match knuth (foldl choose cs added) with
                         | Some sol => Ok (added ++ sol)
                         | None => Err DlxNoSolution
                         end, ∅).
Proof. exact DlxProofs.search_order. Qed.
Print Assumptions C50_search_order.

(** Two covers, [2; 3] and [0; 1; 4]: the second constraint is the first
    shortest one, so the search starts with row 2 although row 0 comes first.
    With row 1 fixed the other one is found. *)
Definition cs2 : list (list nat) := [[0; 2; 5]; [2; 1]; [0; 3]; [1; 2]; [4; 3; 5]].
Example C50_example :
  Forall NoDup cs2 /\ matrix_size cs2 = 17 /\
  knuth cs2 = Some [2; 3] /\ knuth (foldl choose cs2 [1]) = Some [0; 4] /\
  knuth (foldl choose cs2 [5]) = None.
Proof. split; [by apply (bool_decide_unpack _)|]. split_and!; vm_compute; reflexivity. Qed.
Example C50_compatible : compatible cs2 [1] /\ compatible cs2 [5].
Proof.
  split; intros l1 r l2 Hl; destruct l1 as [|a [|]]; cbn in Hl; simplify_eq;
    (split; [|intros (k&a&_&H%elem_of_nil&_); done]).
  - exists [2; 1]. split; apply (bool_decide_unpack _); reflexivity.
  - exists [4; 3; 5]. split; apply (bool_decide_unpack _); reflexivity.
Qed.
