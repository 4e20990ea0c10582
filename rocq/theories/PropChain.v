(** C107. *)
From Verif Require Import Base Nonogram NonogramCost SpecNonogram SpecNonogramChain SpecWord.
From Verif Require NonogramChainProofs.

Theorem C107_chain : forall (m : mode) n, 2 <= n -> (N.of_nat ((n + 2) * n) < limit m)%N ->
  solution (chain_cols n) (chain_rows n) (chain_picture n) /\
  exists k, solve_cost m (chain_cols n) (chain_rows n) =
      Ret (Ok (map (fun x : bool => if x then Filled else Blocked) (chain_picture n)), (k, k * (2 * n + 2))) /\
    n - 2 <= k.
Proof. exact NonogramChainProofs.chain_spec. Qed.
Print Assumptions C107_chain.

Theorem C107_unbounded : forall (m : mode) K, (4 * (N.of_nat K * N.of_nat K) < limit m)%N ->
  exists col row g l, solution col row g /\ exists k, K <= k /\
    solve_cost m col row = Ret (Ok (map (fun x : bool => if x then Filled else Blocked) g), (k, l)).
Proof. exact NonogramChainProofs.chain_unbounded. Qed.
Print Assumptions C107_unbounded.

(** Five rows: five rounds over twelve lines. *)
Example C107_five : solve_cost (Mode Debug W64) (chain_cols 5) (chain_rows 5) =
  Ret (Ok (map (fun x : bool => if x then Filled else Blocked) (chain_picture 5)), (5, 60)).
Proof. vm_compute. reflexivity. Qed.
Example C107_picture : chain_picture 3 =
  [true; true; true; false; false;
   true; false; true; true; false;
   true; false; false; true; true].
Proof. reflexivity. Qed.
