(** Property C96: the distribution of the mazes when the random generator
    delivers 32-bit words and the rand crate refuses some of them. *)
From Coq Require Import QArith Qcanon.
From Verif Require Import Base Maze MazeWords SpecMaze SpecMazeDfs SpecMazeRandom.
From Verif Require MazeWordsProofs.
Local Open Scope nat_scope.

(** The mean over all lists of [k] words; the value is 0 if they do not suffice. *)
Notation from_words m k w h f :=
  (mean_draws (N.to_nat words) k (fun ds => value f (recursive_backtrack_words m (N.of_nat <$> ds) w h))).

(** Every index below [n] is drawn for the same number of words, at least half
    of the words are accepted, and no other index is drawn. *)
Theorem C96_index : forall n, (1 <= n < 2 ^ 32)%N -> exists c, 1 <= c /\ N.to_nat (2 ^ 32) <= 2 * (N.to_nat n * c) /\
  (forall i, i < N.to_nat n ->
    length (filter (fun v => accept n (N.of_nat v) = Some (N.of_nat i)) (seq 0 (N.to_nat (2 ^ 32)))) = c) /\
  (forall v i, (v < 2 ^ 32)%N -> accept n v = Some i -> (i < n)%N).
Proof. exact MazeWordsProofs.accept_fair. Qed.
Print Assumptions C96_index.
Example C96_index_example : accept 3 0 = Some 0%N /\ accept 3 1073741824 = None /\ accept 3 4294967295 = None /\
  accept 3 1431655766 = Some 1%N /\ accept 3 3000000000 = Some 2%N.
Proof. vm_compute. done. Qed.

(** If the words suffice, the maze is distributed as by the walk that always
    goes to each unvisited neighbour with the same probability. *)
Theorem C96_maze : forall (m : mode) w h f k, 1 <= w -> 1 <= h -> storable m w h ->
  from_words m k w h f = (from_words m k w h (fun _ => 1%Qc) * expected w h f)%Qc.
Proof. exact MazeWordsProofs.words_share. Qed.
Print Assumptions C96_maze.
(** [k] words suffice with probability at least 1 - (22/3 w h) / k. *)
Theorem C96_enough : forall (m : mode) w h k, 1 <= w -> 1 <= h -> storable m w h -> 1 <= k ->
  (1 - Q2Qc (22 # 3) * Q2Qc (inject_Z (Z.of_nat (w * h))) / Q2Qc (inject_Z (Z.of_nat k)) <= from_words m k w h (fun _ => 1%Qc))%Qc.
Proof. exact MazeWordsProofs.words_enough. Qed.
Print Assumptions C96_enough.

(** With words the generator gives the mazes that it gives with numbers, or
    needs more words; more words do not change a maze. *)
Theorem C96_same : forall m w h ws, Forall (fun v => v < 2 ^ 32)%N ws ->
  recursive_backtrack_words m ws w h = Fault OutOfFuel \/
  exists rng, recursive_backtrack_words m ws w h = recursive_backtrack m rng w h.
Proof. exact MazeWordsProofs.words_same. Qed.
Print Assumptions C96_same.
Theorem C96_append : forall m w h ws ws' g, recursive_backtrack_words m ws w h = Ret g ->
  recursive_backtrack_words m (ws ++ ws') w h = Ret g.
Proof. exact MazeWordsProofs.words_append. Qed.
Print Assumptions C96_append.

Definition some_words : list N := [600000000; 1100000000; 0; 0; 0; 0; 4294967295; 0; 0; 0; 0; 0; 0; 0; 0; 0; 0; 0; 0; 0]%N.
Example C96_example : storable W64 2 2 /\ Forall (fun v => v < 2 ^ 32)%N some_words /\
  recursive_backtrack_words (Mode Debug W64) some_words 2 2 =
    Ret [MazeNode true false; MazeNode true false; MazeNode false true; MazeNode true true] /\
  recursive_backtrack_words (Mode Debug W64) (take 5 some_words) 2 2 = Fault OutOfFuel /\
  accept 4 600000000 = None.
Proof. split_and!; [done|by apply (bool_decide_unpack _)|vm_compute; reflexivity..]. Qed.
