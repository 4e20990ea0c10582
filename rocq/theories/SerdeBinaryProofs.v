(** Mazes in binary formats. *)
From Verif Require Import Base Maze SerdeBinary SpecSerdeBinary.

(** * Reading what was written *)

Section round.
Context (F : format) (HF : faithful F).
Lemma node_round n rest : get_node F (put_node F n ++ rest) = Ok (n, rest).
Proof.
  destruct HF as (Hb&_&_). unfold get_node, and_then, read, put_node. rewrite <-app_assoc, !Hb. by destruct n.
Qed.
Lemma direction_round d rest : get_direction F (put_direction F d ++ rest) = Ok (d, rest).
Proof.
  destruct HF as (_&Hv&_). unfold get_direction, and_then, read, put_direction. rewrite Hv by (by destruct d). by destruct d.
Qed.
Lemma elements_round {A} (put : A -> list N) (get : reader A) : (forall x rest, get (put x ++ rest) = Ok (x, rest)) ->
  forall l rest, get_elements get (length l) (concat (put <$> l) ++ rest) = Ok (l, rest).
Proof.
  intros H. induction l as [|x l IH]; intros rest; [done|]. cbn [length get_elements fmap list_fmap concat]. unfold and_then.
  rewrite <-app_assoc, H. change (list_fmap A (list N) put l) with (put <$> l). by rewrite IH.
Qed.
Lemma vec_round {A} (put : A -> list N) (get : reader A) l rest : (forall x rest, get (put x ++ rest) = Ok (x, rest)) ->
  (N.of_nat (length l) < 2 ^ 64)%N -> get_vec F get (put_vec F put l ++ rest) = Ok (l, rest).
Proof.
  intros H Hl. destruct HF as (_&_&Hlen). unfold get_vec, and_then, read, put_vec. rewrite <-app_assoc, Hlen by done.
  rewrite Nat2N.id. by apply elements_round.
Qed.
Lemma maze_round g s rest : (N.of_nat (length g) < 2 ^ 64)%N -> (N.of_nat (length s) < 2 ^ 64)%N ->
  get_maze F (put_maze F (g, s) ++ rest) = Ok ((g, s), rest).
Proof.
  intros Hg Hs. unfold get_maze, and_then, put_maze. cbn [fst snd]. rewrite <-app_assoc.
  rewrite (vec_round _ _ g _ node_round Hg). by rewrite (vec_round _ _ s _ direction_round Hs).
Qed.
Lemma maze_prefix g s rest g' s' rest' : (N.of_nat (length g) < 2 ^ 64)%N -> (N.of_nat (length s) < 2 ^ 64)%N ->
  (N.of_nat (length g') < 2 ^ 64)%N -> (N.of_nat (length s') < 2 ^ 64)%N ->
  put_maze F (g, s) ++ rest = put_maze F (g', s') ++ rest' -> g = g' /\ s = s' /\ rest = rest'.
Proof.
  intros H1 H2 H3 H4 E. pose proof (maze_round g s rest H1 H2) as Hr. rewrite E, maze_round in Hr by done.
  by injection Hr as -> -> ->.
Qed.
End round.

(** * Nothing else is read *)

Section only.
Context (F : format) (HF : canonical F).
Lemma node_only bs n rest : get_node F bs = Ok (n, rest) -> bs = put_node F n ++ rest.
Proof.
  destruct HF as (Hb&_&_). unfold get_node, and_then, read, put_node.
  destruct (get_bool F bs) as [[rt b1]|] eqn:E1; [|done]. destruct (get_bool F b1) as [[dn b2]|] eqn:E2; [|done].
  intros [= <- <-]. apply Hb in E1 as ->. apply Hb in E2 as ->. by rewrite <-app_assoc.
Qed.
Lemma direction_only bs d rest : get_direction F bs = Ok (d, rest) -> bs = put_direction F d ++ rest.
Proof.
  destruct HF as (_&Hv&_). unfold get_direction, and_then, read, put_direction.
  destruct (get_variant F bs) as [[n b]|] eqn:E; [|done]. apply Hv in E as ->.
  destruct n as [|[[p|p|]|[p|p|]|]]; try done; by intros [= <- <-].
Qed.
Lemma elements_only {A} (put : A -> list N) (get : reader A) : (forall bs x rest, get bs = Ok (x, rest) -> bs = put x ++ rest) ->
  forall n bs l rest, get_elements get n bs = Ok (l, rest) -> length l = n /\ bs = concat (put <$> l) ++ rest.
Proof.
  intros H. induction n as [|n IH]; intros bs l rest; cbn [get_elements]; [by intros [= <- <-]|]. unfold and_then.
  destruct (get bs) as [[x b]|] eqn:E; [|done]. apply H in E as ->.
  destruct (get_elements get n b) as [[l' b']|] eqn:E; [|done]. apply IH in E as [<- ->]. intros [= <- <-].
  split; [done|]. cbn [fmap list_fmap concat]. by rewrite <-app_assoc.
Qed.
Lemma vec_only {A} (put : A -> list N) (get : reader A) bs l rest : (forall bs x rest, get bs = Ok (x, rest) -> bs = put x ++ rest) ->
  get_vec F get bs = Ok (l, rest) -> bs = put_vec F put l ++ rest.
Proof.
  intros H. destruct HF as (_&_&Hl). unfold get_vec, and_then, read, put_vec.
  destruct (get_len F bs) as [[n b]|] eqn:E; [|done]. apply Hl in E as ->. intros E.
  apply (elements_only put get H) in E as [Hn ->]. by rewrite Hn, N2Nat.id, <-app_assoc.
Qed.
Lemma maze_only bs g s rest : get_maze F bs = Ok ((g, s), rest) -> bs = put_maze F (g, s) ++ rest.
Proof.
  unfold get_maze, and_then, put_maze. cbn [fst snd].
  destruct (get_vec F (get_node F) bs) as [[g' b]|] eqn:E1; [|done].
  destruct (get_vec F (get_direction F) b) as [[s' b']|] eqn:E2; [|done]. intros [= -> -> ->].
  apply (vec_only _ _ _ _ _ node_only) in E1 as ->. apply (vec_only _ _ _ _ _ direction_only) in E2 as ->. by rewrite <-app_assoc.
Qed.
End only.
Lemma variant_error (F : format) bs n : get_direction F bs = Err (InvalidVariant n) <->
  (4 <= n)%N /\ exists rest, get_variant F bs = Some (n, rest).
Proof.
  unfold get_direction, and_then, read. destruct (get_variant F bs) as [[k b]|]; [|split; [done|by intros [_ [? ?]]]].
  split.
  - destruct k as [|[[p|p|]|[p|p|]|]]; try done; intros [= <-]; (split; [lia|eauto]).
  - intros [Hn [rest [= -> ->]]]. destruct n as [|[[p|p|]|[p|p|]|]]; try done; lia.
Qed.

(** * Bytes *)

Lemma put_bytes_length k n : length (put_bytes k n) = k.
Proof. revert n. induction k as [|k IH]; intros n; cbn [put_bytes length]; [done|by rewrite IH]. Qed.
Lemma bytes_round k : forall n rest, (n < 256 ^ N.of_nat k)%N -> get_bytes k (put_bytes k n ++ rest) = Some (n, rest).
Proof.
  induction k as [|k IH]; intros n rest Hn; cbn [put_bytes get_bytes app].
  - change (256 ^ N.of_nat 0)%N with 1%N in Hn. assert (n = 0)%N as -> by lia. done.
  - rewrite Nat2N.inj_succ, N.pow_succ_r' in Hn. pose proof (N.mod_upper_bound n 256). destruct (N.ltb_spec (n mod 256) 256); [|lia].
    rewrite IH by (apply N.div_lt_upper_bound; lia). do 2 f_equal. pose proof (N.div_mod n 256). lia.
Qed.
Lemma bytes_only k : forall bs n rest, get_bytes k bs = Some (n, rest) -> bs = put_bytes k n ++ rest.
Proof.
  induction k as [|k IH]; intros bs n rest; cbn [put_bytes get_bytes app]; [by intros [= <- <-]|].
  destruct bs as [|b bs]; [done|]. destruct (N.ltb_spec b 256) as [Hb|]; [|done].
  destruct (get_bytes k bs) as [[m r]|] eqn:E; [|done]. apply IH in E as ->. intros E.
  assert ((b + 256 * m)%N = n /\ r = rest) as [<- <-] by (inversion E; split; reflexivity).
  rewrite (N.mul_comm 256 m), N.mod_add, N.div_add by done. by rewrite N.mod_small, N.div_small by done.
Qed.
Lemma little_endian_faithful : faithful little_endian.
Proof.
  split; [by intros []|]. split; intros n rest Hn; [apply (bytes_round 4)|apply (bytes_round 8)]; done.
Qed.
Lemma little_endian_canonical : canonical little_endian.
Proof.
  split; [|split; [apply (bytes_only 4)|apply (bytes_only 8)]].
  intros [|[|[]] bs] b rest; cbn; try done; by intros [= <- <-].
Qed.
Lemma concat_flat {A B} (f : A -> list B) l : concat (f <$> l) = flat_map f l.
Proof. induction l as [|x l IH]; [done|]. cbn. by rewrite <-IH. Qed.
Lemma maze_written g s : put_maze little_endian (g, s) = maze_bytes g s.
Proof.
  unfold put_maze, put_vec, maze_bytes. cbn [fst snd put_len little_endian]. rewrite <-app_assoc, !concat_flat. f_equal. f_equal.
  f_equal. apply flat_map_ext. by intros [].
Qed.
Lemma maze_size g s : length (put_maze little_endian (g, s)) = 16 + 2 * length g + 4 * length s.
Proof.
  rewrite maze_written. unfold maze_bytes. rewrite !app_length, !put_bytes_length.
  assert (forall {A B} (f : A -> list B) k l, (forall x, length (f x) = k) -> length (flat_map f l) = k * length l) as H.
  { intros A B f k l Hf. induction l as [|x l IH]; cbn [flat_map length]; [lia|]. rewrite app_length, Hf, IH. lia. }
  rewrite (H _ _ _ 2 g), (H _ _ _ 4 s) by done. lia.
Qed.
