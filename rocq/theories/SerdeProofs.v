(** Proofs about serialised mazes. *)
From Coq Require Import String.
From stdpp Require Import strings.
From Verif Require Import Base Maze Serde SpecSerde.
Local Open Scope string_scope.
Local Open Scope list_scope.

Lemma entries_cons k k' v l : entries_of k ((k', v) :: l) = if decide (k' = k) then v :: entries_of k l else entries_of k l.
Proof. unfold entries_of. rewrite filter_cons. cbn [fst]. by destruct (decide (k' = k)). Qed.

(** What has been read, followed by what is still to come. *)
Definition known (o : option bool) : list value := match o with Some b => [VBool b] | None => [] end.
Lemma fields_iff l : forall rt dn rt' dn',
  de_fields l rt dn = Ok (rt', dn') <->
  known rt ++ entries_of "right" l = known rt' /\ known dn ++ entries_of "down" l = known dn'.
Proof.
  induction l as [|[k v] l IH]; intros rt dn rt' dn'; cbn [de_fields].
  - change (entries_of _ []) with (@nil value). rewrite !app_nil_r. split; [by intros [= -> ->]|].
    intros [H1 H2]. destruct rt as [[]|], rt' as [[]|]; try done; destruct dn as [[]|], dn' as [[]|]; done.
  - rewrite !entries_cons. destruct (String.eqb_spec k "right") as [->|Hr]; [|destruct (String.eqb_spec k "down") as [->|Hd]].
    + rewrite decide_True by done. rewrite decide_False by done. destruct rt as [b|].
      * split; [done|]. intros [H _]. by destruct rt'.
      * destruct v as [|b| | | |]; cbn [de_bool]; try by (split; [done|]; intros [H _]; by destruct rt').
        rewrite IH. done.
    + rewrite decide_False by done. rewrite decide_True by done. destruct dn as [b|].
      * split; [done|]. intros [_ H]. by destruct dn'.
      * destruct v as [|b| | | |]; cbn [de_bool]; try by (split; [done|]; intros [_ H]; by destruct dn').
        rewrite IH. done.
    + rewrite !decide_False by done. apply IH.
Qed.

Lemma node_iff v n : de_node v = Ok n <-> stands_for v n.
Proof.
  unfold stands_for. destruct n as [r d]. cbn [m_right m_down]. destruct v as [| | | |l|l]; cbn [de_node].
  1-4: split; [done|]; intros [?|(?&?&_)]; done.
  - split.
    + destruct l as [|[] [|[] [|]]]; cbn [de_bool]; intros H; try done. injection H as -> ->. by left.
    + intros [[= ->]|(?&?&_)]; done.
  - pose proof (fields_iff l None None (Some r) (Some d)) as H. cbn [known app] in H. split.
    + intros E. right. exists l. split; [done|]. apply H. destruct (de_fields l None None) as [[[r'|] [d'|]]|]; try done.
      injection E as -> ->. done.
    + intros [?|(l'&[= <-]&E)]; [done|]. by rewrite (proj2 H E).
Qed.

Lemma variant_iff s d : de_variant s = Ok d <-> s = direction_name d.
Proof.
  unfold de_variant.
  destruct (String.eqb_spec s "Right") as [->|H1]; [by destruct d|].
  destruct (String.eqb_spec s "Down") as [->|H2]; [by destruct d|].
  destruct (String.eqb_spec s "Left") as [->|H3]; [by destruct d|].
  destruct (String.eqb_spec s "Up") as [->|H4]; [by destruct d|].
  split; [done|]. by destruct d; intros ->.
Qed.
Lemma direction_iff v d : de_direction v = Ok d <-> v = VText (direction_name d) \/ v = VMap [(direction_name d, VNull)].
Proof.
  destruct v as [| | |s| |l]; cbn [de_direction]; try (split; [done|by intros []]).
  - rewrite variant_iff. split; [intros ->; by left|by intros [[= ->]|]].
  - destruct l as [|[k c] [|p l]]; try (split; [done|by intros []]).
    destruct (de_variant k) as [d'|e] eqn:E.
    + apply variant_iff in E as ->. split.
      * destruct c; try done. intros [= ->]. by right.
      * intros [|[= H ->]]; [done|]. destruct d, d'; done.
    + split; [done|]. intros [|[= -> ->]]; [done|]. by rewrite (proj2 (variant_iff _ d)) in E.
Qed.

Lemma elements_iff {A} (f : value -> result A serde_error) l : forall xs,
  de_elements f l = Ok xs <-> Forall2 (fun v x => f v = Ok x) l xs.
Proof.
  induction l as [|v l IH]; intros xs; cbn [de_elements].
  - split; [intros [= <-]; constructor|]. by intros ->%Forall2_nil_inv_l.
  - split.
    + destruct (f v) as [x|] eqn:E; [|done]. destruct (de_elements f l) as [ys|]; [|done]. intros [= <-].
      constructor; [done|]. by apply IH.
    + intros (x&ys&Hx&Hl&->)%Forall2_cons_inv_l. by rewrite Hx, (proj2 (IH ys) Hl).
Qed.

Lemma node_round n : de_node (ser_node n) = Ok n.
Proof. by destruct n. Qed.
Lemma direction_round d : de_direction (ser_direction d) = Ok d.
Proof. by destruct d. Qed.
Lemma elements_round {A} (f : A -> value) g (H : forall x, g (f x) = Ok x) l : de_elements g (f <$> l) = Ok l.
Proof. apply elements_iff. induction l as [|x l IH]; [constructor|]. rewrite fmap_cons. by constructor. Qed.

Lemma maze_round g s : de_maze (ser_maze (g, s)) = Ok (g, s).
Proof.
  unfold de_maze, ser_maze, ser_list, de_list. cbn [fst snd].
  rewrite (elements_round ser_node de_node node_round), (elements_round ser_direction de_direction direction_round). done.
Qed.
Lemma maze_iff v g s : de_maze v = Ok (g, s) <-> exists cells steps, v = VList [VList cells; VList steps] /\
  Forall2 stands_for cells g /\
  Forall2 (fun v d => v = VText (direction_name d) \/ v = VMap [(direction_name d, VNull)]) steps s.
Proof.
  split.
  - destruct v as [| | | |[|[| | | |cells|] l]|]; cbn [de_maze de_list]; try done.
    destruct (de_elements de_node cells) as [g'|] eqn:E1; [|done].
    destruct l as [|[| | | |steps|] l]; cbn [de_list]; try done.
    destruct (de_elements de_direction steps) as [s'|] eqn:E2; [|done].
    destruct l; [|done]. intros [= -> ->]. exists cells, steps. split; [done|].
    apply elements_iff in E1, E2. split; (eapply Forall2_impl; [eassumption|]); intros ? ?; [apply node_iff|apply direction_iff].
  - intros (cells&steps&->&H1&H2). cbn [de_maze de_list].
    rewrite (proj2 (elements_iff de_node cells g)) by (eapply Forall2_impl; [exact H1|]; intros ? ?; apply node_iff).
    rewrite (proj2 (elements_iff de_direction steps s)) by (eapply Forall2_impl; [exact H2|]; intros ? ?; apply direction_iff).
    done.
Qed.

Lemma written n d :
  ser_node n = VMap [("right", VBool (m_right n)); ("down", VBool (m_down n))] /\
  ser_direction d = VText (direction_name d).
Proof. by destruct d. Qed.

Lemma fields_app l1 l2 : forall rt dn, de_fields (l1 ++ l2) rt dn =
  match de_fields l1 rt dn with Ok (rt, dn) => de_fields l2 rt dn | Err e => Err e end.
Proof.
  induction l1 as [|[k v] l1 IH]; intros rt dn; cbn [de_fields app]; [done|].
  destruct (String.eqb k "right"), (String.eqb k "down"), rt, dn; try done; try apply IH; destruct (de_bool v); done || apply IH.
Qed.
(** The maps read to the end. *)
Lemma readable_iff l : readable l <-> exists rt dn, de_fields l None None = Ok (rt, dn).
Proof.
  split.
  - intros H. assert (exists rt, entries_of "right" l = known rt) as [rt Hr].
    { destruct (H "right") as [E|[b E]]; [by left|by exists None|by exists (Some b)]. }
    assert (exists dn, entries_of "down" l = known dn) as [dn Hd].
    { destruct (H "down") as [E|[b E]]; [by right|by exists None|by exists (Some b)]. }
    exists rt, dn. by apply fields_iff.
  - intros (rt&dn&[H1 H2]%fields_iff) k Hk. cbn [known app] in *.
    destruct Hk as [-> | ->]; [rewrite H1; destruct rt as [b|]|rewrite H2; destruct dn as [b|]];
      (by left) || (right; by exists b).
Qed.
Lemma fields_err l : forall rt dn e, de_fields l rt dn = Err e ->
  exists pre k v post rt' dn', l = pre ++ (k, v) :: post /\ de_fields pre rt dn = Ok (rt', dn') /\
    de_fields [(k, v)] rt' dn' = Err e.
Proof.
  induction l as [|[k v] l IH]; intros rt dn e; [done|]. intros H.
  change ((k, v) :: l) with ([(k, v)] ++ l) in H. rewrite fields_app in H.
  destruct (de_fields [(k, v)] rt dn) as [[rt1 dn1]|e1] eqn:E1.
  - apply IH in H as (pre&k'&v'&post&rt'&dn'&->&H1&H2). exists ((k, v) :: pre), k', v', post, rt', dn'.
    split; [done|]. split; [|done]. change ((k, v) :: pre) with ([(k, v)] ++ pre). by rewrite fields_app, E1.
  - injection H as ->. by exists [], k, v, l, rt, dn.
Qed.
Lemma known_nil o : known o = [] <-> o = None.
Proof. by destruct o. Qed.
Lemma not_bool v : (exists b, v = VBool b) \/ (forall b, v <> VBool b).
Proof. destruct v; try (right; done). left. by eexists. Qed.
Lemma not_bool_err v : (forall b, v <> VBool b) -> de_bool v = Err InvalidType.
Proof. intros H. destruct v as [|b| | | |]; try done. by destruct (H b). Qed.

Lemma error_iff l e : de_node (VMap l) = Err e <-> map_error l e.
Proof.
  cbn [de_node]. split.
  - destruct (de_fields l None None) as [[rt dn]|e'] eqn:E.
    + assert (Hr : readable l) by (apply readable_iff; by exists rt, dn). apply fields_iff in E as [H1 H2]. cbn [known app] in *.
      destruct rt as [r|], dn as [d|]; intros [= <-].
      * apply no_down; [done|by rewrite H1|done].
      * by apply no_right.
      * by apply no_right.
    + intros [= ->]. apply fields_err in E as (pre&k&v&post&rt&dn&->&E1&E2).
      assert (Hr : readable pre) by (apply readable_iff; by exists rt, dn). apply fields_iff in E1 as [H1 H2]. cbn [known app] in *.
      cbn [de_fields] in E2. destruct (String.eqb_spec k "right") as [->|Hk1]; [|destruct (String.eqb_spec k "down") as [->|Hk2]; [|done]].
      * destruct rt as [r|]; [injection E2 as <-; apply repeated; [done|by left|by rewrite H1]|].
        destruct (not_bool v) as [[b ->]|Hv]; [done|]. rewrite not_bool_err in E2 by done. injection E2 as <-.
        apply no_boolean; [done|by left|done|done].
      * destruct dn as [d|]; [injection E2 as <-; apply repeated; [done|by right|by rewrite H2]|].
        destruct (not_bool v) as [[b ->]|Hv]; [done|]. rewrite not_bool_err in E2 by done. injection E2 as <-.
        apply no_boolean; [done|by right|done|done].
  - intros He. destruct He as [pre k v post Hr Hk Hne|pre k v post Hr Hk Hn Hv|l Hr H1|l Hr H1 H2];
      apply readable_iff in Hr as (rt&dn&E); pose proof E as [G1 G2]%fields_iff; cbn [known app] in *.
    + rewrite fields_app, E. cbn [de_fields]. destruct Hk as [-> | ->]; cbn [String.eqb Ascii.eqb Bool.eqb].
      * rewrite G1 in Hne. by destruct rt.
      * rewrite G2 in Hne. by destruct dn.
    + rewrite fields_app, E. cbn [de_fields]. rewrite (not_bool_err v Hv). destruct Hk as [-> | ->]; cbn [String.eqb Ascii.eqb Bool.eqb].
      * rewrite G1 in Hn. by destruct rt.
      * rewrite G2 in Hn. by destruct dn.
    + rewrite E. rewrite H1 in G1. by destruct rt.
    + rewrite E. rewrite H2 in G2. rewrite G1 in H1. destruct rt, dn; done.
Qed.
