(** The line matcher [find_left]. *)
From Verif Require Import Base Nonogram SpecNonogram NonogramStates.

Global Instance agrees_dec sq x : Decision (agrees sq x).
Proof. destruct sq; cbn; apply _. Defined.

Definition agrees_opt (sq : option square) (x : bool) : Prop :=
  match sq with None => True | Some sq => agrees sq x end.
Lemma not_filled_spec sq : not_filled sq = true <-> agrees_opt sq false.
Proof. destruct sq as [[]|]; cbn; intuition done. Qed.
Lemma not_blocked_spec sq : not_blocked sq = true <-> agrees_opt sq true.
Proof. destruct sq as [[]|]; cbn; intuition done. Qed.

Lemma push_tail_spec st squares path :
  push_tail st squares path =
  if decide (Forall (fun s => agrees s false) squares) then Some (path ++ replicate (length squares) st) else None.
Proof.
  revert path. induction squares as [|s squares IH]; intros path; cbn [push_tail].
  - rewrite decide_True by constructor. cbn. by rewrite app_nil_r.
  - destruct s; rewrite ?IH.
    + destruct (decide (Forall (fun s => agrees s false) squares)) as [H|H].
      * rewrite decide_True by (by constructor). cbn [length replicate]. by rewrite <-app_assoc.
      * rewrite decide_False; [done|]. intros Hf. by inversion Hf.
    + rewrite decide_False; [done|]. intros Hf. inversion Hf. done.
    + destruct (decide (Forall (fun s => agrees s false) squares)) as [H|H].
      * rewrite decide_True by (by constructor). cbn [length replicate]. by rewrite <-app_assoc.
      * rewrite decide_False; [done|]. intros Hf. by inversion Hf.
Qed.

Section line.
  Context (rule : list nat) (Hhd : head rule <> Some 0).
  Notation n := (length (descs rule)).
  Notation K := (kind rule).
  Notation edge := (edge rule).
  Notation isfill := (isfill rule).
  Notation chain := (chain rule).
  Notation accepting := (accepting rule).
  Notation states := (rule_states rule).

  Lemma n_ge' : 2 <= n.
  Proof. apply n_ge. Qed.
  Lemma K_0 : K 0 = Some Start.
  Proof. done. Qed.
  Lemma K_1 : K 1 = Some End.
  Proof. unfold kind. by rewrite desc_one. Qed.
  Lemma K_2 : 2 < n -> K 2 = Some Fill.
  Proof.
    intros Hn. destruct rule as [|v r] eqn:E; [cbn in Hn; lia|]. rewrite <-E in *.
    pose proof (desc_two rule Hhd v r E) as H. unfold kind. rewrite H. rewrite !decide_False; [done|done| |done..].
    pose proof Hhd as Hp. rewrite E in Hp |- *. rewrite descs_length, gap_length_cons.
    assert (v <> 0) by (intros ->; by apply Hp). pose proof (gap_length_pos r). lia.
  Qed.
  Lemma K_last : K (n - 1) = Some End.
  Proof.
    pose proof n_ge'. destruct (desc_lookup rule (n - 1)) as (c&q&E); [lia|]. unfold kind. rewrite E.
    rewrite decide_False by lia. case_decide; [done|]. by rewrite decide_True by lia.
  Qed.
  Lemma K_none : K n = None.
  Proof. unfold kind. by rewrite lookup_ge_None_2. Qed.
  Lemma K_mid s : 2 <= s -> S s < n -> K s = Some (if isfill s then Fill else Space).
  Proof.
    intros H1 H2. destruct (desc_lookup rule s) as (c&q&E); [lia|]. unfold NonogramStates.isfill, kind. rewrite E.
    rewrite !decide_False by lia. by case_decide.
  Qed.
  Lemma n_three : n <> 3.
  Proof.
    pose proof Hhd as Hp. destruct rule as [|v r]; [done|]. rewrite descs_length, gap_length_cons.
    assert (v <> 0) by (intros ->; by apply Hp). pose proof (gap_length_pos r). lia.
  Qed.
  Lemma K_stay s : s <> 0 -> S s < n ->
    K s = Some Fill /\ isfill s = true \/ (K s = Some Space \/ K s = Some End) /\ isfill s = false.
  Proof.
    intros H0 Hs. destruct (decide (s = 1)) as [->|]; [right; split; [right; apply K_1|]|].
    - unfold NonogramStates.isfill. by rewrite K_1.
    - rewrite K_mid by lia. destruct (isfill s); auto.
  Qed.
  Lemma isfill_0 : isfill 0 = false.
  Proof. done. Qed.
  Lemma isfill_1 : isfill 1 = false.
  Proof. unfold NonogramStates.isfill. by rewrite K_1. Qed.
  Lemma isfill_last : isfill (n - 1) = false.
  Proof. unfold NonogramStates.isfill. by rewrite K_last. Qed.

  (** One pass. *)
  Section pass.
    Context (sq : option square) (rest : list square) (old0 : list (option (list nat))).
    Context (Hlen : length old0 = n + 1) (Hact : forall s p, old0 !! s = Some (Some p) -> S s < n).

    Definition cand (s t : nat) : Prop := edge s t /\ S t < n /\ agrees_opt sq (isfill t).
    Definition NewOK (k : nat) (new : list (option (list nat))) : Prop :=
      length new = n + 1 /\ forall t, t < n + 1 ->
        match new !! t with
        | Some (Some q) => exists s p, s < k /\ old0 !! s = Some (Some p) /\ cand s t /\ q = p ++ [t] /\
            forall s', s < s' < k -> cand s' t -> forall p', old0 !! s' <> Some (Some p')
        | Some None => forall s, s < k -> cand s t -> forall p, old0 !! s <> Some (Some p)
        | None => False
        end.

    Lemma NewOK_blank : NewOK 0 (replicate (n + 1) None).
    Proof.
      split; [by rewrite replicate_length|]. intros t Ht. rewrite lookup_replicate_2 by done. lia.
    Qed.
    Lemma NewOK_skip k new : old0 !! k = Some None -> NewOK k new -> NewOK (S k) new.
    Proof.
      intros Hk [Hl H]. split; [done|]. intros t Ht. specialize (H t Ht). destruct (new !! t) as [[q|]|]; [| |done].
      - destruct H as (s&p&H1&H2&H3&H4&H5). exists s, p. split_and!; [lia|done..|].
        intros s' Hs' Hc. destruct (decide (s' = k)) as [->|]; [congruence|]. apply H5; [lia|done].
      - intros s Hs Hc. destruct (decide (s = k)) as [->|]; [congruence|]. apply H; [lia|done].
    Qed.
    Lemma agrees_opt_dec x : Decision (agrees_opt sq x).
    Proof. destruct sq as [[]|]; cbn; apply _. Qed.
    Lemma edge_dec s t : Decision (edge s t).
    Proof.
      unfold NonogramStates.edge. assert (forall o, Decision (K s = Some o)) as HD.
      { intros o. destruct (K s) as [[]|], o; (left; done) || (right; done). }
      apply or_dec; [apply and_dec; [apply _|apply or_dec; apply HD]|]. apply or_dec; apply _.
    Qed.
    Lemma cand_dec s t : Decision (cand s t).
    Proof. unfold cand. apply and_dec; [apply edge_dec|]. apply and_dec; [apply _|apply agrees_opt_dec]. Qed.

    Lemma NewOK_step k p new new' : old0 !! k = Some (Some p) -> NewOK k new -> length new' = n + 1 ->
      (forall t, t < n + 1 -> cand k t -> new' !! t = Some (Some (p ++ [t]))) ->
      (forall t, t < n + 1 -> ~ cand k t -> new' !! t = new !! t) -> NewOK (S k) new'.
    Proof.
      intros Hk [Hl H] Hl' H1 H2. split; [done|]. intros t Ht. specialize (H t Ht).
      destruct (cand_dec k t) as [Hc|Hc].
      - rewrite (H1 t Ht Hc). exists k, p. split_and!; [lia|done..|]. intros s' Hs'. lia.
      - rewrite (H2 t Ht Hc). destruct (new !! t) as [[q|]|]; [| |done].
        + destruct H as (s&p'&G1&G2&G3&G4&G5). exists s, p'. split_and!; [lia|done..|].
          intros s' Hs' Hc'. destruct (decide (s' = k)) as [->|]; [done|]. apply G5; [lia|done].
        + intros s Hs Hc'. destruct (decide (s = k)) as [->|]; [done|]. apply H; [lia|done].
    Qed.

    (** [vec_set] under a condition. *)
    Definition set_if (b : bool) (t : nat) (p : list nat) (new : list (option (list nat))) :=
      if b then <[t := Some (p ++ [t])]> new else new.
    Lemma vec_set_if (b : bool) t p new : length new = n + 1 -> t < n + 1 ->
      (if b then vec_set new t (Some (p ++ [t])) else Ret new) = Ret (set_if b t p new).
    Proof. intros Hl Ht. unfold set_if, vec_set. destruct b; [|done]. by rewrite decide_True by lia. Qed.
    Lemma set_if_length b t p new : length (set_if b t p new) = length new.
    Proof. unfold set_if. destruct b; [apply insert_length|done]. Qed.
    Lemma set_if_lookup b t p new u : t < length new ->
      set_if b t p new !! u = if decide (b = true /\ u = t) then Some (Some (p ++ [t])) else new !! u.
    Proof.
      intros Ht. unfold set_if. destruct b.
      - destruct (decide (u = t)) as [->|].
        + rewrite decide_True by done. by rewrite list_lookup_insert.
        + rewrite decide_False by (by intros [_ ?]). by rewrite list_lookup_insert_ne.
      - rewrite decide_False by (by intros [? _]). done.
    Qed.

    Definition tail_squares : list square := match sq with Some s => s :: rest | None => [] end.
    Definition open_tail : Prop := Forall (fun s => agrees s false) tail_squares.

    Lemma stay_isfill s : (K s = Some Space \/ K s = Some End) -> isfill s = false.
    Proof. unfold NonogramStates.isfill. by intros [-> | ->]. Qed.

    (** Result of a pass that has handled the states below [k]. *)
    Definition pass_result (r : res (list (option (list nat)) * bool)) : Prop :=
      (exists new', r = Ret (new', false) /\ NewOK (n + 1) new' /\
         ~ ((exists p, old0 !! (n - 2) = Some (Some p)) /\ open_tail)) \/
      (exists new' p, r = Ret (new', true) /\ old0 !! (n - 2) = Some (Some p) /\ open_tail /\
         new' !! n = Some (Some (p ++ replicate (length tail_squares) (n - 1)))).

    Lemma pass_spec taken old new : old0 = taken ++ old -> NewOK (length taken) new ->
      (n - 2 < length taken -> ~ ((exists p, old0 !! (n - 2) = Some (Some p)) /\ open_tail)) ->
      pass_result (match_pass states sq rest (length taken) old new).
    Proof.
      revert taken new. induction old as [|[path|] old IH]; intros taken new Ho Hnew Hacc; cbn [match_pass].
      - left. exists new. rewrite app_nil_r in Ho. subst taken. rewrite Hlen in *. split_and!; [done..|].
        apply Hacc. pose proof n_ge'. lia.
      - set (k := length taken) in *.
        assert (old0 !! k = Some (Some path)) as Hk by (rewrite Ho; unfold k; by rewrite list_lookup_middle).
        pose proof (Hact k path Hk) as Hkn. pose proof n_ge' as Hn.
        assert (length new = n + 1) as Hln by apply Hnew.
        assert (forall new', NewOK (S k) new' -> (k = n - 2 -> ~ open_tail) ->
          pass_result (match_pass states sq rest (S k) old new')) as Hnext.
        { intros new' Hn' Hne. specialize (IH (taken ++ [Some path]) new').
          rewrite app_length in IH. cbn [length] in IH. rewrite Nat.add_1_r in IH. apply IH.
          - by rewrite <-app_assoc.
          - done.
          - intros Hlt [Hex Hop]. destruct (decide (k = n - 2)) as [He|He]; [by apply Hne|].
            apply Hacc; [fold k; lia|done]. }
        unfold vec_get. rewrite !rule_states_lookup. rewrite Nat.add_1_r.
        destruct (decide (k = n - 2)) as [Hk2|Hk2].
        { (* accepting *)
          assert (S k = n - 1) as Hk1 by lia. rewrite Hk1, K_last. replace (k + 2) with n by lia. rewrite K_none.
          fold tail_squares. rewrite push_tail_spec. fold open_tail.
          set (b1 := bool_decide (k <> 0) && negb (isfill k) && not_filled sq).
          assert ((let! curr_state := expect (K k) in
                   match curr_state with
                   | Start | Fill => Ret new
                   | Space | End => if not_filled sq then vec_set new k (Some (path ++ [k])) else Ret new
                   end) = Ret (set_if b1 k path new)) as HE.
          { unfold b1. destruct (decide (k = 0)) as [->|Hk0]; [by rewrite K_0|]. rewrite bool_decide_eq_true_2 by done.
            destruct (K_stay k Hk0 Hkn) as [[-> ->]|[[-> | ->] ->]]; cbn [expect bind negb andb]; [done|..];
              rewrite vec_set_if by lia; done. }
          destruct (K k) as [kk|] eqn:EK.
          2:{ exfalso. destruct (decide (k = 0)) as [->|Hk0]; [by rewrite K_0 in EK|].
              by destruct (K_stay k Hk0 Hkn) as [[? _]|[[?|?] _]]; congruence. }
          cbn [expect bind] in HE |- *. rewrite HE. cbn [bind]. destruct (decide open_tail) as [Hop|Hop].
          - unfold vec_set. rewrite set_if_length, decide_True by lia. cbn [bind]. right. eexists _, path.
            split_and!; [done|by rewrite <-Hk2|done|]. rewrite list_lookup_insert by (rewrite set_if_length; lia). by rewrite <-Hk1.
          - rewrite <-Hk1. apply Hnext; [|done]. apply (NewOK_step k path new); [done|done|by rewrite set_if_length|..].
            + intros t Ht (He&Hb&Ha). rewrite set_if_lookup by lia.
              destruct He as [[-> He]|[[-> ?]|(?&->&?)]]; [|lia..].
              assert (k <> 0) as Hk0 by (intros E0; rewrite E0, K_0 in He; by destruct He).
              apply stay_isfill in He. rewrite He in Ha. apply not_filled_spec in Ha.
              rewrite decide_True; [done|]. unfold b1. by rewrite bool_decide_eq_true_2, He, Ha by done.
            + intros t Ht Hc. rewrite set_if_lookup by lia. rewrite decide_False; [done|].
              intros [Hb ->]. apply Hc. unfold b1 in Hb. apply andb_true_iff in Hb as [Hb Ha].
              apply andb_true_iff in Hb as [Hk0%bool_decide_eq_true Hf%negb_true_iff].
              split_and!; [|lia|rewrite Hf; by apply not_filled_spec].
              left. split; [done|]. destruct (K_stay k Hk0 Hkn) as [[_ ?]|[? _]]; [congruence|done]. }
        assert (forall t p b (l : list (option (list nat))), t < n + 1 -> length l = n + 1 ->
          length (set_if b t p l) = n + 1) as Hsl by (intros; by rewrite set_if_length).
        destruct (decide (k = 0)) as [Hk0|Hk0].
        { rewrite Hk0, K_0, K_1. cbn [expect bind]. change (0 + 2) with 2. rewrite K_2 by lia. pose proof n_three.
          rewrite vec_set_if by lia. cbn [bind]. rewrite vec_set_if; [|rewrite set_if_length|]; [|lia..]. cbn [bind].
          rewrite <-Hk0 at 1. apply Hnext; [|done]. apply (NewOK_step k path new); [done|done|by rewrite !set_if_length|..].
          all: rewrite Hk0.
            + intros t Ht (He&Hb&Ha). rewrite set_if_lookup by (rewrite set_if_length; lia). rewrite set_if_lookup by lia.
              destruct He as [[-> [He|He]]|[[-> _]|(_&->&_)]]; [by rewrite K_0 in He..| |].
              * rewrite decide_False by lia. rewrite isfill_1 in Ha. apply not_filled_spec in Ha.
                by rewrite decide_True by done.
              * unfold NonogramStates.isfill in Ha. rewrite K_2 in Ha by lia. apply not_blocked_spec in Ha.
                by rewrite decide_True by done.
            + intros t Ht Hc. rewrite set_if_lookup by (rewrite set_if_length; lia). rewrite set_if_lookup by lia.
              rewrite !decide_False; [done|..].
              * intros [Hb ->]. apply Hc. split_and!; [right; left; lia|lia|].
                rewrite isfill_1. by apply not_filled_spec.
              * intros [Hb ->]. apply Hc. split_and!; [right; right; lia|lia|].
                unfold NonogramStates.isfill. rewrite K_2 by lia. by apply not_blocked_spec. }
        rewrite (K_mid (S k)) by lia.
        set (b1 := negb (isfill k) && not_filled sq).
        set (b2 := if isfill (S k) then not_blocked sq else not_filled sq).
        assert (forall r, r = match_pass states sq rest (S k) old (set_if b2 (S k) path (set_if b1 k path new)) ->
          pass_result r) as Hgoal.
        { intros r ->. apply Hnext; [|done]. apply (NewOK_step k path new); [done|done|by rewrite !set_if_length|..].
            + intros t Ht (He&Hb&Ha). rewrite set_if_lookup by (rewrite set_if_length; lia). rewrite set_if_lookup by lia.
              destruct He as [[-> He]|[[-> _]|(?&_)]]; [| |done].
              * rewrite decide_False by lia. apply stay_isfill in He. rewrite He in Ha. apply not_filled_spec in Ha.
                rewrite decide_True; [done|]. unfold b1. by rewrite He, Ha.
              * rewrite decide_True; [done|]. split; [|done]. unfold b2.
                destruct (isfill (S k)); [by apply not_blocked_spec|by apply not_filled_spec].
            + intros t Ht Hc. rewrite set_if_lookup by (rewrite set_if_length; lia). rewrite set_if_lookup by lia.
              rewrite !decide_False; [done|..].
              * intros [Hb ->]. apply Hc. unfold b1 in Hb. apply andb_true_iff in Hb as [Hf Ha].
                apply negb_true_iff in Hf. split_and!; [|lia|rewrite Hf; by apply not_filled_spec].
                left. split; [done|]. destruct (K_stay k Hk0 Hkn) as [[_ ?]|[? _]]; [congruence|done].
              * intros [Hb ->]. apply Hc. unfold b2 in Hb. split_and!; [right; left; lia|lia|].
                destruct (isfill (S k)); [by apply not_blocked_spec|by apply not_filled_spec]. }
        assert ((let! curr_state := expect (K k) in
                 match curr_state with
                 | Start | Fill => Ret new
                 | Space | End => if not_filled sq then vec_set new k (Some (path ++ [k])) else Ret new
                 end) = Ret (set_if b1 k path new)) as HE.
        { unfold b1. destruct (K_stay k Hk0 Hkn) as [[-> ->]|[[-> | ->] ->]]; cbn [expect bind negb andb]; [done|..];
            rewrite vec_set_if by lia; done. }
        destruct (K k) as [kk|] eqn:EK; [|by destruct (K_stay k Hk0 Hkn) as [[? _]|[[?|?] _]]; congruence].
        cbn [expect bind] in HE |- *. rewrite HE. cbn [bind]. apply Hgoal. unfold b2.
        destruct (isfill (S k)); (rewrite vec_set_if; [|rewrite set_if_length|]; [|lia..]); done.
      - apply (f_equal (lookup (length taken))) in Ho as Hk. rewrite list_lookup_middle in Hk by done.
        specialize (IH (taken ++ [None]) new). rewrite app_length in IH. cbn [length] in IH. rewrite Nat.add_1_r in IH.
        apply IH.
        + by rewrite <-app_assoc.
        + by apply NewOK_skip.
        + intros Hlt [[p Hp] Hop]. destruct (decide (length taken = n - 2)) as [He|He]; [rewrite He in Hk; congruence|].
          apply Hacc; [lia|]. split; [by exists p|done].
    Qed.
  End pass.

  (** The whole loop. *)
  Definition compat (sq : square) (t : nat) : Prop := agrees sq (isfill t).
  Definition full (squares : list square) (p : list nat) : Prop :=
    chain 0 p /\ Forall2 compat squares p /\ accepting (endst 0 p).
  Definition Good (dn : list square) (old : list (option (list nat))) : Prop :=
    length old = n + 1 /\ forall t, t < n + 1 ->
      match old !! t with
      | Some (Some p) => S t < n /\ chain 0 p /\ Forall2 compat dn p /\ endst 0 p = t /\
          forall q, chain 0 q -> Forall2 compat dn q -> endst 0 q <= t -> Forall2 le q p
      | Some None => S t < n -> forall q, chain 0 q -> Forall2 compat dn q -> endst 0 q <> t
      | None => False
      end.
  Definition Early (dn rest : list square) : Prop :=
    forall q, full (dn ++ rest) q -> S (endst 0 (take (length dn) q)) < n.

  Lemma Good_init : Good [] (<[0 := Some []]> (replicate (n + 1) None)).
  Proof.
    split; [by rewrite insert_length, replicate_length|]. intros t Ht. pose proof n_ge'.
    destruct (decide (t = 0)) as [->|].
    - rewrite list_lookup_insert by (rewrite replicate_length; lia). split_and!; [lia|done|constructor|done|].
      intros q _ Hq _. inversion Hq. constructor.
    - rewrite list_lookup_insert_ne, lookup_replicate_2 by done. intros _ q _ Hq. inversion Hq. by cbn.
  Qed.

  Lemma chain_app s p q : chain s (p ++ q) <-> chain s p /\ chain (endst s p) q.
  Proof.
    revert s. induction p as [|t p IH]; intros s; cbn [app NonogramStates.chain]; [unfold endst; cbn; tauto|].
    rewrite IH, endst_cons. tauto.
  Qed.
  Lemma endst_app s p q : endst s (p ++ q) = endst (endst s p) q.
  Proof.
    revert s. induction p as [|t p IH]; intros s; [done|]. cbn [app]. by rewrite !endst_cons, IH.
  Qed.
  Lemma chain_states s p : s < n -> chain s p -> Forall (fun t => t < n /\ t <> 0) p /\ endst s p < n.
  Proof.
    revert s. induction p as [|t p IH]; intros s Hs; [split; [constructor|done]|]. intros [He Hc].
    destruct (edge_bound rule Hhd s t He Hs) as [? ?]. destruct (IH t) as [? ?]; [lia|done|].
    rewrite endst_cons. split; [constructor; [lia|done]|done].
  Qed.
  Lemma chain_last p : chain (n - 1) p -> Forall (fun t => t = n - 1) p.
  Proof.
    induction p as [|t p IH]; [constructor|]. intros [He Hc]. pose proof n_ge'.
    destruct (edge_bound rule Hhd _ t He) as [? _]; [lia|]. assert (t = n - 1) as -> by lia. constructor; auto.
  Qed.
  Lemma last_entry s : edge s (n - 1) -> S s < n -> s = n - 2.
  Proof. intros [[? _]|[[? _]|(->&?&_)]] Hs; [lia..|]. pose proof n_three. lia. Qed.

  Lemma Good_active dn old s p : Good dn old -> old !! s = Some (Some p) -> S s < n.
  Proof.
    intros [Hl H] Hs. specialize (H s). rewrite Hs in H. apply H. rewrite <-Hl. by eapply lookup_lt_Some.
  Qed.
  Lemma Good_has dn old q : Good dn old -> chain 0 q -> Forall2 compat dn q -> S (endst 0 q) < n ->
    exists p, old !! endst 0 q = Some (Some p).
  Proof.
    intros [Hl H] H1 H2 H3. specialize (H (endst 0 q) ltac:(lia)). destruct (old !! endst 0 q) as [[p|]|]; [eauto| |done].
    exfalso. by eapply H.
  Qed.

  (** The crucial step: the largest active predecessor dominates. *)
  Lemma Good_step dn old sq new : Good dn old -> NewOK (Some sq) old (n + 1) new -> Good (dn ++ [sq]) new.
  Proof.
    intros HG [Hl Hnew]. split; [done|]. intros t Ht. specialize (Hnew t Ht).
    destruct (new !! t) as [[r|]|]; [| |done].
    - destruct Hnew as (s&p&Hs&Hsp&(He&Htn&Hag)&->&Hmax).
      destruct HG as [HlG HG]. pose proof (HG s Hs) as HGs. rewrite Hsp in HGs. destruct HGs as (Hsn&Hc&Hf&Hend&Hdom).
      split_and!; [done|apply chain_snoc; split; [done|by rewrite Hend]|apply Forall2_app; [done|by repeat constructor]|apply endst_snoc|].
      intros q0 Hcq Hfq Hle. apply Forall2_app_inv_l in Hfq as (q&[|t' [|]]&Hfq&H1&->); [by inversion H1| |by inversion H1 as [|???? _ H3]; inversion H3].
      inversion H1 as [|???? Hct' _]; subst. clear H1. rewrite endst_snoc in Hle.
      apply chain_snoc in Hcq as [Hcq Het']. apply Forall2_app; [|by repeat constructor].
      destruct (chain_states 0 q) as [_ Hqn]; [pose proof n_ge'; lia|done|].
      destruct (edge_bound rule Hhd _ t' Het' Hqn) as [[Hle' _] _].
      apply Hdom; [done|done|]. set (s' := endst 0 q) in *.
      destruct (decide (s' <= endst 0 p)) as [|Hgt]; [done|]. exfalso. apply Nat.nle_gt in Hgt.
      assert (exists p', old !! s' = Some (Some p')) as [p' Hp'] by (apply (Good_has dn old q); [done..|fold s'; lia]).
      apply (Hmax s') with p'; [unfold s' in *; lia| |done].
      assert (S s' < n) by lia.
      split_and!; [|done|done]. destruct He as [[-> He]|[[-> _]|(He&->&Hn2)]].
      + lia.
      + assert (s' = S (endst 0 p) /\ t' = s') as [E1 E2] by lia. rewrite <-E1.
        destruct Het' as [[_ Hst]|[[? _]|(?&_&_)]]; [|lia..]. left. done.
      + destruct (decide (s' = 1)) as [->|].
        { right; left. done. }
        assert (s' = 2 /\ t' = 2) as [-> ->] by lia. exfalso.
        destruct Het' as [[_ [Hst|Hst]]|[[? _]|(?&_&_)]]; [by rewrite (K_2 Hn2) in Hst..|lia|lia].
    - intros Htn q0 Hcq Hfq Heq. apply Forall2_app_inv_l in Hfq as (q&[|t' [|]]&Hfq&H1&->); [by inversion H1| |by inversion H1 as [|???? _ H3]; inversion H3].
      inversion H1 as [|???? Hct' _]; subst. clear H1. rewrite endst_snoc in *.
      apply chain_snoc in Hcq as [Hcq Het'].
      destruct (chain_states 0 q) as [_ Hqn]; [pose proof n_ge'; lia|done|].
      destruct (edge_bound rule Hhd _ t' Het' Hqn) as [[Hle' _] _].
      destruct (Good_has dn old q HG Hcq Hfq) as [p Hp]; [lia|].
      apply (Hnew (endst 0 q)) with p; [lia| |done]. by split_and!.
  Qed.

  Lemma full_tail dn rest q : full (dn ++ rest) q ->
    exists q1 q2, q = q1 ++ q2 /\ take (length dn) q = q1 /\ length q1 = length dn /\ Forall2 compat dn q1 /\ Forall2 compat rest q2 /\
      chain 0 q1 /\ chain (endst 0 q1) q2.
  Proof.
    intros (Hc&Hf&_). apply Forall2_app_inv_l in Hf as (q1&q2&H1&H2&->). apply chain_app in Hc as [Hc1 Hc2].
    pose proof (Forall2_length _ _ _ H1) as Hl. exists q1, q2. split_and!; try done. rewrite Hl. apply take_app.
  Qed.

  Lemma Early_step dn sq rest old : Good dn old -> Early dn (sq :: rest) ->
    ~ ((exists p, old !! (n - 2) = Some (Some p)) /\ open_tail (Some sq) rest) ->
    Early (dn ++ [sq]) rest.
  Proof.
    intros HG HE Hno q Hq. pose proof Hq as Hq'. rewrite <-app_assoc in Hq'. cbn [app] in Hq'.
    specialize (HE q Hq'). destruct (full_tail _ _ _ Hq') as (q1&q2&->&Htk&Hl1&Hf1&Hf2&Hc1&Hc2). rewrite Htk in HE.
    destruct q2 as [|t q2]; [inversion Hf2|]. rewrite app_length. cbn [length]. rewrite <-Hl1.
    replace (take (length q1 + 1) (q1 ++ t :: q2)) with (q1 ++ [t]).
    2:{ by rewrite (firstn_app_2 1). }
    rewrite endst_snoc. destruct Hc2 as [He Hc2].
    destruct (edge_bound rule Hhd _ t He) as [? _]; [lia|].
    destruct (decide (S t < n)) as [|Hge]; [done|]. exfalso. assert (t = n - 1) as -> by lia.
    pose proof (last_entry _ He HE) as Hs. apply Hno. split.
    - rewrite <-Hs. by apply (Good_has dn).
    - unfold open_tail, tail_squares. apply Forall2_cons in Hf2 as [Hx Hr].
      unfold compat in Hx. rewrite isfill_last in Hx. constructor; [done|].
      apply chain_last in Hc2. apply Forall_forall. intros x Hin.
      apply elem_of_list_lookup in Hin as [i Hi]. destruct (Forall2_lookup_l _ _ _ _ _ Hr Hi) as (u&Hu&Hc).
      rewrite Forall_lookup in Hc2. apply Hc2 in Hu. subst u. unfold compat in Hc. by rewrite isfill_last in Hc.
  Qed.

  Lemma chain_replicate s k : chain (n - 1) (replicate k (n - 1)) /\ endst s (replicate k (n - 1)) = (if decide (k = 0) then s else n - 1).
  Proof.
    pose proof n_ge'. revert s. induction k as [|k IH]; intros s; [done|]. cbn [replicate NonogramStates.chain]. destruct (IH (n - 1)) as [I1 I2].
    split; [split; [|done]|].
    - left. split; [done|]. right. apply K_last.
    - rewrite endst_cons, I2. by case_decide.
  Qed.

  (** Acceptance yields a dominating run. *)
  Lemma accept_best dn tl p : n - 2 = endst 0 p -> chain 0 p -> Forall2 compat dn p ->
    (forall q, chain 0 q -> Forall2 compat dn q -> endst 0 q <= n - 2 -> Forall2 le q p) ->
    Forall (fun s => agrees s false) tl -> Early dn tl ->
    let best := p ++ replicate (length tl) (n - 1) in
    full (dn ++ tl) best /\ forall q, full (dn ++ tl) q -> Forall2 le q best.
  Proof.
    intros Hend Hc Hf Hdom Htl HE best. pose proof n_ge' as Hn. split.
    - split_and!.
      + apply chain_app. split; [done|]. rewrite <-Hend. destruct tl as [|x tl]; [done|]. cbn [length replicate].
        split; [right; left; lia|apply (chain_replicate 0)].
      + apply Forall2_app; [done|]. clear -Htl Hhd. induction Htl as [|x tl Hx Htl IH]; cbn [length replicate]; constructor; [|done].
        unfold compat. by rewrite isfill_last.
      + unfold best. rewrite endst_app, (proj2 (chain_replicate _ _)). unfold NonogramStates.accepting.
        case_decide; lia.
    - intros q Hq. pose proof (HE q Hq) as Hb. destruct (full_tail _ _ _ Hq) as (q1&q2&->&Htk&Hl1&Hf1&Hf2&Hc1&Hc2).
      rewrite Htk in Hb. apply Forall2_app; [apply Hdom; [done..|lia]|].
      destruct (chain_states (endst 0 q1) q2) as [Hst _]; [lia|done|]. apply Forall2_length in Hf2. rewrite Hf2. clear -Hst.
      induction Hst as [|t q2 [Ht _] Hst IH]; cbn [length replicate]; constructor; [lia|done].
  Qed.

  Lemma match_loop_spec rest : forall dn old, Good dn old -> Early dn rest ->
    exists new, match_loop states rest old = Ret new /\
      ((exists p, new !! n = Some (Some p) /\ full (dn ++ rest) p /\ forall q, full (dn ++ rest) q -> Forall2 le q p) \/
       (new !! n = Some None /\ forall q, ~ full (dn ++ rest) q)).
  Proof.
    induction rest as [|sq rest IH]; intros dn old HG HE; cbn [match_loop]; rewrite rule_states_length.
    - destruct (pass_spec None [] old (proj1 HG) (fun s p => Good_active dn old s p HG) [] old _ eq_refl (NewOK_blank _ _ (proj1 HG))) as
        [(new&E&Hnew&Hno)|(new&p&E&Hp&Hop&Hn)]; [pose proof n_ge'; cbn; lia|..]; cbn [length] in E; rewrite E; cbn [bind].
      + exists new. split; [done|]. right. split.
        * destruct Hnew as [Hl Hnew]. specialize (Hnew n ltac:(lia)). destruct (new !! n) as [[r|]|]; [|done..].
          destruct Hnew as (s&p&_&_&(_&?&_)&_). lia.
        * intros q Hq. specialize (HE q Hq). destruct Hq as (Hc&Hf&Ha). rewrite app_nil_r in Hf.
          rewrite take_ge in HE by (by rewrite (Forall2_length _ _ _ Hf)).
          apply Hno. split; [|constructor]. unfold NonogramStates.accepting in Ha.
          replace (n - 2) with (endst 0 q) by lia. by apply (Good_has dn).
      + exists new. split; [done|]. left. exists p. unfold tail_squares in Hn. cbn in Hn. rewrite app_nil_r in Hn. split; [done|].
        destruct HG as [Hl HG]. pose proof n_ge'. specialize (HG (n - 2) ltac:(lia)). rewrite Hp in HG.
        destruct HG as (_&Hc&Hf&Hend&Hdom). destruct (accept_best dn [] p) as [H1 H2]; [done..|constructor|done|].
        cbn [length replicate] in H1, H2. rewrite (app_nil_r p) in H1, H2. by split.
    - destruct (pass_spec (Some sq) rest old (proj1 HG) (fun s p => Good_active dn old s p HG) [] old _ eq_refl (NewOK_blank _ _ (proj1 HG))) as
        [(new&E&Hnew&Hno)|(new&p&E&Hp&Hop&Hn)]; [pose proof n_ge'; cbn; lia|..]; cbn [length] in E; rewrite E; cbn [bind].
      + destruct (IH (dn ++ [sq]) new) as (new'&E'&H').
        * by apply (Good_step dn old).
        * by apply (Early_step dn sq rest old).
        * rewrite <-app_assoc in H'. cbn [app] in H'. by exists new'.
      + exists new. split; [done|]. left. exists (p ++ replicate (S (length rest)) (n - 1)). split; [done|].
        destruct HG as [Hl HG]. pose proof n_ge'. specialize (HG (n - 2) ltac:(lia)). rewrite Hp in HG.
        destruct HG as (_&Hc&Hf&Hend&Hdom). by apply (accept_best dn (sq :: rest) p).
  Qed.

  Lemma mapM_state_filled p : Forall (fun t => t < n /\ t <> 0) p ->
    mapM (state_filled states) p = Ret (isfill <$> p).
  Proof.
    induction 1 as [|t p [Ht H0] Hp IH]; [done|]. cbn [mapM]. rewrite IH. unfold state_filled, vec_get.
    rewrite rule_states_lookup. rewrite fmap_cons.
    assert (K t <> None /\ K t <> Some Start) as [K1 K2].
    { unfold kind. destruct (desc_lookup rule t Ht) as (c&q&->). rewrite decide_False by done. by repeat case_decide. }
    assert (isfill t = match K t with Some Fill => true | _ => false end) as -> by done. destruct (K t) as [[]|]; done.
  Qed.

  Lemma find_left_runs squares :
    (exists p, find_left states squares = Ret (Some (isfill <$> p)) /\ full squares p /\
       forall q, full squares q -> Forall2 le q p) \/
    (find_left states squares = Ret None /\ forall q, ~ full squares q).
  Proof.
    pose proof n_ge' as Hn. destruct (match_loop_spec squares [] _ Good_init) as (new&E&H).
    { intros q _. change (1 < n). lia. }
    change ([] ++ squares) with squares in H.
    assert (find_left states squares = let! final := vec_get new n in
      match final with None => Ret None | Some path => let! bs := mapM (state_filled states) path in Ret (Some bs) end) as ->.
    { unfold find_left. rewrite rule_states_length. unfold vec_set.
      rewrite decide_True by (rewrite replicate_length; lia). cbn [bind]. rewrite E. done. }
    unfold vec_get. destruct H as [(p&->&Hp&Hdom)|[-> Hno]]; cbn [expect bind].
    - left. exists p. rewrite mapM_state_filled; [done|]. destruct Hp as (Hc&_&_). apply (chain_states 0); [lia|done].
    - by right.
  Qed.
End line.

(** Block counters along a line: the number of changes so far, starting
    outside a block. *)
Fixpoint levels (prev : bool) (k : nat) (b : list bool) : list nat :=
  match b with
  | [] => []
  | x :: b => let k' := if Bool.eqb x prev then k else S k in k' :: levels x k' b
  end.

Lemma chain_levels rule p s : head rule <> Some 0 -> s < length (descs rule) -> chain rule s p ->
  levels (isfill rule s) (level rule s) (isfill rule <$> p) = level rule <$> p.
Proof.
  intros Hhd. revert s. induction p as [|t p IH]; intros s Hs; [done|]. intros [He Hc].
  destruct (edge_bound rule Hhd s t He Hs) as [Ht _]. rewrite !fmap_cons. cbn [levels].
  assert ((if Bool.eqb (isfill rule t) (isfill rule s) then level rule s else S (level rule s)) = level rule t) as ->.
  { destruct (desc_lookup rule s Hs) as (c&q&Es). destruct (desc_lookup rule t) as (c'&q'&Et); [lia|].
    pose proof (desc_nz rule s c q Es) as Hl.
    destruct (edge_step rule Hhd s c q t c' q' Es Et He) as [(->&->&->)|[(->&->)|(->&->&_)]].
    - rewrite (proj2 (isfill_false rule Hhd _ _ _ Es) eq_refl), (proj2 (isfill_false rule Hhd _ _ _ Et) eq_refl).
      cbn. unfold level. by rewrite Es, Et.
    - rewrite (proj2 (isfill_false rule Hhd _ _ _ Et) eq_refl). unfold level. rewrite Es, Et.
      rewrite (decide_True (P := 0 = 0)) by done. rewrite nz_cons in *. case_decide as Hc0.
      + rewrite (proj2 (isfill_false rule Hhd _ _ _ Es)) by done. cbn [Bool.eqb]. lia.
      + rewrite (proj2 (isfill_desc rule Hhd _ _ _ Es)) by done. cbn [Bool.eqb]. lia.
    - rewrite (proj2 (isfill_desc rule Hhd _ _ _ Et)) by lia. unfold level. rewrite Es, Et.
      rewrite (decide_False (P := S c = 0)) by lia. case_decide as Hc'.
      + rewrite (proj2 (isfill_false rule Hhd _ _ _ Es)) by done. cbn [Bool.eqb]. lia.
      + rewrite (proj2 (isfill_desc rule Hhd _ _ _ Es)) by done. done. }
  f_equal. by apply IH; [lia|].
Qed.

Definition lv (b : list bool) : list nat := levels false 0 b.

(** [find_left] finds a filling whose block counters are largest. *)
Lemma find_left_spec rule squares : head rule <> Some 0 ->
  (exists b, find_left (rule_states rule) squares = Ret (Some b) /\ fits rule squares b /\
     forall b', fits rule squares b' -> Forall2 le (lv b') (lv b)) \/
  (find_left (rule_states rule) squares = Ret None /\ forall b, ~ fits rule squares b).
Proof.
  intros Hhd.
  assert (descs rule !! 0 = Some (0, rule)) as H0 by done.
  assert (forall p, full rule squares p -> fits rule squares (isfill rule <$> p)) as Hto.
  { intros p (Hc&Hf&Ha). split; [apply reads_spells; by apply (run_reads rule Hhd p 0 0 rule H0)|].
    apply Forall2_fmap_r. eapply Forall2_impl; [exact Hf|]. done. }
  assert (forall b, fits rule squares b -> exists p, full rule squares p /\ b = isfill rule <$> p) as Hof.
  { intros b [Hb%reads_spells Hf]. destruct (reads_run rule Hhd 0 rule b Hb 0 H0) as (p&Hc&Ha&<-). exists p. split; [|done].
    split_and!; [done| |done]. exact (proj1 (Forall2_fmap_r _ _ _ _) Hf). }
  assert (forall p, full rule squares p -> lv (isfill rule <$> p) = level rule <$> p) as Hlv.
  { intros p (Hc&_&_). unfold lv.
    assert (level rule 0 = 0) as Hl0 by (unfold level; rewrite H0, decide_True by done; lia).
    rewrite <-(chain_levels rule p 0 Hhd); [by rewrite Hl0| |done]. pose proof (n_ge rule). lia. }
  destruct (find_left_runs rule Hhd squares) as [(p&E&Hp&Hdom)|[E Hno]].
  - left. exists (isfill rule <$> p). split_and!; [done|by apply Hto|]. intros b' (q&Hq&->)%Hof.
    rewrite !Hlv by done. apply Forall2_fmap_2. specialize (Hdom q Hq).
    destruct Hp as (Hc&_&_). destruct (chain_states rule Hhd 0 p) as [Hst _]; [pose proof (n_ge rule); lia|done|].
    clear -Hdom Hst Hhd. induction Hdom as [|x y q p Hxy Hdom IH]; constructor; inversion Hst; subst.
    + apply level_mono; [done|]. lia.
    + by apply IH.
  - right. split; [done|]. intros b (p&Hp&_)%Hof. by apply Hno in Hp.
Qed.
