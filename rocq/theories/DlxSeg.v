(** Doubly linked rings in the heap and the loops that traverse them. *)
From Verif Require Import Base Dlx.

Definition fld {A} (f : node -> A) (h : heap) (p : ptr) : option A := f <$> h !! p.

Lemma fld_Some {A} (f : node -> A) h p v : fld f h p = Some v <-> exists n, h !! p = Some n /\ f n = v.
Proof. unfold fld. rewrite fmap_Some. naive_solver. Qed.
Lemma fld_eq {A} (f : node -> A) h h' p : h' !! p = h !! p -> fld f h' p = fld f h p.
Proof. unfold fld. by intros ->. Qed.

Section seg.
  Context (nxt prv : node -> ptr).

  (** [b] follows [a]. *)
  Definition lk (h : heap) (a b : ptr) : Prop := fld nxt h a = Some b /\ fld prv h b = Some a.
  (** The nodes [l] lie between [a] and [b]. *)
  Fixpoint seg (h : heap) (a : ptr) (l : list ptr) (b : ptr) : Prop :=
    match l with
    | [] => lk h a b
    | x :: l => lk h a x /\ seg h x l b
    end.

  Lemma seg_app h a l1 x l2 b : seg h a (l1 ++ x :: l2) b <-> seg h a l1 x /\ seg h x l2 b.
  Proof. revert a. induction l1 as [|y l1 IH]; intros a; cbn; [done|]. rewrite IH. tauto. Qed.

  Lemma seg_frame h h' a l b :
    (forall y, y ∈ a :: l -> fld nxt h' y = fld nxt h y) ->
    (forall y, y ∈ l ++ [b] -> fld prv h' y = fld prv h y) ->
    seg h a l b -> seg h' a l b.
  Proof.
    revert a. induction l as [|x l IH]; intros a Hn Hp; cbn; unfold lk.
    - intros [H1 H2]. rewrite Hn by apply elem_of_list_here. rewrite Hp by apply elem_of_list_here. done.
    - intros [[H1 H2] H3]. split.
      + rewrite Hn by apply elem_of_list_here. rewrite Hp by apply elem_of_list_here. done.
      + apply IH; [| |done]; intros y Hy; [apply Hn|apply Hp]; by apply elem_of_list_further.
  Qed.
  Lemma seg_frame_eq h h' a l b :
    (forall y, y ∈ a :: l ++ [b] -> h' !! y = h !! y) -> seg h a l b -> seg h' a l b.
  Proof.
    intros H. apply seg_frame; intros y Hy; apply fld_eq, H.
    - apply elem_of_cons in Hy. rewrite elem_of_cons, elem_of_app. tauto.
    - apply elem_of_cons. by right.
  Qed.

  Lemma seg_rotate h a l1 x l2 : seg h a (l1 ++ x :: l2) a <-> seg h x (l2 ++ a :: l1) x.
  Proof. rewrite !seg_app. tauto. Qed.

  Lemma seg_lookup h a l b y : seg h a l b -> y ∈ a :: l -> is_Some (h !! y).
  Proof.
    revert a. induction l as [|x l IH]; intros a; cbn.
    - intros [H _] ->%elem_of_list_singleton. apply fld_Some in H as (n&?&_). eauto.
    - intros [[H _] H2] [->|Hy]%elem_of_cons; [|eauto]. apply fld_Some in H as (n&?&_). eauto.
  Qed.

  (** Taking [x] out of a segment. *)
  Lemma seg_remove h a l1 x l2 b :
    seg h a (l1 ++ x :: l2) b -> NoDup (a :: l1 ++ x :: l2) -> b ∉ l1 ++ x :: l2 ->
    exists n, h !! x = Some n /\ prv n ∈ a :: l1 /\ nxt n ∈ l2 ++ [b] /\
      lk h (prv n) x /\ lk h x (nxt n) /\
      forall h',
        (forall y, y <> prv n -> fld nxt h' y = fld nxt h y) ->
        (forall y, y <> nxt n -> fld prv h' y = fld prv h y) ->
        fld nxt h' (prv n) = Some (nxt n) -> fld prv h' (nxt n) = Some (prv n) ->
        seg h' a (l1 ++ l2) b.
  Proof.
    revert a. induction l1 as [|z l1 IH]; intros a Hs Hnd Hb; cbn [app] in *.
    - destruct Hs as [[H1 H2] H3].
      apply fld_Some in H2 as (n&Hx&Hn). exists n. rewrite Hn.
      destruct l2 as [|y l2]; cbn [seg app] in *.
      + destruct H3 as [H3 H4]. pose proof H3 as H3'. apply fld_Some in H3 as (n'&Hx'&Hn').
        assert (n' = n) as -> by congruence.
        rewrite Hn'. split_and!; [done|apply elem_of_list_here..|by split; [|apply fld_Some; eauto]|done|].
        intros h' F1 F2 E1 E2. by split.
      + destruct H3 as [[H3 H4] H5]. pose proof H3 as H3'. apply fld_Some in H3 as (n'&Hx'&Hn').
        assert (n' = n) as -> by congruence.
        rewrite Hn'. split_and!; [done|apply elem_of_list_here|apply elem_of_list_here|by split; [|apply fld_Some; eauto]|done|].
        intros h' F1 F2 E1 E2. split; [by split|].
        apply NoDup_cons in Hnd as [Ha Hnd]. apply NoDup_cons in Hnd as [Hx0 Hnd].
        apply NoDup_cons in Hnd as [Hy Hnd].
        eapply seg_frame; [| |exact H5].
        * intros w Hw. apply F1. intros ->. apply Ha. apply elem_of_cons. by right.
        * intros w Hw. apply F2. intros ->. apply elem_of_app in Hw as [Hw|Hw]; [done|].
          apply elem_of_list_singleton in Hw as ->. apply Hb.
          apply elem_of_cons; right. apply elem_of_list_here.
    - destruct Hs as [[H1 H2] H3]. apply NoDup_cons in Hnd as [Ha Hnd].
      rewrite not_elem_of_cons in Hb. destruct Hb as [Hbz Hb].
      destruct (IH z H3 Hnd Hb) as (n&Hx&Hp&Hq&Lp&Ln&Hfin).
      exists n. split_and!; [done|by apply elem_of_list_further|done|done|done|].
      intros h' F1 F2 E1 E2. split.
      + split.
        * rewrite F1; [done|]. intros Heq. apply Ha. rewrite Heq.
          apply elem_of_cons in Hp. rewrite elem_of_cons, elem_of_app. tauto.
        * rewrite F2; [done|]. intros Heq. apply NoDup_cons in Hnd as [Hz _].
          rewrite <-Heq in Hq. apply elem_of_app in Hq as [Hq|Hq].
          -- apply Hz. rewrite elem_of_app, elem_of_cons. tauto.
          -- apply elem_of_list_singleton in Hq. done.
      + by apply Hfin.
  Qed.

  (** Adding [x] at the end of a segment. *)
  Lemma seg_snoc h h' a l x b u :
    seg h a l b -> NoDup (a :: l) -> b ∉ l -> x ∉ a :: l -> x <> b ->
    last (a :: l) = Some u ->
    (forall y, y <> u -> y <> x -> fld nxt h' y = fld nxt h y) ->
    (forall y, y <> b -> y <> x -> fld prv h' y = fld prv h y) ->
    fld nxt h' u = Some x -> fld prv h' x = Some u ->
    fld nxt h' x = Some b -> fld prv h' b = Some x ->
    seg h' a (l ++ [x]) b.
  Proof.
    intros Hs Hnd Hb Hx Hxb Hl F1 F2 E1 E2 E3 E4.
    revert a Hs Hnd Hx Hl. induction l as [|z l IH]; intros a Hs Hnd Hx Hl; cbn [app seg].
    - injection Hl as ->. by repeat split.
    - destruct Hs as [[H1 H2] H3]. apply NoDup_cons in Hnd as [Ha Hnd].
      rewrite not_elem_of_cons in Hx. destruct Hx as [Hxa Hx].
      rewrite not_elem_of_cons in Hb. destruct Hb as [Hbz Hb].
      change (last (a :: z :: l)) with (last (z :: l)) in Hl. split.
      + split.
        * rewrite F1; [done| |congruence]. intros ->. apply Ha.
          apply last_Some in Hl as [l' ->]. rewrite elem_of_app. right. apply elem_of_list_here.
        * rewrite F2; [done|congruence|]. intros ->. apply Hx. apply elem_of_list_here.
      + by apply IH.
  Qed.
End seg.

Lemma lk_sym nxt prv h a b : lk nxt prv h a b <-> lk prv nxt h b a.
Proof. unfold lk. tauto. Qed.
Lemma seg_rev nxt prv h a l b : seg nxt prv h a l b <-> seg prv nxt h b (rev l) a.
Proof.
  revert a. induction l as [|x l IH]; intros a; cbn; [apply lk_sym|].
  rewrite seg_app, IH. cbn. rewrite (lk_sym nxt prv). tauto.
Qed.

(** Forward links only. *)
Fixpoint fwd (dir : node -> ptr) (h : heap) (a : ptr) (l : list ptr) (b : ptr) : Prop :=
  match l with
  | [] => fld dir h a = Some b
  | x :: l => fld dir h a = Some x /\ fwd dir h x l b
  end.
Lemma seg_fwd nxt prv h a l b : seg nxt prv h a l b -> fwd nxt h a l b.
Proof. revert a. induction l as [|x l IH]; intros a; cbn; [by intros []|]. intros [[? _] ?]. eauto. Qed.
Lemma fwd_frame dir h h' a l b :
  (forall y, y ∈ a :: l -> fld dir h' y = fld dir h y) -> fwd dir h a l b -> fwd dir h' a l b.
Proof.
  revert a. induction l as [|x l IH]; intros a H; cbn.
  - intros E. by rewrite H by apply elem_of_list_here.
  - intros [E1 E2]. split; [by rewrite H by apply elem_of_list_here|]. apply IH; [|done].
    intros y Hy. apply H. by apply elem_of_list_further.
Qed.

(** * Loops *)
Definition first_or (l : list ptr) (d : ptr) : ptr := match l with [] => d | x :: _ => x end.
Lemma fwd_first dir h a l b : fwd dir h a l b -> fld dir h a = Some (first_or l b).
Proof. destruct l; cbn; [done|]. by intros []. Qed.
Lemma fwd_split dir h a l1 x l2 b : fwd dir h a (l1 ++ x :: l2) b -> fwd dir h x l2 b.
Proof. revert a. induction l1 as [|y l1 IH]; intros a; cbn; intros [_ H]; [done|]. by eapply IH. Qed.
Lemma fwd_at dir h a l1 x l2 b : fwd dir h a (l1 ++ x :: l2) b -> fld dir h x = Some (first_or l2 b).
Proof. intros H%fwd_split. by apply fwd_first. Qed.

(** A loop visits the nodes [l] between [o] and [o].  [J] describes the state
    after some of them, [Q] the state when the body ends the loop. *)
Lemma for_from_J {S} (J : list ptr -> S -> Prop) (Q : S -> Prop) (heap_of : S -> heap) (dir : node -> ptr) (o : ptr)
    (body : ptr -> S -> res (S * bool)) (l : list ptr) (fuel : nat) (s : S) :
  length l <= fuel -> null ∉ l -> o ∉ l ->
  (forall l1 x l2 s, l = l1 ++ x :: l2 -> J l1 s ->
     fld dir (heap_of s) x = Some (first_or l2 o) /\
     exists s' stop, body x s = Ret (s', stop) /\ if stop : bool then Q s' else J (l1 ++ [x]) s') ->
  J [] s ->
  exists s' stop, for_from fuel heap_of dir o (first_or l null) body s = Ret (s', stop) /\
    if stop : bool then Q s' else J l s'.
Proof.
  intros Hf Hnull Ho Hstep HJ.
  enough (forall l2 l1 s fuel, l = l1 ++ l2 -> length l2 <= fuel -> J l1 s ->
    exists s' stop, for_from fuel heap_of dir o (first_or l2 null) body s = Ret (s', stop) /\
    if stop : bool then Q s' else J l s') as H by (by apply (H l [] s)).
  clear s fuel Hf HJ. induction l2 as [|x l2 IH]; intros l1 s fuel Hl Hf HJ.
  - rewrite app_nil_r in Hl. subst. exists s, false. split; [|done]. by destruct fuel.
  - destruct fuel as [|fuel]; cbn in Hf; [lia|].
    assert (x <> null) as Hxn.
    { intros ->. apply Hnull. rewrite Hl, elem_of_app. right. apply elem_of_list_here. }
    destruct (Hstep _ _ _ _ Hl HJ) as (Hread&s'&stop&Hb&Hs').
    cbn [first_or for_from]. rewrite decide_False by done.
    apply fld_Some in Hread as (n&Hn&Hd). unfold load. rewrite Hn. cbn [bind]. rewrite Hb. cbn [bind].
    destruct stop; [by exists s', true|].
    assert ((if decide (dir n = o) then null else dir n) = first_or l2 null) as ->.
    { rewrite Hd. destruct l2 as [|y l2]; cbn [first_or].
      - by rewrite decide_True.
      - rewrite decide_False; [done|]. intros ->. apply Ho.
        rewrite Hl, elem_of_app. right. apply elem_of_list_further, elem_of_list_here. }
    apply (IH (l1 ++ [x])); [by rewrite <-app_assoc|lia|done].
Qed.

Lemma for_skip1_J {S} (J : list ptr -> S -> Prop) (Q : S -> Prop) (heap_of : S -> heap) (dir : node -> ptr) (o : ptr)
    (body : ptr -> S -> res (S * bool)) (l : list ptr) (fuel : nat) (s : S) :
  length l <= fuel -> null ∉ l -> o ∉ l ->
  fld dir (heap_of s) o = Some (first_or l o) ->
  (forall l1 x l2 s, l = l1 ++ x :: l2 -> J l1 s ->
     fld dir (heap_of s) x = Some (first_or l2 o) /\
     exists s' stop, body x s = Ret (s', stop) /\ if stop : bool then Q s' else J (l1 ++ [x]) s') ->
  J [] s ->
  exists s' stop, for_skip1 fuel heap_of dir o body s = Ret (s', stop) /\
    if stop : bool then Q s' else J l s'.
Proof.
  intros Hf Hnull Ho Hfirst Hstep HJ. unfold for_skip1.
  apply fld_Some in Hfirst as (n&Hn&Hd). unfold load. rewrite Hn. cbn [bind].
  assert ((if decide (dir n = o) then null else dir n) = first_or l null) as ->.
  { rewrite Hd. destruct l as [|y l]; cbn [first_or].
    - by rewrite decide_True.
    - rewrite decide_False; [done|]. intros ->. apply Ho. apply elem_of_list_here. }
  by eapply for_from_J.
Qed.

Lemma heap_loop_J (J : list ptr -> heap -> Prop) (dir : node -> ptr) (o : ptr)
    (body : ptr -> heap -> res heap) (l : list ptr) (fuel : nat) (h : heap) :
  length l <= fuel -> null ∉ l -> o ∉ l ->
  fld dir h o = Some (first_or l o) ->
  (forall l1 x l2 g, l = l1 ++ x :: l2 -> J l1 g ->
     fld dir g x = Some (first_or l2 o) /\ exists g', body x g = Ret g' /\ J (l1 ++ [x]) g') ->
  J [] h ->
  exists g, heap_loop fuel dir o body h = Ret g /\ J l g.
Proof.
  intros Hf Hnull Ho Hfirst Hstep HJ. unfold heap_loop.
  destruct (for_skip1_J J (fun _ => False) id dir o
    (fun x h => let! h := body x h in Ret (h, false)) l fuel h Hf Hnull Ho Hfirst) as (g&stop&Hr&Hg);
    [|done|].
  - intros l1 x l2 g Hl Hg. destruct (Hstep _ _ _ _ Hl Hg) as (Hread&g'&Hb&Hg').
    split; [done|]. exists g', false. by rewrite Hb.
  - rewrite Hr. destruct stop; [done|]. exists g. done.
Qed.

Lemma foldM_app {A S} (f : A -> S -> res S) l1 l2 s :
  foldM f (l1 ++ l2) s = (let! s := foldM f l1 s in foldM f l2 s).
Proof. revert s. induction l1 as [|x l1 IH]; intros s; cbn; [done|]. destruct (f x s); cbn; [apply IH|done]. Qed.
