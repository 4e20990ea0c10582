(** The sizes of the printed images. *)
From Verif Require Import Base Image Maze MazePrint Nonogram NonogramPrint Sudoku Png SpecPrint SpecPng.
Local Open Scope N_scope.

Definition ens {A} (P : A -> Prop) (x : res A) : Prop := forall a, x = Ret a -> P a.
Lemma ens_ret {A} (P : A -> Prop) a : P a -> ens P (Ret a).
Proof. by intros H b [= <-]. Qed.
Lemma ens_fault {A} (P : A -> Prop) f : ens P (Fault f).
Proof. by intros b. Qed.
Lemma ens_bind {A B} (P : B -> Prop) (x : res A) (k : A -> res B) :
  (forall a, x = Ret a -> ens P (k a)) -> ens P (bind x k).
Proof. intros H b. destruct x as [a|]; cbn [bind]; [|done]. by apply H. Qed.
Lemma ens_use {A B} (Q : A -> Prop) (P : B -> Prop) (x : res A) (k : A -> res B) :
  ens Q x -> (forall a, Q a -> ens P (k a)) -> ens P (bind x k).
Proof. intros HQ H. apply ens_bind. intros a E. apply H. by apply HQ. Qed.
Lemma ens_foldM {A S} (J : S -> Prop) (f : A -> S -> res S) l : (forall a s, J s -> ens J (f a s)) ->
  forall s, J s -> ens J (foldM f l s).
Proof.
  intros Hf. induction l as [|a l IH]; intros s Hs; cbn [foldM]; [by apply ens_ret|].
  apply (ens_use J); [by apply Hf|done].
Qed.

Definition sized (w h : N) (im : image) : Prop := i_width im = w /\ i_height im = h.
Lemma sized_put w h im x y c : sized w h im -> ens (sized w h) (put_pixel im x y c).
Proof. intros H. unfold put_pixel. destruct (_ && _); [by apply ens_ret|apply ens_fault]. Qed.

Ltac walk :=
  repeat match goal with
  | |- ens _ (Ret _) => apply ens_ret; try done
  | |- ens _ (Fault _) => apply ens_fault
  | |- ens _ (put_pixel _ _ _ _) => by apply sized_put
  | |- ens _ (foldM _ _ _) => apply ens_foldM; [|done]; intros ? ? ?
  | H : sized ?w ?h ?im |- ens _ (bind (put_pixel ?im _ _ _) _) =>
      apply (ens_use (sized w h)); [by apply sized_put|intros ? ?]
  | H : sized ?w ?h ?im |- ens _ (bind (foldM _ _ ?im) _) => apply (ens_use (sized w h)); [|intros ? ?]
  | |- ens _ (bind _ _) => apply ens_bind; intros ? _
  | |- ens _ (if ?b then _ else _) => destruct b
  | |- ens _ (match ?x with _ => _ end) => destruct x
  end.

Lemma sized_pixel ws w h c : ens (sized w h) (from_pixel ws w h c).
Proof. unfold from_pixel. destruct (_ <=? _); [by apply ens_ret|apply ens_fault]. Qed.
Lemma arith_odd m x y : arith m u32_size x = Ret y -> N.odd y = N.odd x.
Proof.
  unfold arith. destruct (x <? u32_size); [by intros [= ->]|]. destruct (profile_of m); [done|]. intros [= <-].
  change u32_size with (2 ^ 32). rewrite <-!N.bit0_odd. by apply N.mod_pow2_bits_low.
Qed.
Lemma arith_debug ws s x y : arith (Mode Debug ws) s x = Ret y -> y = x.
Proof. unfold arith. destruct (x <? s); [by intros [= ->]|done]. Qed.

Definition not_empty (im : image) : Prop := 0 < i_width im /\ 0 < i_height im.
Lemma sized_not_empty w h im : 0 < w -> 0 < h -> sized w h im -> not_empty im.
Proof. by intros ? ? [<- <-]. Qed.
Definition okay {E} (P : image -> Prop) (r : result image E) : Prop := forall im, r = Ok im -> P im.
Lemma okay_err {E} P (e : E) : okay P (Err e).
Proof. by intros im. Qed.
Lemma okay_ok {E} (P : image -> Prop) im : P im -> okay (E := E) P (Ok im).
Proof. by intros H ? [= <-]. Qed.

Lemma draw_right_sized m w h x y im : sized w h im -> ens (sized w h) (draw_right m x y im).
Proof. intros H. unfold draw_right. walk. Qed.
Lemma draw_down_sized m w h x y im : sized w h im -> ens (sized w h) (draw_down m x y im).
Proof. intros H. unfold draw_down. walk. Qed.
Lemma odd_pos n : N.odd n = true -> 0 < n.
Proof. destruct n; [done|lia]. Qed.
Lemma maze_sides m width height grid : ens (okay not_empty) (print_maze m width height grid).
Proof.
  unfold print_maze. apply ens_bind; intros cells _. destruct (negb _); [apply ens_ret, okay_err|].
  assert (forall n t s, u32_mul m n 10 = Ret t -> u32_add m t 1 = Ret s -> 0 < s) as Hpos.
  { intros n t s H1 H2. apply odd_pos. rewrite (arith_odd _ _ _ H2), N.odd_add, (arith_odd _ _ _ H1), N.odd_mul.
    by rewrite andb_false_r. }
  apply ens_bind; intros w10 E1. apply ens_bind; intros iw E2. apply ens_bind; intros h10 E3. apply ens_bind; intros ih E4.
  apply (ens_use (sized iw ih)); [apply sized_pixel|intros im1 H1].
  apply (ens_use (sized iw ih)); [walk|intros im2 H2].
  apply (ens_use (sized iw ih)); [walk|intros im3 H3].
  apply (ens_use (sized iw ih)).
  { apply ens_foldM; [|done]. intros [i node] im H.
    apply ens_bind; intros x _. apply ens_bind; intros y _.
    apply (ens_use (sized iw ih)); [destruct (m_right node); [by apply draw_right_sized|by apply ens_ret]|intros im' H'].
    destruct (m_down node); [by apply draw_down_sized|by apply ens_ret]. }
  intros im4 H4. apply ens_ret, okay_ok. apply (sized_not_empty iw ih); [exact (Hpos _ _ _ E1 E2)|exact (Hpos _ _ _ E3 E4)|done].
Qed.

Lemma draw_step_sized m w h s x y im : sized w h im ->
  ens (fun r => forall x y im', r = Some (x, y, im') -> sized w h im') (draw_step m s x y im).
Proof.
  intros H. unfold draw_step. destruct s; walk.
  all: intros ? ? ? [= <- <- <-]; done.
Qed.
Lemma draw_steps_sized m w h l : forall x y im, sized w h im ->
  ens (fun r => forall x y im', r = Some (x, y, im') -> sized w h im') (draw_steps m l x y im).
Proof.
  induction l as [|s l IH]; intros x y im H; cbn [draw_steps]; [apply ens_ret; by intros ? ? ? [= <- <- <-]|].
  apply (ens_use _ _ _ _ (draw_step_sized m w h s x y im H)). intros [[[x' y'] im']|] H'; [|by apply ens_ret].
  apply IH. by eapply H'.
Qed.
Lemma maze_solution_sized m im sol : ens (okay (sized (i_width im) (i_height im))) (print_maze_solution m im sol).
Proof.
  unfold print_maze_solution. destruct (_ || _); [apply ens_ret, okay_err|].
  set (w := i_width im). set (h := i_height im). assert (sized w h im) as H0 by done. clearbody w h.
  apply (ens_use (sized w h)); [walk|intros im1 H1].
  apply (ens_use _ _ _ _ (draw_steps_sized m w h (rev sol) 0 0 im1 H1)). intros [[[x y] im2]|] H2; [|apply ens_ret, okay_err].
  specialize (H2 x y im2 eq_refl). walk; first [apply okay_err|apply okay_ok; done].
Qed.
Lemma maze_solution_sides m im sol : ens (okay not_empty) (print_maze_solution m im sol).
Proof.
  intros r E im' ->. pose proof (maze_solution_sized m im sol _ E im' eq_refl) as Hs.
  unfold print_maze_solution in E. destruct (N.ltb_spec (i_width im) 6) as [H1|H1]; [by cbn in E|].
  destruct (N.ltb_spec (i_height im) 6) as [H2|H2]; [by cbn in E|]. eapply sized_not_empty; [| |exact Hs]; lia.
Qed.

Lemma arith_mod m x y : arith m u32_size x = Ret y -> y = x mod 2 ^ 32.
Proof.
  unfold arith. destruct (N.ltb_spec x u32_size) as [H|H]; [|destruct (profile_of m); [done|by intros [= <-]]].
  intros [= <-]. symmetry. apply N.mod_small. exact H.
Qed.
Lemma nonogram_side_release ws n t a s : rule_space (Mode Release ws) n = Ret t -> u32_mul (Mode Release ws) n 50 = Ret a -> u32_add (Mode Release ws) a t = Ret s ->
  s = 0 <-> n mod 2 ^ 31 = 2 ^ 30.
Proof.
  unfold rule_space. intros H1 H2 H3. destruct (u32_mul (Mode Release ws) n 10) as [r|] eqn:E1; cbn [bind] in H1; [|done].
  injection H1 as <-.
  apply arith_mod in E1, H2, H3. change (2 ^ 32) with 4294967296 in *. change (2 ^ 30) with 1073741824 in *. change (2 ^ 31) with 2147483648.
  subst.
  pose proof (N.div_mod n 2147483648). pose proof (N.mod_lt n 2147483648).
  pose proof (N.div_mod (n * 10) 4294967296). pose proof (N.div_mod (n * 50) 4294967296).
  pose proof (N.mod_lt (n * 10) 4294967296). pose proof (N.mod_lt (n * 50) 4294967296).
  set (s := N.max _ _). pose proof (N.div_mod ((n * 50) mod 4294967296 + s) 4294967296). pose proof (N.mod_lt ((n * 50) mod 4294967296 + s) 4294967296).
  generalize dependent (((n * 50) mod 4294967296 + s) mod 4294967296). generalize dependent (((n * 50) mod 4294967296 + s) / 4294967296).
  destruct (N.max_spec 150 ((n * 10) mod 4294967296)) as [[Hr Em]|[Hr Em]]; subst s; rewrite Em in *; clear Em;
  generalize dependent ((n * 10) mod 4294967296);  generalize dependent ((n * 50) mod 4294967296); generalize dependent (n mod 2147483648);
  generalize dependent ((n * 10) / 4294967296);  generalize dependent ((n * 50) / 4294967296); generalize dependent (n / 2147483648);
  intros; lia.
Qed.
Lemma nonogram_side m n t a s : rule_space m n = Ret t -> u32_mul m n 50 = Ret a -> u32_add m a t = Ret s -> s = 0 <-> empty_side m n.
Proof.
  intros H1 H2 H3. destruct m as [[] ws].
  - split; [|by intros [? _]]. unfold rule_space in H1. destruct (u32_mul (Mode Debug ws) n 10) as [r|] eqn:E1; cbn [bind] in H1; [|done].
    injection H1 as <-. rewrite (arith_debug _ _ _ _ H3). lia.
  - rewrite (nonogram_side_release ws n t a s H1 H2 H3). unfold empty_side. tauto.
Qed.
(** The image is empty where a side is. *)
Definition sided (m : mode) (width height : N) (im : image) : Prop :=
  (i_width im = 0 <-> empty_side m width) /\ (i_height im = 0 <-> empty_side m height).
Lemma sized_sided m width height rw rh w50 h50 iw ih im : rule_space m width = Ret rw -> rule_space m height = Ret rh ->
  u32_mul m width 50 = Ret w50 -> u32_add m w50 rw = Ret iw -> u32_mul m height 50 = Ret h50 -> u32_add m h50 rh = Ret ih ->
  sized iw ih im -> sided m width height im.
Proof.
  intros E1 E2 E3 E4 E5 E6 [Hw Hh]. unfold sided. rewrite Hw, Hh. split; [exact (nonogram_side _ _ _ _ _ E1 E3 E4)|exact (nonogram_side _ _ _ _ _ E2 E5 E6)].
Qed.
Lemma nonogram_sided m text width height col row : keeps_size text ->
  ens (okay (sided m width height)) (print_nonogram m text width height col row).
Proof.
  intros Ht. unfold print_nonogram. destruct (_ || _); [apply ens_ret, okay_err|].
  apply ens_bind; intros rw E1. apply ens_bind; intros rh E2. apply ens_bind; intros w50 Ew. apply ens_bind; intros iw E3.
  apply ens_bind; intros h50 Eh. apply ens_bind; intros ih E4.
  apply (ens_use (sized iw ih)); [apply sized_pixel|intros im1 H1].
  assert (forall im x y s t, sized iw ih im -> sized iw ih (text im x y s t)) as Hts.
  { intros im x y s t [Hw Hh]. destruct (Ht im x y s t) as [Tw Th]. unfold sized. by rewrite Tw, Th. }
  apply (ens_use (sized iw ih)).
  { unfold draw_col_rules. apply ens_foldM; [|done]. intros [x rule] im H. walk.
    match goal with p : (nat * N)%type |- _ => destruct p end. walk. by apply Hts. }
  intros im2 H2. apply (ens_use (sized iw ih)).
  { unfold draw_row_rules. apply ens_foldM; [|done]. intros [x rule] im H. walk. by apply Hts. }
  intros im3 H3. apply (ens_use (sized iw ih)); [unfold draw_vlines; walk|]. intros im4 H4.
  apply (ens_use (sized iw ih)); [unfold draw_hlines; walk|]. intros im5 H5.
  apply ens_ret, okay_ok. eapply sized_sided; [exact E1|exact E2|exact Ew|exact E3|exact Eh|exact E4|done].
Qed.
Lemma nonogram_solution_sided m width height im grid :
  ens (okay (sided m width height)) (print_nonogram_solution m width height im grid).
Proof.
  unfold print_nonogram_solution. apply ens_bind; intros rw E1. apply ens_bind; intros rh E2.
  apply ens_bind; intros cells _. destruct (negb _); [apply ens_ret, okay_err|]. apply ens_bind; intros w50 Ew. apply ens_bind; intros iw E3.
  destruct (N.eqb_spec (i_width im) iw) as [Hw|]; [|apply ens_ret, okay_err]. cbn [negb].
  apply ens_bind; intros h50 Eh. apply ens_bind; intros ih E4.
  destruct (N.eqb_spec (i_height im) ih) as [Hh|]; [|apply ens_ret, okay_err]. cbn [negb].
  assert (sized iw ih im) as H by done. apply (ens_use (sized iw ih)).
  { unfold draw_cells. apply ens_foldM; [|done]. intros [i sq] im' H'. walk. }
  intros im' H'. apply ens_ret, okay_ok. eapply sized_sided; [exact E1|exact E2|exact Ew|exact E3|exact Eh|exact E4|done].
Qed.
Lemma sided_not_empty {A} m width height (x : res (result image A)) : ~ empty_side m width -> ~ empty_side m height ->
  ens (okay (sided m width height)) x -> ens (okay not_empty) x.
Proof.
  intros Fw Fh H r E im Ei. destruct (H r E im Ei) as [Hw Hh]. unfold not_empty.
  destruct (N.eq_dec (i_width im) 0) as [E1|E1]; [by destruct Fw; apply Hw|].
  destruct (N.eq_dec (i_height im) 0) as [E2|E2]; [by destruct Fh; apply Hh|]. lia.
Qed.
Lemma sudoku_sides text puzzle : keeps_size text -> ens (okay not_empty) (print_sudoku text puzzle).
Proof.
  intros Ht. unfold print_sudoku. destruct (decide _); [apply ens_ret, okay_err|].
  apply (ens_use (sized IMAGE_SIZE IMAGE_SIZE)); [apply sized_pixel|intros im1 H1].
  apply (ens_use (sized IMAGE_SIZE IMAGE_SIZE)).
  { unfold draw_grid. apply ens_foldM; [|done]. intros g im2 H2. apply ens_foldM; [|done]. intros c im3 H3.
    apply ens_bind; intros gc _. apply (ens_use (sized IMAGE_SIZE IMAGE_SIZE)); [walk|]. intros im4 H4. walk. }
  intros im2 H2. apply ens_ret, okay_ok. apply (sized_not_empty IMAGE_SIZE IMAGE_SIZE); [done|done|].
  unfold draw_digits. revert im2 H2. induction (enumerate puzzle) as [|[i v] l IH]; intros im H; [done|].
  cbn [fold_left]. apply IH. destruct (v =? 0); [done|]. destruct H as [Hw Hh].
  destruct (Ht im (Z.of_nat (i `mod` 9) * 100 + 25)%Z (Z.of_nat (i `div` 9) * 100 + 5)%Z 100 (to_decimal v)) as [Tw Th].
  unfold sized. by rewrite Tw, Th.
Qed.

Section encode.
  Context {E : Type} (encode : png_encoder E).
  Lemma encode_ok {A} (x : res (result image A)) im : ens (okay not_empty) x -> encodes encode -> x = Ret (Ok im) ->
    encoded encode im (image_to_png_bytes encode im).
  Proof.
    intros H He Ex. destruct (H _ Ex im eq_refl) as [Hw Hh]. unfold image_to_png_bytes, encoded.
    destruct (He im Hw Hh) as [bytes Hb]. rewrite (Hb []). eauto.
  Qed.
  Lemma encode_refused {A} m width height (x : res (result image A)) im : ens (okay (sided m width height)) x -> refuses_empty encode ->
    empty_side m width \/ empty_side m height -> x = Ret (Ok im) -> exists e, image_to_png_bytes encode im = Err e.
  Proof. intros H He Hs Ex. destruct (H _ Ex im eq_refl) as [Hw Hh]. unfold image_to_png_bytes.
    destruct (He im []) as [e ->]; [tauto|eauto].
  Qed.
End encode.

(** Without overflow checks, a nonogram of 2^30 rows and columns is printed as
    an empty image. *)
Lemma arith_release ws s x : exists y, arith (Mode Release ws) s x = Ret y.
Proof. unfold arith. destruct (x <? s); eauto. Qed.
Lemma foldM_enum {A S} (J : S -> Prop) (f : nat * A -> S -> res S) n (a : A) :
  (forall i s, J s -> exists s', f (i, a) s = Ret s' /\ J s') ->
  forall s, J s -> exists s', foldM f (enumerate (replicate n a)) s = Ret s' /\ J s'.
Proof.
  intros Hf s Hs. assert (Forall (fun p => p.2 = a) (enumerate (replicate n a))) as Ha.
  { apply Forall_lookup_2. intros i [j b] Hb. unfold enumerate in Hb. rewrite list_lookup_imap in Hb.
    apply fmap_Some in Hb as (c&Hb&[= -> ->]). by apply lookup_replicate in Hb as [-> _]. }
  revert s Hs. induction (enumerate (replicate n a)) as [|[i b] l IH]; intros s Hs; cbn [foldM]; [eauto|].
  apply Forall_cons in Ha as [Eb Ha]. cbn in Eb. subst b. destruct (Hf i s Hs) as (s'&->&Hs'). by apply IH.
Qed.
Lemma vlines_empty ws w h h50 rw rh im : u32_mul (Mode Release ws) h 50 = Ret h50 -> u32_add (Mode Release ws) h50 rh = Ret 0 ->
  draw_vlines (Mode Release ws) w h rw rh im = Ret im.
Proof.
  intros E1 E2. unfold draw_vlines. rewrite E1. cbn [bind]. rewrite E2. cbn [bind].
  change (range 0 0) with (@nil N). cbn [foldM]. induction (range 0 w) as [|x l IH]; [done|]. exact IH.
Qed.
Lemma hlines_empty ws w w50 h rw rh im : u32_mul (Mode Release ws) w 50 = Ret w50 -> u32_add (Mode Release ws) w50 rw = Ret 0 ->
  draw_hlines (Mode Release ws) w h rw rh im = Ret im.
Proof.
  intros E1 E2. unfold draw_hlines. rewrite E1. cbn [bind]. rewrite E2. cbn [bind].
  change (range 0 0) with (@nil N). cbn [foldM]. induction (range 0 h) as [|x l IH]; [done|]. exact IH.
Qed.
Lemma nonogram_empty_at ws text n w a r : keeps_size text -> N.of_nat n = w ->
  rule_space (Mode Release ws) w = Ret r -> u32_mul (Mode Release ws) w 50 = Ret a -> u32_add (Mode Release ws) a r = Ret 0 ->
  exists im, print_nonogram (Mode Release ws) text w w (replicate n []) (replicate n []) = Ret (Ok im) /\ i_width im = 0 /\ i_height im = 0.
Proof.
  intros Ht Hn Er Ea E0. unfold print_nonogram. rewrite replicate_length, Hn, N.eqb_refl. cbn [negb orb].
  rewrite Er. cbn [bind]. rewrite Ea. cbn [bind]. rewrite E0. cbn [bind word_of].
  assert (exists im, from_pixel ws 0 0 WHITE_PIXEL = Ret im /\ sized 0 0 im) as (im1&->&H1) by (destruct ws; eexists; (split; [reflexivity|done])).
  cbn [bind].
  destruct (foldM_enum (sized 0 0) (fun '(x, rule) im =>
    let! x50 := u32_mul (Mode Release ws) (as_u32 (N.of_nat x)) 50 in
    let! xr := u32_add (Mode Release ws) x50 r in
    let! px := u32_add (Mode Release ws) xr 15 in
    foldM (fun '(y, value) im =>
      let! y30 := u32_mul (Mode Release ws) (as_u32 (N.of_nat y)) 30 in
      let! py := u32_add (Mode Release ws) y30 10 in
      Ret (text im (as_i32 px) (as_i32 py) 30%N (to_decimal value))) (enumerate rule) im) n ([] : list N))
    with (s := im1) as (im2&E2&H2); [|done|].
  { intros i s Hs. unfold u32_mul, u32_add.
    destruct (arith_release ws u32_size (as_u32 (N.of_nat i) * 50)) as [x50 ->]. cbn [bind].
    destruct (arith_release ws u32_size (x50 + r)) as [xr ->]. cbn [bind].
    destruct (arith_release ws u32_size (xr + 15)) as [px ->]. cbn [bind]. exists s. split; [reflexivity|exact Hs]. }
  unfold draw_col_rules. rewrite E2. cbn [bind].
  destruct (foldM_enum (sized 0 0) (fun '(y, rule) im =>
    let! y50 := u32_mul (Mode Release ws) (as_u32 (N.of_nat y)) 50 in
    let! yr := u32_add (Mode Release ws) y50 r in
    let! py := u32_add (Mode Release ws) yr 10 in
    Ret (text im 10%Z (as_i32 py) 30%N (join_text [32; 32]%N (to_decimal <$> rule)))) n ([] : list N))
    with (s := im2) as (im3&E3&H3); [|done|].
  { intros i s [Hw Hh]. unfold u32_mul, u32_add.
    destruct (arith_release ws u32_size (as_u32 (N.of_nat i) * 50)) as [x50 ->]. cbn [bind].
    destruct (arith_release ws u32_size (x50 + r)) as [xr ->]. cbn [bind].
    destruct (arith_release ws u32_size (xr + 10)) as [px ->]. cbn [bind]. eexists. split; [reflexivity|].
    unfold sized. match goal with |- i_width (text _ ?x ?y ?z ?t) = _ /\ _ => destruct (Ht s x y z t) as [Tw Th] end.
    by rewrite Tw, Th. }
  unfold draw_row_rules. rewrite E3. cbn [bind].
  rewrite (vlines_empty _ _ _ _ _ _ _ Ea E0). cbn [bind]. rewrite (hlines_empty _ _ _ _ _ _ _ Ea E0). cbn [bind]. exists im3. split; [reflexivity|exact H3].
Qed.
Lemma nonogram_empty ws text n : keeps_size text -> N.of_nat n = 2 ^ 30 ->
  exists im, print_nonogram (Mode Release ws) text (2 ^ 30) (2 ^ 30) (replicate n []) (replicate n []) = Ret (Ok im) /\
    i_width im = 0 /\ i_height im = 0.
Proof. intros Ht Hn. by apply (nonogram_empty_at ws text n (2 ^ 30) (2 ^ 31) (2 ^ 31)). Qed.
Lemma nonogram_refused {E} (encode : png_encoder E) ws text : keeps_size text -> refuses_empty encode ->
  exists width height col row im e, print_nonogram (Mode Release ws) text width height col row = Ret (Ok im) /\
    image_to_png_bytes encode im = Err e.
Proof.
  intros Ht He. destruct (nonogram_empty ws text (N.to_nat (2 ^ 30)) Ht (N2Nat.id _)) as (im&Hp&Hw&_).
  destruct (He im [] (or_introl Hw)) as [e Ee].
  exists (2 ^ 30), (2 ^ 30), (replicate (N.to_nat (2 ^ 30)) []), (replicate (N.to_nat (2 ^ 30)) []), im, e.
  split; [exact Hp|]. unfold image_to_png_bytes. by rewrite Ee.
Qed.
