(** Overflow checks only turn wrong results into panics. *)
From Verif Require Import Base Util DisjointSet Image Maze MazePrint Nonogram NonogramPrint.

(** The run with checks panics, or ends like the one without. *)
Definition checked {A} (x y : res A) : Prop := x = Fault Panic \/ x = y.

Lemma checked_refl {A} (x : res A) : checked x x.
Proof. by right. Qed.
Lemma checked_bind {A B} (x y : res A) (k k' : A -> res B) :
  checked x y -> (forall a, checked (k a) (k' a)) -> checked (bind x k) (bind y k').
Proof. intros [->| ->] Hk; [by left|]. destruct y; [apply Hk|by right]. Qed.
Lemma checked_foldM {A S} (f f' : A -> S -> res S) l s :
  (forall a s, checked (f a s) (f' a s)) -> checked (foldM f l s) (foldM f' l s).
Proof. intros Hf. revert s. induction l; intros s; cbn [foldM]; [apply checked_refl|]. by apply checked_bind. Qed.
Lemma checked_arith ws s x : checked (arith (Mode Debug ws) s x) (arith (Mode Release ws) s x).
Proof. unfold arith. destruct (x <? s)%N; [by right|by left]. Qed.
Lemma checked_u32_sub ws x y : checked (u32_sub (Mode Debug ws) x y) (u32_sub (Mode Release ws) x y).
Proof. unfold u32_sub. destruct (y <=? x)%N; [by right|by left]. Qed.
Lemma checked_n_sub ws x y : checked (n_sub (Mode Debug ws) x y) (n_sub (Mode Release ws) x y).
Proof. unfold n_sub. destruct (decide _); [by right|by left]. Qed.

Create HintDb checked discriminated.
Global Hint Constants Opaque : checked.
Global Hint Resolve checked_arith checked_u32_sub checked_n_sub : checked.

Ltac check := intros; cbn [word_of]; repeat first
  [ match goal with |- checked ?x ?x => exact (checked_refl x) end
  | solve [auto with checked nocore]
  | apply checked_bind; intros
  | apply checked_foldM; intros
  | match goal with
    | |- checked (match ?x with _ => _ end) _ => destruct x
    | |- checked (match ?x with _ => _ end _) _ => destruct x
    end ].

Lemma checked_u32_add ws x y : checked (u32_add (Mode Debug ws) x y) (u32_add (Mode Release ws) x y).
Proof. apply checked_arith. Qed.
Lemma checked_u32_mul ws x y : checked (u32_mul (Mode Debug ws) x y) (u32_mul (Mode Release ws) x y).
Proof. apply checked_arith. Qed.
Lemma checked_usize_add ws x y : checked (usize_add (Mode Debug ws) x y) (usize_add (Mode Release ws) x y).
Proof. apply checked_arith. Qed.
Lemma checked_usize_mul ws x y : checked (usize_mul (Mode Debug ws) x y) (usize_mul (Mode Release ws) x y).
Proof. apply checked_arith. Qed.
Global Hint Resolve checked_u32_add checked_u32_mul checked_usize_add checked_usize_mul : checked.
Lemma checked_n_add ws x y : checked (n_add (Mode Debug ws) x y) (n_add (Mode Release ws) x y).
Proof. unfold n_add. check. Qed.
Lemma checked_n_mul ws x y : checked (n_mul (Mode Debug ws) x y) (n_mul (Mode Release ws) x y).
Proof. unfold n_mul. check. Qed.
Global Hint Resolve checked_n_add checked_n_mul : checked.

(** * Mazes *)

Lemma checked_visit_dir ws c w h d mz ds : checked (visit_dir (Mode Debug ws) c w h d mz ds) (visit_dir (Mode Release ws) c w h d mz ds).
Proof. unfold visit_dir. destruct d; check. Qed.
Global Hint Resolve checked_visit_dir : checked.
Lemma checked_visit_loop ws rng fuel : forall c w h mz d vis k,
  checked (visit_loop (Mode Debug ws) rng fuel c w h mz d vis k) (visit_loop (Mode Release ws) rng fuel c w h mz d vis k).
Proof. induction fuel as [|fuel IH]; intros; cbn [visit_loop]; check. Qed.
Lemma checked_backtrack_loop ws rng fuel : forall w h path s,
  checked (backtrack_loop (Mode Debug ws) rng fuel w h path s) (backtrack_loop (Mode Release ws) rng fuel w h path s).
Proof.
  induction fuel as [|fuel IH]; intros; cbn [backtrack_loop]; unfold visit_next; check. apply checked_visit_loop.
Qed.
Lemma checked_read_path ws fuel : forall w tree c, checked (read_path (Mode Debug ws) fuel w tree c) (read_path (Mode Release ws) fuel w tree c).
Proof. induction fuel as [|fuel IH]; intros; cbn [read_path]; check. Qed.
Lemma checked_bfs_expand ws w g c tree q : checked (bfs_expand (Mode Debug ws) w g c tree q) (bfs_expand (Mode Release ws) w g c tree q).
Proof. unfold bfs_expand. check. Qed.
Global Hint Resolve checked_read_path checked_bfs_expand checked_backtrack_loop : checked.
Lemma checked_bfs_loop ws fuel : forall w h g tree q found,
  checked (bfs_loop (Mode Debug ws) fuel w h g tree q found) (bfs_loop (Mode Release ws) fuel w h g tree q found).
Proof. induction fuel as [|fuel IH]; intros; cbn [bfs_loop]; cbv zeta; check. Qed.
Global Hint Resolve checked_bfs_loop : checked.
Lemma checked_create_maze ws rng w h : checked (create_maze (Mode Debug ws) rng w h) (create_maze (Mode Release ws) rng w h).
Proof. unfold create_maze, Maze.recursive_backtrack. check. Qed.

Lemma checked_draw_right ws x y im : checked (draw_right (Mode Debug ws) x y im) (draw_right (Mode Release ws) x y im).
Proof. unfold draw_right. check. Qed.
Lemma checked_draw_down ws x y im : checked (draw_down (Mode Debug ws) x y im) (draw_down (Mode Release ws) x y im).
Proof. unfold draw_down. check. Qed.
Global Hint Resolve checked_draw_right checked_draw_down : checked.
Lemma checked_print_maze ws w h g : checked (print_maze (Mode Debug ws) w h g) (print_maze (Mode Release ws) w h g).
Proof. unfold print_maze. cbv zeta. check. Qed.
Lemma checked_draw_step ws s x y im : checked (draw_step (Mode Debug ws) s x y im) (draw_step (Mode Release ws) s x y im).
Proof. unfold draw_step. check. Qed.
Global Hint Resolve checked_draw_step : checked.
Lemma checked_draw_steps ws l : forall x y im, checked (draw_steps (Mode Debug ws) l x y im) (draw_steps (Mode Release ws) l x y im).
Proof. induction l; intros; cbn [draw_steps]; check. Qed.
Global Hint Resolve checked_draw_steps : checked.
Lemma checked_print_maze_solution ws im sol : checked (print_maze_solution (Mode Debug ws) im sol) (print_maze_solution (Mode Release ws) im sol).
Proof. unfold print_maze_solution. check. Qed.

(** * Nonograms *)

Lemma checked_parse_items ws l : forall s, checked (parse_items (Mode Debug ws) l s) (parse_items (Mode Release ws) l s).
Proof. induction l; intros; cbn [parse_items]; check. Qed.
Global Hint Resolve checked_parse_items : checked.
Lemma checked_parse_rule ws b r : checked (parse_rule (Mode Debug ws) b r) (parse_rule (Mode Release ws) b r).
Proof. unfold parse_rule. check. Qed.
Global Hint Resolve checked_parse_rule : checked.
Lemma checked_parse ws s b : checked (parse_nonogram_rules (Mode Debug ws) s b) (parse_nonogram_rules (Mode Release ws) s b).
Proof. unfold parse_nonogram_rules. generalize (split_on 59 s). intros l. induction l; cbn [parse_rule_list]; check. Qed.

Lemma checked_row_positions ws l i w : checked (row_positions (Mode Debug ws) l i w) (row_positions (Mode Release ws) l i w).
Proof. unfold row_positions. check. Qed.
Global Hint Resolve checked_row_positions : checked.
Lemma checked_run_lines p p' ms : (forall i, checked (p i) (p' i)) ->
  forall c g, checked (run_lines p ms c g) (run_lines p' ms c g).
Proof. intros Hp. induction ms as [|[i mc] ms IH]; intros; cbn [run_lines]; check. Qed.
Lemma checked_one_round ws w cs rs g : checked (one_round (Mode Debug ws) w cs rs g) (one_round (Mode Release ws) w cs rs g).
Proof. unfold one_round. check. apply checked_run_lines. auto with checked. Qed.
Global Hint Resolve checked_one_round : checked.
Lemma checked_rounds ws fuel : forall w cs rs g, checked (rounds fuel (Mode Debug ws) w cs rs g) (rounds fuel (Mode Release ws) w cs rs g).
Proof. induction fuel as [|fuel IH]; intros; cbn [rounds]; check. Qed.
Global Hint Resolve checked_rounds : checked.
Lemma checked_solve_nonogram ws col row : checked (solve_nonogram (Mode Debug ws) col row) (solve_nonogram (Mode Release ws) col row).
Proof. unfold solve_nonogram, grid_right_left. check. Qed.

Lemma checked_rule_space ws n : checked (rule_space (Mode Debug ws) n) (rule_space (Mode Release ws) n).
Proof. unfold rule_space. check. Qed.
Global Hint Resolve checked_rule_space : checked.
Lemma checked_print_nonogram ws text w h col row :
  checked (print_nonogram (Mode Debug ws) text w h col row) (print_nonogram (Mode Release ws) text w h col row).
Proof. unfold print_nonogram, draw_col_rules, draw_row_rules, draw_vlines, draw_hlines. check. Qed.
Lemma checked_print_nonogram_solution ws w h im g :
  checked (print_nonogram_solution (Mode Debug ws) w h im g) (print_nonogram_solution (Mode Release ws) w h im g).
Proof. unfold print_nonogram_solution, draw_cells. check. Qed.
