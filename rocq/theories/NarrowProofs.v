(** The build with 32-bit words and overflow checks panics, or ends like the one
    with 64-bit words. *)
From Verif Require Import Base Util DisjointSet Image Maze MazePrint Nonogram NonogramPrint NonogramRect.
From Verif Require Import Dlx MazeCapacity NonogramCapacity DlxCapacity ModeProofs.

Create HintDb narrow discriminated.
Global Hint Constants Opaque : narrow.
Ltac narrow := intros; cbn [word_of]; repeat first
  [ match goal with |- checked ?x ?x => exact (checked_refl x) end
  | solve [auto with narrow nocore]
  | apply checked_bind; intros
  | apply checked_foldM; intros
  | match goal with
    | |- checked (match ?x with _ => _ end) _ => destruct x
    | |- checked (match ?x with _ => _ end _) _ => destruct x
    end ].

Lemma narrow_arith p s x : checked (arith (Mode Debug W32) s x) (arith (Mode p W64) s x).
Proof. unfold arith. destruct (x <? s)%N; [by right|by left]. Qed.
Lemma narrow_usize p x :
  checked (arith (Mode Debug W32) (usize_size (Mode Debug W32)) x) (arith (Mode p W64) (usize_size (Mode p W64)) x).
Proof.
  unfold arith, usize_size. cbn [word_of profile_of]. destruct (N.ltb_spec x (2 ^ 32)); [|by left].
  destruct (N.ltb_spec x (2 ^ 64)); [by right|lia].
Qed.
Lemma narrow_from_pixel w h c : checked (from_pixel W32 w h c) (from_pixel W64 w h c).
Proof.
  unfold from_pixel, isize_max. destruct (N.leb_spec (w * h * 3) (2 ^ 31 - 1)); [|by left].
  destruct (N.leb_spec (w * h * 3) (2 ^ 63 - 1)); [by right|lia].
Qed.
Lemma narrow_reserve k n : checked (reserve W32 k n) (reserve W64 k n).
Proof.
  unfold reserve, isize_max. destruct (decide (k * N.of_nat n <= 2 ^ 31 - 1)%N); [|by left].
  rewrite decide_True by lia. by right.
Qed.
Lemma narrow_reserve_words k n : checked (reserve W32 (k * word_bytes W32) n) (reserve W64 (k * word_bytes W64) n).
Proof.
  unfold reserve, isize_max, word_bytes. destruct (decide (k * 4 * N.of_nat n <= 2 ^ 31 - 1)%N); [|by left].
  rewrite decide_True by lia. by right.
Qed.
Lemma narrow_u32_sub p x y : checked (u32_sub (Mode Debug W32) x y) (u32_sub (Mode p W64) x y).
Proof. unfold u32_sub. destruct (y <=? x)%N; [by right|by left]. Qed.
Lemma narrow_n_sub p x y : checked (n_sub (Mode Debug W32) x y) (n_sub (Mode p W64) x y).
Proof. unfold n_sub. destruct (decide _); [by right|by left]. Qed.

Global Hint Resolve narrow_arith narrow_from_pixel narrow_reserve narrow_reserve_words narrow_u32_sub narrow_n_sub : narrow.

Lemma narrow_u32_add p x y : checked (u32_add (Mode Debug W32) x y) (u32_add (Mode p W64) x y).
Proof. apply narrow_arith. Qed.
Lemma narrow_u32_mul p x y : checked (u32_mul (Mode Debug W32) x y) (u32_mul (Mode p W64) x y).
Proof. apply narrow_arith. Qed.
Lemma narrow_usize_add p x y : checked (usize_add (Mode Debug W32) x y) (usize_add (Mode p W64) x y).
Proof. apply narrow_usize. Qed.
Lemma narrow_usize_mul p x y : checked (usize_mul (Mode Debug W32) x y) (usize_mul (Mode p W64) x y).
Proof. apply narrow_usize. Qed.
Global Hint Resolve narrow_u32_add narrow_u32_mul narrow_usize_add narrow_usize_mul : narrow.
Lemma narrow_n_add p x y : checked (n_add (Mode Debug W32) x y) (n_add (Mode p W64) x y).
Proof. unfold n_add. narrow. Qed.
Lemma narrow_n_mul p x y : checked (n_mul (Mode Debug W32) x y) (n_mul (Mode p W64) x y).
Proof. unfold n_mul. narrow. Qed.
Global Hint Resolve narrow_n_add narrow_n_mul : narrow.

(** * Mazes *)

Lemma narrow_visit_dir p c w h d mz ds : checked (visit_dir (Mode Debug W32) c w h d mz ds) (visit_dir (Mode p W64) c w h d mz ds).
Proof. unfold visit_dir. destruct d; narrow. Qed.
Global Hint Resolve narrow_visit_dir : narrow.
Lemma narrow_visit_loop p rng fuel : forall c w h mz d vis k,
  checked (visit_loop (Mode Debug W32) rng fuel c w h mz d vis k) (visit_loop (Mode p W64) rng fuel c w h mz d vis k).
Proof. induction fuel as [|fuel IH]; intros; cbn [visit_loop]; narrow. Qed.
Lemma narrow_backtrack_loop p rng fuel : forall w h path s,
  checked (backtrack_loop (Mode Debug W32) rng fuel w h path s) (backtrack_loop (Mode p W64) rng fuel w h path s).
Proof.
  induction fuel as [|fuel IH]; intros; cbn [backtrack_loop]; unfold visit_next; narrow. apply narrow_visit_loop.
Qed.
Lemma narrow_read_path p fuel : forall w tree c, checked (read_path (Mode Debug W32) fuel w tree c) (read_path (Mode p W64) fuel w tree c).
Proof. induction fuel as [|fuel IH]; intros; cbn [read_path]; narrow. Qed.
Lemma narrow_bfs_expand p w g c tree q : checked (bfs_expand (Mode Debug W32) w g c tree q) (bfs_expand (Mode p W64) w g c tree q).
Proof. unfold bfs_expand. narrow. Qed.
Global Hint Resolve narrow_read_path narrow_bfs_expand narrow_backtrack_loop : narrow.
Lemma narrow_bfs_loop p fuel : forall w h g tree q found,
  checked (bfs_loop (Mode Debug W32) fuel w h g tree q found) (bfs_loop (Mode p W64) fuel w h g tree q found).
Proof. induction fuel as [|fuel IH]; intros; cbn [bfs_loop]; cbv zeta; narrow. Qed.
Global Hint Resolve narrow_bfs_loop : narrow.
Lemma narrow_create_maze p rng w h : checked (create_maze (Mode Debug W32) rng w h) (create_maze (Mode p W64) rng w h).
Proof. unfold create_maze, Maze.recursive_backtrack. narrow. Qed.

Lemma narrow_draw_right p x y im : checked (draw_right (Mode Debug W32) x y im) (draw_right (Mode p W64) x y im).
Proof. unfold draw_right. narrow. Qed.
Lemma narrow_draw_down p x y im : checked (draw_down (Mode Debug W32) x y im) (draw_down (Mode p W64) x y im).
Proof. unfold draw_down. narrow. Qed.
Global Hint Resolve narrow_draw_right narrow_draw_down : narrow.
Lemma narrow_print_maze p w h g : checked (print_maze (Mode Debug W32) w h g) (print_maze (Mode p W64) w h g).
Proof. unfold print_maze. cbv zeta. narrow. Qed.
Lemma narrow_draw_step p s x y im : checked (draw_step (Mode Debug W32) s x y im) (draw_step (Mode p W64) s x y im).
Proof. unfold draw_step. narrow. Qed.
Global Hint Resolve narrow_draw_step : narrow.
Lemma narrow_draw_steps p l : forall x y im, checked (draw_steps (Mode Debug W32) l x y im) (draw_steps (Mode p W64) l x y im).
Proof. induction l; intros; cbn [draw_steps]; narrow. Qed.
Global Hint Resolve narrow_draw_steps : narrow.
Lemma narrow_print_maze_solution p im sol : checked (print_maze_solution (Mode Debug W32) im sol) (print_maze_solution (Mode p W64) im sol).
Proof. unfold print_maze_solution. narrow. Qed.

(** * Nonograms *)

Lemma narrow_row_positions p l i w : checked (row_positions (Mode Debug W32) l i w) (row_positions (Mode p W64) l i w).
Proof. unfold row_positions. narrow. Qed.
Global Hint Resolve narrow_row_positions : narrow.
Lemma narrow_run_lines q q' ms : (forall i, checked (q i) (q' i)) ->
  forall c g, checked (run_lines q ms c g) (run_lines q' ms c g).
Proof. intros Hp. induction ms as [|[i mc] ms IH]; intros; cbn [run_lines]; narrow. Qed.
Lemma narrow_one_round p w cs rs g : checked (one_round (Mode Debug W32) w cs rs g) (one_round (Mode p W64) w cs rs g).
Proof. unfold one_round. narrow. apply narrow_run_lines. auto with narrow. Qed.
Global Hint Resolve narrow_one_round : narrow.
Lemma narrow_rounds p fuel : forall w cs rs g, checked (rounds fuel (Mode Debug W32) w cs rs g) (rounds fuel (Mode p W64) w cs rs g).
Proof. induction fuel as [|fuel IH]; intros; cbn [rounds]; narrow. Qed.
Global Hint Resolve narrow_rounds : narrow.
Lemma narrow_solve_nonogram p col row : checked (solve_nonogram (Mode Debug W32) col row) (solve_nonogram (Mode p W64) col row).
Proof. unfold solve_nonogram, grid_right_left. narrow. Qed.

Lemma narrow_rule_space p n : checked (rule_space (Mode Debug W32) n) (rule_space (Mode p W64) n).
Proof. unfold rule_space. narrow. Qed.
Global Hint Resolve narrow_rule_space : narrow.
Lemma narrow_print_nonogram p text w h col row :
  checked (print_nonogram (Mode Debug W32) text w h col row) (print_nonogram (Mode p W64) text w h col row).
Proof. unfold print_nonogram, draw_col_rules, draw_row_rules, draw_vlines, draw_hlines. narrow. Qed.
Lemma narrow_print_nonogram_solution p w h im g :
  checked (print_nonogram_solution (Mode Debug W32) w h im g) (print_nonogram_solution (Mode p W64) w h im g).
Proof. unfold print_nonogram_solution, draw_cells. narrow. Qed.

Lemma narrow_i32 p z : checked (i32_arith (Mode Debug W32) z) (i32_arith (Mode p W64) z).
Proof. unfold i32_arith. destruct (_ && _)%bool; [by right|by left]. Qed.
Global Hint Resolve narrow_i32 : narrow.
Lemma narrow_print_solution32 p w h im g :
  checked (print_solution32 (Mode Debug W32) w h im g) (print_solution32 (Mode p W64) w h im g).
Proof. unfold print_solution32, draw_cells32, draw_rect32, rect_end. narrow. Qed.

(** * Capacity *)

Lemma narrow_create_checked p rng w h :
  checked (create_checked (Mode Debug W32) rng w h) (create_checked (Mode p W64) rng w h).
Proof. unfold create_checked, generate_checked. narrow. Qed.

Section grow.
Context (grow : N -> N -> N) (p : profile).
Lemma narrow_reserve_more len cap extra :
  checked (reserve_more grow (Mode Debug W32) len cap extra) (reserve_more grow (Mode p W64) len cap extra).
Proof.
  unfold reserve_more, isize_max. cbn [word_of]. destruct (decide (len + extra <= cap)%N); [by right|].
  destruct (decide (grow cap (len + extra) <= 2 ^ 31 - 1)%N); [|by left]. rewrite decide_True by lia. by right.
Qed.
Local Hint Resolve narrow_reserve_more : narrow.
Lemma narrow_mapM {A B} (f f' : A -> res B) l : (forall a, checked (f a) (f' a)) -> checked (Nonogram.mapM f l) (Nonogram.mapM f' l).
Proof. intros Hf. induction l; cbn [Nonogram.mapM]; [by right|]. narrow. Qed.
Lemma narrow_extend_states rule : forall states cap,
  checked (extend_states grow (Mode Debug W32) rule states cap) (extend_states grow (Mode p W64) rule states cap).
Proof. induction rule as [|v rule IH]; intros; cbn [extend_states]; narrow. Qed.
Local Hint Resolve narrow_extend_states : narrow.
Lemma narrow_machines rules :
  checked (machines_checked grow (Mode Debug W32) rules) (machines_checked grow (Mode p W64) rules).
Proof. unfold machines_checked. narrow. apply narrow_mapM. intros rule. unfold machine_checked, states_checked. narrow. Qed.
Lemma narrow_find_left states squares :
  checked (find_left_checked (Mode Debug W32) states squares) (find_left_checked (Mode p W64) states squares).
Proof. unfold find_left_checked. narrow. Qed.
Local Hint Resolve narrow_machines narrow_find_left : narrow.
Lemma narrow_run_line mc ps g :
  checked (run_line_checked (Mode Debug W32) mc ps g) (run_line_checked (Mode p W64) mc ps g).
Proof. unfold run_line_checked, line_checked. narrow. Qed.
Local Hint Resolve narrow_run_line : narrow.
Lemma narrow_run_lines_checked q q' ms : (forall i, checked (q i) (q' i)) -> forall c g,
  checked (run_lines_checked (Mode Debug W32) q ms c g) (run_lines_checked (Mode p W64) q' ms c g).
Proof. intros Hq. induction ms as [|[i mc] ms IH]; intros; cbn [run_lines_checked]; narrow. Qed.
Lemma narrow_round w cs rs g :
  checked (round_checked (Mode Debug W32) w cs rs g) (round_checked (Mode p W64) w cs rs g).
Proof. unfold round_checked. narrow; apply narrow_run_lines_checked; narrow. Qed.
Local Hint Resolve narrow_round : narrow.
Lemma narrow_rounds_checked fuel : forall w cs rs g,
  checked (rounds_checked (Mode Debug W32) fuel w cs rs g) (rounds_checked (Mode p W64) fuel w cs rs g).
Proof. induction fuel as [|fuel IH]; intros; cbn [rounds_checked]; narrow. Qed.
Local Hint Resolve narrow_rounds_checked : narrow.
Lemma narrow_solve_checked col row :
  checked (solve_checked grow (Mode Debug W32) col row) (solve_checked grow (Mode p W64) col row).
Proof. unfold solve_checked. narrow. Qed.
End grow.

(** * Exact cover *)

(** A panic is [Err]. *)
Definition checked_heap {A} (x y : res (result A heap)) : Prop := (exists h, x = Ret (Err h)) \/ x = y.
Section growth.
Context (growth : N -> N -> N) (p : profile).
Lemma narrow_resize rows cap index :
  checked (resize_checked (Mode Debug W32) growth rows cap index) (resize_checked (Mode p W64) growth rows cap index).
Proof.
  unfold resize_checked. destruct (decide (length rows <= index)); [|by right]. apply checked_bind; [apply narrow_n_add|].
  intros n. destruct (decide (N.of_nat n <= cap)%N); [by right|]. cbv zeta. cbn [word_of word_bytes isize_max].
  destruct (decide (4 * growth cap (N.of_nat n) <= 2 ^ 31 - 1)%N); [|by left]. rewrite decide_True by lia. by right.
Qed.
Lemma narrow_add_nodes header c : forall curr h next rows cap,
  checked_heap (add_nodes_checked (Mode Debug W32) growth header curr c h next rows cap)
    (add_nodes_checked (Mode p W64) growth header curr c h next rows cap).
Proof.
  induction c as [|index c IH]; intros; cbn [add_nodes_checked]; [by right|].
  destruct (narrow_resize rows cap index) as [->| ->]; [cbn [bind]; left; by eexists|].
  destruct (resize_checked (Mode p W64) growth rows cap index) as [[rows' cap']|[]]; cbn [bind];
    [|left; by eexists|by right|by right].
  destruct (vec_get rows' index) as [rp|[]]; cbn [bind]; [|left; by eexists|by right|by right].
  destruct (node_new _ _ _ _ _ _) as [h'|]; cbn [bind]; [|by right].
  destruct (vec_set _ _ _) as [rows''|]; cbn [bind]; [apply IH|by right].
Qed.
Lemma narrow_add_columns cs : forall curr h next rows cap,
  checked_heap (add_columns_checked (Mode Debug W32) growth curr cs h next rows cap)
    (add_columns_checked (Mode p W64) growth curr cs h next rows cap).
Proof.
  induction cs as [|c cs IH]; intros; cbn [add_columns_checked]; [by right|]. cbv zeta.
  destruct (node_new_header _ _ _ _) as [h'|]; cbn [bind]; [|by right].
  destruct (narrow_add_nodes next c next h' (next + 1)%N rows cap) as [[h'' ->]| ->]; [left; by eexists|].
  destruct (add_nodes_checked _ _ _ _ _ _ _ _ _) as [[[[[? ?] ?] ?]|h'']|]; cbn [bind]; [apply IH|left; by eexists|by right].
Qed.
Lemma narrow_new cs : checked_heap (new_checked (Mode Debug W32) growth cs) (new_checked (Mode p W64) growth cs).
Proof.
  unfold new_checked. cbv zeta. destruct (node_new_header _ _ _ _) as [h|]; cbn [bind]; [|by right].
  destruct (narrow_add_columns cs 1%N h 2%N [] 0%N) as [[h' ->]| ->]; [left; by eexists|by right].
Qed.
End growth.
