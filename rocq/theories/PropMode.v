(** Property C64. *)
From Verif Require Import Base Image Maze MazePrint Nonogram NonogramPrint SpecMachine.
From Verif Require ModeProofs MachineProofs.

(** C64: the run with overflow checks panics or ends exactly like the run
    without. *)
Theorem C64_create_maze : forall ws rng w h,
  create_maze (Mode Debug ws) rng w h = Fault Panic \/ create_maze (Mode Debug ws) rng w h = create_maze (Mode Release ws) rng w h.
Proof. exact ModeProofs.checked_create_maze. Qed.
Print Assumptions C64_create_maze.
Theorem C64_print_maze : forall ws w h g,
  print_maze (Mode Debug ws) w h g = Fault Panic \/ print_maze (Mode Debug ws) w h g = print_maze (Mode Release ws) w h g.
Proof. exact ModeProofs.checked_print_maze. Qed.
Print Assumptions C64_print_maze.
Theorem C64_print_maze_solution : forall ws im sol,
  print_maze_solution (Mode Debug ws) im sol = Fault Panic \/ print_maze_solution (Mode Debug ws) im sol = print_maze_solution (Mode Release ws) im sol.
Proof. exact ModeProofs.checked_print_maze_solution. Qed.
Print Assumptions C64_print_maze_solution.
Theorem C64_parse_nonogram_rules : forall ws s b,
  parse_nonogram_rules (Mode Debug ws) s b = Fault Panic \/ parse_nonogram_rules (Mode Debug ws) s b = parse_nonogram_rules (Mode Release ws) s b.
Proof. exact ModeProofs.checked_parse. Qed.
Print Assumptions C64_parse_nonogram_rules.
Theorem C64_solve_nonogram : forall ws col row,
  solve_nonogram (Mode Debug ws) col row = Fault Panic \/ solve_nonogram (Mode Debug ws) col row = solve_nonogram (Mode Release ws) col row.
Proof. exact ModeProofs.checked_solve_nonogram. Qed.
Print Assumptions C64_solve_nonogram.
Theorem C64_print_nonogram : forall ws text w h col row,
  print_nonogram (Mode Debug ws) text w h col row = Fault Panic \/
  print_nonogram (Mode Debug ws) text w h col row = print_nonogram (Mode Release ws) text w h col row.
Proof. exact ModeProofs.checked_print_nonogram. Qed.
Print Assumptions C64_print_nonogram.
Theorem C64_print_nonogram_solution : forall ws w h im g,
  print_nonogram_solution (Mode Debug ws) w h im g = Fault Panic \/
  print_nonogram_solution (Mode Debug ws) w h im g = print_nonogram_solution (Mode Release ws) w h im g.
Proof. exact ModeProofs.checked_print_nonogram_solution. Qed.
Print Assumptions C64_print_nonogram_solution.

(** Where the two differ, the operations are those of the machine: on u32 and
    usize, results out of range panic with overflow checks and are reduced
    without; casts keep the value modulo 2^32. *)
Theorem C64_arithmetic : forall m x y, (x < 2 ^ 32)%N -> (y < 2 ^ 32)%N ->
  machine m 32 (Z.of_N x + Z.of_N y) (u32_add m x y) /\
  machine m 32 (Z.of_N x * Z.of_N y) (u32_mul m x y) /\
  machine m 32 (Z.of_N x - Z.of_N y) (u32_sub m x y) /\
  (y <> 0%N -> u32_div x y = Ret (Z.to_N (Z.of_N x / Z.of_N y)) /\
               u32_rem x y = Ret (Z.to_N (Z.of_N x mod Z.of_N y))) /\
  u32_div x 0 = Fault Panic /\ u32_rem x 0 = Fault Panic.
Proof. exact MachineProofs.machine_arithmetic. Qed.
Print Assumptions C64_arithmetic.
Theorem C64_index : forall m x y, (Z.of_nat x < 2 ^ usize_bits m)%Z -> (Z.of_nat y < 2 ^ usize_bits m)%Z ->
  (exists r, n_add m x y = to_index r /\ machine m (usize_bits m) (Z.of_nat x + Z.of_nat y) r) /\
  (exists r, n_mul m x y = to_index r /\ machine m (usize_bits m) (Z.of_nat x * Z.of_nat y) r) /\
  (exists r, n_sub m x y = to_index r /\ machine m (usize_bits m) (Z.of_nat x - Z.of_nat y) r) /\
  (y <> 0 -> n_div x y = Ret (Z.to_nat (Z.of_nat x / Z.of_nat y)) /\
             n_rem x y = Ret (Z.to_nat (Z.of_nat x mod Z.of_nat y))) /\
  n_div x 0 = Fault Panic /\ n_rem x 0 = Fault Panic.
Proof. exact MachineProofs.machine_index. Qed.
Print Assumptions C64_index.
Theorem C64_casts : forall x, as_u32 x = Z.to_N (Z.of_N x mod 2 ^ 32) /\
  ((x < 2 ^ 32)%N -> (- 2 ^ 31 <= as_i32 x < 2 ^ 31 /\ as_i32 x mod 2 ^ 32 = Z.of_N x)%Z).
Proof. exact MachineProofs.machine_casts. Qed.
Print Assumptions C64_casts.

(** Both cases occur: "18446744073709551615,1" overflows, "1" does not. *)
Example C64_example :
  parse_nonogram_rules (Mode Debug W64) [49;56;52;52;54;55;52;52;48;55;51;55;48;57;53;53;49;54;49;53;44;49]%N 3 = Fault Panic /\
  parse_nonogram_rules (Mode Release W64) [49;56;52;52;54;55;52;52;48;55;51;55;48;57;53;53;49;54;49;53;44;49]%N 3
    = Ret (Ok [[18446744073709551615; 1]]%N) /\
  parse_nonogram_rules (Mode Debug W64) [49]%N 3 = parse_nonogram_rules (Mode Release W64) [49]%N 3 /\
  create_maze (Mode Debug W64) (fun _ => 0) 2 2 <> Fault Panic.
Proof. split_and!; by vm_compute. Qed.
Example C64_machine_example :
  u32_add (Mode Release W64) 4294967295 3 = Ret 2%N /\ u32_add (Mode Debug W64) 4294967295 3 = Fault Panic /\
  u32_sub (Mode Release W64) 3 5 = Ret 4294967294%N /\ as_i32 4294967294 = (-2)%Z.
Proof. split_and!; by vm_compute. Qed.
