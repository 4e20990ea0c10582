(** [solve_nonogram] with the capacity checks of [Vec]: a vector that would need
    more than isize::MAX bytes panics.  Sizes of the elements:
    [Square] and [Node] 1 byte, [RuleMachine] 6, [Option<Vec<usize>>] 3 words.
    The other vectors have at most one entry of one word per square of a
    line and one more, and the line has one clue of 3 words for each of its
    squares in memory.  The memory itself does not run out. *)
From Verif Require Import Base Nonogram MazeCapacity.

(** The rule by which a vector grows: the new capacity for the old one and the
    length that is needed (in std: the larger of twice the old capacity and the
    length, at least 8 for elements of one byte). *)
Definition grows (grow : N -> N -> N) : Prop := forall cap need,
  (need <= grow cap need /\ grow cap need <= N.max (2 * cap) (N.max need 8))%N.
Definition std_grow (cap need : N) : N := N.max (2 * cap) (N.max need 8).

Section grow.
  Context (grow : N -> N -> N) (m : mode).
  (** [Vec::reserve] for elements of one byte: the new capacity. *)
  Definition reserve_more (len cap extra : N) : res N :=
    if decide (len + extra <= cap)%N then Ret cap
    else let cap := grow cap (len + extra)%N in
      if decide (cap <= isize_max m)%N then Ret cap else Fault Panic.

  (** right_left.rs:22-25 and 31-34. *)
  Fixpoint extend_states (rule : list nat) (states : list rnode) (cap : N) : res (list rnode) :=
    match rule with
    | [] => Ret states
    | value :: rule =>
        do! reserve m 1 value in
        let! cap := reserve_more (N.of_nat (length states)) cap (N.of_nat value) in
        let states := states ++ replicate value Fill in
        let! cap := reserve_more (N.of_nat (length states)) cap 1 in
        extend_states rule (states ++ [Space]) cap
    end.
  Definition states_checked (rule : list nat) : res (list rnode) :=
    let! states := extend_states rule [Start; End] 2 in
    Ret (<[length states - 1 := End]> states).
  (** right_left.rs:19-42 [RuleMachine::new]. *)
  Definition machine_checked (rule : list nat) : res machine :=
    let! left_states := states_checked rule in
    let! right_states := states_checked (rev rule) in
    Ret (Machine left_states right_states).

  (** right_left.rs:89-188 [find_left]. *)
  Definition find_left_checked (states : list rnode) (squares : list square) : res (option (list bool)) :=
    do! reserve m (3 * word_bytes m) (length states + 1) in
    find_left states squares.

  (** right_left.rs:44-86 [RuleMachine::right_left]. *)
  Definition line_checked (mc : machine) (grid : list square)
      : res (result (bool * list square) nonogram_error) :=
    let! lft := find_left_checked (left_states mc) grid in
    match lft with
    | None => Ret (Err NoSolution)
    | Some lft =>
        let! rgt := find_left_checked (right_states mc) (rev grid) in
        match rgt with
        | None => Ret (Err NoSolution)
        | Some rgt =>
            let! s := foldM (rl_step lft rgt) (seq 0 (length lft))
                        (RlState false 0 0 false false grid) in
            Ret (Ok (rl_changed s, rl_grid s))
        end
    end.

  (** mod.rs:96-114, as in [Nonogram]. *)
  Definition run_line_checked (mc : machine) (positions : list nat) (grid : list square)
      : res (result (bool * list square) nonogram_error) :=
    let! line := mapM (vec_get grid) positions in
    let! r := line_checked mc line in
    match r with
    | Err e => Ret (Err e)
    | Ok (changed, line) =>
        let! grid := foldM (fun '(p, v) g => vec_set g p v) (zip positions line) grid in
        Ret (Ok (changed, grid))
    end.
  Fixpoint run_lines_checked (positions : nat -> res (list nat)) (machines : list (nat * machine))
      (changed : bool) (grid : list square) : res (result (bool * list square) nonogram_error) :=
    match machines with
    | [] => Ret (Ok (changed, grid))
    | (index, mc) :: machines =>
        let! ps := positions index in
        let! r := run_line_checked mc ps grid in
        match r with
        | Err e => Ret (Err e)
        | Ok (c, grid) => run_lines_checked positions machines (changed || c) grid
        end
    end.
  Definition round_checked (width : nat) (cols rows : list machine) (grid : list square)
      : res (result (bool * list square) nonogram_error) :=
    let! r := run_lines_checked (fun index => column_positions (length grid) index width)
                (enumerate cols) false grid in
    match r with
    | Err e => Ret (Err e)
    | Ok (changed, grid) =>
        run_lines_checked (fun index => row_positions m (length grid) index width)
          (enumerate rows) changed grid
    end.
  Fixpoint rounds_checked (fuel : nat) (width : nat) (cols rows : list machine)
      (grid : list square) : res (result (list square) nonogram_error) :=
    match fuel with
    | 0 => Fault OutOfFuel
    | S fuel =>
        let! r := round_checked width cols rows grid in
        match r with
        | Err e => Ret (Err e)
        | Ok (changed, grid) =>
            if changed : bool then rounds_checked fuel width cols rows grid else Ret (Ok grid)
        end
    end.

  (** mod.rs:86-94. *)
  Definition machines_checked (rules : list (list nat)) : res (list machine) :=
    do! reserve m (6 * word_bytes m) (length rules) in
    mapM machine_checked rules.

  (** mod.rs:71-84 [solve_nonogram]. *)
  Definition solve_checked (col row : list (list nat))
      : res (result (list bool) nonogram_error) :=
    let! n := n_mul m (length col) (length row) in
    do! reserve m 1 n in
    let! cols := machines_checked col in
    let! rows := machines_checked row in
    let! r := rounds_checked (S n) (length col) cols rows (replicate n Blank) in
    match r with
    | Err e => Ret (Err e)
    | Ok grid =>
        let grid := recursive_backtrack grid col row in
        Ret (Ok ((fun s => match s with Filled => true | _ => false end) <$> grid))
    end.
End grow.
