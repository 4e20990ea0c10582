(** Model of parsing and solving in /repo/src/puzzles/nonogram/ (mod.rs and
    right_left.rs). *)
From Verif Require Import Base.

(** mod.rs:20-32 [NonogramError].  [EmptyPuzzle] and [InvalidDimensions] are
    not produced by the functions of this file. *)
Inductive nonogram_error :=
| EmptyPuzzle
| InvalidRule (text : list N)
| InvalidRuleDimension
| NoSolution
| InvalidDimensions.

(** [str::split(sep)] for a one-character separator: always at least one
    piece. *)
Fixpoint split_on (sep : N) (s : list N) : list (list N) :=
  match s with
  | [] => [[]]
  | c :: s =>
      if (c =? sep)%N then [] :: split_on sep s
      else match split_on sep s with
           | [] => [[c]]
           | piece :: pieces => (c :: piece) :: pieces
           end
  end.

(** The digits of [usize::from_str]: accumulate with overflow check. *)
Fixpoint parse_usize_digits (ws : word) (acc : N) (s : list N) : option N :=
  match s with
  | [] => Some acc
  | c :: s =>
      if ((48 <=? c) && (c <=? 57))%N then
        let acc := (acc * 10 + (c - 48))%N in
        if (acc <? usize_size ws)%N then parse_usize_digits ws acc s else None
      else None
  end.

(** [str::parse::<usize>()]: optional leading '+', then at least one digit. *)
Definition parse_usize (ws : word) (s : list N) : option N :=
  match s with
  | [] => None
  | c :: rest =>
      if (c =? 43)%N then
        match rest with [] => None | _ => parse_usize_digits ws 0 rest end
      else parse_usize_digits ws 0 s
  end.

(** mod.rs:40-51: the items of one rule; [size] is the running sum. *)
Fixpoint parse_items (m : mode) (items : list (list N)) (size : N)
    : res (result (list N * N) nonogram_error) :=
  match items with
  | [] => Ret (Ok ([], size))
  | x :: items =>
      match parse_usize m x with
      | None => Ret (Err (InvalidRule x))
      | Some value =>
          let! size := usize_add m size value in
          let! r := parse_items m items size in
          match r with
          | Ok (vs, size) => Ret (Ok (value :: vs, size))
          | Err e => Ret (Err e)
          end
      end
  end.

(** mod.rs:37-60: one rule. *)
Definition parse_rule (m : mode) (bound : N) (rule : list N)
    : res (result (list N) nonogram_error) :=
  let! r := parse_items m (split_on 44 rule) 0 in
  match r with
  | Err e => Ret (Err e)
  | Ok (values, size) =>
      let! gaps := n_sub m (length values) 1 in
      let! size := usize_add m size (N.of_nat gaps) in
      if bool_decide (values = []) || (bound <? size)%N
      then Ret (Err InvalidRuleDimension)
      else Ret (Ok values)
  end.

Fixpoint parse_rule_list (m : mode) (bound : N) (rules : list (list N))
    : res (result (list (list N)) nonogram_error) :=
  match rules with
  | [] => Ret (Ok [])
  | rule :: rules =>
      let! r := parse_rule m bound rule in
      match r with
      | Err e => Ret (Err e)
      | Ok values =>
          let! rs := parse_rule_list m bound rules in
          match rs with
          | Err e => Ret (Err e)
          | Ok vs => Ret (Ok (values :: vs))
          end
      end
  end.

(** mod.rs:34-62 [parse_nonogram_rules]. *)
Definition parse_nonogram_rules (m : mode) (rules : list N) (bound : N)
    : res (result (list (list N)) nonogram_error) :=
  parse_rule_list m bound (split_on 59 rules).

(** mod.rs:64-69 [Square]. *)
Inductive square := Blank | Filled | Blocked.

(** right_left.rs:5-11 [Node]. *)
Inductive rnode := Start | Fill | Space | End.

(** right_left.rs:20-27 and 29-36: the state list for a rule. *)
Definition rule_states (rule : list nat) : list rnode :=
  let states := fold_left (fun st value => st ++ replicate value Fill ++ [Space]) rule [Start; End] in
  <[length states - 1 := End]> states.

(** right_left.rs:13-42 [RuleMachine]. *)
Record machine := Machine { left_states : list rnode; right_states : list rnode }.
Definition machine_new (rule : list nat) : machine :=
  Machine (rule_states rule) (rule_states (rev rule)).

(** [!matches!(square, Some(Square::Filled))] and
    [!matches!(square, Some(Square::Blocked))]. *)
Definition not_filled (sq : option square) : bool :=
  match sq with Some Filled => false | _ => true end.
Definition not_blocked (sq : option square) : bool :=
  match sq with Some Blocked => false | _ => true end.

(** right_left.rs:148-161: the rest of the line must not contain a filled
    square; [None] is [continue 'matches]. *)
Fixpoint push_tail (st : nat) (squares : list square) (path : list nat) : option (list nat) :=
  match squares with
  | [] => Some path
  | Filled :: _ => None
  | _ :: squares => push_tail st squares (path ++ [st])
  end.

(** right_left.rs:101-168: one pass over the active states.  [rest] are the
    squares after [sq].  The boolean is true after [break 'outer].  [take]
    empties every entry of [old_state] that the loop reaches; since nothing
    reads them again the model just recurses over the list. *)
Fixpoint match_pass (states : list rnode) (sq : option square) (rest : list square)
    (state : nat) (old : list (option (list nat))) (new : list (option (list nat)))
    : res (list (option (list nat)) * bool) :=
  match old with
  | [] => Ret (new, false)
  | None :: old => match_pass states sq rest (S state) old new
  | Some path :: old =>
      let! curr_state := vec_get states state in
      let! next_state := vec_get states (state + 1) in
      let! new :=
        match curr_state with
        | Start | Fill => Ret new
        | Space | End =>
            if not_filled sq then vec_set new state (Some (path ++ [state])) else Ret new
        end in
      match next_state with
      | Start => Fault Panic
      | Fill =>
          let! new := if not_blocked sq then vec_set new (state + 1) (Some (path ++ [state + 1]))
                      else Ret new in
          match_pass states sq rest (S state) old new
      | Space =>
          let! new := if not_filled sq then vec_set new (state + 1) (Some (path ++ [state + 1]))
                      else Ret new in
          match_pass states sq rest (S state) old new
      | End =>
          match states !! (state + 2) with
          | Some Fill =>
              let! new := if not_filled sq then vec_set new (state + 1) (Some (path ++ [state + 1]))
                          else Ret new in
              let! new := if not_blocked sq then vec_set new (state + 2) (Some (path ++ [state + 2]))
                          else Ret new in
              match_pass states sq rest (S state) old new
          | Some _ => Fault Panic
          | None =>
              let tail := match sq with Some s => s :: rest | None => [] end in
              match push_tail (state + 1) tail path with
              | None => match_pass states sq rest (S state) old new
              | Some path =>
                  let! new := vec_set new (state + 2) (Some path) in
                  Ret (new, true)
              end
          end
      end
  end.

(** right_left.rs:98-175: the outer loop; after [swap] the new vector is the
    emptied old one. *)
Fixpoint match_loop (states : list rnode) (squares : list square) (old : list (option (list nat)))
    : res (list (option (list nat))) :=
  let blank := replicate (length states + 1) None in
  match squares with
  | [] => let! (new, _) := match_pass states None [] 0 old blank in Ret new
  | sq :: rest =>
      let! (new, stop) := match_pass states (Some sq) rest 0 old blank in
      if stop : bool then Ret new else match_loop states rest new
  end.

(** right_left.rs:181-185. *)
Definition state_filled (states : list rnode) (st : nat) : res bool :=
  let! n := vec_get states st in
  match n with
  | Start => Fault Panic
  | Fill => Ret true
  | Space | End => Ret false
  end.
Fixpoint mapM {A B} (f : A -> res B) (l : list A) : res (list B) :=
  match l with
  | [] => Ret []
  | x :: l => let! y := f x in let! ys := mapM f l in Ret (y :: ys)
  end.

(** right_left.rs:89-188 [find_left]. *)
Definition find_left (states : list rnode) (squares : list square) : res (option (list bool)) :=
  let! old := vec_set (replicate (length states + 1) None) 0 (Some []) in
  let! new := match_loop states squares old in
  let! final := vec_get new (length states) in
  match final with
  | None => Ret None
  | Some path => let! bs := mapM (state_filled states) path in Ret (Some bs)
  end.

(** right_left.rs:49-83: loop state. *)
Record rl_state := RlState {
  rl_changed : bool; rl_lblock : nat; rl_rblock : nat; rl_l : bool; rl_r : bool;
  rl_grid : list square
}.

(** right_left.rs:57-83, iteration [i]; [right.len() - 1 - i] below 0 panics
    (without overflow checks at the index, which is then too large). *)
Definition rl_step (lft rgt : list bool) (i : nat) (s : rl_state) : res rl_state :=
  let! l := vec_get lft i in
  let! r := if decide (length rgt <= i) then Fault Panic else vec_get rgt (length rgt - 1 - i) in
  let lb := if Bool.eqb l (rl_l s) then rl_lblock s else S (rl_lblock s) in
  let rb := if Bool.eqb r (rl_r s) then rl_rblock s else S (rl_rblock s) in
  let! g := vec_get (rl_grid s) i in
  match g with
  | Blank =>
      if Nat.eqb lb rb && Bool.eqb l r then
        let! grid := vec_set (rl_grid s) i (if l then Filled else Blocked) in
        Ret (RlState true lb rb l r grid)
      else Ret (RlState (rl_changed s) lb rb l r (rl_grid s))
  | _ => Ret (RlState (rl_changed s) lb rb l r (rl_grid s))
  end.

(** right_left.rs:44-86 [RuleMachine::right_left] on the squares of one line:
    returns whether something changed and the new squares. *)
Definition line_right_left (mc : machine) (grid : list square)
    : res (result (bool * list square) nonogram_error) :=
  let! lft := find_left (left_states mc) grid in
  match lft with
  | None => Ret (Err NoSolution)
  | Some lft =>
      let! rgt := find_left (right_states mc) (rev grid) in
      match rgt with
      | None => Ret (Err NoSolution)
      | Some rgt =>
          let! s := foldM (rl_step lft rgt) (seq 0 (length lft))
                      (RlState false 0 0 false false grid) in
          Ret (Ok (rl_changed s, rl_grid s))
      end
  end.

(** [grid[index..].iter_mut().step_by(width)] (mod.rs:100) as positions. *)
Definition column_positions (len index width : nat) : res (list nat) :=
  if decide (len < index) then Fault Panic
  else if decide (width = 0) then Fault Panic
  else Ret ((fun k => index + k * width) <$> seq 0 ((len - index + width - 1) `div` width)).

(** [grid[width * index..width * (index + 1)].iter_mut()] (mod.rs:105-107). *)
Definition row_positions (m : mode) (len index width : nat) : res (list nat) :=
  let! a := n_mul m width index in
  let! b := n_mul m width (index + 1) in
  if decide (b < a \/ len < b) then Fault Panic else Ret (seq a (b - a)).

(** The line deduction applied to the squares at the given positions. *)
Definition run_line (mc : machine) (positions : list nat) (grid : list square)
    : res (result (bool * list square) nonogram_error) :=
  let! line := mapM (vec_get grid) positions in
  let! r := line_right_left mc line in
  match r with
  | Err e => Ret (Err e)
  | Ok (changed, line) =>
      let! grid := foldM (fun '(p, v) g => vec_set g p v) (zip positions line) grid in
      Ret (Ok (changed, grid))
  end.

(** mod.rs:99-101 and 103-109: a pass over a family of lines. *)
Fixpoint run_lines (positions : nat -> res (list nat)) (machines : list (nat * machine))
    (changed : bool) (grid : list square) : res (result (bool * list square) nonogram_error) :=
  match machines with
  | [] => Ret (Ok (changed, grid))
  | (index, mc) :: machines =>
      let! ps := positions index in
      let! r := run_line mc ps grid in
      match r with
      | Err e => Ret (Err e)
      | Ok (c, grid) => run_lines positions machines (changed || c) grid
      end
  end.

Definition one_round (m : mode) (width : nat) (cols rows : list machine) (grid : list square)
    : res (result (bool * list square) nonogram_error) :=
  let! r := run_lines (fun index => column_positions (length grid) index width)
              (enumerate cols) false grid in
  match r with
  | Err e => Ret (Err e)
  | Ok (changed, grid) =>
      run_lines (fun index => row_positions m (length grid) index width)
        (enumerate rows) changed grid
  end.

(** mod.rs:96-114: repeat until nothing changes; [fuel] bounds the rounds. *)
Fixpoint rounds (fuel : nat) (m : mode) (width : nat) (cols rows : list machine)
    (grid : list square) : res (result (list square) nonogram_error) :=
  match fuel with
  | 0 => Fault OutOfFuel
  | S fuel =>
      let! r := one_round m width cols rows grid in
      match r with
      | Err e => Ret (Err e)
      | Ok (changed, grid) =>
          if changed : bool then rounds fuel m width cols rows grid else Ret (Ok grid)
      end
  end.

(** mod.rs:86-117 [right_left]. *)
Definition grid_right_left (m : mode) (grid : list square) (col row : list (list nat))
    : res (result (list square) nonogram_error) :=
  rounds (S (length grid)) m (length col) (machine_new <$> col) (machine_new <$> row) grid.

(** mod.rs:119 [recursive_backtrack]: an empty function. *)
Definition recursive_backtrack (grid : list square) (col row : list (list nat)) : list square :=
  grid.

(** mod.rs:71-84 [solve_nonogram]. *)
Definition solve_nonogram (m : mode) (col row : list (list nat))
    : res (result (list bool) nonogram_error) :=
  let! n := n_mul m (length col) (length row) in
  let! r := grid_right_left m (replicate n Blank) col row in
  match r with
  | Err e => Ret (Err e)
  | Ok grid =>
      let grid := recursive_backtrack grid col row in
      Ret (Ok ((fun s => match s with Filled => true | _ => false end) <$> grid))
  end.
