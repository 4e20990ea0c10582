(** [recursive_backtrack] with the sampling of the rand crate: the random
    generator delivers 32-bit words, and [choose_random] (src/util.rs:11-14)
    draws words until one is accepted.  In [Maze] a draw is a single number.

    [(0..len).choose(&mut rng)] of rand 0.8 takes the element number
    [gen_index(rng, len)], for [len] below 2^32 the u32
    [rng.gen_range(0..len as u32)], which is computed by
    [UniformInt::<u32>::sample_single]:
<<
      let zone = (range << range.leading_zeros()).wrapping_sub(1);
      loop {
          let v: u32 = rng.gen();
          let (hi, lo) = v.wmul(range);
          if lo <= zone { return low.wrapping_add(hi); }
      }
>>
    This is not code of /repo. *)
From Verif Require Import Base Util DisjointSet Maze.

Definition words : N := (2 ^ 32)%N.

(** One pass of the loop for [range = n]: [None] if the word is refused. *)
Definition accept (n v : N) : option N :=
  let zone := (n * 2 ^ (32 - N.size n) - 1)%N in
  let p := (v * n)%N in
  if (p mod words <=? zone)%N then Some (p / words)%N else None.

(** The loop, on the words that the generator delivers; [None] if there are too
    few.  The words that are left are returned. *)
Fixpoint gen_index (n : N) (ws : list N) : option (N * list N) :=
  match ws with
  | [] => None
  | v :: ws =>
      match accept n v with
      | Some i => Some (i, ws)
      | None => gen_index n ws
      end
  end.

(** src/util.rs:11-14 for a vector that is not empty. *)
Definition choose_words {A} (ws : list N) (l : list A) : res (A * list A * list N) :=
  match gen_index (N.of_nat (length l)) ws with
  | None => Fault OutOfFuel
  | Some (i, ws) =>
      let! (x, rest) := expect (swap_remove l (N.to_nat i)) in
      Ret (x, rest, ws)
  end.

Section words.
  Context (m : mode).

  (** recursive_backtrack.rs:40-135, as [visit_loop]. *)
  Fixpoint visit_words (fuel : nat) (coordinate width height : nat)
      (mz : list maze_node) (d : dset) (visitable : list direction) (ws : list N)
      : res (option nat * list maze_node * dset * list direction * list N) :=
    match visitable with
    | [] => Ret (None, mz, d, visitable, ws)
    | _ =>
        match fuel with
        | 0 => Fault OutOfFuel
        | S fuel =>
            let! (dir, visitable, ws) := choose_words ws visitable in
            let! (r, d) := visit_dir m coordinate width height dir mz d in
            match r with
            | Some (next, mz) => Ret (Some next, mz, d, visitable, ws)
            | None => visit_words fuel coordinate width height mz d visitable ws
            end
        end
    end.

  (** recursive_backtrack.rs:19-35, as [backtrack_loop]. *)
  Fixpoint backtrack_words (fuel : nat) (width height : nat) (path : list nat)
      (mz : list maze_node) (d : dset) (visit : list (list direction)) (ws : list N)
      : res (list maze_node) :=
    match path with
    | [] => Ret mz
    | coordinate :: rest =>
        match fuel with
        | 0 => Fault OutOfFuel
        | S fuel =>
            let! vis := vec_get visit coordinate in
            let! (r, mz, d, vis, ws) :=
              visit_words (length vis) coordinate width height mz d vis ws in
            let! visit := vec_set visit coordinate vis in
            match r with
            | Some next => backtrack_words fuel width height (next :: path) mz d visit ws
            | None => backtrack_words fuel width height rest mz d visit ws
            end
        end
    end.

  (** recursive_backtrack.rs:5-38. *)
  Definition recursive_backtrack_words (ws : list N) (width height : nat) : res (list maze_node) :=
    let! n := n_mul m width height in
    backtrack_words (2 * n + 1) width height [0]
      (replicate n maze_node_new) (with_size n) (replicate n [Right; Down; Left; Up]) ws.
End words.
