(** Bounds for the work of the nonogram solver. *)
From Verif Require Import Base NonogramLineCost.

(** All iterations of loops that were counted ([active] ones are [entries]). *)
Definition steps (c : line_cost) : nat := passes c + entries c + scanned c + compared c.
(** For a line of [n] squares. *)
Definition line_bound (n : nat) (rule : list nat) : nat := (n + 1) * (n + 2 * (sum_list rule + length rule) + 9).
(** The blocks and the gaps between them fit into the line (what the parser
    checks). *)
Definition fits_line (n : nat) (rule : list nat) : Prop := sum_list rule + length rule <= n + 1.
