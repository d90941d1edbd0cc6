(** Checks in decomposed runs. *)
From Coq Require Import ZArith Reals List Bool.
From Verif Require Import M_Base M_Vec M_Sim M_Mpi S_Mpi S_Symmetry.
Import ListNotations.
Open Scope Z_scope.

(** Every process checks all cells of its own volume by the same criterion. *)
Definition blocks_check {V : cvars} (dims g np : Z) (lgs : Z -> grid) (ok : V -> bool) (obeys : Z -> vol V -> bool) : Prop :=
  forall r, 0 <= r < np ->
    checks_all dims g (at3 (gr_cells (lgs r)) 0) (at3 (gr_cells (lgs r)) 1) (at3 (gr_cells (lgs r)) 2) ok (obeys r).

(** Admissible states added to nonnegative multiples of admissible states are admissible. *)
Definition cone {V : cvars} (ok : V -> bool) : Prop :=
  forall s x y, (0 <= s)%R -> ok x = true -> ok y = true -> ok (vadd (vscal s x) y) = true.

(** Nothing makes the time go backwards: the Courant number and the cells are not
    negative, and neither are the answers of the adjusters to something nonnegative. *)
Definition forward (prm : params) (adjs : list (R -> list (R -> R))) : Prop :=
  (0 <= p_cfl prm)%R /\ (0 < p_len prm 0)%R /\ (forall d, 0 <= d < 3 -> (0 <= p_len prm d)%R) /\
  (forall f, In f (p_wadj prm) -> forall x, (0 <= x -> 0 <= f x)%R) /\
  forall adj, In adj adjs -> forall t f, In f (adj t) -> forall x, (0 <= x -> 0 <= f x)%R.
