(** Gases that stay admissible. *)
From Coq Require Import ZArith Reals List.
From Verif Require Import M_Base M_Vec M_Flux M_Euler M_Sim S_Boundary S_Sim S_Euler.
Open Scope Z_scope.

(** Every interior cell has positive density and pressure. *)
Definition all_admissible (n : nat) (gamma : R) (dims g nx ny nz : Z) (u : cell -> euler_cvars n) : Prop :=
  forall c, interior dims g nx ny nz c -> admissible n gamma (u c).

(** In the active directions the cells have a positive length, in none of them a larger
    one than in x.  In the others the length is not negative. *)
Definition longest_in_x (dims : Z) (len : Z -> R) : Prop :=
  (forall d, 0 <= d < dims -> (0 < len d <= len 0%Z)%R) /\ forall d, dims <= d < 3 -> (0 <= len d)%R.

(** The wave speed adjusters (the maximum over all processes) do not lower the speed. *)
Definition not_lowering (f : R -> R) : Prop := forall x, (x <= f x)%R.
