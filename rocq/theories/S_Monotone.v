(** Maximum principle and total variation. *)
From Coq Require Import ZArith Reals List.
From Verif Require Import M_Base M_Vec M_Flux M_Scalar M_Sim S_Boundary S_Flux S_Sum S_Sim.
Open Scope R_scope.

(** All interior values lie in [m, M]. *)
Definition in_range (dims g nx ny nz : Z) (m M : R) (u : cell -> R) : Prop :=
  forall c, interior dims g nx ny nz c -> m <= u c <= M.

(** Total variation in the x direction: the jumps from every interior cell to
    its right neighbour, the last one being a ghost cell. *)
Definition variation (b : bckind) (dims g nx ny nz : Z) (u : cell -> R) : R :=
  isum dims g (nvec nx ny nz) (fun c =>
    Rabs (filled (V := scalar_cvars) b dims g nx ny nz u (move 0 1 c) -
          filled (V := scalar_cvars) b dims g nx ny nz u c)).

(** Schemes for which the maximum principle holds, with the largest CFL number. *)
Inductive monotone_scheme : scalar_eq -> flux2 -> R -> Prop :=
| burgers_godunov : monotone_scheme Burgers Godunov 1
| burgers_roe : monotone_scheme Burgers BurgersRoe 1
| burgers_rusanov : monotone_scheme Burgers Rusanov 1
| linear_upwind : monotone_scheme Linear Upwind 1
| linear_rusanov : monotone_scheme Linear Rusanov 1
| linear_roe : monotone_scheme Linear LinearRoe 1
| cubic_roe : monotone_scheme Cubic CubicRoe 1
| cubic_rusanov : monotone_scheme Cubic Rusanov 1.

(** Integrators whose steps are convex combinations of Euler steps. *)
Definition strong_stability (it : integrator) : Prop :=
  match it with RungeKutta4 => False | _ => True end.

(** A grid whose cells have the same length in every active direction and length
    zero in the inactive ones (the sample configurations give the inactive
    directions of the domain no extent). *)
Definition square_cells (dims : Z) (len : Z -> R) : Prop :=
  0 < len 0%Z /\ forall d, (0 <= d < 3)%Z -> len d = if (d <? dims)%Z then len 0%Z else 0.

(** Timestep adjusters only shorten the timestep, and not below zero. *)
Definition shortening (f : R -> R) : Prop := forall x, 0 <= x -> 0 <= f x <= x.
