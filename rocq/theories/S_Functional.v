(** What functionals are for. *)
From Coq Require Import ZArith Reals List Bool.
From Verif Require Import M_Base S_Boundary S_Sum S_Memory S_Stats M_Structure S_Structure.
Import ListNotations.
Open Scope Z_scope.

(** The contract of Functional.hpp lines 36-53: the functional adds weight times
    its value to the output ("the result should be added to conservedVolumeOut
    [...], not overriding it").  [f u i] is element [i] of the value for the
    input [u], [d] are the extents of the output. *)
Definition adds_weighted (d : cell) (P : vol R -> Prop)
    (F : vol R -> vol R -> R -> res (vol R)) (f : vol R -> Z -> R) : Prop :=
  forall out u w, has_dims d out -> P u ->
    exists out', F out u w = Ok out' /\ has_dims d out' /\
      forall i, 0 <= i < dsize d -> vdat out' i = (vdat out i + w * f u i)%R.

(** The cell with index [i] of an area with extents [n]. *)
Definition nth_cell (n : cell) (i : Z) : cell :=
  let '(nx, ny, nz) := n in kth_cell 0 0 0 nx ny i.

(** The integral by the midpoint rule: the sum over all interior cells of the
    integrand at the midpoint of the cell and the cell itself, times the volume
    of a cell. *)
Definition cell_centre (origin len : Z -> R) (c : cell) (d : Z) : R :=
  (origin d + len d * (IZR (comp c d) + 1 / 2))%R.
Definition midpoint_rule (n : cell) (len : Z -> R) (f : cell -> R) : R :=
  (sum3 (fun _ => 0%Z) (comp n) f * (len 0%Z * len 1%Z * len 2%Z))%R.

(** Maps [a, b] to [-1, 1]. *)
Definition to_unit (a b x : R) : R := ((x - a) - (b - x)) / (b - a).

(** The time steps of a sample: the time of each state after the initial one,
    the time before, and the state. *)
Fixpoint steps (t0 : R) (l : list (R * vol R)) : list (R * R * vol R) :=
  match l with
  | [] => []
  | (t, u) :: l' => (t0, t, u) :: steps t l'
  end.

(** Sum over the steps that end within [radius] of [time] of the length of the
    step times the value after the step. *)
Definition windowed_sum (time radius : R) (f : vol R -> R) (l : list (R * R * vol R)) : R :=
  suml (fun s => let '(t0, t, u) := s in
    if Rle_dec (Rabs (t - time)) radius then ((t - t0) * f u)%R else 0%R) l.

(** The times of a sample: the initial time, 0, then increasing. *)
Fixpoint increasing (t0 : R) (l : list (R * vol R)) : Prop :=
  match l with
  | [] => True
  | (t, _) :: l' => (t0 < t)%R /\ increasing t l'
  end.

(** The entropy of the Euler equations per volume: - rho s / (gamma - 1) with
    s = ln (p / rho^gamma), from density, squared momentum and energy. *)
Definition pressure_of (gamma rho m2 E : R) : R := (gamma - 1) * (E - m2 / (2 * rho)).
Definition entropy_density (gamma rho m2 E : R) : R :=
  - rho * ln (pressure_of gamma rho m2 E / Rpower rho gamma) / (gamma - 1).

(** All steps are at most [h] long. *)
Definition steps_at_most (h : R) (l : list (R * R * vol R)) : Prop :=
  Forall (fun s => let '(t0, t, _) := s in (t - t0 <= h)%R) l.
