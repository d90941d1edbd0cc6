(** Admissible states. *)
From Coq Require Import ZArith Reals List.
From Flocq Require Import Core BinarySingleNaN.
From Verif Require Import M_Base M_TimeFloat M_Check.
Import ListNotations.
Open Scope Z_scope.

(** Every cell of the volume, ghost cells included, satisfies P. *)
Definition all_cells {A} (P : A -> Prop) (v : vol A) : Prop :=
  forall x y z, 0 <= x < vnx v -> 0 <= y < vny v -> 0 <= z < vnz v -> P (vget v (x, y, z)).

Definition scalar_admissible (c : list f64) : Prop := exists u, c = [u] /\ is_finite u = true.

(** Euler in [d] space dimensions.  The pressure is the one computed in
    floating point. *)
Definition fpressure (gamma rho : f64) (m : list f64) (E : f64) : f64 :=
  fmul (fsub gamma (fofZ 1)) (fsub E (fdiv (fmul fhalf (fdot m)) rho)).
Definition euler_admissible (gamma : f64) (d : nat) (c : list f64) : Prop :=
  exists rho m E, c = rho :: m ++ [E] /\ length m = d /\
    is_finite rho = true /\ is_finite E = true /\ (forall x, In x m -> is_finite x = true) /\
    (forall x, In x m -> is_finite (fdiv x rho) = true) /\
    (0 < B2R rho)%R /\
    is_finite (fpressure gamma rho m E) = true /\ (0 < B2R (fpressure gamma rho m E))%R.
