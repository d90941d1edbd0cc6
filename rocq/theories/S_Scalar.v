(** Specifications for scalar conservation laws. *)
From Coq Require Import Reals List ZArith.
From Verif Require Import M_Base M_Vec M_Flux M_Scalar.
Import ListNotations.
Open Scope R_scope.

(** The flux functions. *)
Definition flux_fun (e : scalar_eq) (u : R) : R :=
  match e with
  | Burgers => u ^ 2 / 2
  | Cubic => u ^ 3 / 3
  | Linear => u
  | BuckleyLeverett => u ^ 2 / (u ^ 2 + (1 - u) ^ 2)
  end.

(** F(u, ..., u) = f(u). *)
Definition consistent_at {V : cvars} (fx : numflux V) (f : Z -> V -> V) (d : Z) (u : V) : Prop :=
  match fx with
  | Flux2 F => fst (F d u u) = f d u
  | FluxN st F => fst (F d (map (fun _ => u) st)) = f d u
  end.

(** The extremum of f between two states that solves the Riemann problem. *)
Definition riemann_flux (f : R -> R) (l r F : R) : Prop :=
  (l <= r -> (exists m, l <= m <= r /\ F = f m) /\ forall x, l <= x <= r -> F <= f x) /\
  (r <= l -> (exists m, r <= m <= l /\ F = f m) /\ forall x, r <= x <= l -> f x <= F).

(** The logarithmic entropy with bounds 0 and 2. *)
Definition log_entropy (u : R) : R := - ln (2 - u) - ln u.

(** Polynomials, coefficients from the constant up. *)
Fixpoint poly (l : list R) (x : R) : R :=
  match l with [] => 0 | a :: l => a + x * poly l x end.
Fixpoint dpoly (l : list R) (x : R) : R :=
  match l with [] => 0 | a :: l => poly l x + x * dpoly l x end.
