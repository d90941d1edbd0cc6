(** Specifications for the Euler equations. *)
From Coq Require Import Reals List ZArith.
From Verif Require Import M_Base M_Vec M_Flux M_Euler.
Import ListNotations.
Open Scope R_scope.

(** Admissible states: positive density and pressure. *)
Definition admissible (n : nat) (gamma : R) (u : cons n) : Prop :=
  0 < rho_ u /\ 0 < p_p (to_prim n gamma u).

(** The flux of the state with density [rho], velocity [v], pressure [p], in
    terms of these, in direction d: (rho v_d, rho v_d v + p e_d, v_d (E + p)). *)
Fixpoint unit_vec (n d : nat) : rvec n :=
  match n return rvec n with
  | O => tt
  | S n => match d with O => (1, vzero) | S d => (0, unit_vec n d) end
  end.
Definition phys_flux (n : nat) (gamma : R) (d : nat) (w : prim n) : cons n :=
  let E := p_p w / (gamma - 1) + p_rho w * vdot n (p_u w) (p_u w) / 2 in
  mkcons (p_rho w * vnth n d (p_u w))
         (vadd (vscal (p_rho w * vnth n d (p_u w)) (p_u w)) (vscal (p_p w) (unit_vec n d)))
         (vnth n d (p_u w) * (E + p_p w)).

(** Inner product of state vectors. *)
Definition cdot (n : nat) (a b : cons n) : R := rho_ a * rho_ b + vdot n (mom a) (mom b) + en a * en b.

(** [r] is an eigenvector of the Jacobian of [f] at [u] with eigenvalue [lambda]:
    the derivative of f in direction r is lambda r, in every component. *)
Definition eigenpair {V : cvars} (f : V -> V) (u r : V) (lambda : R) : Prop :=
  r <> vzero /\
  forall i, derivable_pt_lim (fun t => comp i (f (vadd u (vscal t r)))) 0 (lambda * comp i r).

(** The mathematical entropy -rho s / (gamma - 1), s = ln (p / rho^gamma), and its
    flux in direction d. *)
Definition math_entropy (n : nat) (gamma : R) (w : prim n) : R :=
  - p_rho w * (ln (p_p w) - gamma * ln (p_rho w)) / (gamma - 1).
Definition math_entropy_flux (n : nat) (gamma : R) (d : nat) (w : prim n) : R :=
  vnth n d (p_u w) * math_entropy n gamma w.
