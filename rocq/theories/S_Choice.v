(** Names in a configuration of the schemes with a maximum principle. *)
From Coq Require Import List String.
From Verif Require Import M_Scalar M_Flux M_Sim.
Import ListNotations.
Open Scope string_scope.

(** The equation, the flux, and how a user names them. *)
Definition safe_names : list (scalar_eq * flux2 * (string * string)) :=
  [(Burgers, Godunov, ("burgers", "godunov")); (Burgers, BurgersRoe, ("burgers", "roe"));
   (Burgers, Rusanov, ("burgers", "rusanov")); (Linear, Upwind, ("linear", "upwind"));
   (Linear, Rusanov, ("linear", "rusanov")); (Linear, LinearRoe, ("linear", "roe"));
   (Cubic, CubicRoe, ("cubic", "roe")); (Cubic, Rusanov, ("cubic", "rusanov"))].

(** The integrator a user asks for, when the scheme has no reconstruction. *)
Definition first_order_integrators : list (string * integrator) :=
  [("auto", ForwardEuler); ("forwardeuler", ForwardEuler); ("rungekutta2", RungeKutta2); ("rungekutta3", RungeKutta3)].

(** The names of the methods. *)
Definition all_integrators : list (string * integrator) :=
  [("forwardeuler", ForwardEuler); ("rungekutta2", RungeKutta2); ("rungekutta3", RungeKutta3); ("rungekutta4", RungeKutta4)].
