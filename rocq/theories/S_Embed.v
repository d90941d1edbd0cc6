(** The same flow in more components, or in other units of mass. *)
From Coq Require Import ZArith Reals.
From Verif Require Import M_Vec M_Euler.
Open Scope R_scope.

(** The components of [v], then zeros. *)
Fixpoint pad (n m : nat) : rvec n -> rvec m :=
  match n, m return rvec n -> rvec m with
  | S n, S m => fun v => (fst v, pad n m (snd v))
  | _, _ => fun _ => vzero
  end.
(** The momentum seen through [M], everything measured in a unit that is 1 / [k]. *)
Definition seen {n m : nat} (M : rvec n -> rvec m) (k : R) (u : euler_cvars n) : euler_cvars m :=
  mkcons (k * rho_ u) (vscal k (M (mom u))) (k * en u).
(** A flow of Euler<n> as a flow of Euler<m>. *)
Definition embed (n m : nat) (u : euler_cvars n) : euler_cvars m :=
  mkcons (rho_ u) (pad n m (mom u)) (en u).
(** [k] times the mass: density, momentum and energy. *)
Definition times {n : nat} (k : R) (u : euler_cvars n) : euler_cvars n :=
  mkcons (k * rho_ u) (vscal k (mom u)) (k * en u).
