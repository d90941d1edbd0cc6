(** Euler records in another point of view. *)
From Coq Require Import ZArith Reals.
From Verif Require Import M_Vec M_Euler.
Open Scope R_scope.

(** The momentum seen through [M]; density and energy stay. *)
Definition on_momentum {n} (M : rvec n -> rvec n) (u : euler_cvars n) : euler_cvars n :=
  mkcons (rho_ u) (M (mom u)) (en u).
(** The components [a] and [e] change places. *)
Definition vswap (n : nat) (a e : Z) (v : rvec n) : rvec n :=
  vset n (Z.to_nat a) (vnth n (Z.to_nat e) v) (vset n (Z.to_nat e) (vnth n (Z.to_nat a) v) v).
(** The component [k] changes its sign. *)
Definition vflip (n : nat) (k : Z) (v : rvec n) : rvec n := vset n (Z.to_nat k) (- vnth n (Z.to_nat k) v) v.
Definition swap_momentum (n : nat) (a e : Z) : euler_cvars n -> euler_cvars n := on_momentum (vswap n a e).
Definition flip_momentum (n : nat) (k : Z) : euler_cvars n -> euler_cvars n := on_momentum (vflip n k).
(** The Tecno fluxes of Euler<3> treat the third axis differently. *)
Definition tecno_axes (n : nat) (a e : Z) : Prop := n = 3%nat -> a = e \/ (a < 2 /\ e < 2)%Z.
