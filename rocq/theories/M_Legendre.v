(** Model of /repo/alsutils/include/alsutils/math/legendre.hpp (used by the GPU
    functionals; the CPU functionals call boost). *)
From Coq Require Import ZArith Reals List.
From Verif Require Import M_Base.
Open Scope R_scope.

(** legendre<n>, lines 38-68: specialisations for 0 and 1, otherwise
    real(1.0 / n) * (x * legendre<n-1>(x) - (n - 1) * legendre<n-2>(x)). *)
Fixpoint legendre (n : nat) (x : R) : R :=
  match n with
  | O => 1
  | S m =>
      match m with
      | O => x
      | S k => (1 / INR n) * (x * legendre m x - (INR n - 1) * legendre k x)
      end
  end.

(** legendre_p, lines 78-121: a switch over 0, ..., 11; any other degree runs into
    assert(false), and if assertions are compiled out returns 0. *)
Definition legendre_p (ndebug : bool) (degree : Z) (x : R) : res R :=
  if ((0 <=? degree) && (degree <=? 11))%Z%bool
  then Ok (legendre (Z.to_nat degree) x)
  else if ndebug then Ok 0 else Throw.
