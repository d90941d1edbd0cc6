(** What the Legendre polynomials are. *)
From Coq Require Import Reals.
Open Scope R_scope.

(** [P] is the sequence of Legendre polynomials: Bonnet's recursion
    n P_n = (2n - 1) x P_{n-1} - (n - 1) P_{n-2} from P_0 = 1 and P_1 = x. *)
Definition is_legendre (P : nat -> R -> R) : Prop :=
  (forall x, P 0%nat x = 1) /\ (forall x, P 1%nat x = x) /\
  forall n x, INR (n + 2) * P (n + 2)%nat x = (2 * INR (n + 2) - 1) * x * P (n + 1)%nat x - (INR (n + 2) - 1) * P n x.

(** The first ones written out. *)
Definition P2 (x : R) : R := (3 * x ^ 2 - 1) / 2.
Definition P3 (x : R) : R := (5 * x ^ 3 - 3 * x) / 2.
