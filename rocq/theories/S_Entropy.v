(** Entropy balance of a semi-discrete scheme. *)
From Coq Require Import ZArith Reals List.
From Verif Require Import M_Base M_Vec M_Flux S_Boundary S_Flux S_Sum.
Import ListNotations.
Open Scope R_scope.

Section E.
Context {V : cvars}.
(** The entropy variables of a state act on fluxes as a linear functional
    (the inner product with the vector of entropy variables). *)
Definition linear (w : V -> R) : Prop :=
  w vzero = 0 /\ (forall x y, w (vadd x y) = w x + w y) /\ (forall a x, w (vscal a x) = a * w x).

(** Two-point entropy conservation: [v] entropy variables, [psi] entropy
    potential in each direction, on the states in [P]. *)
Definition entropy_conservative (dims : Z) (P : V -> Prop) (v : V -> V -> R) (psi : Z -> V -> R)
    (f : Z -> V -> V -> V * R) : Prop :=
  forall d l r, (0 <= d < dims)%Z -> P l -> P r ->
    v r (fst (f d l r)) - v l (fst (f d l r)) = psi d r - psi d l.

(** d/dt of the total entropy: the time derivative of the cell average is
    [rhs] divided by the cell length. *)
Definition entropy_rate (dims g : Z) (v : V -> V -> R) (fx : numflux V) (rc : recon V)
    (n : Z -> Z) (u : cell -> V) : R :=
  isum dims g n (fun c => v (u c) (rhs dims fx rc u c)).
End E.
