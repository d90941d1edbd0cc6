(** Specifications for the reconstructions. *)
From Coq Require Import Reals List ZArith.
Import ListNotations.
Open Scope R_scope.

(** [x] lies between [a] and [b]. *)
Definition between (a b x : R) : Prop := (a <= x <= b) \/ (b <= x <= a).

(** The polynomial with coefficients [cs], lowest degree first. *)
Fixpoint peval (cs : list R) (x : R) : R :=
  match cs with [] => 0 | c :: cs => c + x * peval cs x end.

(** For the offsets lo <= j < hi, [v j] is the average over the cell
    [a + j h, a + (j+1) h] of the function whose antiderivative is P. *)
Definition averages (P : R -> R) (a h : R) (lo hi : Z) (v : Z -> R) : Prop :=
  forall j, (lo <= j < hi)%Z -> v j = (P (a + (IZR j + 1) * h) - P (a + IZR j * h)) / h.
(** [v] are the cell averages of the polynomial [cs]. *)
Definition poly_averages (cs : list R) (a h : R) (lo hi : Z) (v : Z -> R) : Prop :=
  exists P, (forall x, derivable_pt_lim P x (peval cs x)) /\ averages P a h lo hi v.

(** The stencil chosen by ENO: start from the cell alone; extend by one cell at a
    time, to the left if the divided difference over the left extension is
    smaller, else to the right.  [lo, lo + n] is the current stencil; the divided
    difference over [lo, lo + n] is that of [Newton]. *)
Fixpoint newton (n : nat) (v : Z -> R) (lo : Z) : R :=
  match n with
  | O => v lo
  | S n => (newton n v (lo + 1)%Z - newton n v lo) / INR (S n)
  end.
Inductive eno_stencil (v : Z -> R) : nat -> Z -> Prop :=
| eno_start : eno_stencil v 0 0
| eno_left n lo : eno_stencil v n lo ->
    Rabs (newton (S n) v (lo - 1)) < Rabs (newton (S n) v lo) -> eno_stencil v (S n) (lo - 1)
| eno_right n lo : eno_stencil v n lo ->
    Rabs (newton (S n) v lo) <= Rabs (newton (S n) v (lo - 1)) -> eno_stencil v (S n) lo.

From Verif Require Import M_Vec M_Euler.
(** The mirror image of the state [a] at [m] in primitive variables, and what is
    left of two cells [m] when half of the states [a] and [b] are taken away; the
    positivity proofs for MUSCL schemes split a cell into [a], [b] and this rest. *)
Definition mirror_prim (n : nat) (m a : prim n) : prim n :=
  mkprim (2 * p_rho m - p_rho a) (vadd (vscal 2 (p_u m)) (vscal (-1) (p_u a))) (2 * p_p m - p_p a).
Definition residual (n : nat) (m a b : cons n) : cons n :=
  mkcons (2 * rho_ m - (rho_ a + rho_ b) / 2)
    (vadd (vscal 2 (mom m)) (vscal (- (1 / 2)) (vadd (mom a) (mom b))))
    (2 * en m - (en a + en b) / 2).
