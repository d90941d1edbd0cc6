(** The fourth and sixth order combinations of a two-point flux. *)
From Coq Require Import Reals List ZArith.
From Verif Require Import M_Base M_Vec M_Flux.
Import ListNotations.
Open Scope R_scope.

Section Combined.
Context {V : cvars}.
Variable f : Z -> V -> V -> V * R.

(** The lambda `flux` accumulates the largest wave speed; a missing state list
    cannot occur, the stencil has the length of the list. *)
(** /repo/alsfvm/include/alsfvm/numflux/TecnoCombined4.hpp lines 40-71. *)
Definition combined4 : numflux V :=
  FluxN [-1; 0; 1; 2]%Z (fun d us =>
    match us with
    | [um; u0; u1; u2] =>
        (vadd (vscal (4 / 3) (fst (f d u0 u1)))
              (vscal (-1) (vscal (1 / 6) (vadd (fst (f d um u1)) (fst (f d u0 u2))))),
         Rmax (Rmax (Rmax 0 (snd (f d u0 u1))) (snd (f d um u1))) (snd (f d u0 u2)))
    | _ => (vzero, 0)
    end).

(** TecnoCombined6.hpp lines 40-75. *)
Definition combined6 : numflux V :=
  FluxN [-2; -1; 0; 1; 2; 3]%Z (fun d us =>
    match us with
    | [umm; um; u0; u1; u2; u3] =>
        (vadd (vadd (vscal (3 / 2) (fst (f d u0 u1)))
                    (vscal (-1) (vscal (3 / 10) (vadd (fst (f d um u1)) (fst (f d u0 u2))))))
              (vscal (1 / 30) (vadd (vadd (fst (f d umm u1)) (fst (f d um u2))) (fst (f d u0 u3)))),
         Rmax (Rmax (Rmax (Rmax (Rmax (Rmax 0 (snd (f d u0 u1))) (snd (f d um u1))) (snd (f d u0 u2)))
              (snd (f d umm u1))) (snd (f d um u2))) (snd (f d u0 u3)))
    | _ => (vzero, 0)
    end).
End Combined.
