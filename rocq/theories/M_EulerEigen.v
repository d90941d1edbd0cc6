(** Eigenvalues and eigenvector matrices of the Euler equations,
    /repo/alsfvm/include/alsfvm/equation/euler/Euler.hpp lines 407-659. *)
From Coq Require Import Reals List ZArith.
From Verif Require Import M_Base M_Vec M_Flux M_Euler.
Import ListNotations.
Open Scope R_scope.

(** The rotated state used in the directions 1 and 2: lines 413-424 and 476-487
    (n = 3), 512-517 and 561-566 (n = 2).  For n = 1 only direction 0 exists. *)
Definition rotate (n d : nat) : cons n -> cons n :=
  match n, d return cons n -> cons n with
  | 2%nat, 1%nat => fun u => mkcons (n := 2) (rho_ u) (fst (snd (mom u)), (- fst (mom u), tt)) (en u)
  | 3%nat, 1%nat => fun u =>
      mkcons (n := 3) (rho_ u) (fst (snd (mom u)), (- fst (mom u), (fst (snd (snd (mom u))), tt))) (en u)
  | 3%nat, 2%nat => fun u =>
      mkcons (n := 3) (rho_ u) (fst (snd (snd (mom u))), (fst (snd (mom u)), (- fst (mom u), tt))) (en u)
  | _, _ => fun u => u
  end.

Section Eigen.
Variable gamma : R.

(** The columns written at lines 433-461 (n = 3) and 527-545 (n = 2), and those
    of lines 605-615 (n = 1) before scaling; [a] the speed of sound, [H] the
    enthalpy, for the state [u] after rotation. *)
Definition enthalpy {n} (u : cons n) : R := (en u + p_p (to_prim n gamma u)) / rho_ u.
Definition soundp {n} (u : cons n) : R := sqrt (gamma * p_p (to_prim n gamma u) / rho_ u).
Definition col_acoustic (m : nat) (s : R) (u : cons (S m)) : cons (S m) :=
  let w := p_u (to_prim (S m) gamma u) in
  mkcons (n := S m) 1 (fst w + s * soundp u, snd w) (enthalpy u + s * (fst w * soundp u)).
Definition col_entropy (m : nat) (u : cons (S m)) : cons (S m) :=
  let w := p_u (to_prim (S m) gamma u) in
  mkcons 1 w (1 / 2 * vdot (S m) w w).

(** matrix::normalized, /repo/alsutils/include/alsutils/mat.hpp lines 103-122:
    every column is divided by its Euclidean norm (sqrtf works in single
    precision; here the exact root). *)
Definition normalized (c : cons 3) : cons 3 :=
  vscal (/ sqrt (rho_ c * rho_ c + vdot 3 (mom c) (mom c) + en c * en c)) c.

(** computeEigenVectorMatrix, as the list of its columns. *)
Definition eigen_columns (n d : nat) (u0 : cons n) : list (cons n) :=
  match n return cons n -> list (cons n) with
  | 1%nat => fun u =>
      let a1 := sqrt (rho_ u / (2 * gamma)) in
      let a2 := sqrt (rho_ u * (gamma - 1) / gamma) in
      [vscal a1 (col_acoustic 0 (-1) u); vscal a2 (col_entropy 0 u); vscal a1 (col_acoustic 0 1 u)]
  | 2%nat => fun u =>
      let w := p_u (to_prim 2 gamma u) in
      [col_acoustic 1 (-1) u; col_entropy 1 u; mkcons (n := 2) 0 (0, (1, tt)) (fst (snd w)); col_acoustic 1 1 u]
  | 3%nat => fun u =>
      let w := p_u (to_prim 3 gamma u) in
      map normalized
      [col_acoustic 2 (-1) u; col_entropy 2 u; mkcons (n := 3) 0 (0, (1, (0, tt))) (fst (snd w));
       mkcons (n := 3) 0 (0, (0, (1, tt))) (fst (snd (snd w))); col_acoustic 2 1 u]
  | _ => fun _ => []
  end (rotate n d u0).

(** computeEigenValues, lines 470-500, 555-580, 646-659. *)
Definition eigen_values (n d : nat) (u0 : cons n) : list R :=
  match n return cons n -> list R with
  | O => fun _ => []
  | S m => fun u =>
      let w := fst (p_u (to_prim (S m) gamma u)) in
      [w - soundp u] ++ repeat w (S m) ++ [w + soundp u]
  end (rotate n d u0).
End Eigen.
