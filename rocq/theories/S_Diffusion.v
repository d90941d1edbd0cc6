(** Specification of the entropy dissipation term, on fields [u : cell -> V]. *)
From Coq Require Import ZArith Reals List Bool.
From Verif Require Import M_Base M_Vec M_Flux M_Diffusion S_Boundary S_Flux S_Sum.
Import ListNotations.
Open Scope R_scope.

Section Spec.
Context {V : cvars} (bs : basis V).

(** Inner product of two vectors of variables. *)
Definition inner (a b : V) : R := fold_right Rplus 0 (map (fun p => fst p * snd p) (combine (comps bs a) (comps bs b))).

(** Sum of w_i <r_i, x> r_i over the columns r_i: the matrix R diag(w) R^T
    applied to x. *)
Definition rank_sum (cols : list V) (w : list R) (x : V) : V :=
  fold_right (fun p acc => vadd (vscal (snd p * inner (fst p) x) (fst p)) acc) vzero (combine cols w).

(** Weights of the two dissipation matrices: |lambda_i|, or the largest. *)
Definition is_weights (m : dmatrix) (eigs w : list R) : Prop :=
  length w = length eigs /\
  match m with
  | Roe => forall i, (i < length eigs)%nat -> nth i w 0 = Rabs (nth i eigs 0)
  | RusanovM => forall i, (i < length eigs)%nat ->
      (forall j, (j < length eigs)%nat -> Rabs (nth j eigs 0) <= nth i w 0) /\
      exists j, (j < length eigs)%nat /\ nth i w 0 = Rabs (nth j eigs 0)
  end.

(** The dissipation at the interface between states [l] and [r]: half of
    R |Lambda| R^T (v(r) - v(l)), R and Lambda at the average state. *)
Definition dissipation (eq : diff_eq (V := V)) (m : dmatrix) (d : Z) (l r : V) : V :=
  let s := average l r in
  vscal (1 / 2) (rank_sum (dcols eq d s) (weights m (deigs eq d s)) (vadd (dentropy eq r) (vscal (-1) (dentropy eq l)))).

(** Added to a cell: dissipation at its right face minus that at its left
    face, over all directions. *)
Definition diffusion_term (eq : diff_eq (V := V)) (m : dmatrix) (dims : Z) (u : cell -> V) (c : cell) : V :=
  fold_left (fun a d =>
      vadd a (vadd (dissipation eq m d (u c) (u (move d 1 c)))
                   (vscal (-1) (dissipation eq m d (u (move d (-1) c)) (u c)))))
    (zrange 0 dims) vzero.

(** Matrices of the right size. *)
Definition square (eq : diff_eq (V := V)) : Prop :=
  forall d s, length (dcols eq d s) = bdim bs /\ length (deigs eq d s) = bdim bs.
End Spec.

(** Extents of the operator's volumes. *)
Definition ext_dstate {V : cvars} (dims g nx ny nz : Z) (s : dstate (V := V)) : Prop :=
  ext dims g nx ny nz (d_el s) /\ ext dims g nx ny nz (d_er s) /\
  ext dims g nx ny nz (d_left s) /\ ext dims g nx ny nz (d_right s).
