(** Specification: the dissipation with reconstructed entropy variables.
    [f] is the field along the direction, at offsets from a cell. *)
From Coq Require Import ZArith Reals List Bool.
From Verif Require Import M_Base M_Vec M_Flux M_Scalar M_Recon M_Diffusion S_Boundary S_Flux S_Sum S_Diffusion.
Import ListNotations.
Open Scope R_scope.

(** The sequence with value [a] at 0 and increments [J]. *)
Definition walk (a : R) (J : Z -> R) (o : Z) : R := a + sumz 0 o J - sumz o 0 J.

Section Spec.
Context {V : cvars} (bs : basis V) (eq : diff_eq (V := V)) (m : dmatrix).
Variables (k : nat) (d : Z).

(** Eigenvectors at the face between cells j and j + 1. *)
Definition face_cols (f : Z -> V) (j : Z) : list V := dcols eq d (average (f (j + 1)%Z) (f j)).
(** Entropy variables of cell j in the eigenvector coordinates of its left and of
    its right face. *)
Definition scaled_left (f : Z -> V) (j : Z) (i : nat) : R :=
  inner bs (nth i (face_cols f (j - 1)) vzero) (dentropy eq (f j)).
Definition scaled_right (f : Z -> V) (j : Z) (i : nat) : R :=
  inner bs (nth i (face_cols f j) vzero) (dentropy eq (f j)).
(** Their jump at the face between j and j + 1. *)
Definition face_jump (f : Z -> V) (j : Z) (i : nat) : R := scaled_left f (j + 1) i - scaled_right f j i.

(** ENO reconstruction in cell j of the sequence that starts at scaled_left and
    has the face jumps as increments. *)
Definition tecno_rec (f : Z -> V) (j : Z) (i : nat) : R * R :=
  let lr := eno (V := scalar_cvars) k (fun x => x) (walk (scaled_left f j i) (fun o => face_jump f (j + o) i)) in
  (fst lr, snd lr + (scaled_right f j i - scaled_left f j i)).
(** Jump of the reconstructed values at the face between 0 and 1. *)
Definition rec_jump (f : Z -> V) (i : nat) : R := fst (tecno_rec f 1 i) - snd (tecno_rec f 0 i).

(** sum_i w_i r_i col_i *)
Definition col_sum (cols : list V) (w : list R) (r : nat -> R) : V :=
  fold_right (fun i acc => vadd (vscal (nth i w 0 * r i) (nth i cols vzero)) acc) vzero (seq 0 (bdim bs)).

Definition rec_dissipation (f : Z -> V) : V :=
  vscal (1 / 2) (col_sum (face_cols f 0) (weights m (deigs eq d (average (f 1%Z) (f 0%Z)))) (rec_jump f)).
End Spec.

(** The field near a cell. *)
Definition along {V : cvars} (d : Z) (u : cell -> V) (c : cell) (o : Z) : V := u (move d o c).

(** Added to a cell by a quantity on the faces: right face minus left face over
    all directions; [F d c] belongs to the face between c and its neighbour. *)
Definition face_term {V : cvars} (dims : Z) (F : Z -> cell -> V) (c : cell) : V :=
  fold_left (fun a d => vadd a (vadd (F d c) (vscal (-1) (F d (move d (-1) c))))) (zrange 0 dims) vzero.

(** What the operator should add. *)
Definition rec_diffusion_term {V : cvars} (bs : basis V) eq m (k : nat) (dims : Z) (u : cell -> V) : cell -> V :=
  face_term dims (fun d c => rec_dissipation bs eq m k d (along d u c)).
