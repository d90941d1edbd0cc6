(** Sums over boxes of cells. *)
From Coq Require Import ZArith Reals List.
From Verif Require Import M_Base S_Boundary.
Open Scope R_scope.

(** f(lo) + ... + f(hi - 1) *)
Definition sumz (lo hi : Z) (f : Z -> R) : R :=
  fold_right Rplus 0 (map f (zrange lo hi)).

(** Sum over the cells with lo k <= coordinate k < hi k for k = 0, 1, 2. *)
Definition sum3 (lo hi : Z -> Z) (f : cell -> R) : R :=
  sumz (lo 2%Z) (hi 2%Z) (fun z => sumz (lo 1%Z) (hi 1%Z) (fun y =>
    sumz (lo 0%Z) (hi 0%Z) (fun x => f (x, y, z)))).

(** Bounds of the interior cells: the first [dims] directions have [g] ghost
    cells on either side of [n k] interior cells. *)
Definition ilo (dims g : Z) (k : Z) : Z := if (k <? dims)%Z then g else 0%Z.
Definition ihi (dims g : Z) (n : Z -> Z) (k : Z) : Z :=
  if (k <? dims)%Z then (g + n k)%Z else n k.

Definition isum (dims g : Z) (n : Z -> Z) (f : cell -> R) : R :=
  sum3 (ilo dims g) (ihi dims g n) f.

Definition upd (b : Z -> Z) (d t : Z) (k : Z) : Z := if (k =? d)%Z then t else b k.

(** The vector (nx, ny, nz). *)
Definition nvec (nx ny nz k : Z) : Z :=
  if (k =? 0)%Z then nx else if (k =? 1)%Z then ny else nz.
