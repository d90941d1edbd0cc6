(** What statistics over samples mean. *)
From Coq Require Import ZArith Reals List Permutation.
From Verif Require Import M_Base S_Sum.
Import ListNotations.
Open Scope R_scope.

(** The results MPI_Reduce with MPI_SUM may give for contributions [l] in exact
    arithmetic: any order of the contributions and any bracketing. *)
Inductive reduction : list R -> R -> Prop :=
| red_one a : reduction [a] a
| red_join l l1 l2 r1 r2 :
    reduction l1 r1 -> reduction l2 r2 -> Permutation l (l1 ++ l2) -> reduction l (r1 + r2).

(** Sum over a list. *)
Definition suml {A} (f : A -> R) (l : list A) : R := fold_right (fun a r => f a + r) 0 l.

(** Mean over the samples 0, ..., M - 1. *)
Definition sample_mean (M : Z) (f : Z -> R) : R := sumz 0 M f / IZR M.

Definition sample_variance (M : Z) (f : Z -> R) : R :=
  sample_mean M (fun s => (f s - sample_mean M f) ^ 2).

(** Extents of an area, and its number of elements. *)
Definition has_dims (d : cell) (v : vol R) : Prop :=
  let '(nx, ny, nz) := d in vnx v = nx /\ vny v = ny /\ vnz v = nz.
Definition dsize (d : cell) : Z := let '(nx, ny, nz) := d in (nx * ny * nz)%Z.

(** The samples 0, ..., M - 1 are distributed over processes, all of which have
    some. *)
Definition distribution_of (M : Z) (assign : list (list Z)) : Prop :=
  assign <> [] /\ Permutation (concat assign) (zrange 0 M) /\ Forall (fun l => l <> []) assign.

(** The calls made on a process with the samples [ids]: each sample is looked at
    at the times [ts]; [u s t] is sample [s] at time [t]. *)
Definition calls_of (u : Z -> Z -> vol R) (ts ids : list Z) : list (Z * vol R) :=
  flat_map (fun s => map (fun t => (t, u s t)) ts) ids.
