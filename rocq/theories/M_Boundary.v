(** Boundary conditions on the CPU. *)
From Coq Require Import ZArith List Bool.
From Verif Require Import M_Base.
Import ListNotations.
Open Scope Z_scope.

(** Neumann::applyBoundary,
    /repo/alsfvm/include/alsfvm/boundary/Neumann.hpp lines 24-35.
    The C++ computes the coordinates in size_t with a wrapped sign; modulo 2^64
    they are the integers below, and coordinates outside the view are [UB]. *)
Definition neumann_apply {A} (v : vol A) (x y z k g : Z) (top xd yd zd : bool)
  : res (vol A) :=
  let sign := if top then -1 else 1 in
  a <- vload v (x + sign * (k - 1) * b2z xd) (y + sign * (k - 1) * b2z yd)
             (z + sign * (k - 1) * b2z zd);;
  vstore v (x - sign * k * b2z xd) (y - sign * k * b2z yd)
         (z - sign * k * b2z zd) a.

(** Periodic::applyBoundary,
    /repo/alsfvm/include/alsfvm/boundary/Periodic.hpp lines 24-42.
    The int overflow of extents above 2^31 is not modelled. *)
Definition periodic_apply {A} (v : vol A) (x y z k g : Z) (top xd yd zd : bool)
  : res (vol A) :=
  let sign := if top then -1 else 1 in
  let nx := vnx v - 2 * g in
  let ny := vny v - 2 * g in
  let nz := vnz v - 2 * g in
  a <- vload v (x + sign * (- k + nx) * b2z xd) (y + sign * (- k + ny) * b2z yd)
             (z + sign * (- k + nz) * b2z zd);;
  vstore v (x - sign * k * b2z xd) (y - sign * k * b2z yd)
         (z - sign * k * b2z zd) a.

Definition bc_fun (A : Type) : Type :=
  vol A -> Z -> Z -> Z -> Z -> Z -> bool -> bool -> bool -> bool -> res (vol A).

(** Body of the loop over directions and sides,
    /repo/alsfvm/src/boundary/BoundaryCPU.cpp lines 68-100. *)
Definition bc_sweep {A} (bc : bc_fun A) (g d i : Z) (v : vol A) : res (vol A) :=
  let nx := vnx v in
  let ny := vny v in
  let nz := vnz v in
  let zd := d =? 2 in
  let yd := d =? 1 in
  let xd := d =? 0 in
  let zs := if zd then (if i =? 0 then g else nz - g - 1) else 0 in
  let ze := if zd then zs + 1 else nz in
  let ys := if yd then (if i =? 0 then g else ny - g - 1) else 0 in
  let ye := if yd then ys + 1 else ny in
  let xs := if xd then (if i =? 0 then g else nx - g - 1) else 0 in
  let xe := if xd then xs + 1 else nx in
  for3 zs ze ys ye xs xe (fun x y z =>
    for_ 1 (g + 1) (fun k v => bc v x y z k g (i =? 1) xd yd zd)) v.

(** applyBoundary for one memory area, BoundaryCPU.cpp lines 30-106.
    [mpi side] says whether grid.getBoundaryCondition(side) == MPI_BC. *)
Definition apply_boundary {A} (bc : bc_fun A) (dims g : Z) (mpi : Z -> bool)
    (v : vol A) : res (vol A) :=
  if (vnx v <? 2 * g) || ((1 <? dims) && (vny v <? 2 * g))
     || ((2 <? dims) && (vnz v <? 2 * g))
  then Throw
  else
    for_ 0 dims (fun d => for_ 0 2 (fun i v =>
      if mpi (2 * d + i) then Ok v else bc_sweep bc g d i v)) v.

(** The loop over the variables, BoundaryCPU.cpp lines 53-54: the same sweeps
    on each memory area of the volume. *)
Fixpoint map_res {A B} (f : A -> res B) (l : list A) : res (list B) :=
  match l with
  | [] => Ok []
  | a :: l' => b <- f a;; l'' <- map_res f l';; Ok (b :: l'')
  end.

Definition apply_boundary_conditions {A} (bc : bc_fun A) (dims g : Z)
    (mpi : Z -> bool) (areas : list (vol A)) : res (list (vol A)) :=
  map_res (apply_boundary bc dims g mpi) areas.
