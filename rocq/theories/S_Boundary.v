(** What boundary conditions mean, independently of the sweeps. *)
From Coq Require Import ZArith Bool.
From Verif Require Import M_Base.
Open Scope Z_scope.

(** Extents of a scalar area with [g] ghost cells in each of the first [dims]
    directions around [nx] x [ny] x [nz] interior cells. *)
Definition has_extents {A} (v : vol A) (dims g nx ny nz : Z) : Prop :=
  vnx v = nx + 2 * g /\
  vny v = (if 1 <? dims then ny + 2 * g else ny) /\
  vnz v = (if 2 <? dims then nz + 2 * g else nz).

(** Is the coordinate one of the [n] interior positions? *)
Definition interior1 (g n t : Z) : Prop := g <= t < g + n.

Definition interior (dims g nx ny nz : Z) (c : cell) : Prop :=
  let '(x, y, z) := c in
  interior1 g nx x /\
  (if 1 <? dims then interior1 g ny y else 0 <= y < ny) /\
  (if 2 <? dims then interior1 g nz z else 0 <= z < nz).

Definition in_volume (dims g nx ny nz : Z) (c : cell) : Prop :=
  let '(x, y, z) := c in
  0 <= x < nx + 2 * g /\
  (if 1 <? dims then 0 <= y < ny + 2 * g else 0 <= y < ny) /\
  (if 2 <? dims then 0 <= z < nz + 2 * g else 0 <= z < nz).

(** Periodic image of a coordinate: the interior position congruent modulo the
    number of interior cells. *)
Definition periodic1 (g n t : Z) : Z := g + (t - g) mod n.

(** Mirror image at the nearest face. *)
Definition mirror1 (g n t : Z) : Z :=
  if t <? g then 2 * g - 1 - t
  else if g + n <=? t then 2 * (g + n) - 1 - t
  else t.

(** Apply a coordinate map in the first [dims] directions. *)
Definition image (im : Z -> Z -> Z -> Z) (dims g nx ny nz : Z) (c : cell) : cell :=
  let '(x, y, z) := c in
  (im g nx x, if 1 <? dims then im g ny y else y, if 2 <? dims then im g nz z else z).

(** A side handled by MPI is left alone: coordinates beyond it keep their
    position. *)
Definition masked (lo hi : bool) (im : Z -> Z -> Z -> Z) (g n t : Z) : Z :=
  if (lo && (t <? g)) || (hi && (g + n <=? t)) then t else im g n t.

Definition image_masked (mpi : Z -> bool) (im : Z -> Z -> Z -> Z)
    (dims g nx ny nz : Z) (c : cell) : cell :=
  let '(x, y, z) := c in
  (masked (mpi 0) (mpi 1) im g nx x,
   if 1 <? dims then masked (mpi 2) (mpi 3) im g ny y else y,
   if 2 <? dims then masked (mpi 4) (mpi 5) im g nz z else z).
