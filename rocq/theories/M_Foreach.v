(** Traversal of volumes. *)
From Coq Require Import ZArith List Bool.
From Verif Require Import M_Base.
Import ListNotations.
Open Scope Z_scope.

(** size_t is 64 bits wide (the LP64 platforms alsvinn is built for). *)
Definition two64 : Z := 18446744073709551616.
Definition wrap64 (n : Z) : Z := n mod two64.

(** for_each_cell_index,
    /repo/alsfvm/include/alsfvm/volume/volume_foreach.hpp lines 43-62.
    The end of each range is computed in size_t and wraps; the int offsets are
    converted to size_t.  [f] is the function passed in, with its effect on an
    arbitrary state. *)
Definition for_each_cell_index {S} (nx ny nz : Z) (offs offe : cell)
    (f : Z -> S -> res S) (s : S) : res S :=
  let '(sx, sy, sz) := offs in
  let '(ex, ey, ez) := offe in
  let endx := wrap64 (nx - ex) in
  let endy := wrap64 (ny - ey) in
  let endz := wrap64 (nz - ez) in
  for3 (wrap64 sz) endz (wrap64 sy) endy (wrap64 sx) endx
       (fun i j k => f (wrap64 (k * nx * ny + j * nx + i))) s.

(** for_each_cell_index_with_neighbours, volume_foreach.hpp lines 71-99:
    the function gets the left, middle and right linear index. *)
Definition for_each_cell_index_with_neighbours {S} (d : Z) (nx ny nz : Z)
    (offs offe : cell) (f : Z -> Z -> Z -> S -> res S) (s : S) : res S :=
  let '(sx, sy, sz) := offs in
  let '(ex, ey, ez) := offe in
  let xd := b2z (d =? 0) in
  let yd := b2z (d =? 1) in
  let zd := b2z (d =? 2) in
  let ix x y z := wrap64 (index nx ny x y z) in
  for3 (wrap64 sz) (wrap64 (nz - ez)) (wrap64 sy) (wrap64 (ny - ey))
       (wrap64 sx) (wrap64 (nx - ex))
       (fun x y z => f (ix (x - xd) (y - yd) (z - zd)) (ix x y z)
                       (ix (x + xd) (y + yd) (z + zd))) s.

(** for_each_midpoint, volume_foreach.hpp lines 441-476: visits the interior
    cells and passes the linear index in the volume, the linear index of the
    midpoint in the grid, and the interior coordinates.  [nx] etc. are the
    totals including the ghost cells, [gx] etc. the ghost widths, [nxg], [nyg]
    the grid dimensions. *)
Definition for_each_midpoint {S} (nx ny nz gx gy gz nxg nyg : Z)
    (f : Z -> Z -> cell -> S -> res S) (s : S) : res S :=
  for3 gz (wrap64 (nz - gz)) gy (wrap64 (ny - gy)) gx (wrap64 (nx - gx))
       (fun i j k =>
          f (wrap64 (k * nx * ny + j * nx + i))
            (wrap64 ((k - gz) * nxg * nyg + (j - gy) * nxg + (i - gx)))
            (i - gx, j - gy, k - gz)) s.
