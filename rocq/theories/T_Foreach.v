(** C01: property theorems. *)
From Coq Require Import ZArith List Bool Lia.
From Verif Require Import M_Base M_Foreach L_Base L_Foreach.
Import ListNotations.
Open Scope Z_scope.

(** The linear index maps the cells of a volume one-to-one onto
    0 .. nx*ny*nz-1. *)
Theorem C01_index_bijective :
  forall nx ny nz, 1 <= nx -> 1 <= ny ->
  (forall x y z, 0 <= x < nx -> 0 <= y < ny -> 0 <= z < nz ->
     0 <= index nx ny x y z < nx * ny * nz) /\
  (forall x y z x' y' z', 0 <= x < nx -> 0 <= y < ny -> 0 <= z < nz ->
     0 <= x' < nx -> 0 <= y' < ny -> 0 <= z' < nz ->
     index nx ny x y z = index nx ny x' y' z' -> (x, y, z) = (x', y', z')) /\
  (forall i, 0 <= i < nx * ny * nz ->
     exists x y z, 0 <= x < nx /\ 0 <= y < ny /\ 0 <= z < nz /\ i = index nx ny x y z).
Proof.
  intros nx ny nz Hx Hy. split; [|split].
  - exact (index_range nx ny nz).
  - intros x y z x' y' z' H1 H2 H3 H4 H5 H6 E.
    destruct (index_inj nx ny x y z x' y' z' H1 H4 H2 H5 E) as (-> & -> & ->). reflexivity.
  - exact (fun i => index_surj nx ny nz i Hx Hy).
Qed.
Print Assumptions C01_index_bijective.

(** Each cell of the requested box is visited exactly once, nothing else. *)
Theorem C01_for_each_visits_box_once :
  forall nx ny nz sx sy sz ex ey ez,
  1 <= nx -> 1 <= ny -> 1 <= nz -> nx * ny * nz < two64 ->
  0 <= sx < two64 -> 0 <= sy < two64 -> 0 <= sz < two64 ->
  0 <= ex <= nx -> 0 <= ey <= ny -> 0 <= ez <= nz ->
  exists visited : list Z,
    NoDup visited /\
    (forall i, In i visited <->
       exists x y z, sx <= x < nx - ex /\ sy <= y < ny - ey /\ sz <= z < nz - ez /\
                     i = z * (nx * ny) + y * nx + x) /\
    (forall i, In i visited -> 0 <= i < nx * ny * nz) /\
    (forall S (f : Z -> S -> res S) s,
       for_each_cell_index nx ny nz (sx, sy, sz) (ex, ey, ez) f s = fold_res f visited s).
Proof. exact for_each_visits. Qed.
Print Assumptions C01_for_each_visits_box_once.

Example C01_nonvacuous :
  1 <= 4 /\ 1 <= 3 /\ 1 <= 2 /\ 4 * 3 * 2 < two64 /\
  for_each_cell_index 4 3 2 (1, 0, 1) (1, 1, 0) (fun i l => Ok (l ++ [i])) []
  = Ok [13; 14; 17; 18].
Proof. repeat split; try reflexivity; discriminate. Qed.

(** With an end offset larger than the extent the unsigned difference wraps
    and the function is called for a position outside the volume: the
    traversal does not degenerate to an empty one. *)
Theorem C01_oversized_offset_refuted :
  exists nx ny nz ex, 1 <= nx /\ 1 <= ny /\ 1 <= nz /\ nx * ny * nz < two64 /\
    0 <= ex /\
    forall S (f : Z -> S -> res S) s,
      exists first rest, ~ (0 <= first < nx * ny * nz) /\
      for_each_cell_index nx ny nz (1, 0, 0) (ex, 0, 0) f s = fold_res f (first :: rest) s.
Proof. exact for_each_wraps. Qed.
Print Assumptions C01_oversized_offset_refuted.

(** The traversal with neighbours used by the diffusion operators: every cell
    that has both neighbours in direction [d] is visited once, with the linear
    positions of exactly these neighbours, and none is outside the volume. *)
Theorem C01_neighbour_traversal :
  forall d nx ny nz, (d = 0 \/ d = 1 \/ d = 2) ->
  1 <= nx -> 1 <= ny -> 1 <= nz -> nx * ny * nz < two64 ->
  exists visited : list (Z * Z * Z),
    NoDup visited /\
    (forall l m r, In (l, m, r) visited <->
       exists x y z,
         b2z (d =? 0) <= x < nx - b2z (d =? 0) /\
         b2z (d =? 1) <= y < ny - b2z (d =? 1) /\
         b2z (d =? 2) <= z < nz - b2z (d =? 2) /\
         l = (z - b2z (d =? 2)) * (nx * ny) + (y - b2z (d =? 1)) * nx + (x - b2z (d =? 0)) /\
         m = z * (nx * ny) + y * nx + x /\
         r = (z + b2z (d =? 2)) * (nx * ny) + (y + b2z (d =? 1)) * nx + (x + b2z (d =? 0))) /\
    (forall l m r, In (l, m, r) visited ->
       0 <= l < nx * ny * nz /\ 0 <= m < nx * ny * nz /\ 0 <= r < nx * ny * nz) /\
    (forall S (f : Z -> Z -> Z -> S -> res S) s,
       let e := (b2z (d =? 0), b2z (d =? 1), b2z (d =? 2)) in
       for_each_cell_index_with_neighbours d nx ny nz e e f s =
       fold_res (fun p => let '(l, m, r) := p in f l m r) visited s).
Proof. exact for_each_neighbours_visits. Qed.
Print Assumptions C01_neighbour_traversal.

(** Initial data: each interior cell is filled once, from the midpoint of the
    grid cell with the same coordinates. *)
Theorem C01_midpoints_match_cells :
  forall nx ny nz gx gy gz,
  1 <= nx -> 1 <= ny -> 1 <= nz -> 0 <= gx -> 0 <= gy -> 0 <= gz ->
  (nx + 2 * gx) * (ny + 2 * gy) * (nz + 2 * gz) < two64 ->
  exists visited : list cell,
    NoDup visited /\
    (forall i j k, In (i, j, k) visited <-> 0 <= i < nx /\ 0 <= j < ny /\ 0 <= k < nz) /\
    (forall S (f : Z -> Z -> cell -> S -> res S) s,
       for_each_midpoint (nx + 2 * gx) (ny + 2 * gy) (nz + 2 * gz) gx gy gz nx ny f s =
       fold_res (fun c => let '(i, j, k) := c in
                   f ((k + gz) * ((nx + 2 * gx) * (ny + 2 * gy))
                      + (j + gy) * (nx + 2 * gx) + (i + gx))
                     (k * (nx * ny) + j * nx + i) (i, j, k)) visited s).
Proof. exact for_each_midpoint_visits. Qed.
Print Assumptions C01_midpoints_match_cells.

Example C01_midpoints_nonvacuous :
  for_each_midpoint 4 1 1 1 0 0 2 1 (fun i m c l => Ok (l ++ [(i, m, c)])) []
  = Ok [(1, 0, (0, 0, 0)); (2, 1, (1, 0, 0))].
Proof. reflexivity. Qed.
