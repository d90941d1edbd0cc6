(** Model of the structure functions.
    Code: /repo/alsfvm/include/alsfvm/functional/structure_common.hpp,
    /repo/alsfvm/include/alsfvm/boundary/ValueAtBoundary.hpp,
    /repo/alsuq/src/stats/StructureCube.cpp, StructureBasic.cpp,
    StructureTwoPoints.cpp, /repo/alsfvm/src/functional/StructureCube.cpp,
    StructureBase.cpp, /repo/alsutils/include/alsutils/math/FastPower.hpp.

    One conserved variable is followed.  A volume is an area [u] with its ghost
    cell numbers [g] per direction; getNumberOfXCells() is without ghost cells.
    int arithmetic is exact except for the product of the cell numbers, which is
    [UB] when it leaves the range of int.  The power [p], a double in the C++, is
    an integer. *)
From Coq Require Import ZArith Reals List Bool.
From Verif Require Import M_Base M_Sim M_Memory M_Stats.
Import ListNotations.
Open Scope Z_scope.

(** Volume::getNumberOfXCells etc., Volume.cpp lines 44-60, 258-277. *)
Definition inner (g : cell) (u : vol R) : cell :=
  let '(gx, gy, gz) := g in (vnx u - 2 * gx, vny u - 2 * gy, vnz u - 2 * gz).

(** Volume::getDimensions, Volume.cpp lines 279-287. *)
Definition inner_dimensions (n : cell) : Z :=
  let '(_, ny, nz) := n in if ny =? 1 then 1 else if nz =? 1 then 2 else 3.

(** The int expression nx * ny * nz. *)
Definition is_int (z : Z) : bool := (- 2 ^ 31 <=? z) && (z <? 2 ^ 31).
Definition int_cells (n : cell) : res Z :=
  let '(nx, ny, nz) := n in
  if is_int (nx * ny) && is_int (nx * ny * nz) then Ok (nx * ny * nz) else UB.

(** * ValueAtBoundary.hpp *)

Inductive btype : Type := Periodic | Neumann | OtherBC.

(** makePositive, lines 43-50: while (position < 0) position += N.  Without
    progress (N <= 0) the loop leaves the range of int. *)
Fixpoint positive_loop (fuel : nat) (position N : Z) : res Z :=
  if position <? 0 then
    match fuel with
    | O => UB
    | S fuel' => positive_loop fuel' (position + N) N
    end
  else Ok position.
Definition make_positive (position N : Z) : res Z :=
  positive_loop (Z.to_nat (- position)) position N.

(** The C++ operator %; by zero undefined. *)
Definition crem (a b : Z) : res Z := if b =? 0 then UB else Ok (Z.rem a b).

(** getValueAtBoundary, lines 23-40 (periodic) and 66-94 (Neumann); the access is
    by linear index without bounds checks. *)
Definition value_at (b : btype) (v : vol R) (pos n g : cell) : res R :=
  let '(x, y, z) := pos in
  let '(nx, ny, nz) := n in
  let '(gx, gy, gz) := g in
  match b with
  | Periodic =>
      px <- make_positive x nx;; py <- make_positive y ny;; pz <- make_positive z nz;;
      mx <- crem px nx;; my <- crem py ny;; mz <- crem pz nz;;
      mload v (index (vnx v) (vny v) (mx + gx) (my + gy) (mz + gz))
  | Neumann =>
      let ix := Z.max 0 (Z.min x (nx - 1)) in
      let iy := Z.max 0 (Z.min y (ny - 1)) in
      let iz := Z.max 0 (Z.min z (nz - 1)) in
      mload v (index (vnx v) (vny v) (ix + gx) (iy + gy) (iz + gz))
  | OtherBC => Throw
  end.

(** * structure_common.hpp *)

(** forEachPointInComputeStructureCube, lines 48-102: the positions
    discretePositionPlusH in loop order, [body] being the rest of the loop
    body. *)
Definition cube_for_each {S} (body : cell -> S -> res S) (dimensions i j k h : Z) (s : S) : res S :=
  for_ 0 dimensions (fun d => for_ 0 2 (fun side s =>
    let zDir := d =? 2 in
    let yDir := d =? 1 in
    let xDir := d =? 0 in
    let zStart := if zDir then (if side =? 0 then k - h else k + h)
                  else (if 2 <? dimensions then k - h else 0) in
    let zEnd := if zDir then zStart + 1 else (if 2 <? dimensions then k + h + 1 else 1) in
    let yStart := if yDir then (if side =? 0 then j - h else j + h)
                  else (if dimensions =? 2 then j - h + 1
                        else if dimensions =? 3 then j - h + 1 else 0) in
    let yEnd := if yDir then yStart + 1
                else (if dimensions =? 2 then j + h else if dimensions =? 3 then j + h else 1) in
    let xStart0 := if xDir then (if side =? 0 then i - h else i + h) else i - h in
    let xEnd0 := if xDir then xStart0 + 1 else i + h + 1 in
    let xStart := if zDir then xStart0 + 1 else xStart0 in
    let xEnd := if zDir then xEnd0 - 1 else xEnd0 in
    for3 zStart zEnd yStart yEnd xStart xEnd (fun x y z => body (x, y, z)) s)) s.

(** FastPower<p>, FastPower.hpp lines 16-24. *)
Fixpoint fast_power (p : nat) (x : R) : R :=
  match p with
  | O => x
  | S O => x
  | S p' => (x * fast_power p' x)%R
  end.

(** The power class chosen by dispatchComputeStructureCubeCPU, lines 156-180. *)
Definition dispatch_power (p : Z) (x : R) : R :=
  if p =? 1 then fast_power 1 x
  else if p =? 2 then fast_power 2 x
  else if p =? 3 then fast_power 3 x
  else if p =? 4 then fast_power 4 x
  else if p =? 5 then fast_power 5 x
  else cpow x p.

(** computeStructureCube, lines 105-116. *)
Definition compute_structure_cube (b : btype) (pw : R -> R) (u : vol R) (g : cell)
    (i j k h : Z) (out : vol R) : res (vol R) :=
  let '(gx, gy, gz) := g in
  a <- vload u (i + gx) (j + gy) (k + gz);;
  cube_for_each (fun pos o =>
    c <- value_at b u pos (inner g u) g;;
    old <- mload o h;;
    cells <- int_cells (inner g u);;
    mstore o h (old + pw (Rabs (a - c)) / IZR cells)%R)
    (inner_dimensions (inner g u)) i j k h out.

(** computeStructureCubeCPU, lines 121-154. *)
Definition structure_cube_cpu (b : btype) (numberOfH p : Z) (g : cell) (u out : vol R) : res (vol R) :=
  let '(nx, ny, nz) := inner g u in
  for3 0 nz 0 ny 0 nx (fun i j k => for_ 1 numberOfH (fun h =>
    compute_structure_cube b (dispatch_power p) u g i j k h)) out.

(** The conditions on the boundary types, functional/StructureCube.cpp lines 38-62
    (stats/StructureCube.cpp lines 46-73 are the same).  [bc] gives the type of
    each side; getActiveBoundaryConditions is Grid.cpp lines 181-189. *)
Definition bt_eqb (a b : btype) : bool :=
  match a, b with
  | Periodic, Periodic | Neumann, Neumann | OtherBC, OtherBC => true
  | _, _ => false
  end.
Definition structure_cube_checked (bc : Z -> btype) (dims numberOfH p : Z) (g : cell) (u out : vol R)
  : res (vol R) :=
  if forallb (fun side => bt_eqb (bc side) (bc 0)) (zrange 0 (2 * dims))
  then match bc 0 with
       | Periodic => structure_cube_cpu Periodic numberOfH p g u out
       | Neumann => structure_cube_cpu Neumann numberOfH p g u out
       | OtherBC => Throw
       end
  else Throw.

(** The statistic structure_cube, stats/StructureCube.cpp lines 36-76. *)
Definition structure_cube_statistic (bc : Z -> btype) (dims numberOfH p : Z) (g : cell) : statistic :=
  [mkitem 0 (fun _ => (numberOfH, 1, 1)) (fun s u => structure_cube_checked bc dims numberOfH p g u s)].

(** The functional structure_cube, functional/StructureCube.cpp lines 31-64: the
    output is zeroed first, the weight is not used. *)
Definition structure_cube_functional (bc : Z -> btype) (dims numberOfH p : Z) (g : cell)
    (out u : vol R) (weight : R) : res (vol R) :=
  z <- mem_zero out;; structure_cube_checked bc dims numberOfH p g u z.

(** * StructureBasic.cpp *)

(** computeStructure, lines 67-120. *)
Definition structure_basic_loop (b : btype) (numberOfH p direction : Z) (g : cell) (u out : vol R)
  : res (vol R) :=
  let '(nx, ny, nz) := inner g u in
  let '(gx, gy, gz) := g in
  let '(dx, dy, dz) := direction_vector direction in
  for3 0 nz 0 ny 0 nx (fun i j k => for_ 0 numberOfH (fun h o =>
    a <- vload u (i + gx) (j + gy) (k + gz);;
    c <- value_at b u (i + h * dx, j + h * dy, k + h * dz) (inner g u) g;;
    old <- vload o h 0 0;;
    cells <- int_cells (inner g u);;
    vstore o h 0 0 (old + cpow (Rabs (a - c)) p / IZR cells)%R)) out.

(** computeStatistics, lines 39-61; getBoundaryCondition(direction) is the entry
    [direction] of the array of the six sides (Grid.cpp lines 173-175). *)
Definition structure_basic_item (bc : Z -> btype) (numberOfH p direction : Z) (g : cell) (s u : vol R)
  : res (vol R) :=
  match bc direction with
  | Periodic => structure_basic_loop Periodic numberOfH p direction g u s
  | Neumann => structure_basic_loop Neumann numberOfH p direction g u s
  | OtherBC => Throw
  end.
Definition structure_basic (bc : Z -> btype) (numberOfH p direction : Z) (g : cell) : statistic :=
  [mkitem 0 (fun _ => (numberOfH, 1, 1)) (fun s u => structure_basic_item bc numberOfH p direction g s u)].

(** * StructureTwoPoints.cpp lines 58-101 *)

(** The numbers nx, ny, nz of lines 68-70: the ghost cells are subtracted from
    the numbers of cells without ghost cells. *)
Definition twice_inner (g : cell) (u : vol R) : cell :=
  let '(nx, ny, nz) := inner g u in
  let '(gx, gy, gz) := g in (nx - 2 * gx, ny - 2 * gy, nz - 2 * gz).

Definition structure_two_points_loop (numberOfH direction1 direction2 : Z) (g : cell) (u out : vol R)
  : res (vol R) :=
  let '(nx, ny, nz) := twice_inner g u in
  let '(gx, gy, gz) := g in
  let '(dx, dy, dz) := direction_vector direction1 in
  for3 0 nz 0 ny 0 nx (fun i j k o =>
    a <- vload u (i + gx) (j + gy) (k + gz);;
    for_ 0 numberOfH (fun h1 o =>
      a1 <- vload u (Z.min (i + h1 * dx) (nx - 1) + gx) (Z.min (j + h1 * dy) (ny - 1) + gy)
                    (Z.min (k + h1 * dz) (nz - 1) + gz);;
      for_ 0 numberOfH (fun h2 o =>
        a2 <- vload u (Z.rem (Z.min (i + h2 * dx) (nx - 1)) nx + gx)
                      (Z.rem (Z.min (j + h2 * dy) (ny - 1)) ny + gy)
                      (Z.rem (Z.min (k + h2 * dz) (nz - 1)) nz + gz);;
        old <- vload o h1 h2 0;;
        cells <- int_cells (twice_inner g u);;
        vstore o h1 h2 0 (old + (a1 - a) * (a1 - a) * (a2 - a) / IZR cells)%R) o) o) out.
Definition structure_two_points (numberOfH direction1 direction2 : Z) (g : cell) : statistic :=
  [mkitem 0 (fun _ => (numberOfH, numberOfH, 1))
     (fun s u => structure_two_points_loop numberOfH direction1 direction2 g u s)].

(** * The functional structure_base, functional/StructureBase.cpp lines 32-88 *)
Definition structure_base_functional (numberOfH p direction : Z) (g : cell)
    (out u : vol R) (weight : R) : res (vol R) :=
  let '(nx, ny, nz) := twice_inner g u in
  let '(gx, gy, gz) := g in
  let '(dx, dy, dz) := direction_vector direction in
  for3 0 nz 0 ny 0 nx (fun i j k => for_ 0 numberOfH (fun h o =>
    a <- vload u (i + gx) (j + gy) (k + gz);;
    c <- vload u (Z.rem (i + h * dx) nx + gx) (Z.rem (j + h * dy) ny + gy) (Z.rem (k + h * dz) nz + gz);;
    old <- vload o h 0 0;;
    cells <- int_cells (twice_inner g u);;
    vstore o h 0 0 (old + cpow (Rabs (a - c)) p / IZR cells)%R)) out.
