(** The functionals and statistics that have an implementation for the GPU.
    Code: /repo/alsfvm/src/functional/IdentityCUDA.cu, LegendrePointWiseCUDA.cu,
    LogEntropyCUDA.cu, StructureCubeCUDA.cu,
    /repo/alsfvm/include/alsfvm/functional/structure_common_cuda.hpp,
    /repo/alsuq/src/stats/StructureBasicCUDA.cu, StructureCubeCUDA.cu.

    Launches are parallel loops over their threads as in M_Cuda, a reduction
    combines its operands in any order ([reduced] of M_Omp).  What a call may
    return is a relation.  One conserved variable is followed, except in
    [over_variables]; [g] are the ghost cell numbers of the input.  Numbers are
    reals; the power [p], a double in the C++, is an integer. *)
From Coq Require Import ZArith Reals List Bool.
From Verif Require Import M_Base M_Flux M_Sim M_Memory M_Omp M_Cuda M_CudaCell M_Legendre M_Stats M_Structure M_Functional.
Import ListNotations.
Open Scope Z_scope.

(** operator()(conservedVolumeOut, conservedVolumeIn, weight, grid). *)
Definition gpu_functional : Type := vol R -> vol R -> R -> res (vol R) -> Prop.

(** The cell a thread works on, e.g. IdentityCUDA.cu lines 34-36: from the extents
    of the area [o]. *)
Definition thread_cell (o : vol R) (i : Z) : cell :=
  (i mod vnx o, (i / vnx o) mod vny o, i / (vnx o * vny o)).
Definition ghosted (g : cell) (u : vol R) (c : cell) : Z :=
  let '(gx, gy, gz) := g in let '(x, y, z) := c in index (vnx u) (vny u) (x + gx) (y + gy) (z + gz).

(** addInnerKernel, IdentityCUDA.cu lines 23-38, and legendreInnerKernel,
    LegendrePointWiseCUDA.cu lines 25-44: one thread per element of the output
    (array 1); the input is array 0.  Launched by IdentityCUDA.cu lines 69-76 and
    LegendrePointWiseCUDA.cu lines 46-61. *)
Definition inner_body (f : R -> R) (g : cell) (out u : vol R) (weight : R) (i : Z) : prog R unit :=
  Fetch 0 (ghosted g u (thread_cell out i)) (fun a =>
  Fetch 1 i (fun old => Store 1 i (old + weight * f a)%R (Ret []))).
Definition inner_kernel (f : R -> R) (g : cell) (out u : vol R) (weight : R) : list (list (prog R unit)) :=
  [linear (vsize out) (inner_body f g out u weight)].
Definition cuda_pointwise (f : R -> R) (g : cell) : gpu_functional := fun out u weight r =>
  exists q,
    outcomes (fun a => if a =? 0 then vsize u else vsize out) (inner_kernel f g out u weight)
      (fun a => if a =? 0 then vdat u else vdat out) q /\
    r = (s <- q;; Ok (mkvol (vnx out) (vny out) (vnz out) (fst s 1))).

(** IdentityCUDA.cu lines 48-85. *)
Definition cuda_identity (g : cell) : gpu_functional := cuda_pointwise (fun a => a) g.

(** LegendrePointWiseCUDA.cu lines 63-107 and 124-163; the polynomials are
    alsutils::math::legendre<degree>. *)
Definition cuda_legendre_pointwise (degree : Z) (minValue maxValue : R) (g : cell) : gpu_functional :=
  fun out u weight r =>
    if (0 <=? degree) && (degree <=? 11)
    then cuda_pointwise (fun a => legendre (Z.to_nat degree) ((a - minValue) / (maxValue - minValue))) g out u weight r
    else r = Throw.

(** The loop over the configured variables, IdentityCUDA.cu lines 53-84 and
    LegendrePointWiseCUDA.cu lines 130-161; LegendrePointWise.cpp does the same.
    Variables are numbered, those of a volume from 0 below [nvars]. *)
Inductive over_variables (F : gpu_functional) (nvars : Z) (u : Z -> vol R) (weight : R)
  : list Z -> (Z -> vol R) -> res (Z -> vol R) -> Prop :=
| over_nil out : over_variables F nvars u weight [] out (Ok out)
| over_unknown v vs out : 0 <=? v = false \/ v <? nvars = false -> over_variables F nvars u weight (v :: vs) out Throw
| over_fails v vs out : 0 <= v < nvars -> F (out v) (u v) weight UB -> over_variables F nvars u weight (v :: vs) out UB
| over_next v vs out o r : 0 <= v < nvars -> F (out v) (u v) weight (Ok o) ->
    over_variables F nvars u weight vs (fun k => if k =? v then o else out k) r ->
    over_variables F nvars u weight (v :: vs) out r.

(** The constructor and the first lines of operator(), IdentityCUDA.cu lines 41-47
    and 53-58: no parameter, or an empty one, means all variables. *)
Definition chosen_variables (parameter : list Z) (nvars : Z) : list Z :=
  match parameter with [] => zrange 0 nvars | _ => parameter end.

(** Identity.cpp lines 22-59 reads no parameter and goes over all variables. *)
Definition identity_all (g : cell) (nvars : Z) (u : Z -> vol R) (weight : R) (out : Z -> vol R)
  : res (Z -> vol R) :=
  for_ 0 nvars (fun v out => o <- identity_functional g (out v) (u v) weight;;
                             Ok (fun k => if k =? v then o else out k)) out.

(** logEntropyKernel, LogEntropyCUDA.cu lines 16-54.  Arrays: 0 the density, 1 the
    energy, 2, 3, ... the momenta, [k] of them.  The element of the buffer the
    thread stores is its contribution. *)
Fixpoint momenta (k : nat) (a i : Z) (acc : R) (next : R -> prog R R) : prog R R :=
  match k with
  | O => next acc
  | S k' => Fetch a i (fun m => momenta k' (a + 1) i (acc + m * m)%R next)
  end.
Definition entropy_body (gamma dxdydz : R) (g : cell) (buffer rho E : vol R) (k : nat) (i : Z) : prog R R :=
  let c := thread_cell buffer i in
  Fetch 0 (ghosted g rho c) (fun density =>
  Fetch 1 (ghosted g E c) (fun energy =>
  momenta k 2 (ghosted g E c) 0%R (fun m2 =>
    let pressure := ((gamma - 1) * (energy - 1 / (2 * density) * m2))%R in
    let s := (ln pressure - gamma * ln density)%R in
    Ret [((- density * s) / (gamma - 1) * dxdydz)%R]))).

(** operator(), lines 110-190: the buffer has the inner cells of the input (it is
    kept from the first call; the sizes of a simulation do not change).
    cub::DeviceReduce::Sum of nothing is 0.  [k] is the number of active dimensions
    of the grid; other numbers than 1, 2 and 3 throw (lines 84-101). *)
Definition cuda_log_entropy (gamma : R) (g : cell) (len : Z -> R) (out rho : vol R) (ms : list (vol R)) (E : vol R)
    (weight : R) (r : res (vol R)) : Prop :=
  let dxdydz := (len 0%Z * len 1%Z * len 2%Z)%R in
  let areas := rho :: E :: ms in
  let area a := nth (Z.to_nat a) areas (mkvol 0 0 0 (fun _ => 0%R)) in
  let '(nx, ny, nz) := inner g rho in
  let buffer := mkvol nx ny nz (fun _ => 0%R) in
  if negb ((1 <=? Z.of_nat (length ms)) && (Z.of_nat (length ms) <=? 3)) then r = Throw
  else exists q,
    outcomes (fun a => if a <? 0 then 0 else vsize (area a))
      [linear (vsize buffer) (entropy_body gamma dxdydz g buffer rho E (length ms))] (fun a => vdat (area a)) q /\
    match q with
    | Ok (_, xs) => exists integral, reduced Rplus (0%R :: xs) integral /\
        r = (old <- mload out 0;; mstore out 0 (old + integral * weight)%R)
    | _ => r = UB
    end.

(** * structure_common_cuda.hpp, StructureBasicCUDA.cu *)

(** ValueAtBoundary.hpp, as in M_Structure.value_at: the index of the element
    read. *)
Definition value_index (b : btype) (v : vol R) (pos n g : cell) : res Z :=
  let '(x, y, z) := pos in
  let '(nx, ny, nz) := n in
  let '(gx, gy, gz) := g in
  match b with
  | Periodic =>
      px <- make_positive x nx;; py <- make_positive y ny;; pz <- make_positive z nz;;
      mx <- crem px nx;; my <- crem py ny;; mz <- crem pz nz;;
      Ok (index (vnx v) (vny v) (mx + gx) (my + gy) (mz + gz))
  | Neumann =>
      let ix := Z.max 0 (Z.min x (nx - 1)) in
      let iy := Z.max 0 (Z.min y (ny - 1)) in
      let iz := Z.max 0 (Z.min z (nz - 1)) in
      Ok (index (vnx v) (vny v) (ix + gx) (iy + gy) (iz + gz))
  | OtherBC => Throw
  end.

(** A load of the value at a position. *)
Definition fetch_at (b : btype) (v : vol R) (pos n g : cell) (k : R -> prog R R) : prog R R :=
  match value_index b v pos n g with
  | Ok i => Fetch 0 i k
  | _ => Fail
  end.

(** computeStructureCubeKernel, structure_common_cuda.hpp lines 16-38: the sum over
    the positions forEachPointInComputeStructureCube visits. *)
Definition cube_positions (dimensions i j k h : Z) : res (list cell) :=
  cube_for_each (fun pos l => Ok (l ++ [pos])) dimensions i j k h [].
Fixpoint cube_sum (b : btype) (pw : R -> R) (u : vol R) (n g : cell) (a : R) (l : list cell) (acc : R) : prog R R :=
  match l with
  | [] => Ret [acc]
  | pos :: l' => fetch_at b u pos n g (fun c => cube_sum b pw u n g a l' (acc + pw (Rabs (a - c)))%R)
  end.
Definition cube_body (b : btype) (pw : R -> R) (g : cell) (u : vol R) (h : Z) (i j k : Z) : prog R R :=
  Fetch 0 (ghosted g u (i, j, k)) (fun a =>
    match cube_positions (inner_dimensions (inner g u)) i j k h with
    | Ok l => cube_sum b pw u (inner g u) g a l 0%R
    | _ => Fail
    end).

(** computeStructureBasic, StructureBasicCUDA.cu lines 29-65.  [n] are the numbers
    nx, ny, nz it is called with. *)
Definition basic_body (b : btype) (p direction : Z) (n g : cell) (u : vol R) (h : Z) (x y z : Z) : prog R R :=
  let '(dx, dy, dz) := direction_vector direction in
  Fetch 0 (ghosted g u (x, y, z)) (fun a =>
  fetch_at b u (x + h * dx, y + h * dy, z + h * dz) n g (fun c => Ret [cpow (Rabs (a - c)) p])).

(** The loop over h, structure_common_cuda.hpp lines 66-87 and StructureBasicCUDA.cu
    lines 134-148: a kernel over [n] cells stores one number per cell, which
    thrust::reduce sums up; the mean is added to the output, which is in host
    memory (or copied there and back). *)
Definition cuda_h_loop (block : Z) (n : cell) (body : Z -> Z -> Z -> Z -> prog R R) (numberOfH : Z) (u out : vol R)
    (r : res (vol R)) : Prop :=
  let '(nx, ny, nz) := n in
  let launch h := [kernel block (fun k => if k =? 0 then nx else if k =? 1 then ny else nz) (fun _ => 0) (body h)] in
  let happens h q := outcomes (fun a => if a =? 0 then vsize u else 0) (launch h) (fun _ => vdat u) q in
  (r = UB /\ exists h, 1 <= h < numberOfH /\ happens h UB) \/
  exists sums : Z -> R,
    (forall h, 1 <= h < numberOfH -> exists m xs, happens h (Ok (m, xs)) /\ reduced Rplus (0%R :: xs) (sums h)) /\
    r = for_ 1 numberOfH (fun h o =>
          old <- mload o h;; cells <- int_cells n;; mstore o h (old + sums h / IZR cells)%R) out.

(** computeStructureCubeCUDA, lines 41-95.  Block size: line 68. *)
Definition cuda_cube (b : btype) (numberOfH p : Z) (g : cell) (u out : vol R) (r : res (vol R)) : Prop :=
  cuda_h_loop (if p <? 6 then 1024 else 512) (inner g u) (cube_body b (dispatch_power p) g u) numberOfH u out r.

(** The tests on the boundary types, stats/StructureCubeCUDA.cu lines 52-73 and
    functional/StructureCubeCUDA.cu lines 37-62. *)
Definition cuda_cube_checked (bc : Z -> btype) (dims numberOfH p : Z) (g : cell) (u out : vol R) (r : res (vol R)) : Prop :=
  if forallb (fun side => bt_eqb (bc side) (bc 0)) (zrange 0 (2 * dims))
  then match bc 0 with
       | OtherBC => r = Throw
       | b => cuda_cube b numberOfH p g u out r
       end
  else r = Throw.

(** The functional, StructureCubeCUDA.cu lines 30-66: the output is zeroed first,
    the weight is not used. *)
Definition cuda_cube_functional (bc : Z -> btype) (dims numberOfH p : Z) (g : cell) : gpu_functional :=
  fun out u weight r => exists z, mem_zero out = Ok z /\ cuda_cube_checked bc dims numberOfH p g u z r.

(** StructureBasicCUDA::computeStructure, lines 114-153: the ghost cells are
    subtracted from numbers that do not contain them (lines 126-128);
    computeStatistics, lines 86-108. *)
Definition cuda_basic (b : btype) (numberOfH p direction : Z) (g : cell) (u out : vol R) (r : res (vol R)) : Prop :=
  cuda_h_loop 1024 (twice_inner g u) (basic_body b p direction (twice_inner g u) g u) numberOfH u out r.
Definition cuda_basic_item (bc : Z -> btype) (numberOfH p direction : Z) (g : cell) (s u : vol R) (r : res (vol R)) : Prop :=
  match bc direction with
  | OtherBC => r = Throw
  | b => cuda_basic b numberOfH p direction g u s r
  end.
