(** Memory areas on the GPU.
    Code: /repo/alsfvm/src/cuda/CudaMemory.cpp, /repo/alsfvm/src/cuda/vector_operations.cu. *)
From Coq Require Import ZArith Reals List Bool.
From Verif Require Import M_Base M_Foreach M_Sim M_Memory M_Flux M_Omp M_Cuda M_CudaCell.
Import ListNotations.
Open Scope Z_scope.

(** The kernels of vector_operations.cu lines 24-142 with their launches, lines
    233-371: array 0 is the area itself, [ws] the other operands. *)
Definition cuda_elementwise (size : Z) (ws : list Z) (f : R -> list R -> R) : list (list (prog R unit)) :=
  [linear size (fun i => Fetch 0 i (fun a => loads_at ws i (fun bs => Store 0 i (f a bs) (Ret []))))].

(** An operator: CudaMemory.cpp lines 165-256 and 292-336.  The areas have to be of
    one size; the test that they are on the device is left out.  [None] stands for
    the exception. *)
Definition cuda_memory_op (size : Z -> Z) (ws : list Z) (f : R -> list R -> R) : option (list (list (prog R unit))) :=
  if forallb (fun w => size w =? size 0) ws then Some (cuda_elementwise (size 0) ws f) else None.

(** A triple as a vector. *)
Definition triple (x y z : Z) : ivec := fun k => if k =? 0 then x else if k =? 1 then y else z.

(** compute_total_variation and its kernel, vector_operations.cu lines 144-176 and
    373-396 (CudaMemory.cpp lines 359-365).  The element out[index] of the zeroed
    buffer that the thread stores is its contribution.  getCoordinates and the
    launch parameters, cuda_utils.hpp lines 57-92, are those of [kernel].  The
    coordinates are ints; line 167 converts y - 1 to size_t, so line 169 computes
    with size_t; array indices are converted to size_t.  The test of line 167 is
    [ny > 0]. *)
Definition cuda_variation (v : vol R) (p : Z) (start stop : cell) : option (list (list (prog R R))) :=
  let '(sx, sy, sz) := start in
  let '(ex, ey, ez) := stop in
  if 1 <? vnz v then None
  else
    let lo := triple (sx + 1) (sy + b2z (1 <? vny v)) (sz + b2z (1 <? vnz v)) in
    let hi := triple ex ey ez in
    Some [kernel 1024 (fun k => hi k - lo k) lo (fun x y z =>
      let yBottom := wrap64 (if 0 <? vny v then y - 1 else 0) in
      Fetch 0 (wrap64 (z * vnx v * vny v + y * vnx v + x)) (fun u =>
      Fetch 0 (wrap64 (z * vnx v * vny v + y * vnx v + (x - 1))) (fun ul =>
      Fetch 0 (wrap64 (z * vnx v * vny v + yBottom * vnx v + x)) (fun ub =>
      Ret [cpow (sqrt (cpow (u - ul) 2 + cpow (u - ub) 2)) p]))))].

(** The version with a direction, lines 179-211 and 399-424 (CudaMemory.cpp lines
    367-373). *)
Definition cuda_variation_dir (v : vol R) (direction p : Z) (start stop : cell) : option (list (list (prog R R))) :=
  let '(sx, sy, sz) := start in
  let '(ex, ey, ez) := stop in
  let '(dx, dy, dz) := direction_vector direction in
  if 1 <? vnz v then None
  else
    let lo := triple (sx + dx) (sy + dy) (sz + dz) in
    let hi := triple ex ey ez in
    Some [kernel 1024 (fun k => hi k - lo k) lo (fun x y z =>
      Fetch 0 (wrap64 (z * vnx v * vny v + y * vnx v + x)) (fun u =>
      Fetch 0 (wrap64 ((z - dz) * vnx v * vny v + (y - dy) * vnx v + (x - dx))) (fun ul =>
      Ret [cpow (Rabs (u - ul)) p])))].

(** thrust::reduce of the buffer. *)
Definition cuda_sum (v : vol R) (ps : list (list (prog R R))) (w : R) : Prop :=
  exists m xs, outcomes (fun _ => vsize v) ps (fun _ => vdat v) (Ok (m, xs)) /\ reduced Rplus (0%R :: xs) w.
