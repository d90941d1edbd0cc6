(** Model of the element-wise operations and reductions of a memory area.
    Code: /repo/alsfvm/src/memory/HostMemory.cpp, /repo/alsfvm/src/memory/Memory.cpp,
    /repo/alsfvm/src/volume/Volume.cpp,
    /repo/alsfvm/include/alsfvm/volume/interpolate.hpp.

    A memory area is [vol R]: extents and contents (HostMemory.cpp lines 36-37).
    The contents are reals; the [omp parallel for] loops, whose iterations touch
    different elements, are run in order. *)
From Coq Require Import ZArith Reals List Bool.
From Verif Require Import M_Base M_Sim.
Import ListNotations.
Open Scope Z_scope.

(** data[i] (std::vector::operator[], unchecked in C++: outside is [UB]). *)
Definition mload (v : vol R) (i : Z) : res R :=
  if (0 <=? i) && (i <? vsize v) then Ok (vdat v i) else UB.
Definition mstore (v : vol R) (i : Z) (a : R) : res (vol R) :=
  if (0 <=? i) && (i <? vsize v)
  then Ok (mkvol (vnx v) (vny v) (vnz v) (fun j => if j =? i then a else vdat v j))
  else UB.

(** [for (i = 0; i < hi; ++i) data[i] = f(i, data[i])] *)
Definition ew_loop (hi : Z) (f : Z -> R -> res R) (v : vol R) : res (vol R) :=
  for_ 0 hi (fun i w => a <- mload w i;; b <- f i a;; mstore w i b) v.

(** Most loops count with an int up to [int(data.size())], for instance
    HostMemory.cpp line 105. *)
Definition int_bound (v : vol R) : Z := int32 (vsize v).

(** operator+=(const Memory&), HostMemory.cpp lines 96-108; sizes unchecked. *)
Definition mem_add (v w : vol R) : res (vol R) :=
  ew_loop (int_bound v) (fun i a => b <- mload w i;; Ok (a + b)%R) v.

(** The size checks of lines 120-122, 142-144, 164-166. *)
Definition same_size (v w : vol R) : bool := vsize v =? vsize w.

(** operator*=(const Memory&), lines 114-130. *)
Definition mem_mul (v w : vol R) : res (vol R) :=
  if negb (same_size v w) then Throw
  else ew_loop (int_bound v) (fun i a => b <- mload w i;; Ok (a * b)%R) v.

(** operator-=(const Memory&), lines 136-152. *)
Definition mem_sub (v w : vol R) : res (vol R) :=
  if negb (same_size v w) then Throw
  else ew_loop (int_bound v) (fun i a => b <- mload w i;; Ok (a - b)%R) v.

(** operator/=(const Memory&), lines 158-174 (real division; what IEEE division
    by zero gives is not modelled). *)
Definition mem_div (v w : vol R) : res (vol R) :=
  if negb (same_size v w) then Throw
  else ew_loop (int_bound v) (fun i a => b <- mload w i;; Ok (a / b)%R) v.

(** operator+=(real), lines 180-188; operator*=(real), lines 194-201;
    operator-=(real), lines 207-214; operator/=(real), lines 220-227;
    makeZero, lines 229-236. *)
Definition mem_adds (v : vol R) (c : R) : res (vol R) :=
  ew_loop (int_bound v) (fun _ a => Ok (a + c)%R) v.
Definition mem_muls (v : vol R) (c : R) : res (vol R) :=
  ew_loop (int_bound v) (fun _ a => Ok (a * c)%R) v.
Definition mem_subs (v : vol R) (c : R) : res (vol R) :=
  ew_loop (int_bound v) (fun _ a => Ok (a - c)%R) v.
Definition mem_divs (v : vol R) (c : R) : res (vol R) :=
  ew_loop (int_bound v) (fun _ a => Ok (a / c)%R) v.
Definition mem_zero (v : vol R) : res (vol R) :=
  ew_loop (int_bound v) (fun _ _ => Ok 0%R) v.

(** addLinearCombination, lines 260-280; counts with size_t. *)
Definition mem_lincomb (v : vol R) (a1 a2 : R) (v2 : vol R) (a3 : R) (v3 : vol R)
    (a4 : R) (v4 : vol R) (a5 : R) (v5 : vol R) : res (vol R) :=
  if negb (same_size v v2 && same_size v v3 && same_size v v4 && same_size v v5) then Throw
  else ew_loop (vsize v) (fun i d1 =>
    d2 <- mload v2 i;; d3 <- mload v3 i;; d4 <- mload v4 i;; d5 <- mload v5 i;;
    Ok (a1 * d1 + a2 * d2 + a3 * d3 + a4 * d4 + a5 * d5)%R) v.

(** std::pow with an integral second argument (every caller passes an integer
    converted to double). *)
Definition cpow (x : R) (p : Z) : R := powerRZ x p.

(** addPower(other, power, factor), lines 292-301 (without factor: lines
    282-290), subtractPower, lines 303-311. *)
Definition mem_addpow (v w : vol R) (p : Z) (factor : R) : res (vol R) :=
  if negb (same_size v w) then Throw
  else ew_loop (vsize v) (fun i a => b <- mload w i;; Ok (a + factor * cpow b p)%R) v.
Definition mem_addpower (v w : vol R) (p : Z) : res (vol R) :=
  if negb (same_size v w) then Throw
  else ew_loop (vsize v) (fun i a => b <- mload w i;; Ok (a + cpow b p)%R) v.
Definition mem_subpower (v w : vol R) (p : Z) : res (vol R) :=
  if negb (same_size v w) then Throw
  else ew_loop (vsize v) (fun i a => b <- mload w i;; Ok (a - cpow b p)%R) v.

(** copyFrom, lines 61-66. *)
Definition mem_copy (v w : vol R) : res (vol R) :=
  if negb (same_size v w) then Throw
  else ew_loop (vsize v) (fun i _ => mload w i) v.

(** copyInternalCells, lines 238-258.  The output is an array of [outputSize]
    elements: a [vol] of extents (outputSize, 1, 1).  The size argument itself is
    not looked at by the C++; writing behind it is [UB]. *)
Definition copy_internal (v : vol R) (x0 x1 y0 y1 z0 z1 : Z) (out : vol R) : res (vol R) :=
  let numberOfY := y1 - y0 in
  let numberOfX := x1 - x0 in
  for3 z0 z1 y0 y1 x0 x1 (fun x y z o =>
    a <- mload v (z * vnx v * vny v + y * vnx v + x);;
    mstore o ((z - z0) * numberOfX * numberOfY + (y - y0) * numberOfX + (x - x0)) a) out.

(** Volume::copyInternalCells, Volume.cpp lines 219-226, with the ghost cell
    numbers of lines 51-53. *)
Definition vol_copy_internal (v : vol R) (gx gy gz : Z) (out : vol R) : res (vol R) :=
  copy_internal v gx (vnx v - gx) gy (vny v - gy) gz (vnz v - gz) out.

(** make_direction_vector, /repo/alsutils/include/alsutils/types.hpp lines 88-90. *)
Definition direction_vector (d : Z) : cell := (b2z (d =? 0), b2z (d =? 1), b2z (d =? 2)).

(** getTotalVariation(p, start, end), lines 324-362.  Indices are converted to
    int. *)
Definition total_variation (v : vol R) (p : Z) (start stop : cell) : res R :=
  let '(sx, sy, _) := start in
  let '(ex, ey, ez) := stop in
  if 1 <? vnz v then Throw
  else
    for3 0 ez (sy + (if 1 <? vny v then 1 else 0)) ey (sx + 1) ex (fun x y z bv =>
      let yBottom := if 1 <? vny v then y - 1 else 0 in
      u <- mload v (int32 (z * vnx v * vny v + y * vnx v + x));;
      ub <- mload v (int32 (z * vnx v * vny v + yBottom * vnx v + x));;
      ul <- mload v (int32 (z * vnx v * vny v + y * vnx v + (x - 1)));;
      Ok (bv + cpow (sqrt (cpow (u - ub) 2 + cpow (u - ul) 2)) p)%R) 0%R.

(** getTotalVariation(direction, p, start, end), lines 364-401. *)
Definition total_variation_dir (v : vol R) (direction p : Z) (start stop : cell) : res R :=
  let '(sx, sy, sz) := start in
  let '(ex, ey, ez) := stop in
  let '(dx, dy, dz) := direction_vector direction in
  if 1 + b2z (1 <? vny v) + b2z (1 <? vnz v) <? direction then Throw
  else
    for3 (sz + dz) ez (sy + dy) ey (sx + dx) ex (fun x y z bv =>
      u <- vload v x y z;;
      ul <- vload v (x - dx) (y - dy) (z - dz);;
      Ok (bv + cpow (Rabs (u - ul)) p)%R) 0%R.

(** * Coarsening *)

(** interpolate<1>, <2>, <3> for one cell, interpolate.hpp lines 28-56. *)
Definition coarsen_cell (dim : Z) (inp : vol R) (x y z : Z) (out : vol R) : res (vol R) :=
  if dim =? 1 then
    a <- vload inp (2 * x) y z;; b <- vload inp (2 * x + 1) y z;;
    vstore out x y z ((a + b) / 2)%R
  else if dim =? 2 then
    a <- vload inp (2 * x) (2 * y) z;; b <- vload inp (2 * x + 1) (2 * y) z;;
    c <- vload inp (2 * x) (2 * y + 1) z;; d <- vload inp (2 * x + 1) (2 * y + 1) z;;
    vstore out x y z ((a + b + c + d) / 4)%R
  else
    o1 <- vstore out x y z 0%R;;
    o2 <- for_ 0 2 (fun i => for_ 0 2 (fun j => for_ 0 2 (fun k o =>
            a <- vload o x y z;; b <- vload inp (2 * x + k) (2 * y + j) (2 * z + i);;
            vstore o x y z (a + b)%R))) o1;;
    a <- vload o2 x y z;; vstore o2 x y z (a / 16)%R.

(** interpolate<dimension>(Volume&, const Volume&), interpolate.hpp lines 58-86,
    for one variable; [g] is the number of ghost cells in x direction of [out],
    [nxo], [nxi] the numbers of cells without ghost cells. *)
Definition coarsen (dim g nxo nxi : Z) (inp out : vol R) : res (vol R) :=
  if negb (nxo =? nxi / 2) then Throw
  else
    let hz := if 2 <? dim then g else 0 in
    let hy := if 1 <? dim then g else 0 in
    for3 hz (vnz out - hz) hy (vny out - hy) g (vnx out - g)
      (fun x y z o => coarsen_cell dim inp x y z o) out.

(** Volume::setVolume, Volume.cpp lines 307-333, for one variable: [gi], [go]
    are the ghost cell numbers of both volumes, cell counts are without ghost
    cells. The base case goes through a buffer of the size of [inp] and copies
    the common prefix (Volume.cpp lines 292-305, HostMemory.cpp lines 78-88). *)
Definition set_volume (go nxo nyo nzo : Z) (out : vol R) (nxi nyi nzi : Z) (inp : vol R)
  : res (vol R) :=
  if (nxi =? nxo) && (nyi =? nyo) && (nzi =? nzo) then
    ew_loop (Z.min (vsize inp) (vsize out)) (fun i _ => mload inp i) out
  else if nyo =? 1 then coarsen 1 go nxo nxi inp out
  else if nzo =? 1 then coarsen 2 go nxo nxi inp out
  else coarsen 3 go nxo nxi inp out.
