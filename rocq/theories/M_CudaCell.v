(** Kernels over all elements of a memory area: the admissibility check, wave
    speeds and element-wise operations on the GPU.  Launches are parallel loops
    over their threads as in M_Cuda. *)
From Coq Require Import ZArith Reals List Bool.
From Verif Require Import M_Base M_Foreach M_Sim M_Memory M_Omp M_Cuda M_Check.
Import ListNotations.
Open Scope Z_scope.

(** kernel<<<(size + 1023) / 1024, 1024>>> with the test
    [if (index >= size) return], e.g.
    /repo/alsfvm/src/equation/CUDACellComputer.cu lines 37-41, 60-64, 104-108, 129.
    The product of block number and block size is not wrapped (it would be for
    areas of more than 2^32 elements). *)
Definition linear {A X} (total : Z) (body : Z -> prog A X) : list (prog A X) :=
  map (fun i => if total <=? i then Ret [] else body i) (zrange 0 (threads 1024 total)).

(** checkObeysConstraintsDevice, CUDACellComputer.cu lines 100-114.  Array 0 holds
    the cells; the element outputPointer[index] the thread stores, of a vector of
    exactly [size] elements (line 196), is its contribution. *)
Definition cuda_check (eq : feq_) (size : Z) : list (list (prog (list M_TimeFloat.f64) Z)) :=
  [linear size (fun i => Fetch 0 i (fun c => Ret [Z.b2z (fe_obeys eq c (fe_extra eq c))]))].

(** checkObeysConstraintsAndReduce and obeysConstraints, lines 120-137 and 192-200:
    [b] may be returned.  thrust::reduce combines in an unspecified order. *)
Definition cuda_obeys (eq : feq_) (v : vol (list M_TimeFloat.f64)) (b : bool) : Prop :=
  exists m xs r,
    outcomes (fun _ => vsize v) (cuda_check eq (vsize v)) (fun _ => vdat v) (Ok (m, xs)) /\
    reduced Z.max (0 :: xs) r /\ b = negb (r =? 0).

(** computeWaveSpeedDevice and computeWaveSpeedAndReduce, lines 55-93: [speed] is
    computeWaveSpeed<direction> after computeExtra. *)
Definition cuda_speeds {A} (speed : A -> R) (size : Z) : list (list (prog A R)) :=
  [linear size (fun i => Fetch 0 i (fun c => Ret [speed c]))].
Definition cuda_max_speed {A} (speed : A -> R) (v : vol A) (w : R) : Prop :=
  exists m xs,
    outcomes (fun _ => vsize v) (cuda_speeds speed (vsize v)) (fun _ => vdat v) (Ok (m, xs)) /\
    reduced Rmax (0%R :: xs) w.

(** CPUCellComputer::computeMaxWaveSpeed,
    /repo/alsfvm/src/equation/CPUCellComputer.cpp lines 46-70, direction below 3. *)
Definition cpu_max_speed {A} (speed : A -> R) (v : vol A) : res R :=
  for_each_cell_index (vnx v) (vny v) (vnz v) (0, 0, 0) (0, 0, 0)
    (fun i w =>
       if (0 <=? i) && (i <? vnx v * vny v * vnz v) then Ok (Rmax w (speed (vdat v i))) else UB) 0%R.
