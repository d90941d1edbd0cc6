(** Boundary conditions on the GPU. *)
From Coq Require Import ZArith List Bool.
From Verif Require Import M_Base M_Flux M_Omp M_Cuda.
Import ListNotations.
Open Scope Z_scope.

(** * Stores of the same value

    As [undefined], [outcome] and [outcomes] of M_Omp, but two threads about to
    store the same value into the same element are no error: "one write is
    performed". *)
Section Outcomes.
Context {A X : Type} (size : Z -> Z).
Definition same_store (p q : prog A X) : Prop :=
  match p, q with Store a i v _, Store b j w _ => a = b /\ i = j /\ v = w | _, _ => False end.
Inductive bad_state : shared A * list (prog A X) -> Prop :=
| bad_fail m l r : bad_state (m, l ++ Fail :: r)
| bad_access m l p r w a i : next p = Some (w, a, i) -> inside size a i = false -> bad_state (m, l ++ p :: r)
| bad_race m l p c q r w w' a i :
    next p = Some (w, a, i) -> next q = Some (w', a, i) -> w || w' = true -> ~ same_store p q ->
    bad_state (m, l ++ p :: c ++ q :: r).

Inductive lenient (ps : list (prog A X)) (m : shared A) : res (shared A * list X) -> Prop :=
| lenient_ok n m' xss : psteps size n (m, ps) (m', map Ret xss) -> lenient ps m (Ok (m', concat xss))
| lenient_ub n s : psteps size n (m, ps) s -> bad_state s -> lenient ps m UB.
Inductive lenients : list (list (prog A X)) -> shared A -> res (shared A * list X) -> Prop :=
| lenients_nil m : lenients [] m (Ok (m, []))
| lenients_ub ps pss m : lenient ps m UB -> lenients (ps :: pss) m UB
| lenients_later ps pss m m1 xs : lenient ps m (Ok (m1, xs)) -> lenients pss m1 UB -> lenients (ps :: pss) m UB
| lenients_ok ps pss m m1 xs m2 ys : lenient ps m (Ok (m1, xs)) -> lenients pss m1 (Ok (m2, ys)) ->
    lenients (ps :: pss) m (Ok (m2, xs ++ ys)).
End Outcomes.

Section Boundary.
Context {A : Type}.
Inductive bc_kind : Type := CudaNeumann | CudaPeriodic.

(** Variables: ghost cells and extents of the memory area. *)
Variables (g : Z) (E : ivec).
Definition bpr : Type := prog A unit.

(** applyBoundary, Neumann.hpp lines 24-35 and Periodic.hpp lines 24-42, on the
    memory area [a]; as in M_Boundary the coordinates are the integers the wrapped
    size_t expressions stand for, and coordinates outside the view an error. *)
Definition bc_apply (kind : bc_kind) (a x y z k : Z) (top xd yd zd : bool) (rest : bpr) : bpr :=
  let sign := if top then -1 else 1 in
  let off e := match kind with CudaNeumann => k - 1 | CudaPeriodic => - k + (E e - 2 * g) end in
  pload (E 0) (E 1) (E 2) a (x + sign * off 0 * b2z xd) (y + sign * off 1 * b2z yd) (z + sign * off 2 * b2z zd) (fun v =>
  pstore (E 0) (E 1) (E 2) a (x - sign * k * b2z xd) (y - sign * k * b2z yd) (z - sign * k * b2z zd) v rest).

(** applyBoundaryConditionsDevice and its launch,
    /repo/alsfvm/src/boundary/BoundaryCUDA.cu lines 26-87: thread [i].  The test of
    line 35 lets thread number [size] pass; line 44 takes a minimum. *)
Definition bc_thread (kind : bc_kind) (a : Z) (top xd yd zd : bool) (i : Z) : bpr :=
  let nx := if xd then 1 else E 0 in
  let ny := if yd then 1 else E 1 in
  let nz := if zd then 1 else E 2 in
  if nx * ny * nz <? i then Ret []
  else
    let xf := if xd then 0 else i mod nx in
    let yf := if yd then 0 else (i / nx) mod ny in
    let zf := if zd then 0 else Z.min (i / (nx * ny)) (nz - 1) in
    let x := xf + b2z xd * (g + (E 0 - 2 * g - 1) * b2z top) in
    let y := yf + b2z yd * (g + (E 1 - 2 * g - 1) * b2z top) in
    let z := zf + b2z zd * (g + (E 2 - 2 * g - 1) * b2z top) in
    fold_right (fun k rest => bc_apply kind a x y z k top xd yd zd rest) (Ret []) (zrange 1 (g + 1)).
Definition bc_launch (kind : bc_kind) (a : Z) (d i : Z) : list bpr :=
  let xd := d =? 0 in let yd := d =? 1 in let zd := d =? 2 in
  map (bc_thread kind a (i =? 1) xd yd zd)
    (zrange 0 (threads 1024 ((if xd then 1 else E 0) * (if yd then 1 else E 1) * (if zd then 1 else E 2)))).

(** callApplyBoundaryConditions, lines 89-127; [mpi side] says whether the
    condition of the side is MPI_BC. *)
Definition bc_area (kind : bc_kind) (mpi : Z -> bool) (a : Z) : list (list bpr) :=
  flat_map (fun d =>
    if (d =? 0) || (1 <? E d) then
      flat_map (fun i => if mpi (2 * d + i) then [] else [bc_launch kind a d i]) [0; 1]
    else []) [0; 1; 2].

(** applyBoundaryConditions, lines 151-160: array [a] is variable number [a]. *)
Definition cuda_boundary (kind : bc_kind) (mpi : Z -> bool) (vars : Z) : list (list bpr) :=
  flat_map (bc_area kind mpi) (zrange 0 vars).
End Boundary.
