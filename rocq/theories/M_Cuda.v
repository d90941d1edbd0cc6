(** The CUDA kernels of the right hand side.

    A launch is one parallel loop over its threads ([outcome] of M_Omp: any
    interleaving, conflicting accesses of two threads undefined); launches and
    copies on the default stream run one after the other, like parallel loops
    with a barrier between them. *)
From Coq Require Import ZArith Reals List Bool.
From Verif Require Import M_Base M_Vec M_Boundary M_Flux M_Omp.
Import ListNotations.
Open Scope Z_scope.

Section Launch.
Context {A X : Type}.

(** kernel<<<(total + block - 1) / block, block>>>. *)
Definition threads (block total : Z) : Z := (total + block - 1) / block * block.

(** The index computation all kernels begin with, e.g.
    /repo/alsfvm/src/numflux/NumericalFluxCUDA.cu lines 46-62: thread [i] works on
    the cell (i mod nx, (i / nx) mod ny, i / (nx ny)) of a box of [n] cells that
    begins at [lo]; threads beyond the box return.  The number of cells is an int
    product (lines 180, 211, 356); a launch without threads is an error, as is a
    negative count. *)
Definition kernel (block : Z) (n lo : ivec) (body : Z -> Z -> Z -> prog A X) : list (prog A X) :=
  if (0 <? n 0) && (0 <? n 1) && (0 <? n 2) && (n 0 * n 1 * n 2 <? 2 ^ 31) then
    map (fun i =>
      let x := i mod n 0 in
      let y := (i / n 0) mod n 1 in
      let z := i / (n 0 * n 1) in
      if (n 0 <=? x) || (n 1 <=? y) || (n 2 <=? z) then Ret []
      else body (x + lo 0) (y + lo 1) (z + lo 2))
    (zrange 0 (threads block (n 0 * n 1 * n 2)))
  else [Fail].

(** cudaMemcpyAsync of [n] elements, device to device. *)
Definition memcpy (dst src n : Z) : list (prog A X) :=
  map (fun i => Fetch src i (fun v => Store dst i v (Ret []))) (zrange 0 n).
End Launch.

Section Flux.
Context {V : cvars}.

(** Which implementation of performReconstruction:
    NoReconstructionCUDA.cu lines 27-46, ReconstructionCUDA.cu lines 20-104 and
    ENOCUDA.cu lines 128-226.  The first one copies, whatever [rec_fun]. *)
Inductive cuda_recon : Type := CudaCopy | CudaKernel | CudaEno.

(** [U] are the extents of the conserved variables and of the output, [L] those of
    left, right and fluxOutput (NumericalFluxCUDA.cu lines 243-259 allocate them
    with the ghost cells of the flux, whatever the conserved volume has). *)
Variables (dims g : Z) (fx : numflux V) (rk : cuda_recon) (rc : recon V) (U L : ivec) (start fin : ivec).

Definition at_ (E : ivec) (x y z : Z) : Z := index (E 0) (E 1) x y z.
Definition cuda_size (a : Z) : Z :=
  let E := if (a =? a_u) || (a =? a_out) then U else L in E 0 * E 1 * E 2.

(** makeZero, NumericalFluxCUDA.cu lines 130-191. *)
Definition cuda_zero : list (pr (V := V)) :=
  kernel 128 (fun k => U k - 2 * ghost dims g k - start k + fin k) (fun k => ghost dims g k + start k)
    (fun x y z => Store a_out (at_ U x y z) vzero (Ret [])).

(** Loads of elements given by their flat index. *)
Fixpoint fetches (a : Z) (is : list Z) (k : list V -> pr (V := V)) : pr (V := V) :=
  match is with
  | [] => k []
  | i :: is' => Fetch a i (fun v => fetches a is' (fun vs => k (v :: vs)))
  end.

(** computeFlux, lines 76-128 and 335-387.  The element waveSpeeds[index] of the
    thread is its contribution; the buffer is at least as large as left. *)
Definition cuda_flux (d : Z) : list (pr (V := V)) :=
  kernel 128 (fun k => L k - 2 * ghost dims g k + unit_ d k - start k + fin k)
             (fun k => ghost dims g k - unit_ d k + start k)
    (fun x y z =>
      let finish (fs : V * R) := Store a_temp (at_ L x y z) (vscal (-1) (fst fs)) (Ret [(d, snd fs)]) in
      match fx with
      | Flux2 f =>
          Fetch a_left (at_ L (x + unit_ d 0) (y + unit_ d 1) (z + unit_ d 2)) (fun r =>
          Fetch a_right (at_ L x y z) (fun l => finish (f d l r)))
      | FluxN st f =>
          fetches a_left (map (fun s => at_ L (x + unit_ d 0 * s) (y + unit_ d 1 * s) (z + unit_ d 2 * s)) st)
            (fun us => finish (f d us))
      end).

(** combineFlux, lines 39-72 and 195-221.  Both volumes are accessed with the index
    of the output. *)
Definition cuda_combine (d : Z) : list (pr (V := V)) :=
  kernel 128 (fun k => L k - 2 * ghost dims g k - start k + fin k)
             (fun k => ghost dims g k - unit_ d k + start k)
    (fun x y z =>
      let right := at_ U (x + unit_ d 0) (y + unit_ d 1) (z + unit_ d 2) in
      Fetch a_temp (at_ U x y z) (fun m =>
      Fetch a_temp right (fun r =>
      Fetch a_out right (fun old =>
      Store a_out right (vadd old (vadd (vscal (-1) m) r)) (Ret []))))).

(** performReconstruction.  ReconstructionCUDA.cu lines 31-104: the box leaves out
    r - 1 cells on each side in every active direction, and every index is one of
    leftView (WENO2.hpp lines 37-39).  ENOCUDA: box of lines 190-198, indices of
    the input; the arrays of divided differences are left out. *)
Definition cuda_rec_body (E : ivec) (d x y z : Z) : pr (V := V) :=
  fetches a_u (map (fun j => at_ E (x + unit_ d 0 * j) (y + unit_ d 1 * j) (z + unit_ d 2 * j))
                   (zrange (- (rec_ghosts rc - 1)) (rec_ghosts rc)))
    (fun us => Store a_left (at_ E x y z) (fst (rec_fun rc us))
              (Store a_right (at_ E x y z) (snd (rec_fun rc us)) (Ret []))).
Definition cuda_reconstruct (d : Z) : list (list (pr (V := V))) :=
  let r := rec_ghosts rc in
  match rk with
  | CudaCopy => [memcpy a_left a_u (L 0 * L 1 * L 2); memcpy a_right a_u (L 0 * L 1 * L 2)]
  | CudaKernel =>
      [kernel 512 (fun k => L k - 2 * ghost dims (r - 1) k - start k + fin k)
                  (fun k => ghost dims (r - 1) k + start k) (cuda_rec_body L d)]
  | CudaEno =>
      [kernel 512 (fun k => U k - 2 * (ghost dims r k - unit_ d k) - start k + fin k)
                  (fun k => ghost dims r k - unit_ d k + start k) (cuda_rec_body U d)]
  end.

(** computeFlux and callComputeFlux, lines 263-303 and 389-414. *)
Definition cuda_compute_flux : list (list (pr (V := V))) :=
  cuda_zero :: flat_map (fun d => cuda_reconstruct d ++ [cuda_flux d; cuda_combine d]) (zrange 0 dims).
End Flux.
