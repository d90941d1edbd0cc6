(** The TeCNO diffusion operator on the GPU; launches as in M_Cuda.  As on the CPU
    (M_Diffusion) a volume is one array of vectors. *)
From Coq Require Import ZArith Reals List Bool.
From Verif Require Import M_Base M_Vec M_Flux M_Omp M_Cuda M_Diffusion.
Import ListNotations.
Open Scope Z_scope.

Section Diffusion.
Context {V : cvars} (bs : basis V) (eq : diff_eq (V := V)) (mx : dmatrix) (E : ivec).

(** Conserved variables, entropyVariablesLeft, entropyVariablesRight, left, right,
    output; all of extents [E]. *)
Definition b_u : Z := 0.
Definition b_el : Z := 1.
Definition b_er : Z := 2.
Definition b_left : Z := 3.
Definition b_right : Z := 4.
Definition b_out : Z := 5.
Definition dpr : Type := prog V unit.

(** The array behind entropyVariablesViewRight: line 160 of
    /repo/alsfvm/src/diffusion/TecnoDiffusionCUDA.cu makes the view from
    entropyVariablesLeft. *)
Definition view_right : Z := b_el.

(** computeEntropyVariables, TecnoDiffusionCUDA.cu lines 29-80, and its launch,
    lines 164-190. *)
Definition cuda_project (d : Z) : list dpr :=
  kernel 512 (fun k => E k - 2 * unit_ d k) (unit_ d) (fun x y z =>
    let middle := at_ E x y z in
    let left := at_ E (x - unit_ d 0) (y - unit_ d 1) (z - unit_ d 2) in
    Fetch b_u middle (fun um =>
    Fetch b_u left (fun ul =>
    let cols := dcols eq d (average um ul) in
    Store b_el middle (mat_t bs cols (dentropy eq um))
   (Store view_right left (mat_t bs cols (dentropy eq ul)) (Ret []))))).

(** tecno::NoReconstructionCUDA,
    /repo/alsfvm/src/reconstruction/tecno/NoReconstructionCUDA_tecno.cu lines 23-40. *)
Definition cuda_tecno_copy : list (list dpr) :=
  [memcpy b_left b_el (E 0 * E 1 * E 2); memcpy b_right b_er (E 0 * E 1 * E 2)].

(** The lambda of multiplyDiffusionMatrix, lines 124-141: the state is the average
    over the two neighbours of the cell of the thread, whatever the arguments. *)
Definition cuda_face (d left right rightIndex leftIndex : Z) (k : V -> dpr) : dpr :=
  Fetch b_right left (fun lv =>
  Fetch b_left right (fun rv =>
  Fetch b_u rightIndex (fun ur =>
  Fetch b_u leftIndex (fun ul =>
  let s := average ur ul in
  k (vscal (- (1 / 2)) (mat bs (dcols eq d s)
       (diag bs (weights mx (deigs eq d s)) (vadd lv (vscal (-1) rv))))))))).

(** multiplyDiffusionMatrix, lines 82-147, and its launch, lines 203-225. *)
Definition cuda_multiply (d : Z) : list dpr :=
  kernel 512 (fun k => E k - 2 * unit_ d k) (unit_ d) (fun x y z =>
    let middle := at_ E x y z in
    let right := at_ E (x + unit_ d 0) (y + unit_ d 1) (z + unit_ d 2) in
    let left := at_ E (x - unit_ d 0) (y - unit_ d 1) (z - unit_ d 2) in
    cuda_face d middle right right left (fun a =>
    cuda_face d left middle right left (fun b =>
    Fetch b_out middle (fun old =>
    Store b_out middle (vadd old (vadd a (vscal (-1) b))) (Ret []))))).

(** applyDiffusion, lines 248-298, once the volumes exist. *)
Definition cuda_diffusion (dims : Z) : list (list dpr) :=
  flat_map (fun d => cuda_project d :: cuda_tecno_copy ++ [cuda_multiply d]) (zrange 0 dims).
End Diffusion.
