(** What the right hand side on a GPU should be. *)
From Coq Require Import ZArith Reals List Bool.
From Verif Require Import M_Base M_Vec M_Flux M_Omp M_Cuda S_Boundary S_Flux.
Import ListNotations.
Open Scope Z_scope.

(** Cells per direction of a volume with [g] ghost cells. *)
Definition extents (dims g nx ny nz : Z) : ivec := fun k =>
  if k =? 0 then nx + 2 * g
  else if k =? 1 then (if 1 <? dims then ny + 2 * g else ny)
  else (if 2 <? dims then nz + 2 * g else nz).
Definition place (E : ivec) (c : cell) : Z := let '(x, y, z) := c in z * (E 0 * E 1) + y * E 0 + x.

(** The largest element of a family. *)
Definition largest {A} (P : A -> Prop) (f : A -> R) (w : R) : Prop :=
  (exists a, P a /\ w = f a) /\ forall a, P a -> (f a <= w)%R.

Section Spec.
Context {V : cvars}.
(** The five arrays. *)
Definition arrays (u l r t o : Z -> V) : shared V := fun a =>
  if a =? a_left then l else if a =? a_right then r
  else if a =? a_temp then t else if a =? a_out then o else u.

(** Conserved variables and output with [G] ghost cells; the volumes of the flux
    have [g]. *)
Definition gpu_right_hand_side (dims g G : Z) (fx : numflux V) (rk : cuda_recon) (rc : recon V) (nx ny nz : Z) : Prop :=
  let U := extents dims G nx ny nz in
  let L := extents dims g nx ny nz in
  forall du dl dr dt do : Z -> V,
  let m := arrays du dl dr dt do in
  let u c := du (place U c) in
  exists m' xs,
    (forall r, outcomes (cuda_size U L) (cuda_compute_flux dims g fx rk rc U L (fun _ => 0) (fun _ => 0)) m r <->
               r = Ok (m', xs)) /\
    (forall c, interior dims G nx ny nz c -> m' a_out (place U c) = rhs dims fx rc u c) /\
    (forall c, in_volume dims G nx ny nz c -> ~ interior dims G nx ny nz c ->
       m' a_out (place U c) = m a_out (place U c)) /\
    (forall c, in_volume dims G nx ny nz c -> m' a_u (place U c) = m a_u (place U c)) /\
    forall d, 0 <= d < dims -> exists w,
      (forall w', reduced Rmax (map snd (filter (fun x => fst x =? d) xs)) w' <-> w' = w) /\
      largest (fun c => interior dims G nx ny nz c \/ interior dims G nx ny nz (move d 1 c))
              (fun c => snd (iface fx rc d u c)) w.
End Spec.
