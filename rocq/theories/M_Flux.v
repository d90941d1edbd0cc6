(** Reconstruction, numerical flux and the right hand side on the CPU. *)
From Coq Require Import ZArith Reals List Bool.
From Verif Require Import M_Base M_Vec M_Boundary.
Import ListNotations.
Open Scope Z_scope.

(** An ivec3 is a function of the direction 0, 1, 2. *)
Definition ivec : Type := Z -> Z.
Definition unit_ (d k : Z) : Z := b2z (d =? k).

(** Ghost cells of a volume in direction [k]: [g] in the active directions,
    none in the others (/repo/alsfvm/src/volume/Volume.cpp lines 44-60). *)
Definition ghost (dims g k : Z) : Z := if k <? dims then g else 0.

Section Flux.
Context {V : cvars}.

(** A numerical flux as used by computeFluxForStencil,
    /repo/alsfvm/include/alsfvm/numflux/numflux_util.hpp lines 43-142: either a
    two point flux F(direction, left, right) with stencil {0, 1}, or a flux with
    an explicit stencil that reads the `left` volume only.  The result carries
    the local wave speed. *)
Inductive numflux : Type :=
| Flux2 (f : Z -> V -> V -> V * R)
| FluxN (stencil : list Z) (f : Z -> list V -> V * R).

(** A reconstruction.  [rec_ghosts] is getNumberOfGhostCells(); [rec_fun] maps
    the values at offsets -(ghosts-1) .. ghosts-1 along the direction to the
    (left, right) values of the cell.  [rec_all] marks the implementations that
    ignore the region arguments: NoReconstruction
    (/repo/alsfvm/src/reconstruction/NoReconstruction.cpp lines 42-73,
    ghosts = 1) and WENOCPU (WENOCPU.cpp lines 72-196).  The others are
    ReconstructionCPU (ReconstructionCPU.cpp lines 38-102, ghosts = 2) and
    ENOCPU (ENOCPU.cpp lines 41-193, ghosts = order); the divided
    difference arrays of ENO are modelled in M_Eno, and T_Eno shows that they
    give this. *)
Record recon : Type := mkrecon {
  rec_ghosts : Z;
  rec_all : bool;
  rec_fun : list V -> V * V
}.

(** NoReconstruction.cpp lines 42-73. *)
Definition no_reconstruction : recon :=
  mkrecon 1 true (fun l => match l with [u] => (u, u) | _ => (vzero, vzero) end).

(** performReconstruction: bounds from ReconstructionCPU.cpp lines 71-77 and
    ENOCPU.cpp lines 92-98 (region) or WENOCPU.cpp lines 101-107 (whole volume). *)
Definition reconstruct (dims : Z) (rc : recon) (d : Z) (u left right : vol V)
    (start fin : ivec) : res (vol V * vol V) :=
  let n k := if k =? 0 then vnx u else if k =? 1 then vny u else vnz u in
  let r := rec_ghosts rc in
  let lo k := if rec_all rc then unit_ d k * (r - 1)
              else (ghost dims r k - unit_ d k) + start k in
  let hi k := if rec_all rc then n k - unit_ d k * (r - 1)
              else n k - (ghost dims r k - unit_ d k) + fin k in
  for3 (lo 2) (hi 2) (lo 1) (hi 1) (lo 0) (hi 0) (fun x y z lr =>
    us <- map_res (fun j => vload u (x + unit_ d 0 * j) (y + unit_ d 1 * j) (z + unit_ d 2 * j))
                  (zrange (- (r - 1)) r);;
    left' <- vstore (fst lr) x y z (fst (rec_fun rc us));;
    right' <- vstore (snd lr) x y z (snd (rec_fun rc us));;
    Ok (left', right')) (left, right).

(** computeFluxForStencil, numflux_util.hpp lines 62-142. *)
Definition flux_at (fx : numflux) (d : Z) (left right : vol V) (x y z : Z)
  : res (V * R) :=
  match fx with
  | Flux2 f =>
      r <- vload left (x + unit_ d 0) (y + unit_ d 1) (z + unit_ d 2);;
      l <- vload right x y z;;
      Ok (f d l r)
  | FluxN st f =>
      us <- map_res (fun s => vload left (x + unit_ d 0 * s) (y + unit_ d 1 * s)
                                    (z + unit_ d 2 * s)) st;;
      Ok (f d us)
  end.

(** makeZero, /repo/alsfvm/src/numflux/NumericalFluxCPU.cpp lines 121-146. *)
Definition make_zero (dims g : Z) (start fin : ivec) (out : vol V) : res (vol V) :=
  let ng := ghost dims g in
  for3 (ng 2 + start 2) (vnz out - ng 2 + fin 2)
       (ng 1 + start 1) (vny out - ng 1 + fin 1)
       (ng 0 + start 0) (vnx out - ng 0 + fin 0)
       (fun x y z o => vstore o x y z vzero) out.

(** computeNetFlux, NumericalFluxCPU.cpp lines 32-118. The result is (output,
    temporary volume, wave speed). *)
Definition net_flux (dims g : Z) (fx : numflux) (d : Z) (left right out temp : vol V)
    (start fin : ivec) : res (vol V * vol V * R) :=
  let ng := ghost dims g in
  tw <- for3 (ng 2 - unit_ d 2 + start 2) (vnz out - ng 2 + fin 2)
             (ng 1 - unit_ d 1 + start 1) (vny out - ng 1 + fin 1)
             (ng 0 - unit_ d 0 + start 0) (vnx out - ng 0 + fin 0)
    (fun x y z (tw : vol V * R) =>
       fs <- flux_at fx d left right x y z;;
       t' <- vstore (fst tw) x y z (vscal (-1) (fst fs));;
       Ok (t', Rmax (snd tw) (snd fs))) (temp, 0%R);;
  let t := fst tw in
  o <- for3 (ng 2 - unit_ d 2 + start 2) (vnz out - ng 2 + fin 2 - unit_ d 2)
            (ng 1 - unit_ d 1 + start 1) (vny out - ng 1 + fin 1 - unit_ d 1)
            (ng 0 - unit_ d 0 + start 0) (vnx out - ng 0 + fin 0 - unit_ d 0)
    (fun x y z o =>
       fmr <- vload t (x + unit_ d 0) (y + unit_ d 1) (z + unit_ d 2);;
       m <- vload t x y z;;
       old <- vload o (x + unit_ d 0) (y + unit_ d 1) (z + unit_ d 2);;
       vstore o (x + unit_ d 0) (y + unit_ d 1) (z + unit_ d 2)
              (vadd old (vadd fmr (vscal (-1) m)))) out;;
  Ok (o, t, snd tw).

(** The volumes owned by NumericalFluxCPU and the output. *)
Record fstate : Type := mkfstate {
  f_left : vol V;
  f_right : vol V;
  f_temp : vol V;
  f_out : vol V;
  f_speed : Z -> R
}.

(** computeFlux, NumericalFluxCPU.cpp lines 170-221; the internal volumes have
    the extents of the input (lines 181-192). *)
Definition compute_flux (dims g : Z) (fx : numflux) (rc : recon) (u : vol V)
    (start fin : ivec) (s : fstate) : res fstate :=
  out0 <- make_zero dims g start fin (f_out s);;
  for_ 0 dims (fun d s =>
    lr <- reconstruct dims rc d u (f_left s) (f_right s) start fin;;
    r <- net_flux dims g fx d (fst lr) (snd lr) (f_out s) (f_temp s) start fin;;
    Ok (mkfstate (fst lr) (snd lr) (snd (fst r)) (fst (fst r))
                 (fun k => if k =? d then snd r else f_speed s k)))
    (mkfstate (f_left s) (f_right s) (f_temp s) out0 (f_speed s)).

Definition total {A} (v : vol A) (k : Z) : Z :=
  if k =? 0 then vnx v else if k =? 1 then vny v else vnz v.

Definition speed_max (a b : Z -> R) : Z -> R := fun k => Rmax (a k) (b k).

(** ConservedSystem::operator() without the diffusion operator (lines 31-100 of
    /repo/alsfvm/src/simulator/ConservedSystem.cpp).  [exchange] is the cell
    exchange; the model runs it between the inner region and the sides, where
    the C++ joins the thread that runs it (line 63). *)
Definition system_flux (dims g : Z) (fx : numflux) (rc : recon)
    (exchange : vol V -> res (vol V)) (u : vol V) (s : fstate)
  : res (vol V * fstate) :=
  let gc := ghost dims g in
  s1 <- compute_flux dims g fx rc u gc (fun k => - gc k) (mkfstate (f_left s) (f_right s) (f_temp s) (f_out s) (f_speed s));;
  u' <- exchange u;;
  r <- for_ 0 dims (fun d (st : fstate * (Z -> R)) =>
    let '(s, sides) := st in
    sb <- compute_flux dims g fx rc u' (fun _ => 0)
            (fun k => if k =? d then - total (f_out s) d + 3 * gc d else 0)
            (mkfstate (f_left s) (f_right s) (f_temp s) (f_out s) (fun _ => 0%R));;
    let sides := speed_max sides (f_speed sb) in
    stp <- compute_flux dims g fx rc u'
            (fun k => if k =? d then total (f_out s) d - 3 * gc d else 0) (fun _ => 0)
            (mkfstate (f_left sb) (f_right sb) (f_temp sb) (f_out sb) (fun _ => 0%R));;
    Ok (stp, speed_max sides (f_speed stp))) (s1, fun _ => 0%R);;
  Ok (u', mkfstate (f_left (fst r)) (f_right (fst r)) (f_temp (fst r)) (f_out (fst r))
                   (speed_max (f_speed s1) (snd r))).

End Flux.
Arguments numflux : clear implicits.
Arguments recon : clear implicits.
Arguments fstate : clear implicits.
