(** The right hand side while the cell exchange runs in another thread. *)
From Coq Require Import ZArith Reals List Bool.
From Verif Require Import M_Base M_Vec M_Boundary M_Flux.
Import ListNotations.
Open Scope Z_scope.

(** A read of the conserved variables by a reconstruction: the direction, the
    cell being reconstructed and the offset of the cell read.  Each of these
    reads is made once in a call of computeFlux, in an order that depends on
    the OpenMP schedule (ReconstructionCPU.cpp lines 79-84). *)
Definition event : Type := (Z * cell * Z)%type.

Section Race.
Context {V : cvars}.

(** What a read yields, depending on which read it is. *)
Definition reader : Type := event -> Z -> Z -> Z -> res V.

(** [reconstruct] (performReconstruction; see M_Flux for the lines) with the
    reads of the conserved variables made through [ld]; [u] gives the extents
    only.  With [ld := quiet u] this is [reconstruct], see
    [T_Race.reconstruct_quiet]. *)
Definition reconstruct_w (dims : Z) (rc : recon V) (ld : reader) (d : Z) (u left right : vol V)
    (start fin : ivec) : res (vol V * vol V) :=
  let n k := if k =? 0 then vnx u else if k =? 1 then vny u else vnz u in
  let r := rec_ghosts rc in
  let lo k := if rec_all rc then unit_ d k * (r - 1)
              else (ghost dims r k - unit_ d k) + start k in
  let hi k := if rec_all rc then n k - unit_ d k * (r - 1)
              else n k - (ghost dims r k - unit_ d k) + fin k in
  for3 (lo 2) (hi 2) (lo 1) (hi 1) (lo 0) (hi 0) (fun x y z lr =>
    us <- map_res (fun j => ld (d, (x, y, z), j)
                               (x + unit_ d 0 * j) (y + unit_ d 1 * j) (z + unit_ d 2 * j))
                  (zrange (- (r - 1)) r);;
    left' <- vstore (fst lr) x y z (fst (rec_fun rc us));;
    right' <- vstore (snd lr) x y z (snd (rec_fun rc us));;
    Ok (left', right')) (left, right).

(** computeFlux, /repo/alsfvm/src/numflux/NumericalFluxCPU.cpp lines 170-221:
    only the reconstruction reads the conserved variables; computeNetFlux reads
    `left`, `right`, the temporary volume and the output. *)
Definition compute_flux_w (dims g : Z) (fx : numflux V) (rc : recon V) (ld : reader) (u : vol V)
    (start fin : ivec) (s : fstate V) : res (fstate V) :=
  out0 <- make_zero dims g start fin (f_out s);;
  for_ 0 dims (fun d s =>
    lr <- reconstruct_w dims rc ld d u (f_left s) (f_right s) start fin;;
    r <- net_flux dims g fx d (fst lr) (snd lr) (f_out s) (f_temp s) start fin;;
    Ok (mkfstate (fst lr) (snd lr) (snd (fst r)) (fst (fst r))
                 (fun k => if k =? d then snd r else f_speed s k)))
    (mkfstate (f_left s) (f_right s) (f_temp s) out0 (f_speed s)).

(** The sides, computed after the join
    (/repo/alsfvm/src/simulator/ConservedSystem.cpp lines 65-100). *)
Definition sides_flux (dims g : Z) (fx : numflux V) (rc : recon V) (u' : vol V) (s1 : fstate V)
  : res (fstate V) :=
  let gc := ghost dims g in
  r <- for_ 0 dims (fun d (st : fstate V * (Z -> R)) =>
    let '(s, sides) := st in
    sb <- compute_flux dims g fx rc u' (fun _ => 0)
            (fun k => if k =? d then - total (f_out s) d + 3 * gc d else 0)
            (mkfstate (f_left s) (f_right s) (f_temp s) (f_out s) (fun _ => 0%R));;
    let sides := speed_max sides (f_speed sb) in
    stp <- compute_flux dims g fx rc u'
            (fun k => if k =? d then total (f_out s) d - 3 * gc d else 0) (fun _ => 0)
            (mkfstate (f_left sb) (f_right sb) (f_temp sb) (f_out sb) (fun _ => 0%R));;
    Ok (stp, speed_max sides (f_speed stp))) (s1, fun _ => 0%R);;
  Ok (mkfstate (f_left (fst r)) (f_right (fst r)) (f_temp (fst r)) (f_out (fst r))
               (speed_max (f_speed s1) (snd r))).

(** ConservedSystem::operator() (lines 31-100).  The exchange thread is started
    before the inner region (line 45) and joined after it (line 63), so the
    reads of the inner region see the conserved variables at some moment of the
    exchange: [ld].  After the join the volume is [u']. *)
Definition system_flux_w (dims g : Z) (fx : numflux V) (rc : recon V) (ld : reader)
    (u u' : vol V) (s : fstate V) : res (vol V * fstate V) :=
  let gc := ghost dims g in
  s1 <- compute_flux_w dims g fx rc ld u gc (fun k => - gc k) s;;
  s2 <- sides_flux dims g fx rc u' s1;;
  Ok (u', s2).

(** Nobody writes meanwhile. *)
Definition quiet (u : vol V) : reader := fun _ x y z => vload u x y z.

(** The writes of the exchange thread, in the order in which they happen: the
    receives of /repo/alsfvm/src/mpi/CartesianCellExchanger.cpp lines 86-95
    may land in any order. *)
Definition write (u : vol V) (w : cell * V) : vol V :=
  let '((x, y, z), a) := w in
  mkvol (vnx u) (vny u) (vnz u)
        (fun q => if q =? index (vnx u) (vny u) x y z then a else vdat u q).
Definition after (ws : list (cell * V)) (u : vol V) : vol V := fold_left write ws u.

(** An interleaving: the read [e] comes after the first [when e] writes. *)
Definition meanwhile (ws : list (cell * V)) (when : event -> nat) (u : vol V) : reader :=
  fun e x y z => vload (after (firstn (when e) ws) u) x y z.

(** The C++ memory model: a read of a location that another thread writes
    without synchronisation in between is a data race, hence undefined. *)
Definition cell_eqb (a b : cell) : bool :=
  let '(x, y, z) := a in let '(x', y', z') := b in (x =? x') && (y =? y') && (z =? z').
Definition checked (ws : list (cell * V)) (u : vol V) : reader :=
  fun _ x y z => if existsb (fun w => cell_eqb (fst w) (x, y, z)) ws then UB else vload u x y z.

End Race.
Arguments reader : clear implicits.
