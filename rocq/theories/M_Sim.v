(** Integrators and the stepping of the simulator. *)
From Coq Require Import ZArith Reals List Bool.
From Verif Require Import M_Base M_Vec M_Boundary M_Flux.
Import ListNotations.
Open Scope Z_scope.

(** Conversion to a 32 bit int (modulo 2^32, as on the usual platforms). *)
Definition int32 (z : Z) : Z := (z + 2 ^ 31) mod 2 ^ 32 - 2 ^ 31.

Definition vsize {A} (v : vol A) : Z := vnx v * vny v * vnz v.

(** Simulator::performStep, /repo/alsfvm/src/simulator/Simulator.cpp lines 81-85
    and 180-189, with [inc] for incrementSolution and [front] for
    *conservedVolumes[0]; without the writers (they do not modify the state). *)
Definition checked_step {St A : Type} (inc : St -> res St) (front : St -> res A) (obeys : A -> bool)
    (st : St) : res St :=
  st' <- inc st;;
  u <- front st';;
  if obeys u then Ok st' else Throw.

Section Sim.
Context {V : cvars}.

(** Volume::operator*= and HostMemory::operator*=(real),
    /repo/alsfvm/src/volume/Volume.cpp lines 190-196,
    /repo/alsfvm/src/memory/HostMemory.cpp lines 195-201: the loop runs over
    [int i < int(data.size())]. *)
Definition vol_scale (c : R) (v : vol V) : vol V :=
  mkvol (vnx v) (vny v) (vnz v)
        (fun i => if i <? int32 (vsize v) then vscal c (vdat v i) else vdat v i).

(** Volume::operator+= and HostMemory::operator+=, Volume.cpp lines 178-184,
    HostMemory.cpp lines 97-108.  The sizes are not compared; the other area is
    read out of bounds if it is shorter. *)
Definition vol_add (v w : vol V) : res (vol V) :=
  if int32 (vsize v) <=? vsize w then
    Ok (mkvol (vnx v) (vny v) (vnz v)
          (fun i => if i <? int32 (vsize v) then vadd (vdat v i) (vdat w i) else vdat v i))
  else UB.

(** addLinearCombination, Volume.cpp lines 359-376, HostMemory.cpp lines
    260-280: throws when the sizes differ. *)
Definition vol_lincomb (v : vol V) (a1 : R) (a2 : R) (v2 : vol V) (a3 : R) (v3 : vol V)
    (a4 : R) (v4 : vol V) (a5 : R) (v5 : vol V) : res (vol V) :=
  if (vsize v =? vsize v2) && (vsize v =? vsize v3) && (vsize v =? vsize v4) && (vsize v =? vsize v5)
  then Ok (mkvol (vnx v) (vny v) (vnz v) (fun i =>
    vadd (vadd (vadd (vadd (vscal a1 (vdat v i)) (vscal a2 (vdat v2 i))) (vscal a3 (vdat v3 i)))
      (vscal a4 (vdat v4 i))) (vscal a5 (vdat v5 i))))
  else Throw.

(** std::vector access. *)
Definition vat {A} (l : list A) (k : nat) : res A :=
  match nth_error l k with Some v => Ok v | None => UB end.
Fixpoint vset {A} (l : list A) (k : nat) (a : A) : list A :=
  match l, k with
  | [], _ => []
  | _ :: l', O => a :: l'
  | b :: l', S k' => b :: vset l' k' a
  end.

(** Integrator::computeTimestep and adjustTimestep,
    /repo/alsfvm/src/integrator/Integrator.cpp lines 20-66.  [wadj] are the wave
    speed adjusters, [adj] the timestep adjusters at the current time.  A total
    wave speed of zero (division by zero in the C++) is not modelled. *)
Definition wave_total (wadj : list (R -> R)) (ws len : Z -> R) : R :=
  fold_left (fun acc d =>
    if Req_EM_T (len d) 0 then acc
    else (acc + fold_left (fun w f => f w) wadj (ws d) / len d)%R) (zrange 0 3) 0%R.
Definition compute_timestep (wadj adj : list (R -> R)) (ws len : Z -> R) (cfl : R) : R :=
  fold_left (fun dt f => f dt) adj (cfl / wave_total wadj ws len)%R.

Inductive integrator : Type := ForwardEuler | RungeKutta2 | RungeKutta3 | RungeKutta4.

(** getNumberOfSubsteps: ForwardEuler.cpp 27-29, RungeKutta2.cpp 32-34,
    RungeKutta3.cpp 34-36, RungeKutta4.cpp 35-37 in /repo/alsfvm/src/integrator. *)
Definition substeps (it : integrator) : nat :=
  match it with ForwardEuler => 1 | RungeKutta2 => 2 | RungeKutta3 => 3 | RungeKutta4 => 4 end.

(** What performSubstep does to the output of the system, with s = dt / dx
    (cellScaling.x): ForwardEuler.cpp 46-47, RungeKutta2.cpp 57-64,
    RungeKutta3.cpp 69-83, RungeKutta4.cpp 72-93. *)
Definition combine (it : integrator) (k : nat) (s : R) (vols : list (vol V)) (out : vol V)
  : res (vol V) :=
  match it with
  | ForwardEuler =>
      u0 <- vat vols 0;; vol_add (vol_scale s out) u0
  | RungeKutta2 =>
      uk <- vat vols k;; o <- vol_add (vol_scale s out) uk;;
      match k with
      | 1%nat => u0 <- vat vols 0;; o <- vol_add o u0;; Ok (vol_scale (1 / 2) o)
      | _ => Ok o
      end
  | RungeKutta3 =>
      uk <- vat vols k;; o <- vol_add (vol_scale s out) uk;;
      match k with
      | 1%nat => u0 <- vat vols 0;; o <- vol_add (vol_scale (1 / 3) o) u0;; Ok (vol_scale (3 / 4) o)
      | 2%nat => u0 <- vat vols 0;; o <- vol_add (vol_scale 2 o) u0;; Ok (vol_scale (1 / 3) o)
      | _ => Ok o
      end
  | RungeKutta4 =>
      match k with
      | 0%nat | 1%nat => u0 <- vat vols 0;; vol_add (vol_scale (1 / 2) (vol_scale s out)) u0
      | 2%nat => u0 <- vat vols 0;; vol_add (vol_scale s out) u0
      | 3%nat =>
          u1 <- vat vols 1;; u2 <- vat vols 2;; u3 <- vat vols 3;; u0 <- vat vols 0;;
          vol_lincomb out ((1 / 6) * s) (1 / 3) u1 (2 / 3) u2 (1 / 3) u3 (- 1 / 3) u0
      | _ => Ok out
      end
  end.

(** The index of the volume passed to the system: ForwardEuler always uses 0. *)
Definition input_index (it : integrator) (k : nat) : nat :=
  match it with ForwardEuler => O | _ => k end.
(** When the timestep is computed: ForwardEuler.cpp line 41 always, the others
    for substep 0 (RungeKutta2.cpp 49-51 and so on). *)
Definition sets_dt (it : integrator) (k : nat) : bool :=
  match it with ForwardEuler => true | _ => Nat.eqb k 0 end.

(** A System: reads the conserved volume (which a cell exchange may modify) and
    writes the output volume; returns both, the wave speeds and its own state. *)
Context {Sc : Type}.
Definition system : Type :=
  vol V -> vol V -> Sc -> res (vol V * vol V * (Z -> R) * Sc).

Record params : Type := mkparams {
  p_len : Z -> R;
  p_cfl : R;
  p_wadj : list (R -> R)
}.

(** performSubstep on the vector of volumes, output = volumes[k + 1]. *)
Definition perform_substep (it : integrator) (sys : system) (p : params) (adj : list (R -> R))
    (k : nat) (vols : list (vol V)) (dt : R) (sc : Sc) : res (list (vol V) * R * Sc) :=
  u <- vat vols (input_index it k);;
  out <- vat vols (S k);;
  r <- sys u out sc;;
  let '(u', out', ws, sc') := r in
  let vols' := vset vols (input_index it k) u' in
  let dt' := if sets_dt it k then compute_timestep (p_wadj p) adj ws (p_len p) (p_cfl p) else dt in
  out'' <- combine it k (dt' / p_len p 0) vols' out';;
  Ok (vset vols' (S k) out'', dt', sc').

(** conservedVolumes[0].swap(conservedVolumes.back()), Simulator.cpp line 211. *)
Definition swap_ends (vols : list (vol V)) : res (list (vol V)) :=
  a <- vat vols 0;;
  b <- vat vols (length vols - 1);;
  Ok (vset (vset vols 0 b) (length vols - 1) a).

(** State of the Simulator: conserved volumes, TimestepInformation
    (TimestepInformation.cpp lines 21-45), state of the system. *)
Record sim : Type := mksim {
  s_vols : list (vol V);
  s_time : R;
  s_steps : nat;
  s_sys : Sc
}.

(** Simulator::incrementSolution,
    /repo/alsfvm/src/simulator/Simulator.cpp lines 191-214. *)
Definition increment_solution (it : integrator) (sys : system) (bc : vol V -> res (vol V))
    (p : params) (adj : R -> list (R -> R)) (st : sim) : res sim :=
  r <- fold_res (fun k (s : list (vol V) * R * Sc) =>
         let '(vols, dt, sc) := s in
         r <- perform_substep it sys p (adj (s_time st)) k vols dt sc;;
         let '(vols, dt, sc) := r in
         o <- vat vols (S k);;
         o' <- bc o;;
         Ok (vset vols (S k) o', dt, sc))
       (seq 0 (substeps it)) (s_vols st, 0%R, s_sys st);;
  let '(vols, dt, sc) := r in
  vols' <- swap_ends vols;;
  Ok (mksim vols' (s_time st + dt)%R (S (s_steps st)) sc).

(** Simulator::performStep. *)
Definition perform_step (it : integrator) (sys : system) (bc : vol V -> res (vol V))
    (p : params) (adj : R -> list (R -> R)) (obeys : vol V -> bool) (st : sim) : res sim :=
  checked_step (increment_solution it sys bc p adj) (fun st' => vat (s_vols st') 0) obeys st.

(** Consecutive calls of performStep; the adjusters may be different every time
    (they depend on the state of the writers). *)
Definition run (it : integrator) (sys : system) (bc : vol V -> res (vol V))
    (p : params) (obeys : vol V -> bool) (adjs : list (R -> list (R -> R))) (st : sim) : res sim :=
  fold_res (fun adj => perform_step it sys bc p adj obeys) adjs st.

End Sim.
Arguments system : clear implicits.
Arguments sim : clear implicits.

(** The system and boundary used on the CPU without diffusion: the numerical
    flux of ConservedSystem, one area of records. *)
Definition flux_system {V : cvars} (dims g : Z) (fx : numflux V) (rc : recon V)
    (exchange : vol V -> res (vol V)) : system V (vol V * vol V * vol V) :=
  fun u out sc =>
    let '(l, r, t) := sc in
    x <- system_flux dims g fx rc exchange u (mkfstate l r t out (fun _ => 0%R));;
    let '(u', s) := x in
    Ok (u', f_out s, f_speed s, (f_left s, f_right s, f_temp s)).

(** The boundary conditions available on the CPU, BoundaryFactory.cpp. *)
Inductive bckind : Type := Periodic | Neumann.
Definition bc_apply {A} (b : bckind) : bc_fun A :=
  match b with Periodic => periodic_apply | Neumann => neumann_apply end.

(** A simulator without MPI and without diffusion.  [vols] are the conserved
    volumes after construction, volume 0 filled with the initial data;
    Simulator::setInitialValue applies the boundary conditions (Simulator.cpp
    lines 117-162, 59-63). *)
Definition start {V : cvars} {Sc : Type} (bc : vol V -> res (vol V)) (vols : list (vol V)) (sc : Sc)
  : res (sim V Sc) :=
  u <- vat vols 0;;
  u' <- bc u;;
  Ok (mksim (vset vols 0 u') 0%R 0%nat sc).

Definition serial_run {V : cvars} (it : integrator) (b : bckind) (dims g : Z)
    (fx : numflux V) (rc : recon V) (p : params) (obeys : vol V -> bool)
    (vols : list (vol V)) (scratch : vol V * vol V * vol V)
    (adjs : list (R -> list (R -> R))) : res (sim V (vol V * vol V * vol V)) :=
  let bc := apply_boundary (bc_apply b) dims g (fun _ => false) in
  st <- start bc vols scratch;;
  run it (flux_system dims g fx rc Ok) bc p obeys adjs st.
