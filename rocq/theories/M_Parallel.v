(** Simulators of several processes working on one decomposed grid. *)
From Coq Require Import ZArith Reals List Bool.
From Verif Require Import M_Base M_Vec M_Boundary M_Flux M_Sim M_Mpi.
Import ListNotations.
Open Scope Z_scope.

(** boundary::Type of a named boundary condition: SimulatorSetup.cpp lines
    275-281 in /repo/alsfvm/src/config give all sides of the grid the same. *)
Definition side_type (b : bckind) : btype :=
  match b with Periodic => PERIODIC | Neumann => NEUMANN end.

(** The sides skipped by the boundary of a local grid,
    /repo/alsfvm/src/boundary/BoundaryCPU.cpp lines 62-66. *)
Definition mpi_sides (lg : grid) (s : Z) : bool := btype_eqb (gr_bc lg s) MPI_BC.

(** A volume holds each variable in an area of its own (Volume.cpp lines 44-60);
    [var_of v] is the component of the record kept in area [v]. *)
Class storage (V : cvars) : Type := var_of : Z -> nat.
Arguments var_of V {_} _.
#[global] Instance scalar_storage : storage scalar_cvars := fun _ => 0%nat.

Section Parallel.
Context {V : cvars} {St : storage V}.

(** The variables of the volumes of all processes as MPI sees them: separate
    arrays of scalars.  [nvars] is Volume::getNumberOfVariables. *)
Definition memory_of (l : Z -> vol V) : memory R :=
  fun r v a => comp (var_of V v) (vdat (l r) a).

(** All processes exchange the cells of their volume ([np] processes, grid [gr]
    decomposed by [p]): ConservedSystem.cpp lines 45-63 and
    CartesianCellExchanger.cpp lines 51-104, with input and output the same
    volume. *)
Definition exchange_volumes (p : cell) (gr : grid) (junk : Z -> Z -> Z) (g nvars np : Z)
    (l l' : Z -> vol V) : Prop :=
  exists m', exchanged (messages np (world_ops p gr junk g nvars)) (memory_of l) m' /\
    forall r, 0 <= r < np ->
      vnx (l' r) = vnx (l r) /\ vny (l' r) = vny (l r) /\ vnz (l' r) = vnz (l r) /\
      forall v a, 0 <= v < nvars -> comp (var_of V v) (vdat (l' r) a) = m' r v a.

(** MPI_Allreduce with MPI_MAX, CartesianCellExchanger.cpp lines 38-45. *)
Definition is_max_over (np : Z) (f : Z -> R) (m : R) : Prop :=
  (forall r, 0 <= r < np -> (f r <= m)%R) /\ exists r, 0 <= r < np /\ m = f r.

(** A system whose wave speeds have been replaced by the maxima over the
    processes: CellExchanger::adjustWaveSpeed (CellExchanger.cpp lines 21-23)
    is the wave speed adjuster of the integrator (Simulator.cpp lines 224-229). *)
Definition with_speeds {Sc} (w : Z -> R) (sys : system V Sc) : system V Sc :=
  fun u out sc =>
    r <- sys u out sc;;
    let '(u', out', _, sc') := r in Ok (u', out', w, sc').

Definition scratch : Type := (vol V * vol V * vol V)%type.

(** One pass of the loop of Simulator::incrementSolution (Simulator.cpp lines
    191-209), as in [increment_solution]. *)
Definition one_substep (it : integrator) (sys : system V scratch) (bc : vol V -> res (vol V))
    (prm : params) (adj : list (R -> R)) (k : nat) (s : list (vol V) * R * scratch)
  : res (list (vol V) * R * scratch) :=
  let '(vols, dt, sc) := s in
  r <- perform_substep it sys prm adj k vols dt sc;;
  let '(vols, dt, sc) := r in
  o <- vat vols (S k);;
  o' <- bc o;;
  Ok (vset vols (S k) o', dt, sc).

Variables (it : integrator) (b : bckind) (p : cell) (gr : grid) (junk : Z -> Z -> Z)
  (g nvars np : Z) (lgs : Z -> grid) (fx : numflux V) (rc : recon V) (prm : params).

(** What process [r] runs: the number of dimensions is that of its own block,
    counted by the volume for the fluxes (ConservedSystem.cpp line 41) and by the
    grid for the boundary (BoundaryCPU.cpp line 118). *)
Definition local_dims (r : Z) : Z := volume_dimensions (gr_cells (lgs r)).
Definition local_sys (r : Z) (u' : vol V) : system V scratch :=
  flux_system (local_dims r) g fx rc (fun _ => Ok u').
Definition local_bc (r : Z) : vol V -> res (vol V) :=
  apply_boundary (bc_apply b) (active_dimension (gr_cells (lgs r))) g (mpi_sides (lgs r)).

(** One substep of all processes.  They meet twice: in the exchange (each waits
    for all its messages, and the next exchange of a process comes after that)
    and, when the timestep is computed, in the reductions.  In between they do
    not touch common memory, so their order does not matter. *)
Definition world_substep (adj : list (R -> R)) (k : nat)
    (w w' : Z -> list (vol V) * R * scratch) : Prop :=
  exists (us outs l2 : Z -> vol V) (ws : Z -> Z -> R) (wmax : Z -> R),
    (forall r, 0 <= r < np ->
       vat (fst (fst (w r))) (input_index it k) = Ok (us r) /\ vat (fst (fst (w r))) (S k) = Ok (outs r)) /\
    exchange_volumes p gr junk g nvars np us l2 /\
    (forall r, 0 <= r < np -> exists u' out' sc',
       local_sys r (l2 r) (us r) (outs r) (snd (w r)) = Ok (u', out', ws r, sc')) /\
    (forall d, 0 <= d < 3 -> is_max_over np (fun r => ws r d) (wmax d)) /\
    forall r, 0 <= r < np ->
      one_substep it (with_speeds wmax (local_sys r (l2 r))) (local_bc r) prm adj k (w r) = Ok (w' r).

Inductive world_substeps (adj : list (R -> R)) : list nat ->
    (Z -> list (vol V) * R * scratch) -> (Z -> list (vol V) * R * scratch) -> Prop :=
| ws_nil w : world_substeps adj [] w w
| ws_cons k ks w w1 w' : world_substep adj k w w1 -> world_substeps adj ks w1 w' ->
    world_substeps adj (k :: ks) w w'.

(** Simulator::incrementSolution on all processes.  [adj] are the timestep
    adjusters, the same on all processes. *)
Definition world_step (adj : R -> list (R -> R)) (st st' : Z -> sim V scratch) : Prop :=
  exists t w', (forall r, 0 <= r < np -> s_time (st r) = t) /\
    world_substeps (adj t) (seq 0 (substeps it)) (fun r => (s_vols (st r), 0%R, s_sys (st r))) w' /\
    forall r, 0 <= r < np -> exists vols',
      swap_ends (fst (fst (w' r))) = Ok vols' /\
      st' r = mksim vols' (s_time (st r) + snd (fst (w' r)))%R (S (s_steps (st r))) (snd (w' r)).

Inductive world_run : list (R -> list (R -> R)) -> (Z -> sim V scratch) -> (Z -> sim V scratch) -> Prop :=
| wr_nil st : world_run [] st st
| wr_cons adj adjs st st1 st' : world_step adj st st1 -> world_run adjs st1 st' ->
    world_run (adj :: adjs) st st'.

End Parallel.
Arguments scratch : clear implicits.
