(** Simulators of several processes on one decomposed grid, with any kind of
    scratch memory in the system and with a diffusion operator.  The definitions are
    those of M_Parallel with another system. *)
From Coq Require Import ZArith Reals List Bool.
From Verif Require Import M_Base M_Vec M_Boundary M_Flux M_Sim M_Mpi M_Parallel.
Import ListNotations.
Open Scope Z_scope.

Section Operator.
Context {V : cvars} {Sc D : Type}.

(** A diffusion operator with memory of its own: applyDiffusion adds to the output,
    /repo/alsfvm/include/alsfvm/diffusion/DiffusionOperator.hpp lines 28-44; the
    arguments are the number of dimensions, the conserved variables, the memory and
    the output. *)
Definition diff_op : Type := Z -> vol V -> D -> vol V -> res (D * vol V).

(** ConservedSystem::operator() with a diffusion operator: line 102 of
    /repo/alsfvm/src/simulator/ConservedSystem.cpp, after the fluxes of the inner region
    and the sides.  The conserved variables are those after the exchange (the thread of
    the exchange is joined in line 63). *)
Definition with_diffusion (dims : Z) (op : diff_op) (sys : system V Sc) : system V (Sc * D) :=
  fun u out sc =>
    r <- sys u out (fst sc);;
    let '(u', out', ws, sc') := r in
    x <- op dims u' (snd sc) out';;
    Ok (u', snd x, ws, (sc', fst x)).
End Operator.
Arguments diff_op V D : clear implicits.

Section Parallel.
Context {V : cvars} {St : storage V} {Sc : Type}.

(** As [one_substep] of M_Parallel: Simulator.cpp lines 191-209. *)
Definition substep_of (it : integrator) (sys : system V Sc) (bc : vol V -> res (vol V))
    (prm : params) (adj : list (R -> R)) (k : nat) (s : list (vol V) * R * Sc)
  : res (list (vol V) * R * Sc) :=
  let '(vols, dt, sc) := s in
  r <- perform_substep it sys prm adj k vols dt sc;;
  let '(vols, dt, sc) := r in
  o <- vat vols (S k);;
  o' <- bc o;;
  Ok (vset vols (S k) o', dt, sc).

Variables (it : integrator) (p : cell) (gr : grid) (junk : Z -> Z -> Z) (g nvars np : Z)
  (lsys : Z -> vol V -> system V Sc) (lbc : Z -> vol V -> res (vol V)) (prm : params).

(** One substep of all processes; [lsys r u] is the system of process [r] when the
    exchange leaves [u] in its volume, [lbc r] its boundary conditions.  As
    [world_substep] of M_Parallel. *)
Definition worlds_substep (adj : list (R -> R)) (k : nat) (w w' : Z -> list (vol V) * R * Sc) : Prop :=
  exists (us outs l2 : Z -> vol V) (ws : Z -> Z -> R) (wmax : Z -> R),
    (forall r, 0 <= r < np ->
       vat (fst (fst (w r))) (input_index it k) = Ok (us r) /\ vat (fst (fst (w r))) (S k) = Ok (outs r)) /\
    exchange_volumes p gr junk g nvars np us l2 /\
    (forall r, 0 <= r < np -> exists u' out' sc',
       lsys r (l2 r) (us r) (outs r) (snd (w r)) = Ok (u', out', ws r, sc')) /\
    (forall d, 0 <= d < 3 -> is_max_over np (fun r => ws r d) (wmax d)) /\
    forall r, 0 <= r < np ->
      substep_of it (with_speeds wmax (lsys r (l2 r))) (lbc r) prm adj k (w r) = Ok (w' r).

Inductive worlds_substeps (adj : list (R -> R)) : list nat ->
    (Z -> list (vol V) * R * Sc) -> (Z -> list (vol V) * R * Sc) -> Prop :=
| wss_nil w : worlds_substeps adj [] w w
| wss_cons k ks w w1 w' : worlds_substep adj k w w1 -> worlds_substeps adj ks w1 w' ->
    worlds_substeps adj (k :: ks) w w'.

(** Simulator::incrementSolution on all processes, as [world_step]. *)
Definition worlds_step (adj : R -> list (R -> R)) (st st' : Z -> sim V Sc) : Prop :=
  exists t w', (forall r, 0 <= r < np -> s_time (st r) = t) /\
    worlds_substeps (adj t) (seq 0 (substeps it)) (fun r => (s_vols (st r), 0%R, s_sys (st r))) w' /\
    forall r, 0 <= r < np -> exists vols',
      swap_ends (fst (fst (w' r))) = Ok vols' /\
      st' r = mksim vols' (s_time (st r) + snd (fst (w' r)))%R (S (s_steps (st r))) (snd (w' r)).

Inductive worlds_run : list (R -> list (R -> R)) -> (Z -> sim V Sc) -> (Z -> sim V Sc) -> Prop :=
| wsr_nil st : worlds_run [] st st
| wsr_cons adj adjs st st1 st' : worlds_step adj st st1 -> worlds_run adjs st1 st' ->
    worlds_run (adj :: adjs) st st'.
End Parallel.

(** The system of process [r]: the fluxes as in M_Parallel, then the diffusion, whose
    number of dimensions is that of the output, a volume of the local grid
    (TecnoDiffusionCPU.cpp line 142). *)
Definition diffusive_sys {V : cvars} {D : Type} (g : Z) (lgs : Z -> grid) (fx : numflux V) (rc : recon V) (op : diff_op V D)
    (r : Z) (u' : vol V) : system V (scratch V * D) :=
  with_diffusion (local_dims lgs r) op (local_sys g lgs fx rc r u').
