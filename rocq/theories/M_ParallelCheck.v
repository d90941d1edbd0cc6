(** Steps of several processes, each of which checks its volume afterwards. *)
From Coq Require Import ZArith Reals List Bool.
From Verif Require Import M_Base M_Vec M_Boundary M_Flux M_Sim M_Mpi M_Parallel.
Import ListNotations.
Open Scope Z_scope.

(** How a job of several processes ends: all take all their steps, or some process
    throws. *)
Inductive outcome (V : cvars) : Type :=
| Finished (st : Z -> sim V (scratch V))
| Refused.
Arguments Finished {V} _.
Arguments Refused {V}.

Section Check.
Context {V : cvars} {St : storage V}.
Variables (it : integrator) (b : bckind) (p : cell) (gr : grid) (junk : Z -> Z -> Z)
  (g nvars np : Z) (lgs : Z -> grid) (fx : numflux V) (rc : recon V) (prm : params).
Variable obeys : Z -> vol V -> bool.

(** Simulator::checkConstraints, /repo/alsfvm/src/simulator/Simulator.cpp lines
    181-189, on process [r]: the volume of this process is checked, all of it
    (CPUCellComputer.cpp lines 79-125), and nothing else. *)
Definition accepts (st : Z -> sim V (scratch V)) (r : Z) : Prop :=
  exists v, vat (s_vols (st r)) 0 = Ok v /\ obeys r v = true.
Definition refuses (st : Z -> sim V (scratch V)) (r : Z) : Prop :=
  exists v, vat (s_vols (st r)) 0 = Ok v /\ obeys r v = false.

(** Simulator::performStep (Simulator.cpp lines 81-85) on all processes, for every
    entry of [adjs].  The first exception ends the job: a process that has thrown
    takes no further part, and none of the others can finish another step, since
    every step begins with messages and a reduction over all processes.  (That the
    others may wait for ever is not part of the model; see C58.) *)
Inductive world_checked : list (R -> list (R -> R)) -> (Z -> sim V (scratch V)) -> outcome V -> Prop :=
| wc_done st : world_checked [] st (Finished st)
| wc_refuse adj adjs st st1 r :
    world_step it b p gr junk g nvars np lgs fx rc prm adj st st1 ->
    0 <= r < np -> refuses st1 r -> world_checked (adj :: adjs) st Refused
| wc_go adj adjs st st1 o :
    world_step it b p gr junk g nvars np lgs fx rc prm adj st st1 ->
    (forall r, 0 <= r < np -> accepts st1 r) ->
    world_checked adjs st1 o -> world_checked (adj :: adjs) st o.
End Check.
