(** What cell exchanges between GPUs should do. *)
From Coq Require Import ZArith List Bool.
From Verif Require Import M_Base M_Sim M_Mpi M_CudaExchange S_Mpi.
Open Scope Z_scope.

(** The neighbours of the processes of a decomposed grid. *)
Definition neighbours (p : cell) (gr : grid) (junk : Z -> Z -> Z) (r : Z) : Z -> Z :=
  match decompose p gr r (junk r) with Ok (_, nb) => nb | _ => fun _ => -1 end.

(** An exchange of process [r] has turned a variable into [got]; [given q] is what
    process [q] gave to it.  Blocks have [n] cells. *)
Definition delivered {A} (dims g : Z) (n : cell) (nb : Z -> Z -> Z) (r : Z) (given : Z -> cell -> A) (got : cell -> A) : Prop :=
  (forall c, inner dims g n c -> got c = given r c) /\
  (forall s c, face_ghost dims g n s c -> nb r s <> -1 ->
     inner dims g n (opposite_cell n s c) /\ got c = given (nb r s) (opposite_cell n s c)) /\
  (forall s c, face_ghost dims g n s c -> nb r s = -1 -> got c = given r c).

(** All exchanges of a simulation with the integrator deliver, whatever the
    processes compute and however their operations interleave. *)
Definition all_deliver (it : integrator) : Prop :=
  forall A p gr junk dims g nvars (u : nat -> Z -> Z -> cell -> A) zero st,
  fits p (gr_cells gr) dims g -> paired (gr_bc gr) ->
  let n := per3 p (gr_cells gr) in let nb := neighbours p gr junk in
  happens dims g (at3 (volume_size n g)) nvars (processes p) nb (reduces it) u zero st ->
  forall k r v, 0 <= r < processes p -> 0 <= v < nvars -> finished st r k = true ->
  delivered dims g n nb r (fun q => u k q v) (x_out st k r v).
