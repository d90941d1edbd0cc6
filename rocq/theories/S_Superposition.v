(** Superposition: the run from a combination of initial data is the combination of the runs. *)
From Coq Require Import ZArith Reals List.
From Verif Require Import M_Base M_Vec M_Sim S_Boundary S_Sum S_Sim.
Import ListNotations.
Open Scope R_scope.

(** w1 u1 + w2 u2 + ... at one cell. *)
Fixpoint combination (ws us : list R) : R :=
  match ws, us with
  | w :: ws, u :: us => w * u + combination ws us
  | _, _ => 0
  end.

(** The run [r] reaches the same time in the same number of steps as all the others, and
    ends with the combination of their solutions; or all of them throw. *)
Definition superposed {Sc : Type} (inside : cell -> Prop) (ws : list R)
    (parts : list (res (sim scalar_cvars Sc))) (r : res (sim scalar_cvars Sc)) : Prop :=
  (exists st sts, r = Ok st /\ parts = map Ok sts /\
     Forall (fun s => s_time s = s_time st /\ s_steps s = s_steps st) sts /\
     forall c, inside c -> solution st c = combination ws (map (fun s => solution s c) sts)) \/
  (r = Throw /\ Forall (eq Throw) parts).
