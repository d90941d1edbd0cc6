(** What a functional or statistic of the GPU should do. *)
From Coq Require Import ZArith Reals List Bool.
From Verif Require Import M_Base S_Stats.
Import ListNotations.
Open Scope Z_scope.

(** Something happens, and whatever happens is a result with [Q]. *)
Definition always (happens : res (vol R) -> Prop) (Q : vol R -> Prop) : Prop :=
  (exists r, happens r) /\ forall r, happens r -> exists o, r = Ok o /\ Q o.

(** [f] is added to the output. *)
Definition gpu_adds (d : cell) (F : vol R -> res (vol R) -> Prop) (f : Z -> R) : Prop :=
  forall out, has_dims d out ->
    always (F out) (fun out' => has_dims d out' /\ forall i, 0 <= i < dsize d -> vdat out' i = (vdat out i + f i)%R).

(** The CPU gives a result, and whatever happens on the GPU is the same result. *)
Definition as_on_cpu (d : cell) (gpu : res (vol R) -> Prop) (cpu : res (vol R)) : Prop :=
  exists o, cpu = Ok o /\ has_dims d o /\
    always gpu (fun o' => has_dims d o' /\ forall i, 0 <= i < dsize d -> vdat o' i = vdat o i).
