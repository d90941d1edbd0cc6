(** Model of QueueWriter, /repo/alsfvm/src/io/QueueWriter.cpp, with one thread that
    writes and one that pops.

    Both write (lines 31-51) and pop (lines 56-67) hold the mutex, except while they
    wait, so that an execution is a sequence of critical sections; the order in
    which the threads get the mutex is arbitrary.  A thread in
    conditionVariable.wait goes on only in a state where its predicate holds; every
    section ends with notify_all (lines 52, 68), so no wake-up is lost.  The
    contents of a volume are a value of the type [A]. *)
From Coq Require Import List Bool Arith.
From Verif Require Import M_Base.
Import ListNotations.

Section Queue.
Context {A : Type}.
Variable queueSize : nat.
(** What a new volume holds before it is written to. *)
Variable fresh : A.

Record queue : Type := mkqueue {
  nextIndex : nat;               (* QueueWriter.hpp line 59 *)
  allocatedVolumes : list A;     (* line 61 *)
  waitingVolumes : list nat;     (* line 64: places in allocatedVolumes *)
  todo : list A;                 (* what the writing thread has yet to write *)
  blocked : bool;                (* the writing thread is inside the wait of lines 35-37 *)
  delivered : list A             (* what the handlers saw, in order *)
}.

(** Constructor, lines 21-26. *)
Definition initial (items : list A) : queue := mkqueue 0 [] [] items false [].

Fixpoint set_nth (l : list A) (i : nat) (a : A) : list A :=
  match l, i with
  | [], _ => []
  | _ :: l', O => a :: l'
  | b :: l', S i' => b :: set_nth l' i' a
  end.

(** Lines 40-50, after the wait. *)
Definition write_body (v : A) (rest : list A) (q : queue) : res queue :=
  let alloc :=
    if (nextIndex q <? queueSize) && (length (allocatedVolumes q) <=? nextIndex q)
    then allocatedVolumes q ++ [fresh] else allocatedVolumes q in
  if nextIndex q <? length alloc
  then Ok (mkqueue (nextIndex q) (set_nth alloc (nextIndex q) v) (waitingVolumes q ++ [nextIndex q]) rest false (delivered q))
  else UB.

Definition full (q : queue) : bool := length (waitingVolumes q) =? queueSize.
(** The predicate of line 36. *)
Definition may_go_on (q : queue) : bool := length (waitingVolumes q) <? length (allocatedVolumes q).

(** What the writing thread does with the mutex, lines 32-50; [None]: it does not
    get on (it waits). *)
Definition writer_section (q : queue) : option (res queue) :=
  match todo q with
  | [] => None
  | v :: rest =>
      if blocked q then
        if may_go_on q then
          if full q then None else Some (write_body v rest q)
        else None
      else if full q then
        Some (Ok (mkqueue (nextIndex q) (allocatedVolumes q) (waitingVolumes q) (todo q) true (delivered q)))
      else Some (write_body v rest q)
  end.

(** The popping thread, lines 57-66. *)
Definition popper_section (q : queue) : option (res queue) :=
  match waitingVolumes q with
  | [] => None
  | i :: w =>
      Some (match nth_error (allocatedVolumes q) i with
            | None => UB
            | Some v => Ok (mkqueue (nextIndex q) (allocatedVolumes q) w (todo q) (blocked q) (delivered q ++ [v]))
            end)
  end.

(** One critical section of either thread. *)
Inductive qstep (q : queue) (r : res queue) : Prop :=
| writer_step : writer_section q = Some r -> qstep q r
| popper_step : popper_section q = Some r -> qstep q r.

(** All executions. *)
Inductive reaches (q : queue) : queue -> Prop :=
| reaches_refl : reaches q q
| reaches_step q1 q2 : reaches q q1 -> qstep q1 (Ok q2) -> reaches q q2.

End Queue.
Arguments queue : clear implicits.
