(** What the files of a run over many samples are for. *)
From Coq Require Import ZArith List Bool String.
From Verif Require Import M_Base M_Output M_Groups.
Import ListNotations.
Open Scope Z_scope.

(** A reader finds [x] under the name [name]: the file has one variable of this
    name, and it is [x]. *)
Definition reads (f : ncfile) (name : string) (x : fvar) : Prop :=
  forall y, In (name, y) f <-> y = x.

(** [vals]: what the writes [ws] of the variables make of new variables. *)
Definition produces (global : cell) (ws : list (fvar -> res fvar)) (vals : list fvar) : Prop :=
  Forall2 (fun w x => w (new_fvar global) = Ok x) ws vals.
