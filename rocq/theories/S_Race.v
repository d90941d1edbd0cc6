(** What the exchange thread may do: it writes ghost cells of the volume. *)
From Coq Require Import ZArith List.
From Verif Require Import M_Base S_Boundary.
Import ListNotations.
Open Scope Z_scope.

Definition ghost_cell (dims g nx ny nz : Z) (c : cell) : Prop :=
  in_volume dims g nx ny nz c /\ ~ interior dims g nx ny nz c.

Definition ghost_writes {A} (dims g nx ny nz : Z) (ws : list (cell * A)) : Prop :=
  Forall (fun w => ghost_cell dims g nx ny nz (fst w)) ws.
