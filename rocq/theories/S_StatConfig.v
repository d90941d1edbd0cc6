(** When the statistics of a configuration should be computed. *)
From Coq Require Import ZArith Reals List.
From Verif Require Import M_Base M_StatConfig.
Import ListNotations.
Open Scope Z_scope.

(** [n] saves: the multiples of the n-th part of the end time up to the end time, with or
    without time 0. *)
Definition save_list (tend : R) (n : Z) (initial : bool) : list R :=
  map (fun k => (IZR k * tend / IZR n)%R) (zrange (if initial then 0 else 1) (n + 1)).
Definition initial_of (nd : node) : bool := match n_initial nd with Some b => b | None => false end.

(** TimeIntegratedWriter.hpp lines 23-26: the times tau with |tau - time| < timeRadius. *)
Definition in_node_window (nd : node) (t : R) : Prop :=
  exists time radius, n_time nd = Some time /\ n_radius nd = Some radius /\ (Rabs (t - time) < radius)%R.

(** What a node says about the times [l], given the times [all] at which the simulation
    stood still. *)
Definition as_configured (tend : R) (all : list R) (nd : node) (l : list R) : Prop :=
  match n_saves nd with
  | Some n => l = save_list tend n (initial_of nd)
  | None => forall t, In t l <-> In t all /\ in_node_window nd t
  end.
