(** What the nodes [fvm.writer] and [fvm.functionals] say about the files. *)
From Coq Require Import ZArith Reals List.
From Verif Require Import M_Base M_WriterConfig S_StatConfig.
Import ListNotations.
Open Scope Z_scope.

Definition initial_wanted (nd : onode) : bool := match o_initial nd with Some b => b | None => false end.

(** Saves: the values at the multiples of the n-th part of the end time. *)
Definition saves (tend : R) (n : Z) (initial : bool) (u : R -> R) : list (R * R) :=
  map (fun t => (t, u t)) (save_list tend n initial).

(** A window: one entry, for the centre of the window, which is [v] if the solution is
    [v] all the time. *)
Definition one_average (time : R) (u : R -> R) (file : list (R * R)) : Prop :=
  exists a, file = [(time, a)] /\ forall v, (forall t, u t = v) -> a = v.

(** What a node says about the file. *)
Definition file_as_configured (tend : R) (nd : onode) (u : R -> R) (file : list (R * R)) : Prop :=
  match o_saves nd, o_time nd with
  | Some n, _ => file = saves tend n (initial_wanted nd) u
  | None, Some tm => one_average tm u file
  | None, None => True
  end.

(** The integral over a window that is closed on both sides: [at_ k] is the time after [k] steps; every step that ends
    in the window counts with its length and the value at its end. *)
Definition steps_in_window (time radius : R) (u : R -> R) (at_ : nat -> R) (n : nat) : R :=
  fold_right Rplus 0%R (map (fun k =>
    if Rle_dec (Rabs (at_ (S k) - time)) radius then ((at_ (S k) - at_ k) * u (at_ (S k)))%R else 0%R) (seq 0 n)).
