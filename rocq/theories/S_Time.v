(** Save times of the interval writers, stated without their counters. *)
From Coq Require Import ZArith Reals List.
From Verif Require Import M_Base M_Time.
Import ListNotations.
Open Scope Z_scope.

(** The [m]-th save time (from 0) a user expects of a freshly created observer. *)
Definition fixed_times (T s : R) (first : Z) (m : nat) : R := (s + IZR (first + Z.of_nat m) * T)%R.

(** Time 0, then for k = 1, 2, ... the window k T + i h, i = -n .. n. *)
Definition coarse_times (T h : R) (n : Z) (m : nat) : R :=
  match m with
  | O => 0%R
  | S m' =>
      let k := 1 + Z.of_nat m' / (2 * n + 1) in
      let i := Z.of_nat m' mod (2 * n + 1) - n in
      (IZR k * T + IZR i * h)%R
  end.

Definition save_time (w : tw) : nat -> R :=
  match w with
  | TFixed T s k => fixed_times T s k
  | TStat T wi _ => fixed_times T 0 (if wi then 0 else 1)
  | TCoarse T n skips gdx _ _ _ _ => coarse_times T (IZR (skips + 1) * gdx) n
  end.

(** Observers as created, for which the save times can be met: positive
    interval; a positive start time only without the initial save; windows that
    do not overlap.  A statistics object may have been used before. *)
Definition meetable (w : tw) : Prop :=
  match w with
  | TFixed T s k => (0 < T)%R /\ ((k = 0 /\ s = 0%R) \/ (k = 1 /\ (0 <= s)%R))
  | TStat T wi k => (0 < T)%R
  | TCoarse T n skips gdx _ k j first =>
      (0 < T)%R /\ 0 <= n /\ 0 <= skips /\ (0 < gdx)%R /\
      (IZR (2 * n) * (IZR (skips + 1) * gdx) < T)%R /\ k = 0 /\ j = 0 /\ first = true
  end.

(** [l] is the list of all save times up to [t], in order, each once. *)
Definition saved_up_to (times : nat -> R) (t : R) (l : list R) : Prop :=
  exists m, l = map times (seq 0 m) /\ (forall i, (i < m)%nat -> times i <= t)%R /\ (t < times m)%R.

(** The time integral a TimeIntegratedWriter approximates: the steps ending
    inside the window, each weighted with its length. *)
Fixpoint window_sum (time radius last : R) (calls : list (R * R)) : R :=
  match calls with
  | [] => 0%R
  | (t, u) :: rest =>
      ((if Rlt_dec (Rabs (t - time)) radius then (t - last) * u else 0)
       + window_sum time radius t rest)%R
  end.
