(** Writers and statistics that decide about times: when they save and how they
    shorten the timestep. *)
From Coq Require Import ZArith Reals List Bool.
From Verif Require Import M_Base M_Vec M_Boundary M_Flux M_Sim.
Import ListNotations.
Open Scope Z_scope.

(** State of one observer, as far as times are concerned.
    - [TFixed T s k]: FixedIntervalWriter with timeInterval T, startTime s,
      numberSaved k;
    - [TStat T wi k]: FixedIntervalStatistics with writeInitialTimestep wi;
    - [TCoarse T n skips grid_dx dx k j first]: CoarseGrainingIntervalWriter;
      [grid_dx] is grid.getCellLengths().x, [dx] the member of that name, whose
      initial value is indeterminate (an arbitrary number here). *)
Inductive tw : Type :=
| TFixed (T s : R) (k : Z)
| TStat (T : R) (wi : bool) (k : Z)
| TCoarse (T : R) (n skips : Z) (grid_dx dx : R) (k j : Z) (first : bool).

(** Constructor of FixedIntervalWriter,
    /repo/alsfvm/src/io/FixedIntervalWriter.cpp lines 23-31. *)
Definition new_fixed (T : R) (wi : bool) (s : R) : tw := TFixed T s (if wi then 0 else 1).
(** FixedIntervalStatistics,
    /repo/alsuq/src/stats/FixedIntervalStatistics.cpp lines 22-31 (numberSaved = 0
    in the header, line 74 of FixedIntervalStatistics.hpp). *)
Definition new_stat (T : R) (wi : bool) : tw := TStat T wi (if wi then 0 else 1).
(** CoarseGrainingIntervalWriter,
    /repo/alsfvm/src/io/CoarseGrainingIntervalWriter.cpp lines 24-34 and the
    member initialisers of the header (lines 74-77). *)
Definition new_coarse (T : R) (n skips : Z) (grid_dx garbage : R) : tw :=
  TCoarse T n skips grid_dx garbage 0 0 true.

Definition Rge_bool (a b : R) : bool := if Rle_dec b a then true else false.
Definition Reqb (a b : R) : bool := if Req_EM_T a b then true else false.

(** Save time that the counters of CoarseGrainingIntervalWriter stand for. *)
Definition coarse_time (T : R) (skips : Z) (dx : R) (k j : Z) : R :=
  (IZR k * T + IZR (skips + 1) * dx * IZR j)%R.

(** write: the new state and whether the wrapped writer is called.
    FixedIntervalWriter.cpp lines 33-43, FixedIntervalStatistics.cpp lines 64-86,
    CoarseGrainingIntervalWriter.cpp lines 36-75. *)
Definition tw_put (t : R) (w : tw) : tw * bool :=
  match w with
  | TFixed T s k =>
      if Rge_bool t (IZR k * T + s) then (TFixed T s (k + 1), true) else (w, false)
  | TStat T wi k =>
      let k := if Reqb t 0 then (if wi then 0 else 1) else k in
      if Rge_bool t (IZR k * T) then (TStat T wi (k + 1), true) else (TStat T wi k, false)
  | TCoarse T n skips gdx _ k j first =>
      let dx := gdx in
      let saved := Rge_bool t (coarse_time T skips dx k j) in
      let j := if saved then j + 1 else j in
      let k := if k =? 0 then k + 1 else k in
      let j := if first then - n else j in
      if j =? n + 1 then (TCoarse T n skips gdx dx (k + 1) (- n) false, saved)
      else (TCoarse T n skips gdx dx k j false, saved)
  end.

(** adjustTimestep: FixedIntervalWriter.cpp lines 45-53,
    FixedIntervalStatistics.cpp lines 33-41, CoarseGrainingIntervalWriter.cpp
    lines 77-88. *)
Definition tw_adjust (t : R) (w : tw) (dt : R) : R :=
  match w with
  | TFixed T s k => if 0 <? k then Rmin dt (IZR k * T + s - t) else dt
  | TStat T wi k => if 0 <? k then Rmin dt (IZR k * T - t) else dt
  | TCoarse T n skips _ dx k j _ =>
      if 0 <? k then Rmin dt (coarse_time T skips dx k j - t) else dt
  end.

(** An observer together with the times at which it has saved, in order. *)
Definition logged : Type := (tw * list R)%type.
Definition put_log (t : R) (wl : logged) : logged :=
  let '(w', saved) := tw_put t (fst wl) in
  (w', if saved then snd wl ++ [t] else snd wl).

(** Simulator::callWriters, /repo/alsfvm/src/simulator/Simulator.cpp lines
    172-178. *)
Definition call_writers (t : R) (ws : list logged) : list logged := map (put_log t) ws.

(** One step as far as the time is concerned: the CFL timestep [dt] goes through
    the adjusters (Integrator.cpp lines 57-66) in the order of registration, the
    time is incremented, the writers are called. *)
Definition shorten (t : R) (ws : list logged) (dt : R) : R :=
  fold_left (fun dt wl => tw_adjust t (fst wl) dt) ws dt.
Definition time_step (dt : R) (st : R * list logged) : R * list logged :=
  let '(t, ws) := st in
  let t' := (t + shorten t ws dt)%R in
  (t', call_writers t' ws).

(** The run loop of /repo/alsvinncli/src/main.cpp lines 210-233 and
    /repo/alsuq/src/run/Runner.cpp lines 68-73: the writers are called for the
    initial state, then steps are performed.  [dts] are the CFL timesteps. *)
Definition drive (ws : list tw) (dts : list R) : R * list logged :=
  fold_left (fun st dt => time_step dt st) dts (0%R, call_writers 0 (map (fun w => (w, [])) ws)).

(** The same with the test atEnd (Simulator.cpp lines 77-79) before each step;
    the loop has stopped when the time is at least [tend]. *)
Definition drive_until (tend : R) (ws : list tw) (dts : list R) : R * list logged :=
  fold_left (fun st dt => if Rge_bool (fst st) tend then st else time_step dt st) dts
    (0%R, call_writers 0 (map (fun w => (w, [])) ws)).

(** All samples of one process one after the other, Runner.cpp lines 42-80: the
    statistics objects [stats] are kept from sample to sample, the writers
    [fresh] are created for each sample.  The list of save times is started anew
    for each sample. *)
Fixpoint drive_samples (tend : R) (fresh stats : list tw) (samples : list (list R))
  : list (R * list logged) :=
  match samples with
  | [] => []
  | dts :: rest =>
      let r := drive_until tend (fresh ++ stats) dts in
      r :: drive_samples tend fresh (skipn (length fresh) (map fst (snd r))) rest
  end.

(** The whole simulator with its observers. *)
Section Full.
Context {V : cvars} {Sc : Type}.
Definition full_step (it : integrator) (sys : system V Sc) (bc : vol V -> res (vol V)) (p : params)
    (obeys : vol V -> bool) (x : sim V Sc * list logged) : res (sim V Sc * list logged) :=
  let '(st, ws) := x in
  st' <- perform_step it sys bc p (fun t => map (fun wl => tw_adjust t (fst wl)) ws) obeys st;;
  Ok (st', call_writers (s_time st') ws).
Definition full_run (it : integrator) (sys : system V Sc) (bc : vol V -> res (vol V)) (p : params)
    (obeys : vol V -> bool) (n : nat) (st : sim V Sc) (ws : list tw) : res (sim V Sc * list logged) :=
  fold_res (fun _ => full_step it sys bc p obeys) (seq 0 n)
    (st, call_writers (s_time st) (map (fun w => (w, [])) ws)).
End Full.

(** TimeIntegratedWriter,
    /repo/alsfvm/src/io/TimeIntegratedWriter.cpp lines 28-66: state is (lastTime,
    written, integratedConservedVariables), for one cell of one variable.  The
    result also says what is handed to the wrapped writer.  A null pointer is
    dereferenced if the window has passed without a call inside it. *)
Record tint : Type := mktint { ti_last : R; ti_written : bool; ti_acc : option R }.
Definition new_tint : tint := mktint 0 false None.
Definition tint_put (time radius : R) (t u : R) (s : tint) : res (tint * option R) :=
  let acc :=
    if Rlt_dec (Rabs (t - time)) radius then
      let a := match ti_acc s with None => 0%R | Some a => a end in
      Some (1 * a + (t - ti_last s) * u + 0 * u + 0 * u + 0 * u)%R
    else ti_acc s in
  if negb (ti_written s) && Rge_bool t (time + radius) then
    match acc with
    | None => UB
    | Some a =>
        let a := (a * (1 / 2 / radius))%R in
        Ok (mktint t true (Some a), Some a)
    end
  else Ok (mktint t (ti_written s) acc, None).
(** A sequence of calls; collects what is written. *)
Definition tint_run (time radius : R) (calls : list (R * R)) : res (tint * list R) :=
  fold_res (fun c (x : tint * list R) =>
    r <- tint_put time radius (fst c) (snd c) (fst x);;
    Ok (fst r, match snd r with None => snd x | Some a => snd x ++ [a] end))
    calls (new_tint, []).
