(** What the writer and the functionals of a configuration are, when they are called and
    what they hand to the file writers.
    Code: /repo/alsfvm/src/config/SimulatorSetup.cpp lines 205-231, 356-419, 546-640;
    the loop of /repo/alsvinncli/src/main.cpp lines 210-234. *)
From Coq Require Import ZArith Reals List Bool.
From Verif Require Import M_Base M_Boundary M_Time M_StatConfig.
Import ListNotations.
Open Scope Z_scope.

(** The children of [fvm.writer] or of one node of [fvm.functionals] that decide about
    times.  The counts are of type size_t; those of the coarse saves are also put into an
    int, which is taken to hold them. *)
Record onode : Type := mkonode {
  o_saves : option Z;
  o_initial : option bool;
  o_coarse : option Z;
  o_skips : option Z;
  o_time : option R;
  o_radius : option R;
  o_snapshots : option Z
}.

(** What stands behind the object that decides about times:
    - [Raw]: a file writer, or IntervalFunctionalWriter, which computes the functional
      with weight 1 into a cleared volume (IntervalFunctionalWriter.cpp lines 32-65);
    - [Average]: TimeIntegratedWriter (io/TimeIntegratedWriter.cpp lines 28-66);
    - [Integral]: TimeIntegrationFunctional (TimeIntegrationFunctional.cpp lines 33-62). *)
Inductive sink : Type :=
| Raw
| Average (time radius : R)
| Integral (time radius : R).

(** The FixedIntervalWriter of lines 396-413 and 589-602.  With 0 snapshots the interval
    is infinite and nothing is ever passed on ([SNever], see M_StatConfig); a negative
    radius makes it minus infinity then, which is not followed further. *)
Definition snapshots (time radius : R) (n : Z) : res sobs :=
  if n =? 0 then (if Rlt_dec radius 0 then UB else Ok SNever)
  else Ok (SFixed (new_fixed (radius / IZR n) false (Rmax (time - radius) 0))).

(** createWriter, lines 356-419.  [gdx] is the cell length, [garbage] the indeterminate
    member of CoarseGrainingIntervalWriter (see M_Time).  A missing child that is read
    with get throws. *)
Definition writer_output (tend gdx garbage : R) (nd : onode) : res (sobs * sink) :=
  match o_saves nd with
  | Some n =>
      let wi := match o_initial nd with Some b => b | None => false end in
      match o_coarse nd with
      | Some c =>
          match o_skips nd with
          | None => Throw
          | Some s => Ok (if n =? 0 then SNever else SFixed (new_coarse (tend / IZR n) c s gdx garbage), Raw)
          end
      | None => Ok (if n =? 0 then SNever else SFixed (new_fixed (tend / IZR n) wi 0), Raw)
      end
  | None =>
      match o_radius nd with
      | Some r =>
          match o_time nd with
          | None => Throw
          | Some tm =>
              match o_snapshots nd with
              | Some n => w <- snapshots tm r n;; Ok (w, Average tm r)
              | None => Ok (SEvery, Raw)
              end
          end
      | None => Ok (SEvery, Raw)
      end
  end.

(** One turn of the loop of createFunctionals, lines 566-632.  The FixedIntervalWriter of
    lines 621-623 is created with the default writeInitialTimestep = true
    (FixedIntervalWriter.hpp lines 41-43). *)
Definition functional_output (tend : R) (nd : onode) : res (sobs * sink) :=
  match o_time nd with
  | Some tm =>
      match o_radius nd with
      | None => Throw
      | Some r =>
          match o_snapshots nd with
          | Some n => w <- snapshots tm r n;; Ok (w, Integral tm r)
          | None => Ok (SEvery, Integral tm r)
          end
      end
  | None =>
      match o_saves nd with
      | Some n => Ok (if n =? 0 then SNever else SFixed (new_fixed (tend / IZR n) true 0), Raw)
      | None => Throw
      end
  end.

(** readSetupFromFile, lines 205-231: the functionals are registered as timestep adjusters
    before the writer; the list is in this order.  (They are called in the other order,
    the writer first; the objects share no state.) *)
Definition create_outputs (tend gdx garbage : R) (writer : option onode) (functionals : list onode)
  : res (list (sobs * sink)) :=
  fs <- map_res (functional_output tend) functionals;;
  match writer with
  | None => Ok fs
  | Some nd => w <- writer_output tend gdx garbage nd;; Ok (fs ++ [w])
  end.

(** TimeIntegrationFunctional::write, lines 33-49: the state is (lastTime, integral). *)
Definition integral_put (time radius : R) (u : R -> R) (st : R * R) (t : R) : R * R :=
  let '(last, acc) := st in
  (t, if Rle_dec (Rabs (t - time)) radius then (acc + (t - last) * u t)%R else acc).

(** What reaches the file, as pairs (time, value), for one cell of one variable: [u t] is
    the solution, or the functional of the solution with weight 1, at time [t]; the
    functional is taken to be proportional to its weight.  [calls] are the times at
    which the sink is called, [tfinal] the time when finalize is called.
    TimeIntegrationFunctional::finalize (lines 51-62) writes the volume that its first
    call has created; without a call it dereferences a null pointer. *)
Definition sink_output (s : sink) (u : R -> R) (calls : list R) (tfinal : R) : res (list (R * R)) :=
  match s with
  | Raw => Ok (map (fun t => (t, u t)) calls)
  | Average time radius =>
      r <- tint_run time radius (map (fun t => (t, u t)) calls);;
      Ok (map (fun v => (time, v)) (snd r))
  | Integral time radius =>
      match calls with
      | [] => UB
      | _ => Ok [(tfinal, snd (fold_left (integral_put time radius u) calls (0%R, 0%R)))]
      end
  end.

(** The loop of main.cpp and finalize; [dts] are the timesteps the equations allow. *)
Definition run_outputs (tend : R) (objs : list (sobs * sink)) (u : R -> R) (dts : list R)
  : R * list (res (list (R * R))) :=
  let r := sample_until tend (map fst objs) dts in
  (fst r, map (fun ol => sink_output (snd (fst ol)) u (snd (snd ol)) (fst r)) (combine objs (snd r))).
