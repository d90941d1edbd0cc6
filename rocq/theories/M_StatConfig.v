(** Which statistics a configuration creates, and when they are computed.
    Code: /repo/alsuq/src/config/Setup.cpp lines 222-298,
    /repo/alsuq/src/stats/TimeIntegratedWriter.cpp,
    /repo/alsuq/src/run/Runner.cpp lines 39-90. *)
From Coq Require Import ZArith Reals List Bool.
From Verif Require Import M_Base M_Time.
Import ListNotations.
Open Scope Z_scope.

(** The children of one node of [uq.stats] that decide about times: [numberOfSaves]
    (a size_t), [writeInitialTimestep], [time], [timeRadius]. *)
Record node : Type := mknode {
  n_saves : option Z;
  n_initial : option bool;
  n_time : option R;
  n_radius : option R
}.

(** The object that decides when the statistic itself is computed:
    - [SFixed w]: FixedIntervalStatistics;
    - [SNever]: FixedIntervalStatistics with timeInterval = endTime / 0, which is
      infinite.  Then numberSaved * timeInterval is infinite or not a number; no time
      is greater or equal, and std::min(dt, inf - t) is dt
      (FixedIntervalStatistics.cpp lines 33-41 and 73-85);
    - [SEvery]: alsuq's TimeIntegratedWriter, which passes every call on
      (TimeIntegratedWriter.cpp lines 24-29 and 53-64) and is no TimestepAdjuster
      (TimeIntegratedWriter.hpp line 27). *)
Inductive sobs : Type :=
| SFixed (w : tw)
| SNever
| SEvery.

(** Setup.cpp lines 263-292.  [None]: nothing is appended to the vector of
    statistics. *)
Definition node_stat (tend : R) (nd : node) : res (option sobs) :=
  match n_saves nd with
  | Some n =>
      let wi := match n_initial nd with Some b => b | None => false end in
      if n =? 0 then Ok (Some SNever) else Ok (Some (SFixed (new_stat (tend / IZR n) wi)))
  | None =>
      match n_time nd with
      | Some _ => match n_radius nd with Some _ => Ok (Some SEvery) | None => Throw end
      | None => Ok None
      end
  end.

(** createStatistics, Setup.cpp lines 237-297: the result remembers which node an
    object stems from (the place of the node among its siblings). *)
Fixpoint create_statistics (tend : R) (i : Z) (nodes : list node) : res (list (Z * sobs)) :=
  match nodes with
  | [] => Ok []
  | nd :: rest =>
      s <- node_stat tend nd;;
      l <- create_statistics tend (i + 1) rest;;
      Ok (match s with Some w => (i, w) :: l | None => l end)
  end.

(** write and adjustTimestep of these objects (Statistics.cpp lines 21-26). *)
Definition sput (t : R) (w : sobs) : sobs * bool :=
  match w with
  | SFixed w => let '(w', b) := tw_put t w in (SFixed w', b)
  | SNever => (SNever, false)
  | SEvery => (SEvery, true)
  end.
Definition sadjust (t : R) (w : sobs) (dt : R) : R :=
  match w with SFixed w => tw_adjust t w dt | _ => dt end.

(** As in M_Time, with these objects: a sample of Runner::run (Runner.cpp lines
    55-73).  Only TimestepAdjusters are registered as such (lines 59-65). *)
Definition slogged : Type := (sobs * list R)%type.
Definition sput_log (t : R) (wl : slogged) : slogged :=
  let '(w', saved) := sput t (fst wl) in (w', if saved then snd wl ++ [t] else snd wl).
Definition scall (t : R) (ws : list slogged) : list slogged := map (sput_log t) ws.
Definition sshorten (t : R) (ws : list slogged) (dt : R) : R :=
  fold_left (fun dt wl => sadjust t (fst wl) dt) ws dt.
Definition sstep (dt : R) (st : R * list slogged) : R * list slogged :=
  let '(t, ws) := st in
  let t' := (t + sshorten t ws dt)%R in
  (t', scall t' ws).
Definition sample_until (tend : R) (ws : list sobs) (dts : list R) : R * list slogged :=
  fold_left (fun st dt => if Rge_bool (fst st) tend then st else sstep dt st) dts
    (0%R, scall 0 (map (fun w => (w, [])) ws)).
(** All samples of one process (Runner.cpp lines 42-78); [fresh] are the writers of the
    simulator itself, created anew for each sample and registered before the
    statistics; the statistics are kept from sample to sample. *)
Fixpoint run_samples (tend : R) (fresh stats : list sobs) (samples : list (list R)) : list (R * list slogged) :=
  match samples with
  | [] => []
  | dts :: rest =>
      let r := sample_until tend (fresh ++ stats) dts in
      r :: run_samples tend fresh (skipn (length fresh) (map fst (snd r))) rest
  end.
