(** Model of the functionals, of their use as statistics and of the writers that
    apply them.
    Code: /repo/alsfvm/src/functional/ (Identity.cpp, Moment.cpp,
    BoundedVariation.cpp, Legendre.cpp, LegendrePointWise.cpp, LogEntropy.cpp,
    TimeIntegrationFunctional.cpp, IntervalFunctionalWriter.cpp),
    /repo/alsuq/src/stats/TimeIntegratedFunctionalStatistics.cpp.
    The structure functions are in M_Structure.

    One conserved variable is followed (all of them in [log_entropy], whose
    result goes to the area of the variable E).  [g] are the ghost cell numbers
    of the input.  Numbers are reals. *)
From Coq Require Import ZArith Reals List Bool.
From Verif Require Import M_Base M_Sim M_Memory M_Stats M_Foreach M_Structure.
Import ListNotations.
Open Scope Z_scope.

(** operator()(conservedVolumeOut, conservedVolumeIn, weight, grid). *)
Definition functional : Type := vol R -> vol R -> R -> res (vol R).

(** Identity.cpp lines 26-59. *)
Definition identity_functional (g : cell) : functional := fun out u weight =>
  let '(nx, ny, nz) := inner g u in
  let '(gx, gy, gz) := g in
  for3 0 nz 0 ny 0 nx (fun i j k o =>
    value <- vload u (i + gx) (j + gy) (k + gz);;
    old <- vload o i j k;;
    vstore o i j k (old + weight * value)%R) out.

(** Moment.cpp lines 31-45. *)
Definition moment_functional (degree : Z) : functional := fun out u weight =>
  mem_addpow out u degree weight.

(** BoundedVariation.cpp lines 12-36; [lz] is the cell length in z. *)
Definition bv_functional (degree : Z) (g : cell) (lz : R) : functional := fun out u weight =>
  if Rlt_dec 1 lz then Throw
  else
    tv <- total_variation u degree g (bv_stop g u);;
    old <- mload out 0;;
    mstore out 0 (old + weight * tv)%R.

(** The test on the cell lengths, Legendre.cpp lines 51-56 and
    LegendrePointWise.cpp lines 49-54. *)
Definition legendre_rejects (len : Z -> R) : bool :=
  if Rlt_dec 1 (len 2) then true else if Req_EM_T (len 1) 1 then true else false.

(** LegendrePointWise.cpp lines 36-87.  [P] is boost::math::legendre_p of the
    degree. *)
Definition legendre_pointwise_functional (P : R -> R) (minValue maxValue : R) (g : cell) (len : Z -> R)
  : functional := fun out u weight =>
  if legendre_rejects len then Throw
  else
    let '(nx, ny, nz) := inner g u in
    let '(gx, gy, gz) := g in
    for3 0 nz 0 ny 0 nx (fun i j k o =>
      a <- vload u (i + gx) (j + gy) (k + gz);;
      old <- vload o i j k;;
      vstore o i j k (old + P ((a - minValue) / (maxValue - minValue)) * weight)%R) out.

(** Grid::getCellMidpoints, Grid.cpp lines 148-171: component [d] of the entry
    written for the cell [c]; the index of the entry is the one for_each_midpoint
    reads (T_Foreach, C01_midpoints_match_cells). *)
Definition grid_midpoint (origin len : Z -> R) (c : cell) (d : Z) : R :=
  (origin d + len d * IZR (let (p, z) := c in let (x, y) := p in if d =? 0 then x else if d =? 1 then y else z)
   + len d / 2)%R.

(** for_each_midpoint over a volume with ghost cells [g] on a grid with the same
    cells. *)
Definition midpoint_loop {S} (g : cell) (u : vol R) (f : Z -> Z -> cell -> S -> res S) (s : S) : res S :=
  let '(gx, gy, gz) := g in
  let '(nx, ny, _) := inner g u in
  for_each_midpoint (vnx u) (vny u) (vnz u) gx gy gz nx ny f s.

(** Legendre.cpp lines 38-91, for one variable.  [Pk], [Pn], [Pm] are
    boost::math::legendre_p of the three degrees. *)
Definition legendre_functional (Pk Pn Pm : R -> R) (minValue maxValue : R) (g : cell)
    (origin top len : Z -> R) : functional := fun out u weight =>
  if legendre_rejects len then Throw
  else
    let dxdydz := (len 0%Z * len 1%Z * len 2%Z)%R in
    let sides d := (top d - origin d)%R in
    integral <- midpoint_loop g u (fun i _ c integral =>
      let x := grid_midpoint origin len c 0 in
      let y := grid_midpoint origin len c 1 in
      let xScaled := (2 * (x - origin 0%Z) / sides 0%Z - 1)%R in
      let yScaled := (2 * (y - origin 1%Z) / sides 1%Z - 1)%R in
      a <- mload u i;;
      let value := ((a - minValue) / (maxValue - minValue))%R in
      Ok (integral + Pk xScaled * Pn yScaled * Pm value * dxdydz)%R) 0%R;;
    old <- mload out 0;;
    mstore out 0 (old + weight * integral)%R.

(** LogEntropy.cpp lines 12-79.  [ms] are the momentum areas, as many as the grid
    has active dimensions; [out] is the area of E of the output. *)
Definition momentum_squared (ms : list (vol R)) (i : Z) : res R :=
  fold_res (fun m acc => a <- mload m i;; Ok (acc + a * a)%R) ms 0%R.
Definition log_entropy_functional (gamma : R) (g : cell) (len : Z -> R)
    (out rho : vol R) (ms : list (vol R)) (E : vol R) (weight : R) : res (vol R) :=
  let dxdydz := (len 0%Z * len 1%Z * len 2%Z)%R in
  integral <- midpoint_loop g rho (fun i _ _ integral =>
    density <- mload rho i;;
    energy <- mload E i;;
    m2 <- momentum_squared ms i;;
    let pressure := ((gamma - 1) * (energy - 1 / (2 * density) * m2))%R in
    let s := (ln pressure - gamma * ln density)%R in
    Ok (integral + (- density * s) / (gamma - 1) * dxdydz)%R) 0%R;;
  old <- mload out 0;;
  mstore out 0 (old + weight * integral)%R.

(** * Writers *)

(** makeVolumes, TimeIntegrationFunctional.cpp lines 64-74 (and
    IntervalFunctionalWriter.cpp lines 67-75): a zeroed area of the functional's
    size, made at the first call. *)
Definition make_volumes (size : vol R -> cell) (u : vol R) (st : option (vol R)) : res (vol R) :=
  match st with
  | Some v => Ok v
  | None => mem_zero (new_area (size u))
  end.

(** TimeIntegrationFunctional::write, lines 33-49; the state is the area and
    lastTime. *)
Definition time_integration_write (size : vol R -> cell) (F : functional) (time timeRadius : R)
    (call : R * vol R) (st : option (vol R) * R) : res (option (vol R) * R) :=
  let '(currentTime, u) := call in
  let '(area, lastTime) := st in
  v <- make_volumes size u area;;
  let dt := (currentTime - lastTime)%R in
  v' <- (if Rle_dec (Rabs (currentTime - time)) timeRadius then F v u dt else Ok v);;
  Ok (Some v', currentTime).

(** All writes of a simulation; what finalize (lines 51-62) hands to the writer
    is the area. *)
Definition time_integration_run (size : vol R -> cell) (F : functional) (time timeRadius : R)
    (calls : list (R * vol R)) : res (vol R) :=
  r <- fold_res (time_integration_write size F time timeRadius) calls (None, 0%R);;
  match fst r with Some v => Ok v | None => UB end.

(** IntervalFunctionalWriter::write, lines 31-65: the area handed to the writer
    and kept. *)
Definition interval_write (size : vol R -> cell) (F : functional) (st : option (vol R)) (u : vol R)
  : res (vol R) :=
  v <- make_volumes size u st;;
  z <- mem_zero v;;
  F z u 1%R.
Fixpoint interval_run (size : vol R -> cell) (F : functional) (st : option (vol R)) (us : list (vol R))
  : res (list (vol R)) :=
  match us with
  | [] => Ok []
  | u :: us' =>
      v <- interval_write size F st u;;
      rest <- interval_run size F (Some v) us';;
      Ok (v :: rest)
  end.

(** * TimeIntegratedFunctionalStatistics.cpp *)

(** computeStatistics, lines 50-83.  There is one snapshot, at
    fixedTimestepInformation; its key is (0, 0). *)
Definition time_integrated_call (size : vol R -> cell) (F : functional) (time timeRadius : R)
    (call : R * vol R) (st : snaps * R) : res (snaps * R) :=
  let '(currentTime, u) := call in
  let '(sn, lastTime) := st in
  sn1 <- find_or_create (0, 0) (size u) sn;;
  sn2 <- (if Rle_dec (Rabs (currentTime - time)) timeRadius then
            let dt := (currentTime - lastTime)%R in
            if Rlt_dec 0 dt
            then update_item (mkitem 0 size (fun s u => F s u dt)) 0 u sn1
            else Ok sn1
          else Ok sn1);;
  Ok (sn2, currentTime).

(** All calls on one process: lastTime (initially 0, header line 57) is not reset
    between samples. *)
Definition time_integrated_process (size : vol R -> cell) (F : functional) (time timeRadius : R)
    (calls : list (R * vol R)) : res snaps :=
  r <- fold_res (time_integrated_call size F time timeRadius) calls ([], 0%R);; Ok (fst r).
Definition time_integrated_run (size : vol R -> cell) (F : functional) (time timeRadius : R)
    (red : list R -> R) (samples : R) (calls : list (list (R * vol R))) : res snaps :=
  sts <- mapM (time_integrated_process size F time timeRadius) calls;;
  match sts with
  | [] => UB
  | root :: others => combine_statistics red samples root others
  end.
