(** Domain decomposition and cell exchange. *)
From Coq Require Import ZArith Reals List Bool.
From Verif Require Import M_Base.
Import ListNotations.
Open Scope Z_scope.

(** boundary::Type, /repo/alsfvm/include/alsfvm/boundary/Type.hpp lines 22-31. *)
Inductive btype : Type := PERIODIC | NEUMANN | MPI_BC.
Definition btype_eqb (a b : btype) : bool :=
  match a, b with
  | PERIODIC, PERIODIC | NEUMANN, NEUMANN | MPI_BC, MPI_BC => true
  | _, _ => false
  end.

(** Component access of an ivec3, [v[d]]. *)
Definition at3 (v : cell) (d : Z) : Z :=
  let '(x, y, z) := v in if d =? 0 then x else if d =? 1 then y else z.
Definition set3 (v : cell) (d a : Z) : cell :=
  let '(x, y, z) := v in
  if d =? 0 then (a, y, z) else if d =? 1 then (x, a, z) else (x, y, a).

(** getCoordinates, /repo/alsfvm/include/alsfvm/mpi/cartesian/rank_component.hpp
    lines 30-34.  Ints are unbounded here and below. *)
Definition get_coordinates (rank : Z) (p : cell) : cell :=
  (Z.rem rank (at3 p 0),
   Z.rem (Z.quot rank (at3 p 0)) (at3 p 1),
   Z.quot rank (at3 p 0 * at3 p 1)).

(** One coordinate of getRankIndex,
    /repo/alsfvm/include/alsfvm/mpi/cartesian/rank_index.hpp lines 40-46. *)
Definition wrap (x n : Z) : Z :=
  let x := if x <? 0 then x + n else x in
  if n - 1 <? x then x - n else x.

(** getRankIndex, rank_index.hpp lines 31-66. *)
Definition get_rank_index (c p : cell) : Z :=
  wrap (at3 c 0) (at3 p 0) + wrap (at3 c 1) (at3 p 1) * at3 p 0
  + wrap (at3 c 2) (at3 p 2) * at3 p 0 * at3 p 1.

(** Grid::getActiveDimension, /repo/alsfvm/src/grid/Grid.cpp lines 131-139. *)
Definition active_dimension (n : cell) : Z :=
  if 1 <? at3 n 2 then 3 else if 1 <? at3 n 1 then 2 else 1.

(** Volume::getDimensions, /repo/alsfvm/src/volume/Volume.cpp lines 279-287. *)
Definition volume_dimensions (n : cell) : Z :=
  if at3 n 1 =? 1 then 1 else if at3 n 2 =? 1 then 2 else 3.

(** The parts of a Grid used here, /repo/alsfvm/src/grid/Grid.cpp lines 89-105. *)
Record grid : Type := mkgrid {
  gr_cells : cell;
  gr_bc : Z -> btype;
  gr_start : cell;
  gr_global : cell;
  gr_origin : Z -> R;
  gr_top : Z -> R;
  gr_len : Z -> R
}.

(** The neighbour on one side: lines 93-127 of
    /repo/alsfvm/src/mpi/domain/CartesianDecomposition.cpp.  The result is the
    entry of neighbours, and the boundary condition if it is replaced. *)
Definition side_neighbour (p pos : cell) (bc : Z -> btype) (side : Z)
  : res (Z * option btype) :=
  let d := Z.quot side 2 in
  if ((Z.rem side 2 =? 0) && (at3 pos d =? 0)
      || (Z.rem side 2 =? 1) && (at3 pos d =? at3 p d - 1))
     && (negb (btype_eqb (bc side) PERIODIC) || (at3 p d =? 1))
  then Ok (-1, Some (bc side))
  else
    let i := Z.rem side 2 in
    let q := at3 pos d + (- b2z (i =? 0) + b2z (i =? 1)) in
    let q := if q <? 0 then q + at3 p d else q in
    let q := Z.rem q (at3 p d) in
    let idx := get_rank_index (set3 pos d q) p in
    if idx <? 0 then Throw else Ok (idx, None).

(** CartesianDecomposition::decompose, CartesianDecomposition.cpp lines 43-166,
    without the choice of the platform.  [junk] is the content of the
    uninitialised ivec6 (line 81). *)
Definition decompose (p : cell) (gr : grid) (rank : Z) (junk : Z -> Z)
  : res (grid * (Z -> Z)) :=
  _ <- for_ 0 3 (fun i _ =>
         if at3 p i =? 0 then UB
         else if negb (Z.rem (at3 (gr_cells gr) i) (at3 p i) =? 0) then Throw
         else Ok tt) tt;;
  let pos := get_coordinates rank p in
  let n := gr_cells gr in
  let per : cell := (Z.quot (at3 n 0) (at3 p 0), Z.quot (at3 n 1) (at3 p 1),
                     Z.quot (at3 n 2) (at3 p 2)) in
  let start : cell := (at3 per 0 * at3 pos 0, at3 per 1 * at3 pos 1,
                       at3 per 2 * at3 pos 2) in
  let origin := fun k => (gr_len gr k * IZR (at3 start k) + gr_origin gr k)%R in
  let top := fun k => if k <? active_dimension n
                      then (origin k + gr_len gr k * IZR (at3 per k))%R
                      else origin k in
  r <- for_ 0 (active_dimension n * 2) (fun side (st : (Z -> Z) * (Z -> btype)) =>
         nb <- side_neighbour p pos (gr_bc gr) side;;
         Ok (fun s => if s =? side then fst nb else fst st s,
             fun s => if s =? side then match snd nb with Some b => b | None => snd st s end
                      else snd st s))
       (junk, fun _ => MPI_BC);;
  Ok (mkgrid per (snd r) start n origin top (gr_len gr), fst r).

(** A cell midpoint, Grid::getCellMidpoints, Grid.cpp lines 156-164. *)
Definition midpoint (gr : grid) (c : cell) (k : Z) : R :=
  (gr_origin gr k + gr_len gr k * IZR (at3 c k) + gr_len gr k / 2)%R.

(** computeNumberOfSegments,
    /repo/alsfvm/include/alsfvm/mpi/cartesian/number_of_segments.hpp lines 39-64.
    [t] holds the total extents (Volume::getSize). *)
Definition number_of_segments (side dims : Z) (t : cell) : Z :=
  if side <? 2 then
    if dims =? 1 then 1 else if dims =? 2 then at3 t 1 else at3 t 1 * at3 t 2
  else if side <? 4 then
    if dims =? 2 then 1 else at3 t 2
  else 1.

(** Length of a segment,
    /repo/alsfvm/include/alsfvm/mpi/cartesian/lengths.hpp lines 51-78. *)
Definition segment_length (side dims : Z) (t : cell) (g : Z) : Z :=
  if dims =? 1 then g
  else if dims =? 2 then (if side <? 2 then g else g * at3 t 0)
  else if side <? 2 then g
  else if side <? 4 then g * at3 t 0
  else g * at3 t 0 * at3 t 1.

(** displacements[i], given displacements[i - 1],
    /repo/alsfvm/include/alsfvm/mpi/cartesian/displacements.hpp lines 53-146. *)
Definition displacement (side dims : Z) (t : cell) (g base i prev : Z) : Z :=
  let base := if Z.rem side 2 =? 1 then - base else base in
  if dims =? 1 then side * (at3 t 0 - g) + base
  else if dims =? 2 then
    if side <? 2 then
      let d := if (0 <? side) || (0 <? i) then at3 t 0 else 0 in
      let d := if (i =? 0) && (side =? 1) then d - g else d in
      let d := if i =? 0 then d + base else d in
      if 0 <? i then d + prev else d
    else
      let d := base * at3 t 0 in
      if 2 <? side then d + (at3 t 0 * at3 t 1 - at3 t 0 * g) else d
  else
    if side <? 2 then
      let d := if i =? 0 then base else 0 in
      let d := if (0 <? side) || (0 <? i) then d + at3 t 0 else d in
      let d := if (i =? 0) && (side =? 1) then d - g else d in
      if 0 <? i then d + prev else d
    else if side <? 4 then
      let d := if i =? 0 then base * at3 t 0 else 0 in
      let d := if (2 <? side) || (0 <? i) then d + at3 t 0 * at3 t 1 else d in
      let d := if (i =? 0) && (side =? 3) then d - g * at3 t 0 else d in
      if 0 <? i then d + prev else d
    else
      let d := at3 t 0 * at3 t 1 * base in
      if side =? 5 then d + (at3 t 0 * at3 t 1 * at3 t 2 - at3 t 0 * at3 t 1 * g) else d.

(** computeDisplacements: the loop over i, displacements.hpp lines 58-148. *)
Fixpoint displacements_from (side dims : Z) (t : cell) (g base i prev : Z) (n : nat)
  : list Z :=
  match n with
  | O => []
  | S n' => let d := displacement side dims t g base i prev in
            d :: displacements_from side dims t g base (i + 1) d n'
  end.
Definition displacements (side dims : Z) (t : cell) (g base : Z) : list Z :=
  displacements_from side dims t g base 0 0 (Z.to_nat (number_of_segments side dims t)).

(** computeLengths, lengths.hpp lines 43-81. *)
Definition lengths (side dims : Z) (t : cell) (g : Z) : list Z :=
  repeat (segment_length side dims t g) (Z.to_nat (number_of_segments side dims t)).

(** The addresses of an indexed MPI datatype in the order of its type map
    (MPI_Type_indexed, called in /repo/alsfvm/src/mpi/MpiIndexType.cpp lines
    21-30). *)
Definition indexed (lens disp : list Z) : list Z :=
  flat_map (fun dl => zrange (fst dl) (fst dl + snd dl)) (combine disp lens).

(** createDataTypeSend and createDataTypeReceive,
    /repo/alsfvm/src/mpi/CartesianCellExchanger.cpp lines 106-155.  The types
    are made on the first exchange and kept; all volumes exchanged by a
    simulator have the same extents. *)
Definition send_type (side dims : Z) (t : cell) (g : Z) : list Z :=
  indexed (lengths side dims t g) (displacements side dims t g g).
Definition receive_type (side dims : Z) (t : cell) (g : Z) : list Z :=
  indexed (lengths side dims t g) (displacements side dims t g 0).

(** Nonblocking operations posted by a process. *)
Inductive mpiop : Type :=
| Isend (var : Z) (types : list Z) (dst tag : Z)
| Irecv (var : Z) (types : list Z) (src tag : Z).

(** opposite_side, CartesianCellExchanger.cpp lines 66-71. *)
Definition opposite_side (s : Z) : Z := Z.rem (Z.rem s 2 + 1) 2 + Z.quot s 2 * 2.

(** hasSide, CartesianCellExchanger.cpp lines 33-36. *)
Definition has_side (nb : Z -> Z) (side : Z) : bool := -1 <? nb side.

(** exchangeCells, CartesianCellExchanger.cpp lines 51-104: the operations
    posted by one process, for a volume with [nvars] variables. *)
Definition exchange_ops (dims g : Z) (t : cell) (nvars : Z) (nb : Z -> Z) : list mpiop :=
  flat_map (fun side => flat_map (fun var =>
    (if has_side nb side
     then [Isend var (send_type side dims t g) (nb side) (side + var * 6)] else []) ++
    (if has_side nb (opposite_side side)
     then [Irecv var (receive_type (opposite_side side) dims t g)
                 (nb (opposite_side side)) (side + var * 6)] else []))
    (zrange 0 nvars)) (zrange 0 (2 * dims)).

(** Volume::getSize: total extents of a volume with [n] cells,
    /repo/alsfvm/src/volume/Volume.cpp lines 44-60 and 87-90. *)
Definition volume_size (n : cell) (g : Z) : cell :=
  (at3 n 0 + 2 * g,
   at3 n 1 + 2 * (if 1 <? at3 n 1 then g else 0),
   at3 n 2 + 2 * (if 1 <? at3 n 2 then g else 0)).

(** The operations of process [r] when every process has decomposed the grid
    and exchanges a volume of its block. *)
Definition world_ops (p : cell) (gr : grid) (junk : Z -> Z -> Z) (g nvars r : Z)
  : list mpiop :=
  match decompose p gr r (junk r) with
  | Ok (lg, nb) => exchange_ops (volume_dimensions (gr_cells lg)) g
                                (volume_size (gr_cells lg) g) nvars nb
  | _ => []
  end.

(** * Message passing

    The MPI library is not part of the repository; this is the part of its
    semantics that is used.  A send and a receive are matched when source,
    destination and tag agree.  The elements of a matched pair are read from the
    sender's memory and written to the receiver's memory one at a time, in any
    order and at any time between the posting of the operations and their
    completion: MPI neither buffers a send nor orders distinct messages. *)
Record msg : Type := mkmsg {
  m_src : Z; m_svar : Z; m_stype : list Z;
  m_dst : Z; m_rvar : Z; m_rtype : list Z;
  m_tag : Z
}.

(** All matched pairs among the operations posted by the processes
    0 .. np - 1. *)
Definition messages (np : Z) (ops : Z -> list mpiop) : list msg :=
  flat_map (fun a => flat_map (fun s =>
    match s with
    | Isend v ty b t =>
        if (0 <=? b) && (b <? np) then
          flat_map (fun r =>
            match r with
            | Irecv v' ty' a' t' =>
                if (a' =? a) && (t' =? t) then [mkmsg a v ty b v' ty' t] else []
            | _ => []
            end) (ops b)
        else []
    | _ => []
    end) (ops a)) (zrange 0 np).

Section Delivery.
Context {A : Type}.

(** Memory: process, variable, address. *)
Definition memory : Type := Z -> Z -> Z -> A.
Definition mwrite (m : memory) (r v p : Z) (a : A) : memory :=
  fun r' v' p' => if (r' =? r) && (v' =? v) && (p' =? p) then a else m r' v' p'.

(** [net i k]: element [k] of message [i] is not yet read, in transit, or
    written. *)
Inductive transit : Type := Waiting | Moving (a : A) | Done.
Record mstate : Type := mkmstate { ms_mem : memory; ms_net : nat -> nat -> transit }.
Definition nset (n : nat -> nat -> transit) (i k : nat) (x : transit) : nat -> nat -> transit :=
  fun i' k' => if Nat.eqb i' i && Nat.eqb k' k then x else n i' k'.

Inductive mstep (ms : list msg) : mstate -> mstate -> Prop :=
| step_read s i m k p :
    nth_error ms i = Some m -> nth_error (m_stype m) k = Some p ->
    ms_net s i k = Waiting ->
    mstep ms s (mkmstate (ms_mem s) (nset (ms_net s) i k (Moving (ms_mem s (m_src m) (m_svar m) p))))
| step_write s i m k p a :
    nth_error ms i = Some m -> nth_error (m_rtype m) k = Some p ->
    ms_net s i k = Moving a ->
    mstep ms s (mkmstate (mwrite (ms_mem s) (m_dst m) (m_rvar m) p a) (nset (ms_net s) i k Done)).

Inductive msteps (ms : list msg) : mstate -> mstate -> Prop :=
| steps_refl s : msteps ms s s
| steps_next s s' s'' : msteps ms s s' -> mstep ms s' s'' -> msteps ms s s''.

Definition mstart (m : memory) : mstate := mkmstate m (fun _ _ => Waiting).

(** waitForAll has returned on every process
    (/repo/alsfvm/src/mpi/RequestContainer.cpp lines 25-29): every element has arrived. *)
Definition mfinal (ms : list msg) (s : mstate) : Prop :=
  forall i m k, nth_error ms i = Some m -> (k < length (m_rtype m))%nat -> ms_net s i k = Done.

(** A complete exchange from memory [m] to memory [m']. *)
Definition exchanged (ms : list msg) (m m' : memory) : Prop :=
  exists s, msteps ms (mstart m) s /\ mfinal ms s /\ ms_mem s = m'.
End Delivery.
Arguments memory : clear implicits.
Arguments transit : clear implicits.
Arguments mstate : clear implicits.
