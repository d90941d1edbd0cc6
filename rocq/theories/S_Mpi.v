(** What a decomposition and an exchange mean, without tables and datatypes. *)
From Coq Require Import ZArith Reals List Bool.
From Verif Require Import M_Base M_Mpi.
Import ListNotations.
Open Scope Z_scope.

(** A processor grid, its number of processes, and positions in it. *)
Definition positive3 (p : cell) : Prop := forall k, 0 <= k < 3 -> 1 <= at3 p k.
Definition processes (p : cell) : Z := at3 p 0 * at3 p 1 * at3 p 2.
Definition in_grid (c p : cell) : Prop := forall k, 0 <= k < 3 -> 0 <= at3 c k < at3 p k.
Definition divides3 (p n : cell) : Prop := forall k, 0 <= k < 3 -> (at3 p k | at3 n k).

(** The block of a process: cells [start .. start + cells) in each direction. *)
Definition in_block (lg : grid) (c : cell) : Prop :=
  forall k, 0 <= k < 3 -> at3 (gr_start lg) k <= at3 c k < at3 (gr_start lg) k + at3 (gr_cells lg) k.

(** A processor grid that divides a grid without empty directions. *)
Definition divided (p n : cell) : Prop :=
  positive3 p /\ divides3 p n /\ forall k, 0 <= k < 3 -> 1 <= at3 n k.

(** Cells per process. *)
Definition per3 (p n : cell) : cell :=
  (at3 n 0 / at3 p 0, at3 n 1 / at3 p 1, at3 n 2 / at3 p 2).

(** Sides: 2 d is the low side and 2 d + 1 the high side in direction [d]. *)
Definition side_dir (s : Z) : Z := s / 2.
Definition side_low (s : Z) : bool := Z.even s.
Definition step_of (s : Z) : Z := if side_low s then -1 else 1.
Definition across (s : Z) : Z := if side_low s then s + 1 else s - 1.

(** The position one step beyond side [s], if there is one: inside the
    processor grid, or around the corner in a periodic direction with more than
    one process. *)
Definition beyond (p : cell) (bc : Z -> btype) (pos : cell) (s : Z) : option cell :=
  let d := side_dir s in
  let q := at3 pos d + step_of s in
  if (0 <=? q) && (q <? at3 p d) then Some (set3 pos d q)
  else match bc s with
       | PERIODIC => if at3 p d =? 1 then None else Some (set3 pos d (q mod at3 p d))
       | _ => None
       end.

(** Boundary conditions that agree on opposite sides about being periodic. *)
Definition paired (bc : Z -> btype) : Prop :=
  forall d, 0 <= d < 3 -> (bc (2 * d) = PERIODIC <-> bc (2 * d + 1) = PERIODIC).

(** A ghost cell of side [s] that is interior in the other directions. *)
Definition face_ghost (dims g : Z) (n : cell) (s : Z) (c : cell) : Prop :=
  0 <= s < 2 * dims /\
  (if side_low s then 0 <= at3 c (side_dir s) < g
   else g + at3 n (side_dir s) <= at3 c (side_dir s) < g + at3 n (side_dir s) + g) /\
  forall k, 0 <= k < 3 -> k <> side_dir s ->
    if k <? dims then g <= at3 c k < g + at3 n k else 0 <= at3 c k < at3 n k.

(** How many sends [a -> b] with tag [t], and receives at [b] from [a] with tag
    [t], the processes have posted. *)
Definition sends (ops : Z -> list mpiop) (a b t : Z) : nat :=
  length (filter (fun o => match o with
                           | Isend _ _ d t' => (d =? b) && (t' =? t)
                           | _ => false end) (ops a)).
Definition receives (ops : Z -> list mpiop) (a b t : Z) : nat :=
  length (filter (fun o => match o with
                           | Irecv _ _ s t' => (s =? a) && (t' =? t)
                           | _ => false end) (ops b)).

(** The address of a cell in a memory area with total extents [t]
    (View.hpp line 117). *)
Definition addr (t c : cell) : Z :=
  let '(x, y, z) := c in index (at3 t 0) (at3 t 1) x y z.

(** Interior cells of a volume with [n] cells and [g] ghost layers in the first
    [dims] directions. *)
Definition inner (dims g : Z) (n c : cell) : Prop :=
  forall k, 0 <= k < 3 -> if k <? dims then g <= at3 c k < g + at3 n k else 0 <= at3 c k < at3 n k.

(** Where a ghost cell of side [s] lies in the neighbouring block of the same
    size. *)
Definition opposite_cell (n : cell) (s : Z) (c : cell) : cell :=
  set3 c (side_dir s) (at3 c (side_dir s)
    + (if side_low s then at3 n (side_dir s) else - at3 n (side_dir s))).

(** The first [dims] directions are the ones in use, and blocks are at least two
    cells wide in the second and third: a volume with one cell in a direction
    counts as lower dimensional (Volume.cpp lines 279-287).  [g] ghost layers fit
    into a block. *)
Definition fits (p n : cell) (dims g : Z) : Prop :=
  1 <= dims <= 3 /\ 0 <= g /\ positive3 p /\ divides3 p n /\
  (forall k, 0 <= k < 3 ->
     if k <? dims then (if k =? 0 then 1 else 2) <= at3 n k / at3 p k /\ g <= at3 n k / at3 p k
     else at3 n k = 1).
