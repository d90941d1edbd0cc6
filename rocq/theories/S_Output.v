(** What an output file is for, independently of hyperslabs and buffers. *)
From Coq Require Import ZArith Reals List Bool.
From Verif Require Import M_Base M_Mpi M_Output S_Boundary S_Memory S_Mpi.
Open Scope Z_scope.

(** The ghost cells per direction. *)
Definition ghosts (dims g : Z) : cell :=
  (g, (if 1 <? dims then g else 0), (if 2 <? dims then g else 0)).

(** The volume has [n] interior cells, and they carry the values of [u]. *)
Definition holds (dims g : Z) (v : vol R) (n : cell) (u : cell -> R) : Prop :=
  has_extents v dims g (at3 n 0) (at3 n 1) (at3 n 2) /\
  forall c, in_grid c n -> vget v (ipos dims g c) = u c.

(** The cell [c] of a block that starts at [s], counted in the whole grid. *)
Definition shift (s c : cell) : cell := (at3 s 0 + at3 c 0, at3 s 1 + at3 c 1, at3 s 2 + at3 c 2).

(** Indices in reversed order of the directions in use: a reader that takes the
    variable of a run in [d] dimensions as [z][y][x] finds cell (x, y, z) there. *)
Definition reversed (d : Z) (c : cell) : cell :=
  match d, c with
  | 2, (x, y, z) => (y, x, z)
  | 3, (x, y, z) => (z, y, x)
  | _, _ => c
  end.

(** Position of an element in the file: last index fastest. *)
Definition position (n c : cell) : Z := (at3 c 0 * at3 n 1 + at3 c 1) * at3 n 2 + at3 c 2.
(** Position of a cell if the first index runs fastest ("compMinorF", the index
    order the HDF5 files declare). *)
Definition position_minor_f (n c : cell) : Z := at3 c 0 + at3 n 0 * (at3 c 1 + at3 n 1 * at3 c 2).

(** Every cell of the grid [n] is in the file at the index [where_ c], and the
    variable has room for nothing else. *)
Definition stores (f : fvar) (n : cell) (where_ : cell -> cell) (u : cell -> R) : Prop :=
  fv_dims f = n /\
  (forall c, in_grid c n -> in_grid (where_ c) n /\ fv_dat f (where_ c) = Some (u c)).

(** Every direction the grid uses is also used by each block: blocks are at least
    two cells thick where the grid is. *)
Definition thick (p n : cell) : Prop :=
  forall k, 0 <= k < 3 -> 1 < at3 n k -> 1 < at3 n k / at3 p k.

(** As many cells in the first as in the last direction in use: every grid in one
    dimension, square grids in two. *)
Definition even_sided (n : cell) : Prop := at3 n 0 = at3 n (active_dimension n - 1).

(** The elements of the variable, in the order in which they lie in the file, are
    the cells with x running fastest. *)
Definition dumps (f : fvar) (n : cell) (u : cell -> R) : Prop :=
  fv_dims f = n /\
  (forall c c', in_grid c n -> in_grid c' n -> position n c' = position_minor_f n c ->
     fv_dat f c' = Some (u c)) /\
  (forall c, in_grid c n -> exists c', in_grid c' n /\ position n c' = position_minor_f n c).
