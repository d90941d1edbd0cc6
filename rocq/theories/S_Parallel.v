(** A field on the global grid and its parts on the blocks. *)
From Coq Require Import ZArith Reals List Bool.
From Verif Require Import M_Base M_Vec M_Flux M_Sim M_Mpi M_Parallel S_Boundary S_Flux S_Sim S_Mpi.
Import ListNotations.
Open Scope Z_scope.

(** A local cell, counted from the corner of the block, in the global grid. *)
Definition shifted (a c : cell) : cell := (at3 a 0 + at3 c 0, at3 a 1 + at3 c 1, at3 a 2 + at3 c 2).

(** The [nvars] stored components determine a value. *)
Definition determined (V : cvars) {St : storage V} (nvars : Z) : Prop :=
  forall a b : V, (forall i, 0 <= i < nvars -> comp (var_of V i) a = comp (var_of V i) b) -> a = b.

(** ... and every choice of them is a value: [V] is a record of [nvars] numbers. *)
Definition record_of (V : cvars) {St : storage V} (nvars : Z) : Prop :=
  determined V nvars /\
  exists build : (Z -> R) -> V, forall f i, 0 <= i < nvars -> comp (var_of V i) (build f) = f i.

Section S.
Context {V : cvars}.
Variables (dims g np : Z) (lgs : Z -> grid).

(** [ext3]: extents of a volume for [n] cells. *)
Definition ext3 (n : cell) (v : vol V) : Prop := ext dims g (at3 n 0) (at3 n 1) (at3 n 2) v.
Definition interior3 (n c : cell) : Prop := interior dims g (at3 n 0) (at3 n 1) (at3 n 2) c.

(** The blocks hold the parts of a global field. *)
Definition distributed (u : field V) (l : Z -> field V) : Prop :=
  forall r c, 0 <= r < np -> interior3 (gr_cells (lgs r)) c ->
    l r c = u (shifted (gr_start (lgs r)) c).

(** Process [r] between two steps: extents, and boundary values at the sides
    that are not exchanged. *)
Definition local_filled (b : bckind) (lg : grid) (u : field V) : Prop :=
  forall c, in_volume dims g (at3 (gr_cells lg) 0) (at3 (gr_cells lg) 1) (at3 (gr_cells lg) 2) c ->
    u c = u (image_masked (mpi_sides lg) (bc_image b) dims g
               (at3 (gr_cells lg) 0) (at3 (gr_cells lg) 1) (at3 (gr_cells lg) 2) c).
End S.
