(** Specification of the finite volume right hand side, on fields
    [u : cell -> V], without loops or temporary volumes. *)
From Coq Require Import ZArith Reals List Bool.
From Verif Require Import M_Base M_Vec M_Flux S_Boundary.
Import ListNotations.
Open Scope Z_scope.

(** The cell [s] steps away in direction [d]. *)
Definition move (d s : Z) (c : cell) : cell :=
  let '(x, y, z) := c in
  if d =? 0 then (x + s, y, z) else if d =? 1 then (x, y + s, z) else (x, y, z + s).

Section Spec.
Context {V : cvars}.

(** Reconstructed (left, right) values of a cell. *)
Definition rec_at (rc : recon V) (d : Z) (u : cell -> V) (c : cell) : V * V :=
  rec_fun rc (map (fun j => u (move d j c)) (zrange (- (rec_ghosts rc - 1)) (rec_ghosts rc))).

(** Numerical flux and wave speed at the interface between [c] and its
    neighbour in direction [d]. *)
Definition iface (fx : numflux V) (rc : recon V) (d : Z) (u : cell -> V) (c : cell) : V * R :=
  match fx with
  | Flux2 f => f d (snd (rec_at rc d u c)) (fst (rec_at rc d u (move d 1 c)))
  | FluxN st f => f d (map (fun s => fst (rec_at rc d u (move d s c))) st)
  end.

(** Flux in minus flux out, summed over the directions. *)
Definition rhs (dims : Z) (fx : numflux V) (rc : recon V) (u : cell -> V) (c : cell) : V :=
  fold_left (fun a d =>
      vadd a (vadd (fst (iface fx rc d u (move d (-1) c)))
                   (vscal (-1) (fst (iface fx rc d u c)))))
    (zrange 0 dims) vzero.

(** Which fluxes, reconstructions and ghost layers belong together: the volume
    has at least the ghost cells the reconstruction asks for, and a flux with an
    explicit stencil stays within the cells that are reconstructed, that is,
    [g - rec_ghosts rc] cells to the left and one more to the right. Without
    reconstruction these are all cells with a flux; for the combinations the
    configuration accepts see T_Config.v. *)
Definition compatible (fx : numflux V) (rc : recon V) (g : Z) : Prop :=
  1 <= rec_ghosts rc <= g /\
  match fx with
  | Flux2 _ => True
  | FluxN st _ => forall s, In s st ->
                  - (g - rec_ghosts rc) <= s <= g - rec_ghosts rc + 1
  end.

(** Extents of all volumes involved: [nx] x [ny] x [nz] interior cells. *)
Section Extents.
Variables (dims g nx ny nz : Z).
Definition ext (v : vol V) : Prop := has_extents v dims g nx ny nz.
Definition ext_state (s : fstate V) : Prop :=
  ext (f_left s) /\ ext (f_right s) /\ ext (f_temp s) /\ ext (f_out s).

(** Wave speeds: the maximum of 0 and the speeds at the interfaces. *)
Definition is_wave_speed (fx : numflux V) (rc : recon V) (u : cell -> V) (w : Z -> R) : Prop :=
  forall e, 0 <= e < dims ->
    let faces c := interior dims g nx ny nz c \/ interior dims g nx ny nz (move e 1 c) in
    (0 <= w e)%R /\
    (forall c, faces c -> (snd (iface fx rc e u c) <= w e)%R) /\
    (w e = 0%R \/ exists c, faces c /\ w e = snd (iface fx rc e u c)).
End Extents.

End Spec.
