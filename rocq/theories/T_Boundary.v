(** C02 and C03: ghost cells after applying the boundary conditions. *)
From Coq Require Import ZArith List Bool Lia.
From Verif Require Import M_Base M_Boundary S_Boundary L_Boundary.
Import ListNotations.
Open Scope Z_scope.

(** Every ghost cell (faces, edges and corners) holds the value of its periodic
    image, interior cells are unchanged, nothing is accessed out of bounds. *)
Theorem C02_periodic_boundary :
  forall A (areas : list (vol A)) dims g nx ny nz,
  1 <= dims <= 3 -> 0 <= g ->
  0 < nx -> 0 < ny -> 0 < nz ->
  g <= nx -> (1 < dims -> g <= ny) -> (2 < dims -> g <= nz) ->
  (forall v, In v areas -> has_extents v dims g nx ny nz) ->
  exists areas',
    apply_boundary_conditions periodic_apply dims g (fun _ => false) areas = Ok areas' /\
    Forall2 (fun v v' => has_extents v' dims g nx ny nz /\
      (forall c, interior dims g nx ny nz c -> vget v' c = vget v c) /\
      (forall c, in_volume dims g nx ny nz c ->
        vget v' c = vget v (image periodic1 dims g nx ny nz c))) areas areas'.
Proof. exact @periodic_serial. Qed.

(** With sides exchanged by MPI: those ghost cells keep their old positions'
    values in that coordinate, the others are filled as above. *)
Theorem C02_periodic_boundary_mpi_sides :
  forall A (mpi : Z -> bool) (areas : list (vol A)) dims g nx ny nz,
  1 <= dims <= 3 -> 0 <= g ->
  0 < nx -> 0 < ny -> 0 < nz ->
  g <= nx -> (1 < dims -> g <= ny) -> (2 < dims -> g <= nz) ->
  (forall v, In v areas -> has_extents v dims g nx ny nz) ->
  exists areas',
    apply_boundary_conditions periodic_apply dims g mpi areas = Ok areas' /\
    Forall2 (fun v v' => has_extents v' dims g nx ny nz /\
      forall c, in_volume dims g nx ny nz c ->
        vget v' c = vget v (image_masked mpi periodic1 dims g nx ny nz c)) areas areas'.
Proof. exact @periodic_areas. Qed.

(** Same for the Neumann condition: mirror images at the nearest face. *)
Theorem C03_neumann_boundary :
  forall A (areas : list (vol A)) dims g nx ny nz,
  1 <= dims <= 3 -> 0 <= g ->
  0 < nx -> 0 < ny -> 0 < nz ->
  g <= nx -> (1 < dims -> g <= ny) -> (2 < dims -> g <= nz) ->
  (forall v, In v areas -> has_extents v dims g nx ny nz) ->
  exists areas',
    apply_boundary_conditions neumann_apply dims g (fun _ => false) areas = Ok areas' /\
    Forall2 (fun v v' => has_extents v' dims g nx ny nz /\
      (forall c, interior dims g nx ny nz c -> vget v' c = vget v c) /\
      (forall c, in_volume dims g nx ny nz c ->
        vget v' c = vget v (image mirror1 dims g nx ny nz c))) areas areas'.
Proof. exact @neumann_serial. Qed.

Theorem C03_neumann_boundary_mpi_sides :
  forall A (mpi : Z -> bool) (areas : list (vol A)) dims g nx ny nz,
  1 <= dims <= 3 -> 0 <= g ->
  0 < nx -> 0 < ny -> 0 < nz ->
  g <= nx -> (1 < dims -> g <= ny) -> (2 < dims -> g <= nz) ->
  (forall v, In v areas -> has_extents v dims g nx ny nz) ->
  exists areas',
    apply_boundary_conditions neumann_apply dims g mpi areas = Ok areas' /\
    Forall2 (fun v v' => has_extents v' dims g nx ny nz /\
      forall c, in_volume dims g nx ny nz c ->
        vget v' c = vget v (image_masked mpi mirror1 dims g nx ny nz c)) areas areas'.
Proof. exact @neumann_areas. Qed.

(** The hypothesis [g <= nx] is needed: with one interior cell and two ghost
    cells the size check does not throw and the outer ghost cell receives a
    value that was in a ghost cell before. *)
Theorem C03_neumann_small_interior_refuted :
  exists v' : vol Z,
    has_extents small_vol 1 2 1 1 1 /\
    apply_boundary neumann_apply 1 2 (fun _ => false) small_vol = Ok v' /\
    vget small_vol (3, 0, 0) = 13 /\ ~ interior 1 2 1 1 1 (3, 0, 0) /\
    vget v' (0, 0, 0) = 13.
Proof. exact neumann_small. Qed.

(** Hypotheses are satisfiable: a 3x2 interior with two ghost cells. *)
Definition ex_vol : vol Z := {| vnx := 7; vny := 6; vnz := 1; vdat := fun i => i |}.
Example C02_nonvacuous :
  exists l, apply_boundary_conditions periodic_apply 2 2 (fun _ => false) [ex_vol] = Ok l /\
    map (fun v => vget v (0, 5, 0)) l = [vget ex_vol (3, 3, 0)].
Proof. eexists. split; [vm_compute; reflexivity|reflexivity]. Qed.
Example C02_hypotheses : has_extents ex_vol 2 2 3 2 1 /\ 2 <= 3 /\ 2 <= 2.
Proof. repeat split; lia. Qed.
Example C03_nonvacuous :
  exists l, apply_boundary_conditions neumann_apply 2 2 (fun _ => false) [ex_vol] = Ok l /\
    map (fun v => vget v (0, 5, 0)) l = [vget ex_vol (3, 2, 0)].
Proof. eexists. split; [vm_compute; reflexivity|reflexivity]. Qed.

Print Assumptions C02_periodic_boundary.
Print Assumptions C02_periodic_boundary_mpi_sides.
Print Assumptions C03_neumann_boundary.
Print Assumptions C03_neumann_boundary_mpi_sides.
Print Assumptions C03_neumann_small_interior_refuted.
