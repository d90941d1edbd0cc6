(** C04 and C07: conservation of the flux loops, and the region split. *)
From Coq Require Import ZArith Reals List Bool Lia Lra.
From Verif Require Import M_Base M_Vec M_Boundary M_Flux S_Boundary S_Flux S_Sum L_Conserve L_FluxTop.
Import ListNotations.
Open Scope Z_scope.

(** [ext] says a volume has the given extents, [nvec] is the vector
    (nx, ny, nz), [isum] sums over the interior cells. *)

(** C04.  With periodic ghost cells the net fluxes written by computeFlux add up
    to zero in every component; no access leaves the volumes. *)
Theorem C04_net_flux_sums_to_zero :
  forall V dims g (fx : numflux V) rc nx ny nz u s,
  1 <= dims <= 3 -> compatible fx rc g ->
  0 < nx -> 0 < ny -> 0 < nz ->
  g <= nx -> (1 < dims -> g <= ny) -> (2 < dims -> g <= nz) ->
  ext dims g nx ny nz u -> ext_state dims g nx ny nz s ->
  (forall c, in_volume dims g nx ny nz c -> vget u c = vget u (image periodic1 dims g nx ny nz c)) ->
  exists s', compute_flux dims g fx rc u (fun _ => 0) (fun _ => 0) s = Ok s' /\
    forall i, isum dims g (nvec nx ny nz) (fun c => comp i (vget (f_out s') c)) = 0%R.
Proof.
  intros V dims g fx rc nx ny nz u s H H0 H1 H2 H3 H4 H5 H6.
  exact (compute_conserves dims g fx rc nx ny nz H H0 H1 H2 H3 H4 H5 H6 u s).
Qed.

(** The same for the composition of regions that ConservedSystem runs. *)
Theorem C04_system_sums_to_zero :
  forall V dims g (fx : numflux V) rc nx ny nz exchange u u' s,
  1 <= dims <= 3 -> compatible fx rc g ->
  0 < nx -> 0 < ny -> 0 < nz ->
  g <= nx -> (1 < dims -> g <= ny) -> (2 < dims -> g <= nz) ->
  ext dims g nx ny nz u -> ext_state dims g nx ny nz s ->
  exchange u = Ok u' -> ext dims g nx ny nz u' ->
  (forall c, interior dims g nx ny nz c -> vget u' c = vget u c) ->
  (forall c, in_volume dims g nx ny nz c -> vget u' c = vget u' (image periodic1 dims g nx ny nz c)) ->
  exists s', system_flux dims g fx rc exchange u s = Ok (u', s') /\
    forall i, isum dims g (nvec nx ny nz) (fun c => comp i (vget (f_out s') c)) = 0%R.
Proof.
  intros V dims g fx rc nx ny nz exchange u u' s H H0 H1 H2 H3 H4 H5 H6.
  exact (system_conserves dims g fx rc nx ny nz H H0 H1 H2 H3 H4 H5 H6 exchange u u' s).
Qed.

(** For any ghost cells: the interior gains what enters through its low faces
    and loses what leaves through its high faces. *)
Theorem C04_boundary_balance :
  forall V dims g (fx : numflux V) rc nx ny nz u s,
  1 <= dims <= 3 -> compatible fx rc g ->
  0 < nx -> 0 < ny -> 0 < nz ->
  ext dims g nx ny nz u -> ext_state dims g nx ny nz s ->
  exists s', compute_flux dims g fx rc u (fun _ => 0) (fun _ => 0) s = Ok s' /\
    forall i, isum dims g (nvec nx ny nz) (fun c => comp i (vget (f_out s') c)) =
      fold_right Rplus 0%R (map (fun d =>
        let lo := ilo dims g in let hi := ihi dims g (nvec nx ny nz) in
        (sum3 (upd lo d (lo d - 1)) (upd hi d (lo d))
              (fun c => comp i (fst (iface fx rc d (vget u) c))) -
         sum3 (upd lo d (hi d - 1)) (upd hi d (hi d))
              (fun c => comp i (fst (iface fx rc d (vget u) c))))%R) (zrange 0 dims)).
Proof.
  intros V dims g fx rc nx ny nz u s H H0 H1 H2 H3.
  exact (compute_balance dims g fx rc nx ny nz H H0 H1 H2 H3 u s).
Qed.

(** C07.  The composition of the inner region and the slabs writes the same
    cells with the same values, and finds the same wave speeds, as one flux
    computation over the whole interior of the exchanged volume. *)
Theorem C07_split_equals_whole :
  forall V dims g (fx : numflux V) rc nx ny nz exchange u u' s,
  1 <= dims <= 3 -> compatible fx rc g ->
  0 < nx -> 0 < ny -> 0 < nz ->
  g <= nx -> (1 < dims -> g <= ny) -> (2 < dims -> g <= nz) ->
  ext dims g nx ny nz u -> ext_state dims g nx ny nz s ->
  exchange u = Ok u' -> ext dims g nx ny nz u' ->
  (forall c, interior dims g nx ny nz c -> vget u' c = vget u c) ->
  exists s1 s2,
    system_flux dims g fx rc exchange u s = Ok (u', s1) /\
    compute_flux dims g fx rc u' (fun _ => 0) (fun _ => 0) s = Ok s2 /\
    (forall c, in_volume dims g nx ny nz c -> vget (f_out s1) c = vget (f_out s2) c) /\
    (forall d, 0 <= d < dims -> f_speed s1 d = f_speed s2 d).
Proof.
  intros V dims g fx rc nx ny nz exchange u u' s H H0 H1 H2 H3 H4 H5 H6.
  exact (split_same dims g fx rc nx ny nz H H0 H1 H2 H3 H4 H5 H6 exchange u u' s).
Qed.

(** The value written to every interior cell is flux in minus flux out. *)
Theorem C07_split_closed_form :
  forall V dims g (fx : numflux V) rc nx ny nz exchange u u' s,
  1 <= dims <= 3 -> compatible fx rc g ->
  0 < nx -> 0 < ny -> 0 < nz ->
  g <= nx -> (1 < dims -> g <= ny) -> (2 < dims -> g <= nz) ->
  ext dims g nx ny nz u -> ext_state dims g nx ny nz s ->
  exchange u = Ok u' -> ext dims g nx ny nz u' ->
  (forall c, interior dims g nx ny nz c -> vget u' c = vget u c) ->
  exists s', system_flux dims g fx rc exchange u s = Ok (u', s') /\ ext_state dims g nx ny nz s' /\
    (forall c, interior dims g nx ny nz c -> vget (f_out s') c = rhs dims fx rc (vget u') c) /\
    (forall c, in_volume dims g nx ny nz c -> ~ interior dims g nx ny nz c ->
       vget (f_out s') c = vget (f_out s) c) /\
    is_wave_speed dims g nx ny nz fx rc (vget u') (f_speed s').
Proof.
  intros V dims g fx rc nx ny nz exchange u u' s H H0 H1 H2 H3 H4 H5 H6.
  exact (system_top dims g fx rc nx ny nz H H0 H1 H2 H3 H4 H5 H6 exchange u u' s).
Qed.

(** The hypothesis g <= nx is the smallest admissible interior: with one
    interior cell and two ghost cells the slabs run over the edge of the volume,
    where one flux computation over the whole interior is fine. *)
Definition small_rc : recon scalar_cvars :=
  mkrecon (V := scalar_cvars) 2 false
    (fun l : list scalar_cvars => match l with [a; b; c] => (a, c) | _ => (vzero, vzero) end).
Definition small_fx : numflux scalar_cvars := Flux2 (V := scalar_cvars) (fun _ a b => (vadd a b, 0%R)).
Definition small_u : vol scalar_cvars := mkvol 5 1 1 (fun _ => 0%R).
Definition small_s : fstate scalar_cvars := mkfstate small_u small_u small_u small_u (fun _ => 0%R).
Theorem C07_small_interior_refuted :
  compatible small_fx small_rc 2 /\ ext 1 2 1 1 1 small_u /\
  (exists s, compute_flux 1 2 small_fx small_rc small_u (fun _ => 0) (fun _ => 0) small_s = Ok s) /\
  system_flux 1 2 small_fx small_rc Ok small_u small_s = UB.
Proof.
  split; [split; [simpl; lia|exact I]|]. split; [repeat split|]. split.
  - eexists. lazy -[Rplus Rmult Rmax Ropp R0 R1 IZR]. reflexivity.
  - lazy -[Rplus Rmult Rmax Ropp R0 R1 IZR]. reflexivity.
Qed.

(** The hypotheses hold for a 3 x 2 interior with two ghost cells, a two point
    flux and a three point reconstruction, and a field that is not constant. *)
Definition ex_field (c : cell) : R :=
  let '(x, y, z) := c in IZR (periodic1 2 3 x + 10 * periodic1 2 2 y).
Definition ex_u : vol scalar_cvars :=
  mkvol 7 6 1 (fun i => ex_field (i mod 7, i / 7, 0)).
Example C04_nonvacuous :
  compatible small_fx small_rc 2 /\ ext 2 2 3 2 1 ex_u /\
  (forall c, in_volume 2 2 3 2 1 c -> vget ex_u c = vget ex_u (image periodic1 2 2 3 2 1 c)) /\
  vget ex_u (2, 2, 0) <> vget ex_u (3, 2, 0).
Proof.
  split; [split; [simpl; lia|exact I]|]. split; [repeat split|].
  assert (E : forall x y, 0 <= x < 7 -> vget ex_u (x, y, 0) = IZR (periodic1 2 3 x + 10 * periodic1 2 2 y)).
  { intros x y Hx. unfold vget, ex_u, index; cbn [vnx vny vdat].
    rewrite (Z.mul_0_l 7), (Z.mul_0_l 6), Z.add_0_l.
    rewrite Z.add_comm, Z.mod_add, Z.div_add by lia.
    rewrite Z.mod_small, Z.div_small by lia. unfold ex_field. do 2 f_equal. }
  split.
  - intros [[x y] z] H. unfold in_volume in H. cbn in H.
    assert (z = 0) by lia. subst z. unfold image. cbn [Z.ltb Z.compare Pos.compare Pos.compare_cont].
    assert (P : forall n t, 0 < n -> 2 <= periodic1 2 n t < 2 + n).
    { intros. unfold periodic1. pose proof (Z.mod_pos_bound (t - 2) n). lia. }
    assert (Q : forall n t, 0 < n -> periodic1 2 n (periodic1 2 n t) = periodic1 2 n t).
    { intros n t Hn. unfold periodic1. replace (2 + (t - 2) mod n - 2) with ((t - 2) mod n) by ring.
      now rewrite Z.mod_mod by lia. }
    pose proof (P 3 x). rewrite !E by lia. rewrite !Q by lia. reflexivity.
  - rewrite !E by lia. intros H. apply eq_IZR in H. discriminate.
Qed.

Print Assumptions C04_net_flux_sums_to_zero.
Print Assumptions C04_system_sums_to_zero.
Print Assumptions C04_boundary_balance.
Print Assumptions C07_split_equals_whole.
Print Assumptions C07_split_closed_form.
Print Assumptions C07_small_interior_refuted.
