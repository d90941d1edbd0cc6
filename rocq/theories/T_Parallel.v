(** C21 and C58: decomposed computations and the serial one. *)
From Coq Require Import ZArith Reals List Bool Lia Lra.
From Verif Require Import M_Base M_Vec M_Boundary M_Flux M_Sim M_Mpi M_Euler M_Parallel M_Storage S_Boundary S_Flux
  S_Sim S_Mpi S_Parallel L_Base L_Boundary L_Flux L_System L_FluxTop L_Sim L_SimTop L_Decomp L_Match L_Parallel
  L_ParallelRun L_ParallelStep L_Storage.
Import ListNotations.
Open Scope Z_scope.

(** ** C21

    A global volume and the volumes of the processes hold the same interior
    cells.  The boundary conditions are applied, the processes exchange cells,
    and all compute the numerical flux.  Every process then has in every interior
    cell the value the serial computation has in the same cell of the global
    grid, and the largest of the local wave speeds is the serial wave speed. *)
Theorem C21_flux_agrees :
  forall (V : cvars) (St : storage V) b p gr junk dims g nvars lgs nbs (fx : numflux V) (rc : recon V)
    (U0 U : vol V) (l0 l l2 : Z -> vol V) s ls,
  S_Mpi.fits p (gr_cells gr) dims g -> (forall i, gr_bc gr i = side_type b) ->
  record_of V nvars -> compatible fx rc g ->
  (forall r, 0 <= r < processes p -> decompose p gr r (junk r) = Ok (lgs r, nbs r)) ->
  ext3 dims g (gr_cells gr) U0 ->
  (forall r, 0 <= r < processes p -> ext3 dims g (gr_cells (lgs r)) (l0 r)) ->
  distributed dims g (processes p) lgs (vget U0) (fun r => vget (l0 r)) ->
  apply_boundary (bc_apply b) dims g (fun _ => false) U0 = Ok U ->
  (forall r, 0 <= r < processes p -> local_bc b g lgs r (l0 r) = Ok (l r)) ->
  exchange_volumes p gr junk g nvars (processes p) l l2 ->
  ext_state dims g (at3 (gr_cells gr) 0) (at3 (gr_cells gr) 1) (at3 (gr_cells gr) 2) s ->
  (forall r, 0 <= r < processes p ->
     ext_state dims g (at3 (gr_cells (lgs r)) 0) (at3 (gr_cells (lgs r)) 1) (at3 (gr_cells (lgs r)) 2) (ls r)) ->
  exists s' ls', system_flux dims g fx rc Ok U s = Ok (U, s') /\
    (forall r, 0 <= r < processes p ->
       system_flux (local_dims lgs r) g fx rc (fun _ => Ok (l2 r)) (l r) (ls r) = Ok (l2 r, ls' r)) /\
    distributed dims g (processes p) lgs (vget (f_out s')) (fun r => vget (f_out (ls' r))) /\
    forall d m, 0 <= d < dims -> is_max_over (processes p) (fun r => f_speed (ls' r) d) m -> m = f_speed s' d.
Proof.
  intros V St b p gr junk dims g nvars lgs nbs fx rc U0 U l0 l l2 s ls Hfit Hbcs Hrec Hcomp Hdec HU0 Hl0 Hd0 HU Hl Hex Hs Hls.
  pose proof (proj1 Hfit) as Hdims. pose proof (proj1 Hrec) as Hdet.
  assert (Ec : forall r, 0 <= r < processes p -> gr_cells (lgs r) = per3 p (gr_cells gr))
    by (intros; now apply (cells_at p gr junk dims g lgs nbs Hfit Hdec)).
  destruct (serial_bc_ok b p gr dims g fx rc Hfit Hcomp U0) as (U' & EU & GU & KU); [now apply same_extN|].
  rewrite HU in EU. injection EU as <-.
  assert (B : forall r, 0 <= r < processes p -> filled_block b p gr dims g lgs r (l r) /\
     forall c, inner dims g (per3 p (gr_cells gr)) c -> vget (l r) c = vget (l0 r) c).
  { intros r Hr. pose proof (Hl0 r Hr) as H0. rewrite (Ec r Hr) in H0.
    destruct (local_bc_ok b p gr junk dims g lgs nbs fx rc Hfit Hbcs Hcomp Hdec r (l0 r) Hr H0) as (v' & E & G & K).
    rewrite (Hl r Hr) in E. injection E as <-. auto. }
  assert (Hd : distributed dims g (processes p) lgs (vget U) (fun r => vget (l r))).
  { intros r c Hr Hc. rewrite (Ec r Hr) in Hc. pose proof (proj1 (interior3_inner _ _ _ _ Hdims) Hc) as Hi.
    rewrite (proj2 (B r Hr) c Hi), KU by now apply (shifted_inner p gr junk dims g lgs nbs Hfit Hdec).
    apply (Hd0 r c Hr). now rewrite (Ec r Hr). }
  assert (Hf : forall r, 0 <= r < processes p -> filled_block b p gr dims g lgs r (l r)) by (intros; now apply B).
  destruct (global_system p gr dims g nvars fx rc Hfit Hdet Hcomp U (proj1 GU) s Hs) as (s' & E & D & W & Sp).
  assert (Bs : forall r, 0 <= r < processes p -> exists s',
     system_flux (local_dims lgs r) g fx rc (fun _ => Ok (l2 r)) (l r) (ls r) = Ok (l2 r, s') /\
     (forall c, inner dims g (per3 p (gr_cells gr)) c -> vget (f_out s') c = rhs dims fx rc (vget U) (shifted (gr_start (lgs r)) c)) /\
     is_wave_speed dims g (at3 (per3 p (gr_cells gr)) 0) (at3 (per3 p (gr_cells gr)) 1) (at3 (per3 p (gr_cells gr)) 2) fx rc (vget (l2 r)) (f_speed s')).
  { intros r Hr. pose proof (Hls r Hr) as Hlr. rewrite (Ec r Hr) in Hlr.
    rewrite (local_dims_eq p gr junk dims g lgs nbs Hfit Hdec r Hr).
    destruct (block_system b p gr junk dims g nvars lgs nbs fx rc Hfit Hbcs Hdet Hcomp Hdec U l l2 (proj2 GU) Hf Hd Hex r (ls r) Hr Hlr)
      as (x & X1 & X2 & X3 & X4). exists x. auto. }
  exists s'.
  exists (fun r => match system_flux (local_dims lgs r) g fx rc (fun _ => Ok (l2 r)) (l r) (ls r) with Ok (_, x) => x | _ => ls r end).
  split; [exact E|]. split; [|split].
  - intros r Hr. destruct (Bs r Hr) as (x & X1 & _). now rewrite X1.
  - intros r c Hr Hc. destruct (Bs r Hr) as (x & X1 & X2 & _). rewrite X1. rewrite (Ec r Hr) in Hc.
    pose proof (proj1 (interior3_inner _ _ _ _ Hdims) Hc) as Hi.
    rewrite X2, W by (auto; now apply (shifted_inner p gr junk dims g lgs nbs Hfit Hdec)). reflexivity.
  - intros d m Hd' Hm.
    eapply (speeds_agree b p gr junk dims g nvars lgs nbs fx rc Hfit Hbcs Hdet Hcomp Hdec U l l2 (proj2 GU) Hf Hd Hex
      (f_speed s') (fun r => f_speed (match system_flux (local_dims lgs r) g fx rc (fun _ => Ok (l2 r)) (l r) (ls r) with Ok (_, x) => x | _ => ls r end)));
      [exact Hd'|exact Sp| |exact Hm].
    intros r Hr. cbv beta. destruct (Bs r Hr) as (x & X1 & _ & X3). now rewrite X1.
Qed.

(** The boundary conditions succeed and the exchange comes to an end, so the
    theorem above speaks about every such computation. *)
Theorem C21_always_possible :
  forall (V : cvars) (St : storage V) b p gr junk dims g nvars lgs nbs (fx : numflux V) (rc : recon V)
    (U0 : vol V) (l0 : Z -> vol V),
  S_Mpi.fits p (gr_cells gr) dims g -> (forall i, gr_bc gr i = side_type b) ->
  record_of V nvars -> compatible fx rc g ->
  (forall r, 0 <= r < processes p -> decompose p gr r (junk r) = Ok (lgs r, nbs r)) ->
  ext3 dims g (gr_cells gr) U0 ->
  (forall r, 0 <= r < processes p -> ext3 dims g (gr_cells (lgs r)) (l0 r)) ->
  exists U l l2, apply_boundary (bc_apply b) dims g (fun _ => false) U0 = Ok U /\
    (forall r, 0 <= r < processes p -> local_bc b g lgs r (l0 r) = Ok (l r)) /\
    exchange_volumes p gr junk g nvars (processes p) l l2.
Proof.
  intros V St b p gr junk dims g nvars lgs nbs fx rc U0 l0 Hfit Hbcs Hrec Hcomp Hdec HU0 Hl0.
  destruct (serial_bc_ok b p gr dims g fx rc Hfit Hcomp U0) as (U & EU & _); [now apply same_extN|].
  exists U, (fun r => match local_bc b g lgs r (l0 r) with Ok v => v | _ => l0 r end).
  destruct (exchange_exists b p gr junk dims g nvars Hfit Hbcs Hrec
    (fun r => match local_bc b g lgs r (l0 r) with Ok v => v | _ => l0 r end)) as (l2 & Hex).
  exists l2. split; [exact EU|]. split; [|exact Hex]. intros r Hr.
  pose proof (Hl0 r Hr) as H0. rewrite (cells_at p gr junk dims g lgs nbs Hfit Hdec r Hr) in H0.
  destruct (local_bc_ok b p gr junk dims g lgs nbs fx rc Hfit Hbcs Hcomp Hdec r (l0 r) Hr H0) as (v' & E & _).
  now rewrite E.
Qed.

(** ** C58

    Whole runs: the processes and a serial simulator start from the same
    interior cells and take a step for every entry of [adjs].  Whatever the
    order in which messages arrive, afterwards all agree on the time, and every
    process holds the part of the serial solution that belongs to its block.
    The processes never get stuck. *)
Theorem C58_runs_agree :
  forall (V : cvars) (St : storage V) it b p gr junk dims g nvars lgs nbs (fx : numflux V) (rc : recon V) prm adjs
    vols sc lvols lsc d0,
  S_Mpi.fits p (gr_cells gr) dims g -> (forall i, gr_bc gr i = side_type b) ->
  record_of V nvars -> compatible fx rc g ->
  (forall r, 0 <= r < processes p -> decompose p gr r (junk r) = Ok (lgs r, nbs r)) ->
  total_cells dims g (at3 (gr_cells gr) 0) (at3 (gr_cells gr) 1) (at3 (gr_cells gr) 2) < 2 ^ 31 ->
  Forall (ext3 dims g (gr_cells gr)) vols -> length vols = S (substeps it) ->
  scratch_ext dims g (at3 (gr_cells gr) 0) (at3 (gr_cells gr) 1) (at3 (gr_cells gr) 2) sc ->
  (forall r, 0 <= r < processes p ->
     Forall (ext3 dims g (gr_cells (lgs r))) (lvols r) /\ length (lvols r) = S (substeps it) /\
     scratch_ext dims g (at3 (gr_cells (lgs r)) 0) (at3 (gr_cells (lgs r)) 1) (at3 (gr_cells (lgs r)) 2) (lsc r)) ->
  distributed dims g (processes p) lgs (vget (hd d0 vols)) (fun r => vget (hd d0 (lvols r))) ->
  let bc := apply_boundary (bc_apply b) dims g (fun _ => false) in
  exists sst0 st0, start bc vols sc = Ok sst0 /\
    (forall r, 0 <= r < processes p -> start (local_bc b g lgs r) (lvols r) (lsc r) = Ok (st0 r)) /\
    (exists st, world_run it b p gr junk g nvars (processes p) lgs fx rc prm adjs st0 st) /\
    forall st, world_run it b p gr junk g nvars (processes p) lgs fx rc prm adjs st0 st ->
    exists sst, fold_res (fun adj => increment_solution it (flux_system dims g fx rc Ok) bc prm adj) adjs sst0 = Ok sst /\
      distributed dims g (processes p) lgs (solution sst) (fun r => solution (st r)) /\
      forall r, 0 <= r < processes p -> s_time (st r) = s_time sst /\ s_steps (st r) = s_steps sst.
Proof.
  intros V St it b p gr junk dims g nvars lgs nbs fx rc prm adjs vols sc lvols lsc d0 Hfit Hbcs Hrec Hcomp Hdec Hcells
    Hv Hl Hs Hb Hd bc.
  destruct (start_matches it b p gr junk dims g lgs nbs fx rc Hfit Hbcs Hcomp Hdec vols sc lvols lsc Hv Hl Hs Hb)
    as (sst0 & st0 & E0 & E1 & M0).
  { intros r c Hr Hc. specialize (Hd r c Hr Hc). destruct (Hb r Hr) as (_ & L & _). cbv beta in *.
    destruct (lvols r); [discriminate|]. destruct vols; [discriminate|]. exact Hd. }
  exists sst0, st0. split; [exact E0|]. split; [exact E1|].
  destruct (run_matches it b p gr junk dims g nvars lgs nbs fx rc prm Hfit Hbcs Hrec Hcomp Hdec Hcells adjs sst0 st0 M0) as (P1 & P2).
  split; [exact P1|]. intros st Hr. destruct (P2 st Hr) as (sst & E & M). exists sst. split; [exact E|].
  split; [now apply (matches_solution it b p gr junk dims g lgs nbs Hfit Hdec sst st M)|].
  intros r Hr'. now apply M.
Qed.

(** The theorems cover the equations of the repository: scalar equations and the
    Euler equations in any number of dimensions are records of their stored
    variables. *)
Theorem C58_covers_equations : record_of scalar_cvars 1 /\ forall n, record_of (euler_cvars n) (Z.of_nat n + 2).
Proof. split; [exact scalar_record|exact euler_record]. Qed.

(** A volume with given values. *)
Definition vol_of {A} (nx ny nz : Z) (f : cell -> A) : vol A :=
  mkvol nx ny nz (fun i => f (i mod nx, (i / nx) mod ny, i / (nx * ny))).
Lemma vol_of_get {A} nx ny nz (f : cell -> A) x y z : 0 <= x < nx -> 0 <= y < ny ->
  vget (vol_of nx ny nz f) (x, y, z) = f (x, y, z).
Proof.
  intros Hx Hy. unfold vget, vol_of, index. cbn [vnx vny vdat].
  replace (z * nx * ny + y * nx + x) with (x + (y + z * ny) * nx) by ring.
  rewrite Z.mod_add by lia. rewrite <- Z.div_div by lia. rewrite Z.div_add by lia.
  rewrite (Z.mod_small x), (Z.div_small x), Z.add_0_l by lia.
  rewrite Z.mod_add by lia. rewrite Z.div_add by lia.
  now rewrite (Z.mod_small y), (Z.div_small y), Z.add_0_l by lia.
Qed.

(** The hypotheses of C21 and C58 hold, for instance, for a periodic grid of
    8 x 6 cells on a 2 x 3 processor grid with arbitrary initial values [f]. *)
Definition ex_parallel_grid : grid :=
  mkgrid (8, 6, 1) (fun _ => PERIODIC) (0, 0, 0) (8, 6, 1) (fun _ => 0%R) (fun _ => 1%R) (fun _ => 1%R).
Definition ex_upwind : numflux scalar_cvars := Flux2 (V := scalar_cvars) (fun _ l _ => (l, 1%R)).
Example C58_nonvacuous : forall f : cell -> scalar_cvars,
  let p := (2, 3, 1) in let gr := ex_parallel_grid in let rc := no_reconstruction (V := scalar_cvars) in
  exists lgs nbs (vols : list (vol scalar_cvars)) (lvols : Z -> list (vol scalar_cvars)),
  S_Mpi.fits p (gr_cells gr) 2 2 /\ (forall i, gr_bc gr i = side_type Periodic) /\
  record_of scalar_cvars 1 /\ compatible ex_upwind rc 2 /\ processes p = 6 /\
  (forall r, 0 <= r < processes p -> decompose p gr r (fun _ => 0) = Ok (lgs r, nbs r)) /\
  Forall (ext3 2 2 (gr_cells gr)) vols /\ length vols = 2%nat /\
  (forall r, 0 <= r < processes p -> Forall (ext3 2 2 (gr_cells (lgs r))) (lvols r) /\ length (lvols r) = 2%nat) /\
  distributed 2 2 (processes p) lgs (vget (hd (vol_of 0 0 0 f) vols)) (fun r => vget (hd (vol_of 0 0 0 f) (lvols r))) /\
  forall c, interior3 2 2 (gr_cells gr) c -> vget (hd (vol_of 0 0 0 f) vols) c = f c.
Proof.
  intros f p gr rc.
  set (lgs := fun r => match decompose p gr r (fun _ => 0) with Ok (lg, _) => lg | _ => gr end).
  set (nbs := fun r => match decompose p gr r (fun _ => 0) with Ok (_, nb) => nb | _ => fun _ => 0 end).
  assert (Hfit : S_Mpi.fits p (gr_cells gr) 2 2).
  { split; [lia|]. split; [lia|]. split; [|split].
    - intros k Hk; assert (k = 0 \/ k = 1 \/ k = 2) as [->|[->| ->]] by lia; cbn; lia.
    - intros k Hk; assert (k = 0 \/ k = 1 \/ k = 2) as [->|[->| ->]] by lia; cbn; [exists 4|exists 2|exists 1]; reflexivity.
    - intros k Hk; assert (k = 0 \/ k = 1 \/ k = 2) as [->|[->| ->]] by lia; vm_compute; intuition congruence. }
  assert (Hdec : forall r, 0 <= r < processes p -> decompose p gr r (fun _ => 0) = Ok (lgs r, nbs r)).
  { intros r Hr. destruct (decompose_ok p gr r (fun _ => 0)) as (lg & nb & E & _).
    - apply (proj1 (proj2 (proj2 Hfit))).
    - intros k Hk. assert (k = 0 \/ k = 1 \/ k = 2) as [->|[->| ->]] by lia; cbn; lia.
    - apply (proj1 (proj2 (proj2 (proj2 Hfit)))).
    - exact Hr.
    - unfold lgs, nbs. now rewrite E. }
  exists lgs, nbs, [vol_of 12 10 1 f; vol_of 12 10 1 f],
    (fun r => [vol_of 8 6 1 (fun c => f (shifted (gr_start (lgs r)) c)); vol_of 8 6 1 f]).
  assert (Ec : forall r, 0 <= r < processes p -> gr_cells (lgs r) = (4, 2, 1)).
  { intros r Hr. exact (cells_at p gr (fun _ _ => 0) 2 2 lgs nbs Hfit Hdec r Hr). }
  split; [exact Hfit|]. split; [reflexivity|]. split; [exact scalar_record|]. split; [split; [cbn; lia|exact I]|].
  split; [reflexivity|]. split; [exact Hdec|].
  split; [repeat constructor|]. split; [reflexivity|]. split; [|split].
  - intros r Hr. rewrite (Ec r Hr). split; [repeat constructor|reflexivity].
  - intros r c Hr Hc. rewrite (Ec r Hr) in Hc. cbn [hd].
    pose proof (shifted_inner p gr (fun _ _ => 0) 2 2 lgs nbs Hfit Hdec r c Hr) as Hi.
    destruct (shifted (gr_start (lgs r)) c) as [[X Y] Z'] eqn:Es. destruct c as [[x y] z].
    assert (Hs : inner 2 2 (per3 p (gr_cells gr)) (x, y, z)) by (apply interior3_inner; [lia|exact Hc]).
    specialize (Hi Hs). pose proof (Hi 0 ltac:(lia)) as I0. pose proof (Hi 1 ltac:(lia)) as I1.
    pose proof (Hs 0 ltac:(lia)) as J0. pose proof (Hs 1 ltac:(lia)) as J1. cbn in I0, I1, J0, J1.
    change (8 / 2) with 4 in J0. change (6 / 3) with 2 in J1.
    rewrite !vol_of_get by lia. now rewrite Es.
  - intros [[x y] z] Hc. cbn [hd]. assert (Hs : inner 2 2 (gr_cells gr) (x, y, z)) by (apply interior3_inner; [lia|exact Hc]).
    pose proof (Hs 0 ltac:(lia)) as J0. pose proof (Hs 1 ltac:(lia)) as J1. cbn in J0, J1.
    apply vol_of_get; lia.
Qed.

(** *** One cell wide blocks

    [fits] asks for blocks of at least two cells in the second and third
    direction.  Without that C21 is false: a block that is one cell wide counts
    as lower dimensional (Volume.cpp lines 279-287), and its process leaves the
    direction out, although its neighbours in that direction are other processes.
    Here 1 x 2 cells are distributed over 1 x 2 processes; the first cell is
    (1, 1, 0) in the global volume and (1, 0, 0) in the volume of process 0. *)
Theorem C21_one_cell_blocks_refuted :
  exists p gr lgs nbs g (fx : numflux scalar_cvars) rc (U : vol scalar_cvars) (l l2 : Z -> vol scalar_cvars) s s' ls ls',
    positive3 p /\ divides3 p (gr_cells gr) /\ (forall k, 0 <= k < 3 -> 1 <= at3 (gr_cells gr) k) /\
    (forall k, 0 <= k < 2 -> g <= at3 (gr_cells gr) k / at3 p k) /\
    (forall i, gr_bc gr i = side_type Periodic) /\ compatible fx rc g /\
    volume_dimensions (gr_cells gr) = 2 /\
    (forall r, 0 <= r < processes p -> decompose p gr r (fun _ => 0) = Ok (lgs r, nbs r)) /\
    ext3 2 g (gr_cells gr) U /\
    (forall c, in_volume 2 g 1 2 1 c -> vget U c = vget U (image periodic1 2 g 1 2 1 c)) /\
    (forall r, 0 <= r < processes p -> ext3 (local_dims lgs r) g (gr_cells (lgs r)) (l r) /\
       local_filled (local_dims lgs r) g Periodic (lgs r) (vget (l r)) /\
       vget (l r) (1, 0, 0) = vget U (1, 1 + r, 0)) /\
    exchange_volumes p gr (fun _ _ => 0) g 1 (processes p) l l2 /\
    system_flux 2 g fx rc Ok U s = Ok (U, s') /\
    system_flux (local_dims lgs 0) g fx rc (fun _ => Ok (l2 0)) (l 0) ls = Ok (l2 0, ls') /\
    vget (f_out s') (1, 1, 0) <> vget (f_out ls') (1, 0, 0).
Proof.
  set (p := (1, 2, 1) : cell).
  set (gr := mkgrid (1, 2, 1) (fun _ => PERIODIC) (0, 0, 0) (1, 2, 1) (fun _ => 0%R) (fun _ => 1%R) (fun _ => 1%R)).
  set (lgs := fun r => match decompose p gr r (fun _ => 0) with Ok (lg, _) => lg | _ => gr end).
  set (nbs := fun r => match decompose p gr r (fun _ => 0) with Ok (_, nb) => nb | _ => fun _ => 0 end).
  set (rc := no_reconstruction (V := scalar_cvars)).
  set (F := fun c : cell => IZR (b2z (Z.even (at3 c 1)))).
  set (U := vol_of 3 4 1 F : vol scalar_cvars).
  set (l := fun r => mkvol 3 1 1 (fun _ : Z => IZR (b2z (Z.even (1 + r)))) : vol scalar_cvars).
  set (z2 := vol_of 3 4 1 (fun _ => 0%R) : vol scalar_cvars).
  set (z1 := vol_of 3 1 1 (fun _ => 0%R) : vol scalar_cvars).
  assert (Hc1 : compatible ex_upwind rc 1) by (split; [cbn; lia|exact I]).
  assert (HU : forall x y z, 0 <= x < 3 -> 0 <= y < 4 -> vget U (x, y, z) = F (x, y, z))
    by (intros; now apply vol_of_get).
  assert (Hr2 : forall r, 0 <= r < processes p -> r = 0 \/ r = 1) by (intros r Hr; change (processes p) with 2 in Hr; lia).
  assert (H12 : 1 <= 2 <= 3) by lia. assert (H11 : 1 <= 1 <= 3) by lia.
  assert (P1 : 0 < 1) by lia. assert (P2 : 0 < 2) by lia. assert (L1 : 1 <= 1) by lia.
  assert (L12 : 1 < 2 -> 1 <= 2) by lia. assert (L22 : 2 < 2 -> 1 <= 1) by lia.
  assert (L11 : 1 < 1 -> 1 <= 1) by lia. assert (L21 : 2 < 1 -> 1 <= 1) by lia.
  destruct (system_top 2 1 ex_upwind rc 1 2 1 H12 Hc1 P1 P2 P1 L1 L12 L22
    Ok U U (mkfstate z2 z2 z2 z2 (fun _ => 0%R))) as (s' & E & _ & W & _); try (repeat split; fail); auto.
  destruct (system_top 1 1 ex_upwind rc 1 1 1 H11 Hc1 P1 P1 P1 L1 L11 L21
    (fun _ => Ok (l 0)) (l 0) (l 0) (mkfstate z1 z1 z1 z1 (fun _ => 0%R))) as (ls' & E1 & _ & W1 & _); try (repeat split; fail); auto.
  exists p, gr, lgs, nbs, 1, ex_upwind, rc, U, l, l, (mkfstate z2 z2 z2 z2 (fun _ => 0%R)), s',
    (mkfstate z1 z1 z1 z1 (fun _ => 0%R)), ls'.
  split; [intros k Hk; assert (k = 0 \/ k = 1 \/ k = 2) as [->|[->| ->]] by lia; cbn; lia|].
  split; [intros k Hk; assert (k = 0 \/ k = 1 \/ k = 2) as [->|[->| ->]] by lia; cbn; [exists 1|exists 1|exists 1]; reflexivity|].
  split; [intros k Hk; assert (k = 0 \/ k = 1 \/ k = 2) as [->|[->| ->]] by lia; cbn; lia|].
  split; [intros k Hk; assert (k = 0 \/ k = 1) as [->| ->] by lia; vm_compute; congruence|].
  split; [reflexivity|]. split; [exact Hc1|]. split; [reflexivity|].
  split; [intros r Hr; destruct (Hr2 r Hr) as [->| ->]; reflexivity|].
  split; [repeat split|]. split; [|split; [|split; [|split; [|split]]]].
  - intros [[x y] z] H. unfold in_volume in H. cbn in H. 
    assert (Hx : x = 0 \/ x = 1 \/ x = 2) by lia. assert (Hy : y = 0 \/ y = 1 \/ y = 2 \/ y = 3) by lia.
    assert (z = 0) as -> by lia.
    destruct Hx as [->|[->| ->]]; destruct Hy as [->|[->|[->| ->]]]; cbn -[vget U]; rewrite !HU by lia; reflexivity.
  - intros r Hr. destruct (Hr2 r Hr) as [->| ->]; (split; [repeat split|split; [intros [[x y] z] H; reflexivity|]]);
      rewrite HU by lia; reflexivity.
  - exists (memory_of l). split; [|intros r Hr; repeat split].
    replace (messages (processes p) (world_ops p gr (fun _ _ => 0) 1 1)) with (@nil msg) by reflexivity.
    exists (mstart (memory_of l)). split; [constructor|]. split; [|reflexivity]. intros i m k Hi. now destruct i.
  - exact E.
  - exact E1.
  - rewrite (W (1, 1, 0)) by (unfold interior, interior1; cbn; lia).
    rewrite (W1 (1, 0, 0)) by (unfold interior, interior1; cbn; lia). unfold rhs. change (zrange 0 2) with [0; 1]. change (zrange 0 1) with [0].
    cbn [fold_left]. unfold iface, rec_at, ex_upwind, rc, no_reconstruction. cbn [rec_ghosts rec_fun].
    change (zrange (- (1 - 1)) 1) with [0]. cbn [map fst snd move Z.eqb Pos.eqb Z.add Pos.add Z.opp Z.pos_sub Pos.succ].
    rewrite !HU by lia. unfold F. cbn.
    match goal with |- ?a <> ?b => change (a <> b :> R) end. change (1 + -1 + 0) with 0. change (1 + 0) with 1. cbn [Z.even b2z]. lra.
Qed.

Print Assumptions C21_flux_agrees.
Print Assumptions C21_always_possible.
Print Assumptions C21_one_cell_blocks_refuted.
Print Assumptions C58_runs_agree.
Print Assumptions C58_covers_equations.
