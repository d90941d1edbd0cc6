(** C08: computing the inner region while the exchange thread writes ghost cells. *)
From Coq Require Import ZArith Reals List Bool Lia Lra.
From Verif Require Import M_Base M_Vec M_Boundary M_Flux M_Race S_Boundary S_Flux S_Race L_Base L_Loops
  L_Boundary L_Flux L_System L_Sum L_Conserve L_FluxTop L_Race.
Import ListNotations.
Open Scope Z_scope.

(** The code with instrumented reads is the code of M_Flux. *)
Lemma reconstruct_quiet V dims (rc : recon V) d u left right start fin :
  reconstruct_w dims rc (quiet u) d u left right start fin = reconstruct dims rc d u left right start fin.
Proof. reflexivity. Qed.
Lemma compute_flux_quiet V dims g (fx : numflux V) rc u start fin s :
  compute_flux_w dims g fx rc (quiet u) u start fin s = compute_flux dims g fx rc u start fin s.
Proof. reflexivity. Qed.

Lemma checked_interior (V : cvars) dims g nx ny nz ws (u : vol V) e x y z :
  1 <= dims -> ext dims g nx ny nz u -> ghost_writes dims g nx ny nz ws ->
  inreg (int_lo dims g) (int_hi dims g u) (x, y, z) = true -> checked ws u e x y z = vload u x y z.
Proof.
  intros Hd Hu Hw Hc. unfold checked.
  destruct (existsb _ ws) eqn:E; [|reflexivity]. exfalso.
  apply existsb_exists in E. destruct E as (w & Hin & Hb). apply cell_eqb_eq in Hb.
  unfold ghost_writes in Hw. rewrite Forall_forall in Hw. destruct (Hw w Hin) as [_ Hn].
  apply Hn. rewrite Hb. now apply (interior_inreg u dims g nx ny nz).
Qed.

(** C08, for the reconstructions that respect the region (ENO, and the second
    order ones in ReconstructionCPU): no read of the inner region hits a cell
    that the exchange writes, whatever the grid and whatever the exchange
    writes, so there is no data race, and the result is that of the inner
    region computed alone.  No condition on the size of the grid: where the
    inner region is empty nothing is read. *)
Theorem C08_no_race_partial :
  forall V dims g (fx : numflux V) rc nx ny nz ws u s,
  1 <= dims <= 3 -> 0 <= g -> 1 <= rec_ghosts rc -> rec_all rc = false ->
  ext dims g nx ny nz u -> ghost_writes dims g nx ny nz ws ->
  compute_flux_w dims g fx rc (checked ws u) u (ghost dims g) (fun k => - ghost dims g k) s =
  compute_flux dims g fx rc u (ghost dims g) (fun k => - ghost dims g k) s.
Proof.
  intros V dims g fx rc nx ny nz ws u s Hd Hg Hr Ha Hu Hw.
  apply compute_flux_inner; auto. intros e x y z Hc.
  apply checked_interior with dims g nx ny nz; auto. lia.
Qed.

(** The whole right hand side with the exchange in the other thread, under the
    C++ rule that a race is undefined, is the sequential right hand side. *)
Theorem C08_system_no_race_partial :
  forall V dims g (fx : numflux V) rc nx ny nz ws u s,
  1 <= dims <= 3 -> 0 <= g -> 1 <= rec_ghosts rc -> rec_all rc = false ->
  ext dims g nx ny nz u -> ghost_writes dims g nx ny nz ws ->
  system_flux_w dims g fx rc (checked ws u) u (after ws u) s =
  system_flux dims g fx rc (fun v => Ok (after ws v)) u s.
Proof.
  intros V dims g fx rc nx ny nz ws u s Hd Hg Hr Ha Hu Hw.
  unfold system_flux_w. rewrite system_flux_split.
  rewrite (C08_no_race_partial V dims g fx rc nx ny nz); auto.
Qed.

(** The reconstructions that ignore the region (none, and WENO of order above
    two) read every cell, so any write of the exchange thread is a race. *)
Theorem C08_region_blind_races :
  forall V dims g (fx : numflux V) rc nx ny nz ws u s,
  1 <= dims <= 3 -> compatible fx rc g -> rec_all rc = true ->
  0 < nx -> 0 < ny -> 0 < nz ->
  g <= nx -> (1 < dims -> g <= ny) -> (2 < dims -> g <= nz) ->
  ext dims g nx ny nz u -> ext_state dims g nx ny nz s ->
  ghost_writes dims g nx ny nz ws -> ws <> [] ->
  compute_flux_w dims g fx rc (checked ws u) u (ghost dims g) (fun k => - ghost dims g k) s = UB.
Proof.
  intros V dims g fx rc nx ny nz ws u s Hd Hcomp Ha Hx Hy Hz Gx Gy Gz Hu Hs Hw Hne.
  destruct ws as [|[c a] ws]; [congruence|].
  assert (Hf : fits dims g u) by (apply fits_extents with nx ny nz; auto; lia).
  destruct (make_zero_spec dims g fx rc Hcomp u (f_out s) (ghost dims g) (fun k => - ghost dims g k)
    (inner_lo dims g) (inner_hi dims g u)) as (o & E & _ & _).
  { intros. unfold inner_lo. lia. }
  { intros. unfold inner_hi. lia. }
  { apply reg_ok_inner with fx rc; auto. }
  { apply (ext_same dims g nx ny nz u); [exact Hu|apply Hs]. }
  destruct Hcomp as [Hr Hcf].
  apply (compute_flux_blind dims g fx rc Hd (checked ((c, a) :: ws) u) u s _ _ c) with (o := o); auto.
  - lia.
  - unfold ghost_writes in Hw. inversion Hw as [|w l [Hin _] _]; subst.
    apply (in_volume_iff u dims g nx ny nz); auto. lia.
  - destruct Hu as (-> & _). lia.
  - intros e x y z. unfold checked. destruct (existsb _ _); [discriminate|apply vload_no_throw].
  - intros e x y z Ec. unfold checked. cbn [existsb fst].
    replace (cell_eqb c (x, y, z)) with true; [reflexivity|].
    symmetry. now apply cell_eqb_eq.
Qed.

(** C08 is false for a grid of four cells without reconstruction: the read of
    the left ghost cell races with the exchange. *)
Definition sample_flux (d : Z) (l r : R) : R * R := ((l + r) / 2, 1)%R.
Definition sample_vol : vol scalar_cvars := mkvol 6 1 1 (fun q => IZR q).
Definition sample_state : fstate scalar_cvars :=
  @mkfstate scalar_cvars sample_vol sample_vol sample_vol sample_vol (fun _ => 0%R).

Theorem C08_refuted :
  exists dims g nx ny nz (fx : numflux scalar_cvars) ws,
    compatible fx no_reconstruction g /\
    ext dims g nx ny nz sample_vol /\ ghost_writes dims g nx ny nz ws /\
    compute_flux_w dims g fx no_reconstruction (checked ws sample_vol) sample_vol
      (ghost dims g) (fun k => - ghost dims g k) sample_state = UB /\
    exists s', compute_flux dims g fx no_reconstruction sample_vol
      (ghost dims g) (fun k => - ghost dims g k) sample_state = Ok s'.
Proof.
  exists 1, 1, 4, 1, 1, (@Flux2 scalar_cvars sample_flux), [((0, 0, 0), 7%R)].
  assert (Hc : @compatible scalar_cvars (@Flux2 scalar_cvars sample_flux) no_reconstruction 1)
    by (split; cbn; [lia|exact I]).
  assert (He : ext (V := scalar_cvars) 1 1 4 1 1 sample_vol) by (repeat split).
  assert (Hg : ghost_writes 1 1 4 1 1 [((0, 0, 0), 7%R)]).
  { constructor; [|constructor]. split; cbn; unfold interior1; lia. }
  split; [exact Hc|]. split; [exact He|]. split; [exact Hg|]. split.
  - apply C08_region_blind_races with (nx := 4) (ny := 1) (nz := 1); auto; try lia; try reflexivity.
    + repeat split.
    + discriminate.
  - destruct (compute_flux_spec 1 1 (@Flux2 scalar_cvars sample_flux) no_reconstruction ltac:(lia) Hc
      sample_vol sample_state (ghost 1 1) (fun k => - ghost 1 1 k) (inner_lo 1 1) (inner_hi 1 1 sample_vol))
      as (s' & E & _).
    + intros. unfold inner_lo. lia.
    + intros. unfold inner_hi. lia.
    + apply (reg_ok_inner 1 1 (@Flux2 scalar_cvars sample_flux) no_reconstruction Hc).
      apply fits_extents with 4 1 1; auto; lia.
    + repeat split.
    + exists s'. exact E.
Qed.

Lemma meanwhile_settled (V : cvars) dims g nx ny nz ws when (u : vol V) :
  1 <= dims <= 3 -> 0 <= g -> ext dims g nx ny nz u -> ghost_writes dims g nx ny nz ws ->
  settled dims g (meanwhile ws when u) u.
Proof.
  intros Hd Hg Hu Hw. split; intros e x y z Hc; unfold meanwhile.
  - eexists. apply vload_ok. eapply inr_same; [apply after_same|exact Hc].
  - assert (Hi : inr u (x, y, z)).
    { apply (in_volume_iff u dims g nx ny nz); [lia|exact Hu|].
      apply (interior_inreg u dims g nx ny nz) in Hc; [|lia|exact Hu].
      unfold interior, in_volume, interior1 in *. destruct (1 <? dims), (2 <? dims); lia. }
    rewrite vload_ok by (eapply inr_same; [apply after_same|exact Hi]).
    f_equal. apply after_other; [exact Hi|].
    unfold ghost_writes in Hw. rewrite Forall_forall in *. intros w Hin.
    assert (Hin' : In w ws).
    { rewrite <- (firstn_skipn (when e) ws). apply in_or_app. now left. }
    destruct (Hw w Hin') as [H1 H2]. split.
    + apply (in_volume_iff u dims g nx ny nz); auto. lia.
    + intros E. apply H2. rewrite E. apply (interior_inreg u dims g nx ny nz); auto. lia.
Qed.

(** Where races are not undefined but every read returns the value at some
    moment of the exchange: for every reconstruction, every sequence of ghost
    cell writes and every interleaving of reads and writes, output and wave
    speeds are those of the sequential run. *)
Theorem C08_outcome_of_every_interleaving :
  forall V dims g (fx : numflux V) rc nx ny nz ws when u s,
  1 <= dims <= 3 -> compatible fx rc g ->
  0 < nx -> 0 < ny -> 0 < nz ->
  g <= nx -> (1 < dims -> g <= ny) -> (2 < dims -> g <= nz) ->
  ext dims g nx ny nz u -> ext_state dims g nx ny nz s ->
  ghost_writes dims g nx ny nz ws ->
  exists s1 s2,
    system_flux_w dims g fx rc (meanwhile ws when u) u (after ws u) s = Ok (after ws u, s1) /\
    system_flux dims g fx rc (fun v => Ok (after ws v)) u s = Ok (after ws u, s2) /\
    (forall c, in_volume dims g nx ny nz c -> vget (f_out s1) c = vget (f_out s2) c) /\
    (forall d, f_speed s1 d = f_speed s2 d).
Proof.
  intros V dims g fx rc nx ny nz ws when u s Hd Hcomp Hx Hy Hz Gx Gy Gz Hu Hs Hw.
  assert (Hg : 0 <= g) by (destruct Hcomp; lia).
  destruct (system_flux_settled dims g fx rc Hd Hcomp (meanwhile ws when u) (fun v => Ok (after ws v))
    u (after ws u) s) as (s1 & s2 & E1 & E2 & _ & _ & W & S).
  - now apply meanwhile_settled with nx ny nz.
  - apply fits_extents with nx ny nz; auto; lia.
  - now apply (st_dims_ext dims g nx ny nz).
  - reflexivity.
  - apply after_same.
  - exists s1, s2. split; [exact E1|]. split; [exact E2|]. split; [|exact S].
    intros c Hc. apply W. apply (in_volume_iff u dims g nx ny nz); auto. lia.
Qed.

(** In particular the interior gets the net fluxes of the exchanged volume. *)
Theorem C08_interleaving_flux :
  forall V dims g (fx : numflux V) rc nx ny nz ws when u s,
  1 <= dims <= 3 -> compatible fx rc g ->
  0 < nx -> 0 < ny -> 0 < nz ->
  g <= nx -> (1 < dims -> g <= ny) -> (2 < dims -> g <= nz) ->
  ext dims g nx ny nz u -> ext_state dims g nx ny nz s ->
  ghost_writes dims g nx ny nz ws ->
  exists s1,
    system_flux_w dims g fx rc (meanwhile ws when u) u (after ws u) s = Ok (after ws u, s1) /\
    (forall c, interior dims g nx ny nz c ->
       vget (f_out s1) c = rhs dims fx rc (vget (after ws u)) c) /\
    is_wave_speed dims g nx ny nz fx rc (vget (after ws u)) (f_speed s1).
Proof.
  intros V dims g fx rc nx ny nz ws when u s Hd Hcomp Hx Hy Hz Gx Gy Gz Hu Hs Hw.
  destruct (C08_outcome_of_every_interleaving V dims g fx rc nx ny nz ws when u s)
    as (s1 & s2 & E1 & E2 & W & S); auto.
  assert (Hg : 0 <= g) by (destruct Hcomp; lia).
  destruct (system_top dims g fx rc nx ny nz Hd Hcomp Hx Hy Hz Gx Gy Gz (fun v => Ok (after ws v)) u (after ws u) s)
    as (s3 & E3 & _ & W3 & _ & S3); auto.
  - apply (ext_same dims g nx ny nz u); [exact Hu|apply after_same].
  - intros c Hc. pose proof (meanwhile_settled V dims g nx ny nz ws (fun _ => length ws) u Hd Hg Hu Hw) as [_ Q].
    destruct c as [[x y] z]. specialize (Q (0, (0, 0, 0), 0) x y z).
    unfold meanwhile in Q. rewrite firstn_all in Q.
    assert (Hi : inreg (int_lo dims g) (int_hi dims g u) (x, y, z) = true)
      by (apply (interior_inreg u dims g nx ny nz); auto; lia).
    specialize (Q Hi). rewrite vload_ok in Q; [now injection Q|].
    eapply inr_same; [apply after_same|]. apply (in_volume_iff u dims g nx ny nz); [lia|exact Hu|].
    unfold interior, in_volume, interior1 in *. destruct (1 <? dims), (2 <? dims); lia.
  - rewrite E2 in E3. injection E3 as <-. exists s1. split; [exact E1|]. split.
    + intros c Hc. rewrite W; [now apply W3|].
      destruct c as [[x y] z]. unfold interior, in_volume, interior1 in *. destruct (1 <? dims), (2 <? dims); lia.
    + intros e He. rewrite S. exact (S3 e He).
Qed.

(** Non-vacuity: a grid of 6 x 6 cells with two ghost layers, a second order
    reconstruction that respects the region, and two writes. *)
Definition sample_rc : recon scalar_cvars :=
  @mkrecon scalar_cvars 2 false
    (fun l => match l with [a; b; c] => (b - (c - a) / 4, b + (c - a) / 4)%R | _ => (0, 0)%R end).
Definition sample_vol2 : vol scalar_cvars := mkvol 10 10 1 (fun q => IZR (q * q)).
Example C08_hypotheses_met :
  @compatible scalar_cvars (@Flux2 scalar_cvars sample_flux) sample_rc 2 /\
  rec_all sample_rc = false /\ ext 2 2 6 6 1 sample_vol2 /\
  ghost_writes 2 2 6 6 1 [((1, 3, 0), 5%R); ((9, 9, 0), 2%R)].
Proof.
  split; [split; cbn; [lia|exact I]|]. split; [reflexivity|]. split; [repeat split|].
  constructor; [|constructor; [|constructor]]; split; cbn; unfold interior1; lia.
Qed.

(** An interleaving in which reads see different states of one ghost cell. *)
Example C08_reads_differ :
  meanwhile (V := scalar_cvars) [((0, 0, 0), 7%R)] (fun e => if fst (fst e) =? 0 then 0%nat else 1%nat)
    sample_vol (0, (0, 0, 0), 0) 0 0 0 = Ok 0%R /\
  meanwhile (V := scalar_cvars) [((0, 0, 0), 7%R)] (fun e => if fst (fst e) =? 0 then 0%nat else 1%nat)
    sample_vol (1, (0, 0, 0), 0) 0 0 0 = Ok 7%R.
Proof. split; reflexivity. Qed.

Print Assumptions C08_no_race_partial.
Print Assumptions C08_system_no_race_partial.
Print Assumptions C08_region_blind_races.
Print Assumptions C08_refuted.
Print Assumptions C08_outcome_of_every_interleaving.
Print Assumptions C08_interleaving_flux.
