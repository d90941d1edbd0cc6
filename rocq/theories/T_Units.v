(** C88: a simulation in other units of length and time. *)
From Coq Require Import ZArith Reals List Bool Lia Lra String.
From Verif Require Import M_Base M_Vec M_Boundary M_Flux M_Sim M_Time M_Combined M_Scalar M_Recon M_Config.
From Verif Require Import S_Boundary S_Flux S_Sum S_Sim S_Symmetry S_Euler S_EulerSym S_Embed S_Units.
From Verif Require Import L_Base L_Flux L_Symmetry L_SimProps L_SimTop L_FluxTop L_Related L_Axes L_SymScheme L_EulerSym L_Forced L_Euler L_Embed L_EmbedRecon
  L_Units L_UnitsEuler L_UnitsScalar T_Symmetry T_Mirror T_Embed.
From Verif Require Import M_Euler.
Import ListNotations.
Open Scope Z_scope.

(** Every equation, flux, reconstruction, integrator and boundary condition, with any
    observers: on a grid of cells [lambda] times as long, with save intervals [lambda] times
    as long, the same values are computed at [lambda] times the times. *)
Theorem C88_lengths : forall (V : cvars) (fx : numflux V) rc it b dims g nx ny nz lambda p p' ok obeys u0 rest sc u0' rest' sc' n ws,
  (0 < lambda)%R -> 1 <= dims <= 3 -> compatible fx rc g -> fits_grid dims g nx ny nz ->
  (forall d, p_len p' d = lambda * p_len p d)%R -> p_cfl p' = p_cfl p -> p_wadj p' = p_wadj p ->
  checks_all dims g nx ny nz ok obeys ->
  volumes it dims g nx ny nz u0 rest sc -> volumes it dims g nx ny nz u0' rest' sc' ->
  (forall c, interior dims g nx ny nz c -> vget u0' c = vget u0 c) ->
  agree_in_units lambda (fun u u' => forall c, interior dims g nx ny nz c -> u' c = u c)
    (observed_run it b dims g fx rc p obeys (u0 :: rest) sc n ws)
    (observed_run it b dims g fx rc p' obeys (u0' :: rest') sc' n (map (scaled_writer lambda lambda) ws)).
Proof.
  intros V fx rc it b dims g nx ny nz lambda p p' ok obeys u0 rest sc u0' rest' sc' n ws Hl Hd Hc Hf Pl Pc Pw O V1 V2 H0.
  pose proof (runs_in_units (V := V) (W := V) it b dims g fx rc fx rc nx ny nz (fun u => u) lambda 1 p p' ok ok obeys obeys
    Hd Hc Hc Hf) as H. replace (lambda / 1)%R with lambda in H by field. apply H; auto using Rlt_0_1.
  - split; [exact Pl|]. split; [exact Pc|]. rewrite Pw. clear. generalize (p_wadj p). intros l0. induction l0 as [|f l IH]; constructor; [|exact IH].
    intros x. now rewrite !Rmult_1_l.
  - intros d _. assert (One : forall a : V, vscal 1 a = a) by (intros a; apply comp_ext; intros i; rewrite comp_scal; ring).
    destruct fx as [f|st f]; cbn [faster carries].
    + intros l r. cbn [fst snd]. rewrite One, Rmult_1_l. apply surjective_pairing.
    + split; [reflexivity|]. intros us _. rewrite map_id. cbn [fst snd]. rewrite One, Rmult_1_l. apply surjective_pairing.
  - split; [reflexivity|]. intros us _. rewrite map_id. apply surjective_pairing.
  - apply Forall_forall. intros w _. now left.
Qed.
Print Assumptions C88_lengths.

(** The Euler equations with velocities [kappa] times as large and cells [lambda] times as
    long, with every reconstruction, observed at fixed intervals: the times are
    [lambda] / [kappa] times as large, the solution is that of the first run in the new
    units.  Missing: the Tecno fluxes, whose logarithmic means are treated for positive
    states only, and the coarse graining writer. *)
Theorem C88_euler_time_partial : forall n gamma f name rc it b dims g nx ny nz lambda kappa p p' ok ok' obeys obeys' u0 rest sc u0' rest' sc' m ws,
  (0 < lambda)%R -> (0 < kappa)%R -> 1 <= dims <= 3 -> In f [HLL; HLL3; ECentral] ->
  find_recon (Euler n) gamma name = Some rc ->
  compatible (euler_numflux n gamma f) rc g -> fits_grid dims g nx ny nz ->
  scaled_params lambda kappa p p' ->
  (forall u, ok' (quick kappa u) = ok u) ->
  checks_all dims g nx ny nz ok obeys -> checks_all dims g nx ny nz ok' obeys' ->
  volumes it dims g nx ny nz u0 rest sc -> volumes it dims g nx ny nz u0' rest' sc' ->
  (forall c, interior dims g nx ny nz c -> vget u0' c = quick kappa (vget u0 c)) ->
  Forall no_coarse ws ->
  agree_in_units (lambda / kappa) (fun u u' => forall c, interior dims g nx ny nz c -> u' c = quick kappa (u c))
    (observed_run it b dims g (euler_numflux n gamma f) rc p obeys (u0 :: rest) sc m ws)
    (observed_run it b dims g (euler_numflux n gamma f) rc p' obeys' (u0' :: rest') sc' m
      (map (scaled_writer lambda (lambda / kappa)) ws)).
Proof.
  intros n gamma f name rc it b dims g nx ny nz lambda kappa p p' ok ok' obeys obeys' u0 rest sc u0' rest' sc' m ws
    Hl Hk Hd Hin Hr Hc Hf Hp Hok O1 O2 V1 V2 H0 Hw.
  apply (runs_in_units it b dims g _ rc _ rc nx ny nz (quick kappa) lambda kappa p p' ok ok' obeys obeys'); auto.
  - apply quick_add.
  - apply quick_scal.
  - intros d _. now apply quick_flux.
  - now apply (quick_recon n gamma kappa Hk name).
  - eapply Forall_impl; [|exact Hw]. intros w A. now right.
Qed.
Print Assumptions C88_euler_time_partial.

(** Admissibility of a state of the Euler equations does not depend on the units. *)
Theorem C88_admissible : forall n gamma kappa u, (0 < kappa)%R ->
  (admissible n gamma (quick kappa u) <-> admissible n gamma u).
Proof.
  intros n gamma kappa u Hk. unfold admissible. rewrite to_prim_q. cbn [pq p_p quick rho_ mkcons fst].
  pose proof (k2 kappa Hk) as K. split; intros [A B]; split; try exact A.
  - change (0 < kappa * kappa * extra_p gamma u)%R in B. change (0 < extra_p gamma u)%R.
    apply (Rmult_lt_reg_l (kappa * kappa)); lra.
  - change (0 < kappa * kappa * extra_p gamma u)%R. apply Rmult_lt_0_compat; [exact K|exact B].
Qed.
Print Assumptions C88_admissible.

(** The Burgers and the cubic equation: [k] times the data, waves [k] respectively [k]^2
    times as fast.  Missing: the entropy conservative fluxes, whose entropy lives on the
    interval from 0 to 2; the reconstructions WENO, see C83_weno_refuted. *)
Theorem C88_scalar_time_partial : forall e n name rc it b dims g nx ny nz lambda k p p' ok ok' obeys obeys' u0 rest sc u0' rest' sc' m ws,
  (0 < lambda)%R -> (0 < k)%R -> 1 <= dims <= 3 -> In n (offered e) -> unbounded e (plain_flux n) ->
  In name ["none"; "eno2"; "eno3"; "eno4"; "mc"; "mm"]%string -> find_recon (Scalar e) 0 name = Some rc ->
  compatible (the_flux e n) rc g -> fits_grid dims g nx ny nz ->
  scaled_params lambda (gain k e) p p' ->
  (forall u, ok' (bigger k u) = ok u) ->
  checks_all dims g nx ny nz ok obeys -> checks_all dims g nx ny nz ok' obeys' ->
  volumes it dims g nx ny nz u0 rest sc -> volumes it dims g nx ny nz u0' rest' sc' ->
  (forall c, interior dims g nx ny nz c -> vget u0' c = bigger k (vget u0 c)) ->
  Forall no_coarse ws ->
  agree_in_units (lambda / gain k e) (fun u u' => forall c, interior dims g nx ny nz c -> u' c = bigger k (u c))
    (observed_run it b dims g (the_flux e n) rc p obeys (u0 :: rest) sc m ws)
    (observed_run it b dims g (the_flux e n) rc p' obeys' (u0' :: rest') sc' m
      (map (scaled_writer lambda (lambda / gain k e)) ws)).
Proof.
  intros e n name rc it b dims g nx ny nz lambda k p p' ok ok' obeys obeys' u0 rest sc u0' rest' sc' m ws
    Hl Hk Hd _ Hu Hname Hr Hc Hf Hp Hok O1 O2 V1 V2 H0 Hw.
  apply (runs_in_units (V := scalar_cvars) (W := scalar_cvars) it b dims g _ rc _ rc nx ny nz (bigger k) lambda (gain k e) p p' ok ok' obeys obeys');
    auto using gain_pos.
  - apply bigger_add.
  - apply bigger_scal.
  - intros d _. now apply bigger_flux.
  - now apply (larger_recon e k name).
  - eapply Forall_impl; [|exact Hw]. intros w A. now right.
Qed.
Print Assumptions C88_scalar_time_partial.

(** ** The coarse graining writer *)

(** A step of a run with one observer. *)
Lemma first_step (V : cvars) b dims g (fx : numflux V) rc nx ny nz p u0 rest sc w :
  1 <= dims <= 3 -> compatible fx rc g -> fits_grid dims g nx ny nz -> volumes ForwardEuler dims g nx ny nz u0 rest sc ->
  exists st ws v sp, observed_run ForwardEuler b dims g fx rc p (fun _ => true) (u0 :: rest) sc 1 [w] = Ok (st, ws) /\
    (forall c, interior dims g nx ny nz c -> v c = vget u0 c) /\
    speeds b dims g fx rc nx ny nz v sp /\
    s_time st = compute_timestep (p_wadj p) [tw_adjust 0 (fst (tw_put 0 w))] sp (p_len p) (p_cfl p).
Proof.
  intros Hd Hc (H1 & H2 & H3 & H4 & H5 & H6 & H7) (V1 & V2 & V3).
  destruct (start_ready ForwardEuler b dims g fx rc nx ny nz Hd Hc H1 H2 H3 H4 H5 H6 (u0 :: rest) sc V1 (f_equal S V2) V3)
    as (st0 & E0 & R0 & T0 & W0).
  unfold observed_run. rewrite E0. cbn [bind]. unfold full_run. cbn [seq fold_res].
  set (ws := call_writers (s_time st0) (map (fun w => (w, [])) [w])).
  set (adj := fun t => map (fun wl => tw_adjust t (fst wl)) ws).
  destruct (step_speeds ForwardEuler b dims g fx rc nx ny nz Hd Hc H1 H2 H3 H4 H5 H6 H7 p adj st0 R0)
    as (st1 & dt & sp & E1 & R1 & S1 & D1 & T1 & N1 & W1).
  destruct (front_step V ForwardEuler b dims g nx ny nz _ _ p adj (fun _ => true) st0 st1 E1 R1) as (v & Ev & Gv & Ep).
  exists st1, (call_writers (s_time st1) ws), (solution st0), sp.
  split.
  { unfold full_step. fold adj. rewrite Ep. reflexivity. }
  split; [exact W0|]. split; [exact S1|].
  rewrite T1, D1, T0, Rplus_0_l. unfold adj, ws. rewrite T0. unfold call_writers. cbn [map]. unfold put_log. cbn [fst snd].
  destruct (tw_put 0 w) as [w' s]. reflexivity.
Qed.

Definition breeze_u (k : R) : vol (euler_cvars 1) := mkvol (A := euler_cvars 1) 4 1 1 (fun _ => quick k (wind 1)).
Lemma breeze_volumes k : volumes ForwardEuler 1 1 2 1 1 (breeze_u k) [breeze_u k] (alone (breeze_u k)).
Proof. alone_volumes. Qed.
Lemma breeze_speed k : (0 < k)%R -> snd (hll 1 2 0 (quick k (wind 1)) (quick k (wind 1))) = (k * 2)%R.
Proof.
  intros Hk. unfold hll. cbn [snd]. rewrite left_quick, right_quick by exact Hk.
  unfold hll_left, hll_right. change (Z.to_nat 0) with 0%nat. rewrite wind_v, wind_roe_u, wind_roe_c, !wind_c.
  replace ((1 + 1) / 2)%R with 1%R by field. rewrite (Rmin_left (1 - 1) (1 - 1)), (Rmax_left (1 + 1) (1 + 1)) by lra.
  replace (k * (1 - 1))%R with 0%R by ring. rewrite Rabs_R0, (Rabs_right (k * (1 + 1))), Rmax_right by lra. ring.
Qed.
Lemma breeze_run k T dx : (0 < k)%R ->
  exists st ws, observed_run ForwardEuler Neumann 1 1 (euler_numflux 1 2 HLL) no_reconstruction unit_p (fun _ => true)
      [breeze_u k; breeze_u k] (alone (breeze_u k)) 1 [new_coarse T 1 0 dx 0] = Ok (st, ws) /\
    s_time st = Rmin (1 / (k * 2)) (T - dx).
Proof.
  intros Hk. assert (Hc : compatible (euler_numflux 1 2 HLL) no_reconstruction 1) by (split; [cbn; lia|exact I]).
  destruct (first_step (euler_cvars 1) Neumann 1 1 (euler_numflux 1 2 HLL) no_reconstruction 2 1 1 unit_p (breeze_u k) [breeze_u k]
    (alone (breeze_u k)) (new_coarse T 1 0 dx 0) ltac:(lia) Hc pair_fits (breeze_volumes k)) as (st & ws & v & sp & E & Ev & [S S0] & Et).
  exists st, ws. split; [exact E|]. rewrite Et.
  assert (Vc : forall c, interior 1 1 2 1 1 c -> v c = quick k (wind 1)).
  { intros c Hi. rewrite Ev by exact Hi. destruct c as [[x y] z]. reflexivity. }
  assert (Fc : forall x, 0 <= x < 4 -> filled Neumann 1 1 2 1 1 v (x, 0, 0) = quick k (wind 1)).
  { intros x Hx. unfold filled. apply Vc. apply (im_interior Neumann 1 1 (euler_numflux 1 2 HLL) no_reconstruction 2 1 1); auto; try lia.
    unfold in_volume. cbn. lia. }
  assert (I0 : forall x, 0 <= x < 3 -> snd (iface (euler_numflux 1 2 HLL) no_reconstruction 0 (filled Neumann 1 1 2 1 1 v) (x, 0, 0)) = (k * 2)%R).
  { intros x Hx. cbn [euler_numflux]. rewrite iface_two. change (move 0 1 (x, 0, 0)) with (x + 1, 0, 0). rewrite !Fc by lia.
    now apply breeze_speed. }
  assert (W0 : sp 0 = (k * 2)%R).
  { destruct (S 0 ltac:(lia)) as (P & B & C). cbv zeta in *.
    assert (K : (k * 2 <= sp 0%Z)%R).
    { rewrite <- (I0 1 ltac:(lia)). apply B. left. unfold interior, interior1. cbn. lia. }
    destruct C as [C|(c & Hci & C)]; [lra|]. rewrite C.
    destruct c as [[x y] z]. assert (Q : 0 <= x < 3 /\ y = 0 /\ z = 0).
    { destruct Hci as [Hci|Hci]; unfold interior, interior1, move in Hci; cbn in Hci; lia. }
    destruct Q as (Qx & -> & ->). now apply I0. }
  unfold compute_timestep. cbn [fold_left].
  assert (Wt : wave_total (p_wadj unit_p) sp (p_len unit_p) = (k * 2)%R).
  { rewrite wave_total_eq. change (zrange 0 3) with [0; 1; 2]. cbn [map fold_right p_wadj p_len unit_p fold_left].
    rewrite W0, (S0 1), (S0 2) by lia. destruct (Req_EM_T 1 0) as [A|A]; [lra|]. field. }
  rewrite Wt. cbn [p_cfl unit_p]. transitivity (Rmin (1 / (k * 2)) (coarse_time T 0 dx 1 (-1) - 0)).
  - unfold new_coarse, tw_put. destruct (Rge_bool 0 _); reflexivity.
  - f_equal. unfold coarse_time. change (0 + 1) with 1. ring.
Qed.

(** The coarse graining writer takes the cell length for a time: with velocities twice as
    large, half the interval and the same cells, the first step ends at a fifth of the time
    it should, because the first save around the first interval is planned one cell length
    before it. *)
Theorem C88_coarse_refuted : exists (lambda kappa : R) (u0 u0' : vol (euler_cvars 1)) (w : tw),
  (0 < lambda)%R /\ (0 < kappa)%R /\ compatible (euler_numflux 1 2 HLL) no_reconstruction 1 /\ fits_grid 1 1 2 1 1 /\
  scaled_params lambda kappa unit_p unit_p /\
  volumes ForwardEuler 1 1 2 1 1 u0 [u0] (alone u0) /\ volumes ForwardEuler 1 1 2 1 1 u0' [u0'] (alone u0') /\
  (forall c, interior 1 1 2 1 1 c -> admissible 1 2 (vget u0 c) /\ vget u0' c = quick kappa (vget u0 c)) /\
  w = new_coarse (21 / 10) 1 0 (p_len unit_p 0) 0 /\
  ~ agree_in_units (lambda / kappa) (fun u u' => forall c, interior 1 1 2 1 1 c -> u' c = quick kappa (u c))
    (observed_run ForwardEuler Neumann 1 1 (euler_numflux 1 2 HLL) no_reconstruction unit_p (fun _ => true) [u0; u0] (alone u0) 1 [w])
    (observed_run ForwardEuler Neumann 1 1 (euler_numflux 1 2 HLL) no_reconstruction unit_p (fun _ => true) [u0'; u0'] (alone u0') 1
      (map (scaled_writer lambda (lambda / kappa)) [w])).
Proof.
  exists 1%R, 2%R, (breeze_u 1), (breeze_u 2), (new_coarse (21 / 10) 1 0 (p_len unit_p 0) 0).
  split; [lra|]. split; [lra|]. split; [split; [cbn; lia|exact I]|]. split; [apply pair_fits|].
  split. { split; [intros d; cbn; lra|]. split; [reflexivity|constructor]. }
  split; [apply breeze_volumes|]. split; [apply breeze_volumes|].
  assert (Q1 : quick 1 (wind 1) = wind 1).
  { apply cons_ext; cbn [quick rho_ mom en mkcons fst snd].
    - reflexivity.
    - apply vscal_one.
    - ring. }
  split. { intros [[x y] z] Hc. set (c := (x, y, z)). change (vget (breeze_u 1) c) with (quick 1 (wind 1)). change (vget (breeze_u 2) c) with (quick 2 (wind 1)).
    rewrite Q1. split; [apply wind_adm|reflexivity]. }
  split; [reflexivity|].
  destruct (breeze_run 1 (21 / 10) (p_len unit_p 0) ltac:(lra)) as (st & ws & E & T).
  destruct (breeze_run 2 (1 / 2 * (21 / 10)) (1 * p_len unit_p 0) ltac:(lra)) as (st' & ws' & E' & T').
  cbn [map]. intros [(s & l & s' & l' & A & A' & At & _)|[A _]].
  - assert (X := eq_trans (eq_sym A) E). injection X as -> _.
    assert (Ew : scaled_writer 1 (1 / 2) (new_coarse (21 / 10) 1 0 (p_len unit_p 0) 0) = new_coarse (1 / 2 * (21 / 10)) 1 0 (1 * p_len unit_p 0) 0).
    { unfold new_coarse. cbn [scaled_writer]. now rewrite Rmult_0_r. }
    rewrite Ew in A'. assert (X := eq_trans (eq_sym A') E'). injection X as -> _.
    rewrite T, T' in At. change (p_len unit_p 0) with 1%R in At. unfold Rmin in At.
    destruct (Rle_dec _ _), (Rle_dec _ _); lra.
  - assert (X := eq_trans (eq_sym A) E). discriminate X.
Qed.
Print Assumptions C88_coarse_refuted.

(** ** Runs that meet the hypotheses *)
(** Two winds, observed at an interval and with statistics, and the same in kilometres and
    at three times the velocity. *)
Definition gale_u : vol (euler_cvars 1) := mkvol (A := euler_cvars 1) 4 1 1 (fun i => quick 3 (wind (if i =? 1 then 1 else 3)%R)).
Definition long_p : params := mkparams (fun _ => 5)%R 1 [].
Example C88_case_euler : agree_in_units (5 / 3) (fun u u' => forall x, interior 1 1 2 1 1 x -> u' x = quick (n := 1) 3 (u x))
    (observed_run ForwardEuler Neumann 1 1 (euler_numflux 1 2 HLL) no_reconstruction unit_p (fun _ => true)
      [wind_u; wind_u] (alone wind_u) 7 [new_fixed (1 / 10) true 0; new_stat (1 / 7) false])
    (observed_run ForwardEuler Neumann 1 1 (euler_numflux 1 2 HLL) no_reconstruction long_p (fun _ => true)
      [gale_u; gale_u] (alone gale_u) 7 (map (scaled_writer 5 (5 / 3)) [new_fixed (1 / 10) true 0; new_stat (1 / 7) false])).
Proof.
  apply C88_euler_time_partial with (name := "none"%string) (ok := fun _ => true) (ok' := fun _ => true);
    try lia; try lra; try apply always_checks; try reflexivity; try (cbn [In]; tauto); try apply pair_fits; try apply wind_volumes.
  - split; [cbn; lia|exact I].
  - split; [intros d; cbn; lra|]. split; [reflexivity|constructor].
  - alone_volumes.
  - intros x Hx. destruct (line_cells 1 2 x Hx) as (k & -> & Hk). assert (k = 1 \/ k = 2) as [->| ->] by lia; reflexivity.
  - repeat constructor.
Qed.
(** The same winds on longer cells with all three observers. *)
Example C88_case_lengths : agree_in_units 5 (fun u u' => forall x, interior 1 1 2 1 1 x -> u' x = u x)
    (observed_run ForwardEuler Neumann 1 1 (euler_numflux 1 2 Tecno1) no_reconstruction unit_p (fun _ => true)
      [wind_u; wind_u] (alone wind_u) 7 [new_fixed (1 / 10) true 0; new_stat (1 / 7) false; new_coarse 3 1 0 1 0])
    (observed_run ForwardEuler Neumann 1 1 (euler_numflux 1 2 Tecno1) no_reconstruction long_p (fun _ => true)
      [wind_u; wind_u] (alone wind_u) 7 (map (scaled_writer 5 5) [new_fixed (1 / 10) true 0; new_stat (1 / 7) false; new_coarse 3 1 0 1 0])).
Proof.
  apply C88_lengths with (ok := fun _ => true);
    try lia; try lra; try apply always_checks; try reflexivity; try apply pair_fits; try apply wind_volumes.
  - split; [cbn; lia|exact I].
  - intros d; cbn; lra.
Qed.
Example C88_case_scalar : agree_in_units (5 / 4) (fun u u' => forall x, interior 1 1 2 1 1 x -> u' x = bigger 2 (u x))
    (observed_run ForwardEuler Neumann 1 1 (the_flux Cubic (Two CubicRoe)) no_reconstruction unit_p (fun _ => true)
      [pair_u 1 2; pair_u 1 2] (alone (pair_u 1 2)) 3 [new_fixed (1 / 10) true 0])
    (observed_run ForwardEuler Neumann 1 1 (the_flux Cubic (Two CubicRoe)) no_reconstruction long_p (fun _ => true)
      [pair_u 2 4; pair_u 2 4] (alone (pair_u 2 4)) 3 (map (scaled_writer 5 (5 / 4)) [new_fixed (1 / 10) true 0])).
Proof.
  replace (5 / 4)%R with (5 / gain 2 Cubic)%R by (cbn; field).
  apply C88_scalar_time_partial with (name := "none"%string) (ok := fun _ => true) (ok' := fun _ => true);
    try lia; try lra; try apply always_checks; try reflexivity; try (cbn [In offered]; tauto); try apply pair_fits; try apply pair_volumes.
  - split; [cbn; lia|exact I].
  - split; [intros d; cbn; lra|]. split; [reflexivity|constructor].
  - intros x Hx. destruct (line_cells 1 2 x Hx) as (k & -> & Hk). unfold bigger.
    assert (k = 1 \/ k = 2) as [->| ->] by lia; [change (2 = 2 * 1)%R|change (4 = 2 * 2)%R]; at_R; lra.
  - repeat constructor.
Qed.
