(** C93: the CFL number and the integrator chosen by the word "auto". *)
From Coq Require Import ZArith Reals List Bool Lia Lra String.
From Verif Require Import M_Base M_Vec M_Boundary M_Flux M_Scalar M_Sim M_Config M_Choice
  S_Boundary S_Flux S_Sum S_Sim S_Monotone S_Choice
  L_Base L_Sim L_SimTop L_SimProps L_Monotone L_MonotoneRun T_Monotone.
Import ListNotations.
Open Scope Z_scope.

(** With the automatic CFL number, no reconstruction (blanks around the word are
    allowed) and an equation and flux of [safe_names], the configuration is accepted,
    whatever it says about gamma, and every run with it keeps the bounds of the initial
    data and, in one dimension, does not increase the total variation.
    Missing: other schemes, where it is false for Buckley-Leverett; different cell
    lengths, see C35. *)
Theorem C93_auto_partial :
  forall parse gamma e n eq fl recon integ it,
  In (e, n, (eq, fl)) safe_names -> trim recon = "none"%string -> In (integ, it) first_order_integrators ->
  exists ch,
    read_choice parse gamma eq fl recon "auto" integ = Ok ch /\ ch_integrator ch = it /\
    ch_scheme ch = mkscheme scalar_cvars (Flux2 (scalar_flux e n)) no_reconstruction /\
    forall b dims g nx ny nz p obeys u0 rest sc adjs m M,
    1 <= dims <= 3 -> 1 <= g -> 0 < nx -> 0 < ny -> 0 < nz ->
    g <= nx -> (1 < dims -> g <= ny) -> (2 < dims -> g <= nz) ->
    total_cells dims g nx ny nz < 2 ^ 31 ->
    Forall (ext (V := scalar_cvars) dims g nx ny nz) (u0 :: rest) -> List.length rest = substeps it ->
    scratch_ext dims g nx ny nz sc ->
    p_wadj p = [] -> square_cells dims (p_len p) -> p_cfl p = ch_cfl ch ->
    (forall adj t, In adj adjs -> Forall shortening (adj t)) ->
    in_range dims g nx ny nz m M (vget u0) ->
    let r := serial_run (ch_integrator ch) b dims g (Flux2 (scalar_flux e n)) no_reconstruction p obeys (u0 :: rest) sc adjs in
    (exists st, r = Ok st /\ in_range dims g nx ny nz m M (solution st) /\
       (dims = 1 -> (variation b dims g nx ny nz (solution st) <= variation b dims g nx ny nz (vget u0))%R) /\
       s_steps st = List.length adjs) \/
    (r = Throw /\ exists u, obeys u = false).
Proof.
  intros parse gamma e n eq fl recon integ it Hn Hr Hi.
  assert (Hm : monotone_scheme e n 1).
  { simpl in Hn. repeat (destruct Hn as [Hn|Hn]; [inversion Hn; subst; constructor|]). destruct Hn. }
  assert (Hit : strong_stability it).
  { simpl in Hi. repeat (destruct Hi as [Hi|Hi]; [inversion Hi; subst; exact I|]). destruct Hi. }
  exists (mkchoice (mkscheme scalar_cvars (Flux2 (scalar_flux e n)) no_reconstruction) (9 / 10) it).
  split; [|split; [reflexivity|split; [reflexivity|]]].
  - assert (Hs : create_scheme gamma eq fl recon = Ok (mkscheme scalar_cvars (Flux2 (scalar_flux e n)) no_reconstruction)).
    { unfold create_scheme. rewrite Hr. clear - Hn. simpl in Hn.
      repeat (destruct Hn as [Hn|Hn]; [inversion Hn; subst; reflexivity|]). destruct Hn. }
    assert (Hj : create_integrator (read_integrator integ recon) = Ok it).
    { unfold read_integrator. rewrite Hr. clear - Hi. simpl in Hi.
      repeat (destruct Hi as [Hi|Hi]; [inversion Hi; subst; reflexivity|]). destruct Hi. }
    unfold read_choice. rewrite Hs, Hj. unfold read_cfl. rewrite Hr. reflexivity.
  - cbn [ch_cfl ch_integrator].
    intros b dims g nx ny nz p obeys u0 rest sc adjs m M H3 H4 H5 H6 H7 H8 H9 H10 H11 H12 H13 H14 H15 H16 H17 H18 H19.
    apply (C35_maximum_principle_partial e n 1 it); try assumption. rewrite H17. lra.
Qed.

(** With any reconstruction the automatic choices are 0.475 and the second order
    Runge-Kutta method, also for misspelt ones (which createReconstruction then
    rejects). *)
Theorem C93_reconstruction :
  forall parse gamma eq fl recon s,
  create_scheme gamma eq fl recon = Ok s -> trim recon <> "none"%string ->
  read_choice parse gamma eq fl recon "auto" "auto" = Ok (mkchoice s (475 / 1000) RungeKutta2).
Proof.
  intros parse gamma eq fl recon s Hs Hr. unfold read_choice. rewrite Hs. cbn [bind].
  unfold read_cfl, read_integrator. cbn [String.eqb Ascii.eqb Bool.eqb].
  destruct (String.eqb_spec (trim recon) "none"); [contradiction|]. reflexivity.
Qed.

(** Only four names of integrators and the word auto are accepted, each for its method,
    and any number that lexical_cast reads. *)
Theorem C93_integrator_names :
  forall parse gamma eq fl recon cfl integ ch,
  read_choice parse gamma eq fl recon cfl integ = Ok ch ->
  (integ = "auto"%string /\
     (trim recon = "none"%string /\ ch_integrator ch = ForwardEuler \/
      trim recon <> "none"%string /\ ch_integrator ch = RungeKutta2) \/
   In (integ, ch_integrator ch) all_integrators) /\
  (cfl = "auto"%string \/ parse cfl = Some (ch_cfl ch)).
Proof.
  intros parse gamma eq fl recon cfl integ ch H. unfold read_choice in H.
  destruct (create_scheme gamma eq fl recon) as [s| |]; try discriminate. cbn [bind] in H.
  destruct (read_cfl parse cfl recon) as [c| |] eqn:Ec; try discriminate. cbn [bind] in H.
  destruct (create_integrator (read_integrator integ recon)) as [i| |] eqn:Ei; try discriminate.
  injection H as <-. cbn [ch_integrator ch_cfl]. split.
  - unfold read_integrator in Ei. destruct (String.eqb_spec integ "auto") as [->|].
    + left. split; [reflexivity|].
      destruct (String.eqb_spec (trim recon) "none"); [left|right]; (split; [assumption|]); vm_compute in Ei; congruence.
    + right. unfold create_integrator in Ei.
      repeat (match type of Ei with context [String.eqb integ ?n] =>
        destruct (String.eqb_spec integ n) as [->|]; [injection Ei as <-; simpl; auto 10|] end).
      discriminate.
  - unfold read_cfl in Ec. destruct (String.eqb_spec cfl "auto"); [left; assumption|right].
    destruct (parse cfl); [injection Ec as <-; reflexivity|discriminate].
Qed.

(** Everything automatic, Buckley-Leverett with Godunov's flux: the first step leads
    from values in [1/10, 1] to one above 1. *)
Definition auto_p : params := mkparams (fun d => if d =? 0 then 1%R else 0%R) (9 / 10) [].

Theorem C93_buckley_leverett_refuted :
  forall parse gamma,
  read_choice parse gamma "buckleyleverett" "godunov" "none" "auto" "auto" =
    Ok (mkchoice (mkscheme scalar_cvars (Flux2 (scalar_flux BuckleyLeverett Godunov)) no_reconstruction)
          (p_cfl auto_p) ForwardEuler) /\
  exists st,
    serial_run (V := scalar_cvars) ForwardEuler Neumann 1 1 (Flux2 (scalar_flux BuckleyLeverett Godunov)) no_reconstruction
      auto_p (fun _ => true) [bl_u; bl_u] (bl_u, bl_u, bl_u) [fun _ => []] = Ok st /\
    square_cells 1 (p_len auto_p) /\ in_range 1 1 2 1 1 (1 / 10) 1 (vget bl_u) /\
    interior 1 1 2 1 1 (2, 0, 0) /\ (1 < solution st (2%Z, 0%Z, 0%Z))%R.
Proof.
  intros parse gamma.
  set (fx := Flux2 (scalar_flux BuckleyLeverett Godunov)).
  assert (Rv : forall c, vget bl_u c = 1%R \/ vget bl_u c = (1 / 10)%R).
  { intros [[x y] z]. unfold vget, bl_u. cbn [vdat]. destruct (_ =? _); auto. }
  assert (FC : compatible fx no_reconstruction 1) by (apply (fx_comp 1 (flux_value BuckleyLeverett Godunov) (flux_speed BuckleyLeverett) ltac:(lia))).
  destruct (one_step (V := scalar_cvars) ForwardEuler Neumann 1 1 fx no_reconstruction 2 1 1
    ltac:(lia) FC ltac:(lia) ltac:(lia) ltac:(lia) ltac:(lia) ltac:(lia) ltac:(lia) ltac:(reflexivity)
    auto_p bl_u [bl_u] (bl_u, bl_u, bl_u)) as (st & v & ws & dt & E & Hv & Hws & Hdt & W).
  { repeat constructor. } { reflexivity. } { repeat split. }
  split; [reflexivity|]. exists st. split; [exact E|].
  split; [split; [simpl; lra|]; intros d Hd; simpl; destruct (Z.eqb_spec d 0), (Z.ltb_spec d 1); try lia; reflexivity|].
  split; [intros c _; destruct (Rv c) as [-> | ->]; lra|].
  assert (I2 : interior 1 1 2 1 1 (2, 0, 0)) by (unfold interior, interior1; simpl; lia).
  split; [exact I2|].
  assert (V1 : v (1, 0, 0) = 1%R) by (rewrite Hv by (unfold interior, interior1; simpl; lia); reflexivity).
  assert (V2 : v (2, 0, 0) = (1 / 10)%R) by (rewrite Hv by exact I2; reflexivity).
  assert (Rg : forall c, interior 1 1 2 1 1 c -> v c = 1%R \/ v c = (1 / 10)%R).
  { intros c Hc. rewrite Hv by exact Hc. apply Rv. }
  assert (S1 : wave_speed BuckleyLeverett 1 = 0%R).
  { cbn [wave_speed]. match goal with |- (Rabs ?q / _ = _)%R => replace q with 0%R by ring end. rewrite Rabs_R0. unfold Rdiv. ring. }
  assert (S2 : wave_speed BuckleyLeverett (1 / 10) = (450 / 1681)%R).
  { cbn [wave_speed]. rewrite Rabs_pos_eq by lra. field. }
  assert (Ws : ws 0 = (450 / 1681)%R).
  { apply Rle_antisym.
    - destruct (Hws 0 ltac:(lia)) as (_ & _ & [A|(c & Hc & A)]); [lra|]. rewrite A.
      unfold iface, fx. rewrite !rec_none'. cbn [scalar_flux snd fst].
      assert (N : forall s, 0 <= s <= 1 -> interior 1 1 2 1 1 (image (bc_image Neumann) 1 1 2 1 1 (move 0 s c))).
      { intros s Hs. apply (im_interior (V := scalar_cvars) Neumann 1 1 fx no_reconstruction); try lia; [exact FC|].
        assert (X : move 0 s c = move 0 (s - 1) (move 0 1 c)).
        { destruct c as [[x y] z]. unfold move. simpl. repeat apply (f_equal2 (@pair _ _)); lia. }
        destruct Hc as [Hc|Hc]; [|rewrite X];
          apply (stencil_in_volume (V := scalar_cvars) 1 1 fx no_reconstruction); try lia; auto. }
      assert (Q : forall s, 0 <= s <= 1 -> (wave_speed BuckleyLeverett (filled (V := scalar_cvars) Neumann 1 1 2 1 1 v (move 0 s c)) <= 450 / 1681)%R).
      { intros s Hs. unfold filled. destruct (Rg _ (N s Hs)) as [-> | ->]; [rewrite S1|rewrite S2]; lra. }
      unfold flux_speed. apply Rmax_lub; [|apply (Q 1); lia].
      pose proof (Q 0 ltac:(lia)) as Q0. replace (move 0 0 c) with c in Q0; [exact Q0|].
      destruct c as [[x y] z]. simpl. rewrite Z.add_0_r. reflexivity.
    - pose proof (speed_bound Neumann 1 1 2 1 1 (flux_value BuckleyLeverett Godunov) (wave_speed BuckleyLeverett) (flux_speed BuckleyLeverett)
        ltac:(reflexivity) v ws 0 (2, 0, 0) Hws ltac:(lia) I2) as B. rewrite V2, S2 in B. exact B. }
  assert (Dt : dt = (1681 / 500)%R).
  { rewrite Hdt. unfold compute_timestep. cbn [fold_left]. rewrite wave_total_eq.
    change (zrange 0 3) with [0; 1; 2]. cbn [map fold_right auto_p p_wadj p_len fold_left p_cfl Z.eqb Pos.eqb].
    rewrite Ws.
    destruct (Req_EM_T 1 0); [lra|]. destruct (Req_EM_T 0 0); [|lra]. field. }
  rewrite W by exact I2. cbn [textbook]. unfold euler, fplus, fmul, semidiscrete, rhs.
  change (zrange 0 1) with [0]. cbn [fold_left].
  unfold iface, fx. rewrite !rec_none'. cbn [fst snd scalar_flux]. unfold filled.
  change (image (bc_image Neumann) 1 1 2 1 1 (move 0 1 (move 0 (-1) (2, 0, 0)))) with (2, 0, 0).
  change (image (bc_image Neumann) 1 1 2 1 1 (move 0 (-1) (2, 0, 0))) with (1, 0, 0).
  change (image (bc_image Neumann) 1 1 2 1 1 (move 0 1 (2, 0, 0))) with (2, 0, 0).
  change (image (bc_image Neumann) 1 1 2 1 1 (2, 0, 0)) with (2, 0, 0).
  rewrite V1, V2, Dt.
  assert (F1 : flux_value BuckleyLeverett Godunov 1 (1 / 10) = 1%R).
  { cbn [flux_value point_flux]. rewrite (Rmax_left 1 0), (Rmin_right (1 / 10)) by lra. rewrite Rmax_left; lra. }
  assert (F2 : flux_value BuckleyLeverett Godunov (1 / 10) (1 / 10) = (1 / 82)%R).
  { cbn [flux_value point_flux]. rewrite (Rmax_left (1 / 10) 0), (Rmin_right (1 / 10)) by lra. rewrite Rmax_left; lra. }
  rewrite F1, F2. cbn [vadd vscal vzero scalar_cvars auto_p p_len Z.eqb Pos.eqb].
  match goal with |- (?q1 < ?q2)%R => change (Rlt q1 q2) end. lra.
Qed.

(** A number is not checked: the CFL number 0 is accepted and the time stays 0 however
    many steps are made, so that the loop of the simulator (until the end time) does
    not end.  (The wave speed of the linear equation is 1 everywhere; the timestep is
    0 / 1, not 0 / 0.) *)
Definition zero_p : params := mkparams (fun d => if d =? 0 then 1%R else 0%R) 0 [].

Theorem C93_zero_cfl_refuted :
  forall parse gamma, parse "0"%string = Some 0%R ->
  read_choice parse gamma "linear" "upwind" "none" "0" "auto" =
    Ok (mkchoice (mkscheme scalar_cvars (Flux2 (scalar_flux Linear Upwind)) no_reconstruction)
          (p_cfl zero_p) ForwardEuler) /\
  forall k, exists st,
    serial_run (V := scalar_cvars) ForwardEuler Periodic 1 1 (Flux2 (scalar_flux Linear Upwind)) no_reconstruction
      zero_p (fun _ => true) [bl_u; bl_u] (bl_u, bl_u, bl_u) (repeat (fun _ => []) k) = Ok st /\
    s_time st = 0%R.
Proof.
  intros parse gamma Hp. split; [unfold read_choice, read_cfl; simpl; rewrite Hp; reflexivity|]. intros k.
  assert (FC : compatible (Flux2 (scalar_flux Linear Upwind)) no_reconstruction 1)
    by (apply (fx_comp 1 (flux_value Linear Upwind) (flux_speed Linear) ltac:(lia))).
  destruct (start_ready (V := scalar_cvars) ForwardEuler Periodic 1 1 (Flux2 (scalar_flux Linear Upwind)) no_reconstruction 2 1 1
    ltac:(lia) FC ltac:(lia) ltac:(lia) ltac:(lia) ltac:(lia) ltac:(lia) ltac:(lia) [bl_u; bl_u] (bl_u, bl_u, bl_u))
    as (st0 & E0 & R0 & T0 & _).
  { repeat constructor. } { reflexivity. } { repeat split. }
  unfold serial_run. rewrite E0. cbn [bind]. clear E0. revert st0 R0 T0.
  induction k as [|k IH]; intros st0 R0 T0; [exists st0; split; [reflexivity|exact T0]|].
  destruct (step_ready (V := scalar_cvars) ForwardEuler Periodic 1 1 (Flux2 (scalar_flux Linear Upwind)) no_reconstruction 2 1 1
    ltac:(lia) FC ltac:(lia) ltac:(lia) ltac:(lia) ltac:(lia) ltac:(lia) ltac:(lia) ltac:(reflexivity)
    zero_p (fun _ => []) st0 R0) as (st1 & dt & ws & E1 & R1 & _ & D1 & T1 & _).
  unfold run. cbn [repeat fold_res]. unfold perform_step, checked_step. rewrite E1. cbn [bind].
  assert (L1 := proj1 (proj2 R1)).
  destruct (s_vols st1) as [|u1 l1] eqn:Ev; [discriminate|]. cbn [vat nth_error bind].
  apply (IH st1 R1). rewrite T1, T0, D1. unfold compute_timestep. cbn [fold_left p_cfl zero_p]. unfold Rdiv. ring.
Qed.

(** Blanks around the name of the reconstruction are ignored; around "auto" they are
    not, neither for the CFL number nor for the integrator. *)
Theorem C93_blanks_refuted :
  exists cfl, trim cfl = "auto"%string /\ forall parse gamma, parse cfl = None ->
  read_choice parse gamma "burgers" "godunov" " none " "auto" "auto" =
    Ok (mkchoice (mkscheme scalar_cvars (Flux2 (scalar_flux Burgers Godunov)) no_reconstruction) (9 / 10) ForwardEuler) /\
  read_choice parse gamma "burgers" "godunov" "none" cfl "auto" = Throw /\
  read_choice parse gamma "burgers" "godunov" "none" "auto" cfl = Throw.
Proof.
  exists " auto"%string. split; [reflexivity|]. intros parse gamma H. split; [reflexivity|].
  split; [|reflexivity]. unfold read_choice, read_cfl. simpl. rewrite H. reflexivity.
Qed.

(** The hypotheses of C93_auto_partial hold for a moving solution: Burgers with
    Rusanov's flux, two steps. *)
Definition moving_p : params := mkparams (fun d => if d =? 0 then 1%R else 0%R) (9 / 10) [].
Example C93_nonvacuous :
  exists st,
    serial_run (V := scalar_cvars) ForwardEuler Neumann 1 1 (Flux2 (scalar_flux Burgers Rusanov)) no_reconstruction
      moving_p (fun _ => true) [ok_u; ok_u] (ok_u, ok_u, ok_u) [fun _ => []; fun _ => []] = Ok st /\
    in_range 1 1 2 1 1 0 1 (solution st).
Proof.
  destruct (C93_auto_partial (fun _ => None) 1 Burgers Rusanov "burgers" "rusanov" " none" "auto" ForwardEuler)
    as (ch & E & It & Sc & T); [simpl; auto|reflexivity|simpl; auto|].
  assert (Ec : (9 / 10)%R = ch_cfl ch) by (vm_compute in E; injection E as <-; reflexivity).
  rewrite It in T.
  destruct (T Neumann 1 1 2 1 1 moving_p (fun _ => true) ok_u [ok_u] (ok_u, ok_u, ok_u) [fun _ => []; fun _ => []] 0%R 1%R)
    as [(st & A & B & _)|[_ [u X]]]; try lia; try reflexivity.
  - repeat constructor.
  - repeat split.
  - split; [simpl; lra|]. intros d Hd. simpl. destruct (Z.eqb_spec d 0), (Z.ltb_spec d 1); try lia; reflexivity.
  - exact Ec.
  - intros adj t [<-|[<-|[]]]; constructor.
  - intros [[x y] z] _. unfold vget, ok_u. cbn [vdat]. destruct (_ =? _); lra.
  - exists st. split; [exact A|exact B].
Qed.

(** A configuration with a reconstruction. *)
Example C93_reconstruction_case :
  exists s, create_scheme 1 "burgers" "godunov" "weno2" = Ok s /\ trim "weno2" <> "none"%string.
Proof. eexists. split; [reflexivity|discriminate]. Qed.

Print Assumptions C93_auto_partial.
Print Assumptions C93_reconstruction.
Print Assumptions C93_integrator_names.
Print Assumptions C93_buckley_leverett_refuted.
Print Assumptions C93_zero_cfl_refuted.
Print Assumptions C93_blanks_refuted.
