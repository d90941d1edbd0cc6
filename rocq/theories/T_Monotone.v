(** C35: maximum principle and total variation of the first order schemes. *)
From Coq Require Import ZArith Reals List Bool Lia Lra.
From Verif Require Import M_Base M_Vec M_Boundary M_Flux M_Scalar M_Sim S_Boundary S_Flux S_Sum S_Sim S_Monotone
  L_Base L_Sim L_SimTop L_SimProps L_Monotone L_MonotoneRun.
Import ListNotations.
Open Scope Z_scope.

(** C35 on grids with square cells: after any number of steps the solution lies
    between any bounds of the initial data, and in one dimension its total
    variation is at most that of the initial data.  Covers more than Burgers with
    Godunov and Rusanov under forward Euler; see [monotone_scheme].
    Missing: grids with different cell lengths, where it is false. *)
Theorem C35_maximum_principle_partial :
  forall e n k it b dims g nx ny nz p obeys u0 rest sc adjs m M,
  monotone_scheme e n k -> strong_stability it ->
  1 <= dims <= 3 -> 1 <= g -> 0 < nx -> 0 < ny -> 0 < nz ->
  g <= nx -> (1 < dims -> g <= ny) -> (2 < dims -> g <= nz) ->
  total_cells dims g nx ny nz < 2 ^ 31 ->
  Forall (ext (V := scalar_cvars) dims g nx ny nz) (u0 :: rest) -> length rest = substeps it ->
  scratch_ext dims g nx ny nz sc ->
  p_wadj p = [] -> square_cells dims (p_len p) -> (0 < p_cfl p <= k)%R ->
  (forall adj t, In adj adjs -> Forall shortening (adj t)) ->
  in_range dims g nx ny nz m M (vget u0) ->
  let r := serial_run it b dims g (Flux2 (scalar_flux e n)) no_reconstruction p obeys (u0 :: rest) sc adjs in
  (exists st, r = Ok st /\ in_range dims g nx ny nz m M (solution st) /\
     (dims = 1 -> (variation b dims g nx ny nz (solution st) <= variation b dims g nx ny nz (vget u0))%R) /\
     s_steps st = length adjs) \/
  (r = Throw /\ exists u, obeys u = false).
Proof.
  intros e n k it b dims g nx ny nz p obeys u0 rest sc adjs m M H1 H2 H3 H4 H5 H6 H7 H8 H9 H10 H11 H12 H13 H14
    H15 H16 H17 H18 H19 r.
  assert (Hl : length (u0 :: rest) = S (substeps it)) by (apply (f_equal S); exact H13).
  destruct (monotone_run e n k it b dims g nx ny nz p obeys (u0 :: rest) sc adjs m M H1 H2 H3 H4 H5 H6 H7 H8 H9 H10 H11
    H12 Hl H14 H15 H16 H17 H18 H19) as [(st & E & [A B] & S)|E]; [left; exists st; auto|right; exact E].
Qed.

(** With cells three times as long in y as in x, Godunov's flux and CFL number 1
    leave the range [1/2, 1] of the initial data in the first step. *)
Definition mp_u : vol scalar_cvars := mkvol (A := scalar_cvars) 4 4 1 (fun i => if i =? 5 then 1%R else (1 / 2)%R).
Definition mp_p : params := mkparams (fun d => if d =? 0 then 1%R else if d =? 1 then 3%R else 0%R) 1 [].

Theorem C35_rectangular_cells_refuted :
  exists st,
    serial_run (V := scalar_cvars) ForwardEuler Periodic 2 1 (Flux2 (scalar_flux Burgers Godunov)) no_reconstruction
      mp_p (fun _ => true) [mp_u; mp_u] (mp_u, mp_u, mp_u) [fun _ => []] = Ok st /\
    in_range 2 1 2 2 1 (1 / 2) 1 (vget mp_u) /\
    interior 2 1 2 2 1 (1, 1, 0) /\ (solution st (1%Z, 1%Z, 0%Z) = 7 / 16)%R.
Proof.
  assert (Rv : forall c, vget mp_u c = 1%R \/ vget mp_u c = (1 / 2)%R).
  { intros [[x y] z]. unfold vget, mp_u. cbn [vdat]. destruct (_ =? _); auto. }
  destruct (one_step (V := scalar_cvars) ForwardEuler Periodic 2 1 (Flux2 (scalar_flux Burgers Godunov)) no_reconstruction 2 2 1
    ltac:(lia) (fx_comp 1 _ _ ltac:(lia)) ltac:(lia) ltac:(lia) ltac:(lia) ltac:(lia) ltac:(lia) ltac:(lia) ltac:(reflexivity)
    mp_p mp_u [mp_u] (mp_u, mp_u, mp_u)) as (st & v & ws & dt & E & Hv & Hws & Hdt & W).
  { repeat constructor. } { reflexivity. } { repeat split. }
  exists st. split; [exact E|]. split; [intros c _; destruct (Rv c) as [-> | ->]; lra|].
  assert (I1 : interior 2 1 2 2 1 (1, 1, 0)) by (unfold interior, interior1; simpl; lia).
  split; [exact I1|].
  assert (V1 : v (1, 1, 0) = 1%R) by (rewrite Hv by exact I1; reflexivity).
  assert (V2 : v (2, 1, 0) = (1 / 2)%R) by (rewrite Hv by (unfold interior, interior1; simpl; lia); reflexivity).
  assert (V3 : v (1, 2, 0) = (1 / 2)%R) by (rewrite Hv by (unfold interior, interior1; simpl; lia); reflexivity).
  assert (Rg : in_range 2 1 2 2 1 0 1 v).
  { intros c Hc. rewrite Hv by exact Hc. destruct (Rv c) as [-> | ->]; lra. }
  assert (Ws : forall e, 0 <= e < 2 -> ws e = 1%R).
  { intros e He. apply Rle_antisym.
    - destruct (Hws e He) as (_ & _ & [A|(c & Hc & A)]); [lra|]. rewrite A.
      unfold iface. rewrite !rec_none'. cbn [scalar_flux snd fst].
      assert (N : forall s, 0 <= s <= 1 -> interior 2 1 2 2 1 (image (bc_image Periodic) 2 1 2 2 1 (move e s c))).
      { intros s Hs. apply (im_interior (V := scalar_cvars) Periodic 2 1 (Flux2 (scalar_flux Burgers Godunov)) no_reconstruction);
          try lia; [apply (fx_comp 1 _ _ ltac:(lia))|].
        assert (X : move e s c = move e (s - 1) (move e 1 c)).
        { destruct c as [[x y] z]. unfold move. destruct (e =? 0); [|destruct (e =? 1)];
            repeat apply (f_equal2 (@pair _ _)); lia. }
        destruct Hc as [Hc|Hc]; [|rewrite X];
          apply (stencil_in_volume (V := scalar_cvars) 2 1 (Flux2 (scalar_flux Burgers Godunov)) no_reconstruction);
          try lia; auto; apply (fx_comp 1 _ _ ltac:(lia)). }
      pose proof (Rg _ (N 1 ltac:(lia))) as B1.
      assert (B0 : (0 <= v (image (bc_image Periodic) 2 1 2 2 1 c) <= 1)%R).
      { pose proof (Rg _ (N 0 ltac:(lia))) as B0.
        replace (move e 0 c) with c in B0; [exact B0|].
        destruct c as [[x y] z]. unfold move. destruct (e =? 0); [|destruct (e =? 1)]; rewrite Z.add_0_r; reflexivity. }
      unfold flux_speed, filled. cbn [wave_speed].
      rewrite !Rabs_pos_eq by lra. apply Rmax_lub; lra.
    - pose proof (speed_bound Periodic 2 1 2 2 1 (flux_value Burgers Godunov) (wave_speed Burgers) (flux_speed Burgers)
        ltac:(reflexivity) v ws e (1, 1, 0) Hws He I1) as B. rewrite V1 in B. simpl in B. rewrite Rabs_R1 in B. exact B. }
  assert (Dt : dt = (3 / 4)%R).
  { rewrite Hdt. unfold compute_timestep. cbn [fold_left]. rewrite wave_total_eq.
    change (zrange 0 3) with [0; 1; 2]. cbn [map fold_right mp_p p_wadj p_len fold_left p_cfl Z.eqb Pos.eqb].
    rewrite !Ws by lia.
    destruct (Req_EM_T 1 0); [lra|]. destruct (Req_EM_T 3 0); [lra|].
    destruct (Req_EM_T 0 0); [|lra]. field. }
  rewrite W by exact I1. cbn [textbook]. unfold euler, fplus, fmul, semidiscrete, rhs.
  change (zrange 0 2) with [0; 1]. cbn [fold_left].
  unfold iface. rewrite !rec_none'. cbn [fst snd scalar_flux]. unfold filled.
  change (image (bc_image Periodic) 2 1 2 2 1 (move 0 1 (move 0 (-1) (1, 1, 0)))) with (1, 1, 0).
  change (image (bc_image Periodic) 2 1 2 2 1 (move 0 (-1) (1, 1, 0))) with (2, 1, 0).
  change (image (bc_image Periodic) 2 1 2 2 1 (move 0 1 (1, 1, 0))) with (2, 1, 0).
  change (image (bc_image Periodic) 2 1 2 2 1 (move 1 1 (move 1 (-1) (1, 1, 0)))) with (1, 1, 0).
  change (image (bc_image Periodic) 2 1 2 2 1 (move 1 (-1) (1, 1, 0))) with (1, 2, 0).
  change (image (bc_image Periodic) 2 1 2 2 1 (move 1 1 (1, 1, 0))) with (1, 2, 0).
  change (image (bc_image Periodic) 2 1 2 2 1 (1, 1, 0)) with (1, 1, 0).
  rewrite V1, V2, V3, Dt.
  assert (F1 : flux_value Burgers Godunov (1 / 2) 1 = (1 / 8)%R).
  { simpl. rewrite (Rmax_left (1 / 2)), (Rmin_right 1) by lra. rewrite Rmax_left; lra. }
  assert (F2 : flux_value Burgers Godunov 1 (1 / 2) = (1 / 2)%R).
  { simpl. rewrite (Rmax_left 1 0), (Rmin_right (1 / 2)) by lra. rewrite Rmax_left; lra. }
  rewrite F1, F2. cbn [vadd vscal vzero scalar_cvars mp_p p_len Z.eqb Pos.eqb].
  match goal with |- @eq _ ?a ?b => change (@eq R a b) end. field.
Qed.

(** The maximum principle fails for Buckley-Leverett, whose wave speed is largest
    between the states of a discontinuity: the data (1, 1/10) and CFL number 1/2
    lead to a value above 1. *)
Definition bl_u : vol scalar_cvars := mkvol (A := scalar_cvars) 4 1 1 (fun i => if i =? 1 then 1%R else (1 / 10)%R).
Definition bl_p : params := mkparams (fun d => if d =? 0 then 1%R else 0%R) (1 / 2) [].

Theorem C35_buckley_leverett_refuted :
  exists st,
    serial_run (V := scalar_cvars) ForwardEuler Neumann 1 1 (Flux2 (scalar_flux BuckleyLeverett Godunov)) no_reconstruction
      bl_p (fun _ => true) [bl_u; bl_u] (bl_u, bl_u, bl_u) [fun _ => []] = Ok st /\
    In (Two Godunov) (offered BuckleyLeverett) /\ square_cells 1 (p_len bl_p) /\
    in_range 1 1 2 1 1 (1 / 10) 1 (vget bl_u) /\
    interior 1 1 2 1 1 (2, 0, 0) /\ (1 < solution st (2%Z, 0%Z, 0%Z))%R.
Proof.
  set (fx := Flux2 (scalar_flux BuckleyLeverett Godunov)).
  assert (Rv : forall c, vget bl_u c = 1%R \/ vget bl_u c = (1 / 10)%R).
  { intros [[x y] z]. unfold vget, bl_u. cbn [vdat]. destruct (_ =? _); auto. }
  assert (FC : compatible fx no_reconstruction 1) by (apply (fx_comp 1 (flux_value BuckleyLeverett Godunov) (flux_speed BuckleyLeverett) ltac:(lia))).
  destruct (one_step (V := scalar_cvars) ForwardEuler Neumann 1 1 fx no_reconstruction 2 1 1
    ltac:(lia) FC ltac:(lia) ltac:(lia) ltac:(lia) ltac:(lia) ltac:(lia) ltac:(lia) ltac:(reflexivity)
    bl_p bl_u [bl_u] (bl_u, bl_u, bl_u)) as (st & v & ws & dt & E & Hv & Hws & Hdt & W).
  { repeat constructor. } { reflexivity. } { repeat split. }
  exists st. split; [exact E|]. split; [simpl; auto|].
  split; [split; [simpl; lra|]; intros d Hd; simpl; destruct (Z.eqb_spec d 0), (Z.ltb_spec d 1); try lia; reflexivity|].
  split; [intros c _; destruct (Rv c) as [-> | ->]; lra|].
  assert (I2 : interior 1 1 2 1 1 (2, 0, 0)) by (unfold interior, interior1; simpl; lia).
  split; [exact I2|].
  assert (V1 : v (1, 0, 0) = 1%R) by (rewrite Hv by (unfold interior, interior1; simpl; lia); reflexivity).
  assert (V2 : v (2, 0, 0) = (1 / 10)%R) by (rewrite Hv by exact I2; reflexivity).
  assert (Rg : forall c, interior 1 1 2 1 1 c -> v c = 1%R \/ v c = (1 / 10)%R).
  { intros c Hc. rewrite Hv by exact Hc. apply Rv. }
  assert (S1 : wave_speed BuckleyLeverett 1 = 0%R).
  { cbn [wave_speed]. match goal with |- (Rabs ?q / _ = _)%R => replace q with 0%R by ring end. rewrite Rabs_R0. unfold Rdiv. ring. }
  assert (S2 : wave_speed BuckleyLeverett (1 / 10) = (450 / 1681)%R).
  { cbn [wave_speed]. rewrite Rabs_pos_eq by lra. field. }
  assert (Ws : ws 0 = (450 / 1681)%R).
  { apply Rle_antisym.
    - destruct (Hws 0 ltac:(lia)) as (_ & _ & [A|(c & Hc & A)]); [lra|]. rewrite A.
      unfold iface, fx. rewrite !rec_none'. cbn [scalar_flux snd fst].
      assert (N : forall s, 0 <= s <= 1 -> interior 1 1 2 1 1 (image (bc_image Neumann) 1 1 2 1 1 (move 0 s c))).
      { intros s Hs. apply (im_interior (V := scalar_cvars) Neumann 1 1 fx no_reconstruction); try lia; [exact FC|].
        assert (X : move 0 s c = move 0 (s - 1) (move 0 1 c)).
        { destruct c as [[x y] z]. unfold move. simpl. repeat apply (f_equal2 (@pair _ _)); lia. }
        destruct Hc as [Hc|Hc]; [|rewrite X];
          apply (stencil_in_volume (V := scalar_cvars) 1 1 fx no_reconstruction); try lia; auto. }
      assert (Q : forall s, 0 <= s <= 1 -> (wave_speed BuckleyLeverett (filled (V := scalar_cvars) Neumann 1 1 2 1 1 v (move 0 s c)) <= 450 / 1681)%R).
      { intros s Hs. unfold filled. destruct (Rg _ (N s Hs)) as [-> | ->]; [rewrite S1|rewrite S2]; lra. }
      unfold flux_speed. apply Rmax_lub; [|apply (Q 1); lia].
      pose proof (Q 0 ltac:(lia)) as Q0. replace (move 0 0 c) with c in Q0; [exact Q0|].
      destruct c as [[x y] z]. simpl. rewrite Z.add_0_r. reflexivity.
    - pose proof (speed_bound Neumann 1 1 2 1 1 (flux_value BuckleyLeverett Godunov) (wave_speed BuckleyLeverett) (flux_speed BuckleyLeverett)
        ltac:(reflexivity) v ws 0 (2, 0, 0) Hws ltac:(lia) I2) as B. rewrite V2, S2 in B. exact B. }
  assert (Dt : dt = (1681 / 900)%R).
  { rewrite Hdt. unfold compute_timestep. cbn [fold_left]. rewrite wave_total_eq.
    change (zrange 0 3) with [0; 1; 2]. cbn [map fold_right bl_p p_wadj p_len fold_left p_cfl Z.eqb Pos.eqb].
    rewrite Ws.
    destruct (Req_EM_T 1 0); [lra|]. destruct (Req_EM_T 0 0); [|lra]. field. }
  rewrite W by exact I2. cbn [textbook]. unfold euler, fplus, fmul, semidiscrete, rhs.
  change (zrange 0 1) with [0]. cbn [fold_left].
  unfold iface, fx. rewrite !rec_none'. cbn [fst snd scalar_flux]. unfold filled.
  change (image (bc_image Neumann) 1 1 2 1 1 (move 0 1 (move 0 (-1) (2, 0, 0)))) with (2, 0, 0).
  change (image (bc_image Neumann) 1 1 2 1 1 (move 0 (-1) (2, 0, 0))) with (1, 0, 0).
  change (image (bc_image Neumann) 1 1 2 1 1 (move 0 1 (2, 0, 0))) with (2, 0, 0).
  change (image (bc_image Neumann) 1 1 2 1 1 (2, 0, 0)) with (2, 0, 0).
  rewrite V1, V2, Dt.
  assert (F1 : flux_value BuckleyLeverett Godunov 1 (1 / 10) = 1%R).
  { cbn [flux_value point_flux]. rewrite (Rmax_left 1 0), (Rmin_right (1 / 10)) by lra. rewrite Rmax_left; lra. }
  assert (F2 : flux_value BuckleyLeverett Godunov (1 / 10) (1 / 10) = (1 / 82)%R).
  { cbn [flux_value point_flux]. rewrite (Rmax_left (1 / 10) 0), (Rmin_right (1 / 10)) by lra. rewrite Rmax_left; lra. }
  rewrite F1, F2. cbn [vadd vscal vzero scalar_cvars bl_p p_len Z.eqb Pos.eqb].
  match goal with |- (?q1 < ?q2)%R => change (Rlt q1 q2) end. lra.
Qed.

(** A case meeting the hypotheses of the positive statement in which the solution
    moves. *)
Definition ok_p : params := mkparams (fun d => if d =? 0 then 1%R else 0%R) (1 / 2) [].
Definition ok_u : vol scalar_cvars := mkvol (A := scalar_cvars) 4 1 1 (fun i => if i =? 1 then 1%R else 0%R).
Example C35_nonvacuous :
  exists st,
    serial_run (V := scalar_cvars) ForwardEuler Neumann 1 1 (Flux2 (scalar_flux Burgers Godunov)) no_reconstruction
      ok_p (fun _ => true) [ok_u; ok_u] (ok_u, ok_u, ok_u) [fun _ => [Rmin (1 / 4)]] = Ok st /\
    in_range 1 1 2 1 1 0 1 (solution st) /\
    (variation Neumann 1 1 2 1 1 (solution st) <= 1)%R /\ shortening (Rmin (1 / 4)).
Proof.
  assert (Sh : shortening (Rmin (1 / 4))).
  { intros x Hx. unfold Rmin. destruct (Rle_dec (1 / 4) x); lra. }
  assert (Hsq : square_cells 1 (p_len ok_p)).
  { split; [simpl; lra|]. intros d Hd. simpl. destruct (Z.eqb_spec d 0), (Z.ltb_spec d 1); try lia; reflexivity. }
  assert (Hr : in_range 1 1 2 1 1 0 1 (vget ok_u)).
  { intros [[x y] z] _. unfold vget, ok_u. cbn [vdat]. destruct (_ =? _); lra. }
  assert (Ha : forall (adj : R -> list (R -> R)) t, In adj [fun _ => [Rmin (1 / 4)]] -> Forall shortening (adj t)).
  { intros adj t [<-|[]]. constructor; [exact Sh|constructor]. }
  assert (Hc : (0 < p_cfl ok_p <= 1)%R) by (simpl; lra).
  assert (He : Forall (ext (V := scalar_cvars) 1 1 2 1 1) [ok_u; ok_u]) by (repeat constructor).
  assert (Hs : scratch_ext (V := scalar_cvars) 1 1 2 1 1 (ok_u, ok_u, ok_u)) by (repeat split).
  pose proof (C35_maximum_principle_partial Burgers Godunov 1 ForwardEuler Neumann 1 1 2 1 1 ok_p (fun _ => true)
    ok_u [ok_u] (ok_u, ok_u, ok_u) [fun _ => [Rmin (1 / 4)]] 0 1 burgers_godunov I ltac:(lia) ltac:(lia) ltac:(lia)
    ltac:(lia) ltac:(lia) ltac:(lia) ltac:(lia) ltac:(lia) eq_refl He eq_refl Hs eq_refl Hsq Hc Ha Hr) as T.
  cbv zeta in T. destruct T as [(st & E & A & B & _)|[_ [u X]]].
  - exists st. split; [exact E|]. split; [exact A|]. split; [|exact Sh].
    eapply Rle_trans; [apply B; reflexivity|]. right.
    unfold variation, isum, sum3.
    change (ilo 1 1 0) with 1. change (ilo 1 1 1) with 0. change (ilo 1 1 2) with 0.
    change (ihi 1 1 (nvec 2 1 1) 0) with (1 + 1 + 1). change (ihi 1 1 (nvec 2 1 1) 1) with (0 + 1).
    change (ihi 1 1 (nvec 2 1 1) 2) with (0 + 1).
    rewrite !L_Sum.sumz_one, L_Sum.sumz_snoc, L_Sum.sumz_one by lia. unfold filled.
    cbn [move Z.eqb Z.add Pos.add Pos.succ image bc_image].
    change (vget ok_u (mirror1 1 2 2, 0, 0)) with 0%R. change (vget ok_u (mirror1 1 2 1, 0, 0)) with 1%R.
    change (vget ok_u (mirror1 1 2 3, 0, 0)) with 0%R.
    match goal with |- (Rabs ?q1 + Rabs ?q2 = _)%R => change (Rabs (0 - 1) + Rabs (0 - 0) = 1)%R end.
    rewrite (Rabs_left (0 - 1)) by lra. rewrite (Rabs_pos_eq (0 - 0)) by lra. ring.
  - discriminate.
Qed.

Print Assumptions C35_maximum_principle_partial.
Print Assumptions C35_rectangular_cells_refuted.
Print Assumptions C35_buckley_leverett_refuted.
