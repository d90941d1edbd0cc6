(** C78, C79, C80: exchange of axes, reflection and rotation of the data. *)
From Coq Require Import ZArith Reals List Bool Lia Lra String.
From Verif Require Import M_Base M_Vec M_Boundary M_Flux M_Sim M_Combined M_Scalar M_Euler M_Recon M_Config.
From Verif Require Import S_Boundary S_Flux S_Sum S_Sim S_Symmetry S_Euler S_EulerSym.
From Verif Require Import L_Base L_Flux L_Symmetry L_Axes L_SymScheme L_EulerSym L_TecnoSym L_Forced L_Euler.
Import ListNotations.
Open Scope Z_scope.

Lemma carries_id {V : cvars} (fx : numflux V) d : carries (fun u => u) fx d fx d.
Proof.
  destruct fx as [f|st f]; cbn.
  - intros l r. now destruct (f d l r).
  - split; [reflexivity|]. intros us _. rewrite map_id. now destruct (f d us).
Qed.
Lemma carries_recon_id {V : cvars} (rc : recon V) : carries_recon (fun u => u) rc rc.
Proof. split; [reflexivity|]. intros us _. rewrite map_id. now destruct (rec_fun rc us). Qed.
Lemma scalar_directions e n d d' : carries (fun u => u) (the_flux e n) d (the_flux e n) d'.
Proof.
  assert (H : forall k, carries (fun u => u) (Flux2 (scalar_flux e k)) d (Flux2 (scalar_flux e k)) d') by (intros k l r; reflexivity).
  destruct n; cbn [the_flux]; [apply H|apply carries4|apply carries6]; auto.
Qed.

(** ** C78 *)

(** Exchange the axes [a] and [c] of a scalar problem, initial data, numbers of cells and
    cell lengths: the solution is the exchanged one, at the same times.  Missing in full:
    exchanges that give the first axis another cell length (refuted below). *)
Theorem C78_scalar_axes_partial : forall e n rc it b dims g nx ny nz p ok obeys obeys' a c u0 rest sc u0' rest' sc' adjs,
  1 <= dims <= 3 -> compatible (the_flux e n) rc g -> fits_grid dims g nx ny nz -> 0 <= a < dims -> 0 <= c < dims ->
  let m j := nvec nx ny nz (swap_axis a c j) in
  checks_all dims g nx ny nz ok obeys -> checks_all dims g (m 0) (m 1) (m 2) ok obeys' ->
  volumes it dims g nx ny nz u0 rest sc -> volumes it dims g (m 0) (m 1) (m 2) u0' rest' sc' ->
  (forall x, interior dims g (m 0) (m 1) (m 2) x -> vget u0' x = vget u0 (swap_cell a c x)) ->
  p_len p (swap_axis a c 0) = p_len p 0 ->
  agree (fun u u' => forall x, interior dims g (m 0) (m 1) (m 2) x -> u' x = u (swap_cell a c x))
    (serial_run it b dims g (the_flux e n) rc p obeys (u0 :: rest) sc adjs)
    (serial_run it b dims g (the_flux e n) rc (swap_params a c p) obeys' (u0' :: rest') sc' adjs).
Proof.
  intros e n rc it b dims g nx ny nz p ok obeys obeys' a c u0 rest sc u0' rest' sc' adjs Hd Hc Hf Ha He m O1 O2 V1 V2 H0 El.
  apply (axes_runs (V := scalar_cvars) (fun u => u) it b dims g (the_flux e n) rc nx ny nz p ok obeys obeys'); auto.
  - intros d _. apply scalar_directions.
  - apply carries_recon_id.
Qed.
Print Assumptions C78_scalar_axes_partial.

(** The same for the Euler equations; the momentum components change places as well.
    Also missing: the Tecno fluxes with the third axis (refuted below). *)
Theorem C78_euler_axes_partial : forall n gamma k name rc it b dims g nx ny nz p ok obeys obeys' a c u0 rest sc u0' rest' sc' adjs,
  (1 <= n <= 3)%nat -> 1 <= dims <= Z.of_nat n -> find_recon (Euler n) gamma name = Some rc ->
  compatible (euler_numflux n gamma k) rc g -> fits_grid dims g nx ny nz -> 0 <= a < dims -> 0 <= c < dims ->
  let m j := nvec nx ny nz (swap_axis a c j) in
  (forall u, ok (swap_momentum n a c u) = ok u) ->
  checks_all dims g nx ny nz ok obeys -> checks_all dims g (m 0) (m 1) (m 2) ok obeys' ->
  volumes it dims g nx ny nz u0 rest sc -> volumes it dims g (m 0) (m 1) (m 2) u0' rest' sc' ->
  (forall x, interior dims g (m 0) (m 1) (m 2) x -> vget u0' x = swap_momentum n a c (vget u0 (swap_cell a c x))) ->
  p_len p (swap_axis a c 0) = p_len p 0 ->
  match k with Tecno1 | Tecno4 | Tecno6 => tecno_axes n a c | _ => True end ->
  agree (fun u u' => forall x, interior dims g (m 0) (m 1) (m 2) x -> u' x = swap_momentum n a c (u (swap_cell a c x)))
    (serial_run it b dims g (euler_numflux n gamma k) rc p obeys (u0 :: rest) sc adjs)
    (serial_run it b dims g (euler_numflux n gamma k) rc (swap_params a c p) obeys' (u0' :: rest') sc' adjs).
Proof.
  intros n gamma k name rc it b dims g nx ny nz p ok obeys obeys' a c u0 rest sc u0' rest' sc' adjs
    Hn Hd Hr Hc Hf Ha He m Hok O1 O2 V1 V2 H0 El Ht.
  assert (T : turn n (vswap n a c) 0 (Z.to_nat (swap_axis a c 0)) 1) by (apply (swap_turn n a c 0); lia).
  apply (axes_runs (swap_momentum n a c) it b dims g (euler_numflux n gamma k) rc nx ny nz p ok obeys obeys'); auto; try lia.
  - apply (tau_add n _ _ _ _ T).
  - apply (tau_scal n _ _ _ _ T).
  - intros d Hdd. apply euler_swap_flux; auto; lia.
  - apply (euler_recon_carries n gamma _ _ _ _ T) with name; [|exact Hr]. apply lift_swap; auto; lia.
Qed.
Print Assumptions C78_euler_axes_partial.

(** A scalar problem with cells of 1 by 2: upwinding along y is scaled with the length of
    the cells along x, and after the exchange with that along y. *)
Definition long_p : params := mkparams (fun d => if d =? 0 then 1 else if d =? 1 then 2 else 0)%R 1 [].
Definition long_u : vol scalar_cvars := mkvol (A := scalar_cvars) 3 4 1 (fun i => IZR (i / 3)).
Definition long_u' : vol scalar_cvars := mkvol (A := scalar_cvars) 4 3 1 (fun i => IZR (i mod 4)).
Notation alone u := (u, u, u).

Lemma two_cells x : interior 2 1 2 1 1 x -> x = (1, 1, 0) \/ x = (2, 1, 0).
Proof. destruct x as [[x y] z]. unfold interior, interior1. cbn. intros (A & B & C). assert (z = 0) by lia. assert (y = 1) by lia.
  assert (x = 1 \/ x = 2) as [->| ->] by lia; subst; auto. Qed.
Ltac alone_volumes := repeat split; repeat constructor.

Theorem C78_lengths_refuted : exists p (u0 u0' : vol scalar_cvars),
  let fx := the_flux Linear (Two Upwind) in
  (0 < p_len p 0)%R /\ (0 < p_len p 1)%R /\ compatible fx no_reconstruction 1 /\ fits_grid 2 1 1 2 1 /\
  volumes ForwardEuler 2 1 1 2 1 u0 [u0] (alone u0) /\ volumes ForwardEuler 2 1 2 1 1 u0' [u0'] (alone u0') /\
  (forall x, interior 2 1 2 1 1 x -> vget u0' x = vget u0 (swap_cell 0 1 x)) /\
  ~ agree (fun u u' => forall x, interior 2 1 2 1 1 x -> u' x = u (swap_cell 0 1 x))
    (serial_run ForwardEuler Periodic 2 1 fx no_reconstruction p (fun _ => true) [u0; u0] (alone u0) [fun _ => []])
    (serial_run ForwardEuler Periodic 2 1 fx no_reconstruction (swap_params 0 1 p) (fun _ => true) [u0'; u0'] (alone u0') [fun _ => []]).
Proof.
  exists long_p, long_u, long_u'. intros fx.
  assert (Hc : compatible fx no_reconstruction 1) by (split; [cbn; lia|exact I]).
  assert (Hf : fits_grid 2 1 1 2 1) by (unfold fits_grid; repeat split; try lia; reflexivity).
  assert (Hf' : fits_grid 2 1 2 1 1) by (unfold fits_grid; repeat split; try lia; reflexivity).
  assert (V1 : volumes ForwardEuler 2 1 1 2 1 long_u [long_u] (alone long_u)) by alone_volumes.
  assert (V2 : volumes ForwardEuler 2 1 2 1 1 long_u' [long_u'] (alone long_u')) by alone_volumes.
  split; [cbn; lra|]. split; [cbn; lra|]. split; [exact Hc|]. split; [exact Hf|]. split; [exact V1|]. split; [exact V2|].
  split; [intros x Hx; destruct (two_cells x Hx) as [->| ->]; reflexivity|].
  destruct (natural_step Periodic 2 1 fx no_reconstruction 1 2 1 long_p long_u [long_u] (alone long_u)) as (st & E & T & S); auto; try lia; [cbn; lra| | |].
  { intros d. cbn. destruct (d =? 0); [lra|]. destruct (d =? 1); lra. }
  { exists 0, (1, 1, 0). split; [lia|]. split; [cbn; lra|]. split; [unfold interior, interior1; cbn; lia|].
    unfold fx. cbn [the_flux]. rewrite iface_two. cbn. unfold flux_speed. cbn. rewrite Rmax_left; lra. }
  destruct (natural_step Periodic 2 1 fx no_reconstruction 2 1 1 (swap_params 0 1 long_p) long_u' [long_u'] (alone long_u')) as (st' & E' & T' & S'); auto; try lia; [cbn; lra| | |].
  { intros d. cbn. unfold swap_axis. repeat match goal with |- context [?a =? ?b] => destruct (a =? b) end; lra. }
  { exists 0, (1, 1, 0). split; [lia|]. split; [cbn; lra|]. split; [unfold interior, interior1; cbn; lia|].
    unfold fx. cbn [the_flux]. rewrite iface_two. cbn. unfold flux_speed. cbn. rewrite Rmax_left; lra. }
  intros [(s & s' & A & A' & At & _ & Ax)|[A _]]; [|congruence].
  rewrite E in A. rewrite E' in A'. injection A as <-. injection A' as <-.
  specialize (Ax (1, 1, 0) ltac:(unfold interior, interior1; cbn; lia)).
  change (swap_cell 0 1 (1, 1, 0)) with (1, 1, 0) in Ax.
  rewrite S, S' in Ax by (unfold interior, interior1; cbn; lia). rewrite At in Ax.
  unfold fx in Ax. cbn [the_flux] in Ax. rewrite !semidiscrete_two in Ax. cbv zeta in Ax.
  change (zrange 0 2) with [0; 1] in Ax. cbn [fold_left] in Ax. unfold scalar_flux, flux_value, point_flux in Ax. cbn [fst] in Ax.
  repeat match type of Ax with context [image ?a ?b ?c ?d ?e ?f ?x] =>
    let v := eval vm_compute in (image a b c d e f x) in change (image a b c d e f x) with v in Ax end.
  change (vget long_u' (1, 1, 0)) with 1%R in Ax. change (vget long_u' (2, 1, 0)) with 2%R in Ax.
  change (vget long_u (1, 1, 0)) with 1%R in Ax. change (vget long_u (1, 2, 0)) with 2%R in Ax.
  cbn [vadd vscal vzero scalar_cvars long_p swap_params p_len swap_axis Z.eqb Pos.eqb] in Ax.
  match type of Ax with @Logic.eq _ ?a ?b => assert (Bx : @Logic.eq R a b) by exact Ax end.
  clear - Bx T. lra.
Qed.
Print Assumptions C78_lengths_refuted.

(** Gas at rest with a pressure jump along x: the pressure force in the Tecno flux is
    missing when the jump is along z. *)
Definition still (p : R) : cons 3 := mkcons (n := 3) 1 (0, (0, (0, tt)))%R p.
Definition jump_u : vol (euler_cvars 3) := mkvol (A := euler_cvars 3) 4 3 3 (fun i => still (if i mod 4 =? 1 then 1 else 4)%R).
Definition jump_u' : vol (euler_cvars 3) := mkvol (A := euler_cvars 3) 3 3 4 (fun i => still (if i / 9 =? 1 then 1 else 4)%R).
Definition unit_p : params := mkparams (fun _ => 1)%R 1 [].

Lemma still_p p : extra_p 2 (still p) = p.
Proof. unfold extra_p; cbn; field. Qed.
Lemma still_adm p : (0 < p)%R -> admissible 3 2 (still p).
Proof. intros Hp. split; [cbn; lra|]. change (0 < extra_p 2 (still p))%R. now rewrite still_p. Qed.
Lemma still_speed d p : (0 < p)%R -> (0 < snd (tecno1 2 3 d (still p) (still p)))%R.
Proof.
  intros Hp. unfold tecno1. cbn [snd].
  rewrite (hll3_right_same 3 2 (still p) (still_adm p Hp)).
  pose proof (sound_pos 3 2 (still p) ltac:(lra) (still_adm p Hp)).
  replace (vnth 3 (Z.to_nat d) (extra_u (still p))) with 0%R.
  - eapply Rlt_le_trans; [|apply Rmax_r]. rewrite Rplus_0_l, Rabs_pos_eq; lra.
  - unfold extra_u. cbn. destruct (Z.to_nat d) as [|[|[|k]]]; cbn; ring.
Qed.
Notation mx u := (fst (mom (n := 3) u)).
Notation mz u := (fst (snd (snd (mom (n := 3) u)))).
Lemma still_zero p : (0 < p)%R -> z_first 3 2 (still p) = sqrt (/ p) /\ z_vel 3 2 (still p) = (0, (0, (0, tt)))%R /\ z_last 3 2 (still p) = sqrt p.
Proof.
  intros Hp. pose proof (still_p p) as E. change (extra_p 2 (still p)) with (p_p (to_prim 3 2 (still p))) in E.
  unfold z_first, z_vel, z_last. rewrite E. repeat split.
  - f_equal. cbn. field. lra.
  - cbn. repeat apply (f_equal2 pair); try reflexivity; ring.
  - f_equal. cbn. ring.
Qed.
Lemma eqb_refl p : cons_eqb 3 (still p) (still p) = true.
Proof. unfold cons_eqb. cbn. destruct (Req_EM_T 1 1); [|lra]. destruct (Req_EM_T 0 0); [|lra]. destruct (Req_EM_T p p); [reflexivity|lra]. Qed.
Lemma eqb_jump : cons_eqb 3 (still 1) (still 4) = false.
Proof. unfold cons_eqb. cbn. destruct (Req_EM_T 1 4); [lra|]. now rewrite !andb_false_r. Qed.
Lemma still_same_x d p : (d = 0 \/ d = 1 \/ d = 2) ->
  mx (fst (tecno1 2 3 d (still p) (still p))) = (if d =? 0 then p else 0)%R.
Proof.
  intros Hd. unfold tecno1. cbn [fst]. rewrite eqb_refl. pose proof (still_p p) as E. unfold euler_flux. cbv zeta. rewrite E.
  destruct Hd as [->|[->| ->]]; [change (Z.to_nat 0) with 0%nat|change (Z.to_nat 1) with 1%nat|change (Z.to_nat 2) with 2%nat]; cbn; match goal with |- @Logic.eq _ ?a ?b => change (@Logic.eq R a b) end; field.
Qed.
Lemma still_same_z d p : (d = 0 \/ d = 1 \/ d = 2) ->
  mz (fst (tecno1 2 3 d (still p) (still p))) = (if d =? 2 then p else 0)%R.
Proof.
  intros Hd. unfold tecno1. cbn [fst]. rewrite eqb_refl. pose proof (still_p p) as E. unfold euler_flux. cbv zeta. rewrite E.
  destruct Hd as [->|[->| ->]]; [change (Z.to_nat 0) with 0%nat|change (Z.to_nat 1) with 1%nat|change (Z.to_nat 2) with 2%nat]; cbn; match goal with |- @Logic.eq _ ?a ?b => change (@Logic.eq R a b) end; field.
Qed.
Lemma still_jump_x : mx (fst (tecno1 2 3 0 (still 1) (still 4))) = 2%R.
Proof.
  unfold tecno1. cbn [fst]. rewrite eqb_jump. unfold tecno_form, tecno_form3. cbv zeta. change (Z.to_nat 0) with O. cbv iota.
  destruct (still_zero 1 ltac:(lra)) as (A1 & A2 & A3). destruct (still_zero 4 ltac:(lra)) as (B1 & B2 & B3).
  rewrite A1, A2, A3, B1, B2, B3. unfold bar. cbn [mom mkcons fst snd].
  replace (sqrt (/ 4)) with (1 / 2)%R by (rewrite <- (sqrt_square (1 / 2)) by lra; f_equal; lra).
  replace (sqrt 4) with 2%R by (rewrite <- (sqrt_square 2) by lra; f_equal; lra).
  rewrite Rinv_1, sqrt_1. match goal with |- @Logic.eq _ ?a ?b => change (@Logic.eq R a b) end. field.
Qed.
Lemma still_jump_z : mz (fst (tecno1 2 3 2 (still 1) (still 4))) = 0%R.
Proof. unfold tecno1. cbn [fst]. rewrite eqb_jump. reflexivity. Qed.

Lemma two_cells3 x : interior 3 1 1 1 2 x -> x = (1, 1, 1) \/ x = (1, 1, 2).
Proof. destruct x as [[x y] z]. unfold interior, interior1. cbn. intros (A & B & C). assert (x = 1) by lia. assert (y = 1) by lia.
  assert (z = 1 \/ z = 2) as [->| ->] by lia; subst; auto. Qed.

(** The components of a sum. *)
Lemma mx_add (u v : cons 3) : mx (@vadd (euler_cvars 3) u v) = (mx u + mx v)%R.
Proof. destruct u as [ru [[a [b [c []]]] e]], v as [rv [[a2 [b2 [c2 []]]] e2]]. cbn. reflexivity. Qed.
Lemma mx_scal a (u : cons 3) : mx (@vscal (euler_cvars 3) a u) = (a * mx u)%R.
Proof. destruct u as [ru [[b [c [d []]]] e]]. cbn. reflexivity. Qed.
Lemma mz_add (u v : cons 3) : mz (@vadd (euler_cvars 3) u v) = (mz u + mz v)%R.
Proof. destruct u as [ru [[a [b [c []]]] e]], v as [rv [[a2 [b2 [c2 []]]] e2]]. cbn. reflexivity. Qed.
Lemma mz_scal a (u : cons 3) : mz (@vscal (euler_cvars 3) a u) = (a * mz u)%R.
Proof. destruct u as [ru [[b [c [d []]]] e]]. cbn. reflexivity. Qed.

Theorem C78_tecno_refuted : exists (u0 u0' : vol (euler_cvars 3)),
  let fx := euler_numflux 3 2 Tecno1 in
  compatible fx no_reconstruction 1 /\ fits_grid 3 1 2 1 1 /\
  volumes ForwardEuler 3 1 2 1 1 u0 [u0] (alone u0) /\ volumes ForwardEuler 3 1 1 1 2 u0' [u0'] (alone u0') /\
  (forall x, interior 3 1 2 1 1 x -> admissible 3 2 (vget u0 x)) /\
  (forall x, interior 3 1 1 1 2 x -> vget u0' x = swap_momentum 3 0 2 (vget u0 (swap_cell 0 2 x))) /\
  ~ agree (fun u u' => forall x, interior 3 1 1 1 2 x -> u' x = swap_momentum 3 0 2 (u (swap_cell 0 2 x)))
    (serial_run ForwardEuler Neumann 3 1 fx no_reconstruction unit_p (fun _ => true) [u0; u0] (alone u0) [fun _ => []])
    (serial_run ForwardEuler Neumann 3 1 fx no_reconstruction (swap_params 0 2 unit_p) (fun _ => true) [u0'; u0'] (alone u0') [fun _ => []]).
Proof.
  exists jump_u, jump_u'. intros fx.
  assert (Hc : compatible fx no_reconstruction 1) by (split; [cbn; lia|exact I]).
  assert (Hf : fits_grid 3 1 2 1 1) by (unfold fits_grid; repeat split; try lia; reflexivity).
  assert (Hf' : fits_grid 3 1 1 1 2) by (unfold fits_grid; repeat split; try lia; reflexivity).
  assert (V1 : volumes ForwardEuler 3 1 2 1 1 jump_u [jump_u] (alone jump_u)) by alone_volumes.
  assert (V2 : volumes ForwardEuler 3 1 1 1 2 jump_u' [jump_u'] (alone jump_u')) by alone_volumes.
  split; [exact Hc|]. split; [exact Hf|]. split; [exact V1|]. split; [exact V2|].
  split; [intros [[x y] z] Hx; unfold vget, jump_u; cbn [vdat]; apply still_adm; destruct (_ =? 1); lra|].
  split.
  { intros x Hx. destruct (two_cells3 x Hx) as [->| ->].
    - change (still 1 = swap_momentum 3 0 2 (still 1)). reflexivity.
    - change (still 4 = swap_momentum 3 0 2 (still 4)). reflexivity. }
  destruct (natural_step Neumann 3 1 fx no_reconstruction 2 1 1 unit_p jump_u [jump_u] (alone jump_u)) as (st & E & T & S); auto; try lia; [cbn; lra|intros d; cbn; lra| |].
  { exists 1, (1, 1, 1). split; [lia|]. split; [cbn; lra|]. split; [unfold interior, interior1; cbn; lia|].
    unfold fx. cbn [euler_numflux]. rewrite iface_two. apply (still_speed 1 1). lra. }
  destruct (natural_step Neumann 3 1 fx no_reconstruction 1 1 2 (swap_params 0 2 unit_p) jump_u' [jump_u'] (alone jump_u')) as (st' & E' & T' & S'); auto; try lia; [cbn; lra|intros d; cbn; lra| |].
  { exists 1, (1, 1, 1). split; [lia|]. split; [cbn; lra|]. split; [unfold interior, interior1; cbn; lia|].
    unfold fx. cbn [euler_numflux]. rewrite iface_two. apply (still_speed 1 1). lra. }
  intros [(s & s' & A & A' & At & _ & Ax)|[A _]]; [|congruence].
  rewrite E in A. rewrite E' in A'. injection A as <-. injection A' as <-.
  specialize (Ax (1, 1, 1) ltac:(unfold interior, interior1; cbn; lia)).
  change (swap_cell 0 2 (1, 1, 1)) with (1, 1, 1) in Ax.
  apply (f_equal (fun u : cons 3 => mz u)) in Ax.
  change (fst (snd (snd (mom (n:=3) (swap_momentum 3 0 2 (solution st (1, 1, 1))))))) with (mx (solution st (1, 1, 1))) in Ax.
  rewrite S, S' in Ax by (unfold interior, interior1; cbn; lia). rewrite At in Ax.
  unfold fx in Ax. cbn [euler_numflux] in Ax. rewrite !semidiscrete_two in Ax. cbv zeta in Ax.
  change (zrange 0 3) with [0; 1; 2] in Ax. cbn [fold_left] in Ax.
  repeat match type of Ax with context [image ?a ?b ?c ?d ?e ?f ?x] =>
    let v := eval vm_compute in (image a b c d e f x) in change (image a b c d e f x) with v in Ax end.
  change (vget jump_u' (1, 1, 1)) with (still 1) in Ax. change (vget jump_u' (1, 1, 2)) with (still 4) in Ax.
  change (vget jump_u (1, 1, 1)) with (still 1) in Ax. change (vget jump_u (2, 1, 1)) with (still 4) in Ax.
  rewrite !mx_add, !mx_scal, !mx_add, !mz_add, !mz_scal, !mz_add, !mx_scal, !mz_scal in Ax.
  rewrite !still_same_x, !still_same_z, still_jump_x, still_jump_z in Ax by tauto.
  change (mx (still 1)) with 0%R in Ax. change (mz (still 1)) with 0%R in Ax.
  change (mx (@vzero (euler_cvars 3))) with 0%R in Ax. change (mz (@vzero (euler_cvars 3))) with 0%R in Ax.
  change (p_len (swap_params 0 2 unit_p) 0) with 1%R in Ax. change (p_len unit_p 0) with 1%R in Ax.
  cbn [Z.eqb Pos.eqb] in Ax.
  match type of Ax with @Logic.eq _ ?a ?b => assert (Bx : @Logic.eq R a b) by exact Ax end.
  clear - Bx T. lra.
Qed.
Print Assumptions C78_tecno_refuted.

(** The same data with cells of 1 by 1, and the pressure jump with the HLL flux: the
    theorems apply. *)
Lemma always_true {V : cvars} dims g nx ny nz : checks_all (V := V) dims g nx ny nz (fun _ => true) (fun _ => true).
Proof. intros v _. split; auto. Qed.
Example C78_case : agree (fun u u' => forall x, interior 2 1 2 1 1 x -> u' x = u (swap_cell 0 1 x))
    (serial_run ForwardEuler Periodic 2 1 (the_flux Linear (Two Upwind)) no_reconstruction unit_p (fun _ => true)
      [long_u; long_u] (alone long_u) [fun _ => []])
    (serial_run ForwardEuler Periodic 2 1 (the_flux Linear (Two Upwind)) no_reconstruction (swap_params 0 1 unit_p) (fun _ => true)
      [long_u'; long_u'] (alone long_u') [fun _ => []]).
Proof.
  apply (C78_scalar_axes_partial Linear (Two Upwind) no_reconstruction ForwardEuler Periodic 2 1 1 2 1) with (ok := fun _ => true);
    try lia; try apply always_true.
  - split; [cbn; lia|exact I].
  - unfold fits_grid; repeat split; try lia; reflexivity.
  - alone_volumes.
  - alone_volumes.
  - intros x Hx. destruct (two_cells x Hx) as [->| ->]; reflexivity.
  - reflexivity.
Qed.
Example C78_case_euler : agree (fun u u' => forall x, interior 3 1 1 1 2 x -> u' x = swap_momentum 3 0 2 (u (swap_cell 0 2 x)))
    (serial_run ForwardEuler Neumann 3 1 (euler_numflux 3 2 HLL) no_reconstruction unit_p (fun _ => true)
      [jump_u; jump_u] (alone jump_u) [fun _ => []])
    (serial_run ForwardEuler Neumann 3 1 (euler_numflux 3 2 HLL) no_reconstruction (swap_params 0 2 unit_p) (fun _ => true)
      [jump_u'; jump_u'] (alone jump_u') [fun _ => []]).
Proof.
  apply (C78_euler_axes_partial 3 2 HLL "none" no_reconstruction ForwardEuler Neumann 3 1 2 1 1) with (ok := fun _ => true);
    try lia; try apply always_true.
  - reflexivity.
  - split; [cbn; lia|exact I].
  - unfold fits_grid; repeat split; try lia; reflexivity.
  - alone_volumes.
  - alone_volumes.
  - intros x Hx. destruct (two_cells3 x Hx) as [->| ->].
    + change (still 1 = swap_momentum 3 0 2 (still 1)). reflexivity.
    + change (still 4 = swap_momentum 3 0 2 (still 4)). reflexivity.
  - reflexivity.
Qed.
