(** C82, C83: the same flow in more components, the same flow in other units of mass. *)
From Coq Require Import ZArith Reals List Bool Lia Lra String.
From Verif Require Import M_Base M_Vec M_Boundary M_Flux M_Sim M_Combined M_Scalar M_Recon M_Config.
From Verif Require Import S_Boundary S_Flux S_Sum S_Sim S_Symmetry S_Euler S_EulerSym S_Embed.
From Verif Require Import L_Base L_Flux L_Symmetry L_Axes L_SymScheme L_EulerSym L_TecnoSym L_Forced L_Euler L_Embed L_EmbedRecon T_Symmetry T_Mirror.
From Verif Require Import M_Euler.
Import ListNotations.
Open Scope Z_scope.

(** ** C82 *)

Lemma embed_compatible n m gamma k rc rc' g : (1 <= n <= m)%nat -> (m <= 3)%nat -> carries_recon (embed n m) rc rc' ->
  compatible (euler_numflux n gamma k) rc g -> compatible (euler_numflux m gamma k) rc' g.
Proof.
  intros Hn Hm [E _] [A B]. split; [now rewrite E|]. rewrite E. destruct k; exact B.
Qed.

(** A flow of Euler<n> on a grid of at most [n] dimensions, computed with Euler<m>: the
    momentum has further components, which are zero in the initial data.  Both runs take
    the same steps; the solution has the same density, energy and first components of the
    momentum, and the further ones stay zero. *)
Theorem C82_more_components : forall n m gamma k name rc rc' it b dims g nx ny nz p ok ok' obeys obeys' u0 rest sc u0' rest' sc' adjs,
  (1 <= n <= m)%nat -> (m <= 3)%nat -> 1 <= dims <= Z.of_nat n ->
  find_recon (Euler n) gamma name = Some rc -> find_recon (Euler m) gamma name = Some rc' ->
  compatible (euler_numflux n gamma k) rc g -> fits_grid dims g nx ny nz ->
  (forall u, ok' (embed n m u) = ok u) ->
  checks_all dims g nx ny nz ok obeys -> checks_all dims g nx ny nz ok' obeys' ->
  volumes it dims g nx ny nz u0 rest sc -> volumes it dims g nx ny nz u0' rest' sc' ->
  (forall c, interior dims g nx ny nz c -> vget u0' c = embed n m (vget u0 c)) ->
  agree (fun u u' => forall c, interior dims g nx ny nz c -> u' c = embed n m (u c))
    (serial_run it b dims g (euler_numflux n gamma k) rc p obeys (u0 :: rest) sc adjs)
    (serial_run it b dims g (euler_numflux m gamma k) rc' p obeys' (u0' :: rest') sc' adjs).
Proof.
  intros n m gamma k name rc rc' it b dims g nx ny nz p ok ok' obeys obeys' u0 rest sc u0' rest' sc' adjs
    Hn Hm Hd Hr Hr' Hc Hf Hok O1 O2 V1 V2 H0.
  assert (Hrc : carries_recon (embed n m) rc rc') by (apply (embed_recon n m gamma ltac:(lia) name); assumption).
  apply (relabel_runs (embed n m) it b dims g _ rc _ rc' nx ny nz p ok ok' obeys obeys'); auto; try lia.
  - now apply (embed_compatible n m gamma k rc rc' g).
  - apply embed_add.
  - apply embed_scal.
  - intros d Hdd. apply embed_flux; auto; lia.
Qed.
Print Assumptions C82_more_components.

(** The further components of the momentum are zero at the end as well, the energy and the
    density are those of the smaller system. *)
Theorem C82_components_stay_zero : forall n m gamma k name rc rc' it b dims g nx ny nz p ok ok' obeys obeys' u0 rest sc u0' rest' sc' adjs st',
  (1 <= n <= m)%nat -> (m <= 3)%nat -> 1 <= dims <= Z.of_nat n ->
  find_recon (Euler n) gamma name = Some rc -> find_recon (Euler m) gamma name = Some rc' ->
  compatible (euler_numflux n gamma k) rc g -> fits_grid dims g nx ny nz ->
  (forall u, ok' (embed n m u) = ok u) ->
  checks_all dims g nx ny nz ok obeys -> checks_all dims g nx ny nz ok' obeys' ->
  volumes it dims g nx ny nz u0 rest sc -> volumes it dims g nx ny nz u0' rest' sc' ->
  (forall c, interior dims g nx ny nz c -> vget u0' c = embed n m (vget u0 c)) ->
  serial_run it b dims g (euler_numflux m gamma k) rc' p obeys' (u0' :: rest') sc' adjs = Ok st' ->
  forall c i, interior dims g nx ny nz c -> (n <= i < m)%nat -> vnth m i (mom (n := m) (solution st' c)) = 0%R.
Proof.
  intros n m gamma k name rc rc' it b dims g nx ny nz p ok ok' obeys obeys' u0 rest sc u0' rest' sc' adjs st'
    Hn Hm Hd Hr Hr' Hc Hf Hok O1 O2 V1 V2 H0 E c i Hi Hlt.
  destruct (C82_more_components n m gamma k name rc rc' it b dims g nx ny nz p ok ok' obeys obeys' u0 rest sc u0' rest' sc' adjs
    Hn Hm Hd Hr Hr' Hc Hf Hok O1 O2 V1 V2 H0) as [(s & s' & A & A' & _ & _ & Ax)|[_ A]]; [|congruence].
  rewrite E in A'. injection A' as <-. rewrite Ax by assumption. cbn [embed mom mkcons fst snd].
  generalize (mom (n := n) (solution s c)). clear - Hlt. revert m i Hlt.
  induction n as [|q IH]; intros m i Hlt v.
  - cbn [pad]. clear. revert i. induction m as [|m IH]; intros i; [reflexivity|]. destruct i; [reflexivity|]. apply IH.
  - destruct m as [|m]; [lia|]. destruct i as [|i]; [lia|]. cbn [pad vnth snd]. apply IH. lia.
Qed.
Print Assumptions C82_components_stay_zero.

(** Two winds of Euler<1> computed with Euler<3>. *)
Definition wind3 : vol (euler_cvars 3) := mkvol (A := euler_cvars 3) 4 1 1 (fun i => embed 1 3 (wind (if i =? 1 then 1 else 3)%R)).
Lemma wind3_volumes : volumes ForwardEuler 1 1 2 1 1 wind3 [wind3] (alone wind3).
Proof. alone_volumes. Qed.
Example C82_case : agree (fun u u' => forall x, interior 1 1 2 1 1 x -> u' x = embed 1 3 (u x))
    (serial_run ForwardEuler Neumann 1 1 (euler_numflux 1 2 HLL) no_reconstruction unit_p (fun _ => true)
      [wind_u; wind_u] (alone wind_u) [fun _ => []])
    (serial_run ForwardEuler Neumann 1 1 (euler_numflux 3 2 HLL) no_reconstruction unit_p (fun _ => true)
      [wind3; wind3] (alone wind3) [fun _ => []]).
Proof.
  apply C82_more_components with (name := "none"%string) (ok := fun _ => true) (ok' := fun _ => true);
    try lia; try apply always_checks; try reflexivity; try apply pair_fits; try apply wind_volumes; try apply wind3_volumes.
  1: split; [cbn; lia|exact I].
  intros x Hx. destruct (line_cells 1 2 x Hx) as (k & -> & Hk). assert (k = 1 \/ k = 2) as [->| ->] by lia; reflexivity.
Qed.
Example C82_case_runs : exists st,
  serial_run ForwardEuler Neumann 1 1 (euler_numflux 1 2 HLL) no_reconstruction unit_p (fun _ => true)
      [wind_u; wind_u] (alone wind_u) [fun _ => []] = Ok st /\ (0 < s_time st)%R.
Proof.
  destruct (natural_step Neumann 1 1 (euler_numflux 1 2 HLL) no_reconstruction 2 1 1 unit_p wind_u [wind_u] (alone wind_u))
    as (st & E & T & _); try lia; try reflexivity; try apply pair_fits; try apply wind_volumes; try (cbn; lra).
  - split; [cbn; lia|exact I].
  - intros d; cbn; lra.
  - exists 0, (2, 0, 0). split; [lia|]. split; [cbn; lra|]. split; [unfold interior, interior1; cbn; lia|].
    cbn [euler_numflux]. rewrite iface_two. apply (wind_speed 3).
  - exists st. split; [exact E|exact T].
Qed.

(** ** C83 *)

(** [k] times the density, momentum and energy: the solution is [k] times the solution, at
    the same times.  Missing in full: the WENO reconstructions, whose weights contain a
    fixed number (refuted below), and the Tecno fluxes, below for one face between states
    with positive density and pressure. *)
Theorem C83_euler_units_partial : forall n gamma f name rc it b dims g nx ny nz p ok ok' obeys obeys' k u0 rest sc u0' rest' sc' adjs,
  (0 < k)%R -> 1 <= dims <= 3 -> In f [HLL; HLL3; ECentral] ->
  In name ["none"; "eno2"; "eno3"; "eno4"; "mc"; "mm"]%string -> find_recon (Euler n) gamma name = Some rc ->
  compatible (euler_numflux n gamma f) rc g -> fits_grid dims g nx ny nz ->
  (forall u, ok' (times k u) = ok u) ->
  checks_all dims g nx ny nz ok obeys -> checks_all dims g nx ny nz ok' obeys' ->
  volumes it dims g nx ny nz u0 rest sc -> volumes it dims g nx ny nz u0' rest' sc' ->
  (forall c, interior dims g nx ny nz c -> vget u0' c = times k (vget u0 c)) ->
  agree (fun u u' => forall c, interior dims g nx ny nz c -> u' c = times k (u c))
    (serial_run it b dims g (euler_numflux n gamma f) rc p obeys (u0 :: rest) sc adjs)
    (serial_run it b dims g (euler_numflux n gamma f) rc p obeys' (u0' :: rest') sc' adjs).
Proof.
  intros n gamma f name rc it b dims g nx ny nz p ok ok' obeys obeys' k u0 rest sc u0' rest' sc' adjs
    Hk Hd Hin Hname Hr Hc Hf Hok O1 O2 V1 V2 H0.
  apply (relabel_runs (times k) it b dims g _ rc _ rc nx ny nz p ok ok' obeys obeys'); auto.
  - apply times_add.
  - apply times_vscal.
  - intros d _. apply (times_flux n gamma k Hk). cbn [In] in Hin. destruct Hin as [<-|[<-|[<-|[]]]]; exact I.
  - now apply (times_recon n gamma k Hk name).
Qed.
Print Assumptions C83_euler_units_partial.

(** The linear equation: [k] times the data, [k] times the solution. *)
Definition larger (k : R) (u : scalar_cvars) : scalar_cvars := (k * u)%R.
Lemma linear_flux k n d : (0 < k)%R -> In n (offered Linear) -> carries (larger k) (the_flux Linear n) d (the_flux Linear n) d.
Proof.
  intros Hk. cbn [offered In]. intros [<-|[<-|[<-|[<-|[]]]]]; cbn [the_flux carries]; intros l r;
    unfold scalar_flux, flux_value, flux_speed, larger; cbn [point_flux eigenvalue wave_speed fst snd];
    apply (f_equal2 pair); try reflexivity; at_R; try ring.
  unfold Rmax. destruct (Rle_dec (k * l) 0) as [A|A], (Rle_dec l 0) as [B|B]; try ring; exfalso.
  - apply B. apply (Rmult_le_reg_l k); lra.
  - apply A. replace 0%R with (k * 0)%R by ring. apply Rmult_le_compat_l; lra.
Qed.
Lemma larger_recon e k name rc : (0 < k)%R -> In name ["none"; "eno2"; "eno3"; "eno4"; "mc"; "mm"]%string ->
  find_recon (Scalar e) 0 name = Some rc -> carries_recon (larger k) rc rc.
Proof.
  intros Hk Hin.
  assert (TA : forall a c : scalar_cvars, larger k (vadd a c) = vadd (larger k a) (larger k c)) by (intros a c; unfold larger; cbn; at_R; ring).
  assert (TS : forall x (a : scalar_cvars), larger k (vscal x a) = vscal x (larger k a)) by (intros x a; unfold larger; cbn; at_R; ring).
  assert (TI : forall a : scalar_cvars, comp 0 (larger k a) = (k * comp 0 a)%R) by reflexivity.
  assert (TL : forall f, homogeneous k f -> forall a b c : scalar_cvars,
    lift3 scalar_lifting f (larger k a) (larger k b) (larger k c) = larger k (lift3 scalar_lifting f a b c)) by (intros f Hf a b c; apply Hf).
  cbn [In] in Hin; repeat (destruct Hin as [<-|Hin]); try destruct Hin; intros [= <-].
  - apply carries_none.
  - now apply (carries_eno_k (larger k) k Hk).
  - now apply (carries_eno_k (larger k) k Hk).
  - now apply (carries_eno_k (larger k) k Hk).
  - apply (carries_limiter_k (larger k) k); [exact TL|now apply mc_homogeneous].
  - apply (carries_limiter_k (larger k) k); [exact TL|now apply mm_homogeneous].
Qed.
Theorem C83_linear_partial : forall n name rc it b dims g nx ny nz p ok ok' obeys obeys' k u0 rest sc u0' rest' sc' adjs,
  (0 < k)%R -> 1 <= dims <= 3 -> In n (offered Linear) ->
  In name ["none"; "eno2"; "eno3"; "eno4"; "mc"; "mm"]%string -> find_recon (Scalar Linear) 0 name = Some rc ->
  compatible (the_flux Linear n) rc g -> fits_grid dims g nx ny nz ->
  (forall u, ok' (larger k u) = ok u) ->
  checks_all dims g nx ny nz ok obeys -> checks_all dims g nx ny nz ok' obeys' ->
  volumes it dims g nx ny nz u0 rest sc -> volumes it dims g nx ny nz u0' rest' sc' ->
  (forall c, interior dims g nx ny nz c -> vget u0' c = larger k (vget u0 c)) ->
  agree (fun u u' => forall c, interior dims g nx ny nz c -> u' c = larger k (u c))
    (serial_run it b dims g (the_flux Linear n) rc p obeys (u0 :: rest) sc adjs)
    (serial_run it b dims g (the_flux Linear n) rc p obeys' (u0' :: rest') sc' adjs).
Proof.
  intros n name rc it b dims g nx ny nz p ok ok' obeys obeys' k u0 rest sc u0' rest' sc' adjs
    Hk Hd Hin Hname Hr Hc Hf Hok O1 O2 V1 V2 H0.
  apply (relabel_runs (V := scalar_cvars) (W := scalar_cvars) (larger k) it b dims g _ rc _ rc nx ny nz p ok ok' obeys obeys'); auto.
  - intros a c; unfold larger; cbn; at_R; ring.
  - intros x a; unfold larger; cbn; at_R; ring.
  - intros d _. now apply linear_flux.
  - now apply (larger_recon Linear k name).
Qed.
Print Assumptions C83_linear_partial.

(** A Tecno flux between two states with positive density and pressure: the flux is [k]
    times as large, the wave speed the same. *)
Theorem C83_tecno_face_partial : forall n gamma k d (l r : euler_cvars n),
  (1 <= n <= 3)%nat -> (0 < k)%R -> 0 <= d < Z.of_nat n -> admissible n gamma l -> admissible n gamma r ->
  tecno1 gamma n d (times k l) (times k r) = (times k (fst (tecno1 gamma n d l r)), snd (tecno1 gamma n d l r)).
Proof.
  intros n gamma k d l r Hn Hk Hd Al Ar. change (@times n k) with (@seen n n (fun v => v) k).
  apply tecno_seen; auto. change (@seen n n (fun v => v) k) with (@times n k).
  apply times_tecno; auto; try apply Al; try apply Ar.
Qed.
Print Assumptions C83_tecno_face_partial.

(** One cell of 1 between two of 0, and one of 2: the weights of WENO2 depend on the size of
    the jump. *)
Definition hat2_u : vol scalar_cvars := mkvol (A := scalar_cvars) 7 1 1 (fun i => if i =? 3 then 2 else 0)%R.
Notation weno2s := (weno2_recon (V := scalar_cvars) (comp 0)).
Definition jump_weight (s : R) : R := 2 / (3 * (weno_eps + s ^ 2) * (weno_eps + s ^ 2)).
Definition flat_weight : R := 1 / (3 * weno_eps * weno_eps).
Lemma eps_pos : (0 < weno_eps)%R.
Proof. unfold weno_eps. apply Rinv_0_lt_compat. apply pow_lt. lra. Qed.
Lemma weights_pos s : (0 < jump_weight s /\ 0 < flat_weight)%R.
Proof.
  pose proof eps_pos. pose proof (pow2_ge_0 s). unfold jump_weight, flat_weight. split; apply Rdiv_lt_0_compat; try lra; repeat apply Rmult_lt_0_compat; lra.
Qed.
Lemma weno_flat s : snd (rec_fun weno2s [0; 0; s]%R) = (s / 2 * (jump_weight s / (jump_weight s + flat_weight)))%R.
Proof.
  cbn [rec_fun weno2_recon]. unfold weno2, weno2_weights. cbn [fst snd]. change (@comp scalar_cvars 0 0%R) with 0%R.
  change (@comp scalar_cvars 0 s) with s.
  replace ((s - 0) ^ 2)%R with (s ^ 2)%R by ring. replace (weno_eps + (0 - 0) ^ 2)%R with weno_eps by ring.
  fold (jump_weight s). fold flat_weight. cbn [vadd vscal scalar_cvars]. at_R. field. pose proof (weights_pos s). lra.
Qed.
Lemma weno_top s : snd (rec_fun weno2s [0; s; 0]%R) = (5 / 6 * s)%R.
Proof.
  cbn [rec_fun weno2_recon]. unfold weno2, weno2_weights. cbn [fst snd]. change (@comp scalar_cvars 0 0%R) with 0%R.
  change (@comp scalar_cvars 0 s) with s.
  replace ((s - 0) ^ 2)%R with (s ^ 2)%R by ring. replace ((0 - s) ^ 2)%R with (s ^ 2)%R by ring.
  assert (P : (0 < weno_eps + s ^ 2)%R) by (pose proof eps_pos; pose proof (pow2_ge_0 s); lra).
  revert P. generalize (weno_eps + s ^ 2)%R. intros q P. cbn [vadd vscal scalar_cvars]. at_R. field. lra.
Qed.
Lemma weights_differ : (jump_weight 2 / (jump_weight 2 + flat_weight) <> jump_weight 1 / (jump_weight 1 + flat_weight))%R.
Proof.
  destruct (weights_pos 2) as [A F]. destruct (weights_pos 1) as [B _]. intros H.
  assert (E : jump_weight 2 = jump_weight 1).
  { assert (Q : (jump_weight 2 * (jump_weight 1 + flat_weight) = jump_weight 1 * (jump_weight 2 + flat_weight))%R).
    { transitivity (jump_weight 2 / (jump_weight 2 + flat_weight) * (jump_weight 2 + flat_weight) * (jump_weight 1 + flat_weight))%R; [field; lra|].
      rewrite H. field. lra. }
    apply (Rmult_eq_reg_r flat_weight); lra. }
  unfold jump_weight in E. pose proof eps_pos as P. revert P E. generalize weno_eps. intros e P E.
  assert (Q : (2 * (3 * (e + 1 ^ 2) * (e + 1 ^ 2)) = 2 * (3 * (e + 2 ^ 2) * (e + 2 ^ 2)))%R).
  { apply (f_equal (fun x => x * ((3 * (e + 2 ^ 2) * (e + 2 ^ 2)) * (3 * (e + 1 ^ 2) * (e + 1 ^ 2))))%R) in E.
    transitivity (2 / (3 * (e + 2 ^ 2) * (e + 2 ^ 2)) * (3 * (e + 2 ^ 2) * (e + 2 ^ 2) * (3 * (e + 1 ^ 2) * (e + 1 ^ 2))))%R; [field; lra|].
    rewrite E. field. lra. }
  nra.
Qed.

Theorem C83_weno_refuted : exists (u0 u0' : vol scalar_cvars) (k : R),
  let fx := the_flux Linear (Two Upwind) in
  (0 < k)%R /\ find_recon (Scalar Linear) 0 "weno2" = Some weno2s /\ compatible fx weno2s 2 /\ fits_grid 1 2 3 1 1 /\
  volumes ForwardEuler 1 2 3 1 1 u0 [u0] (alone u0) /\ volumes ForwardEuler 1 2 3 1 1 u0' [u0'] (alone u0') /\
  (forall x, interior 1 2 3 1 1 x -> vget u0' x = larger k (vget u0 x)) /\
  ~ agree (fun u u' => forall x, interior 1 2 3 1 1 x -> u' x = larger k (u x))
    (serial_run ForwardEuler Periodic 1 2 fx weno2s unit_p (fun _ => true) [u0; u0] (alone u0) [fun _ => []])
    (serial_run ForwardEuler Periodic 1 2 fx weno2s unit_p (fun _ => true) [u0'; u0'] (alone u0') [fun _ => []]).
Proof.
  exists hat_u, hat2_u, 2%R. intros fx.
  assert (Hc : compatible fx weno2s 2) by (split; [cbn; lia|exact I]).
  assert (Hf : fits_grid 1 2 3 1 1) by (unfold fits_grid; repeat split; try lia; reflexivity).
  assert (V1 : volumes ForwardEuler 1 2 3 1 1 hat_u [hat_u] (alone hat_u)) by alone_volumes.
  assert (V2 : volumes ForwardEuler 1 2 3 1 1 hat2_u [hat2_u] (alone hat2_u)) by alone_volumes.
  split; [lra|]. split; [reflexivity|]. split; [exact Hc|]. split; [exact Hf|]. split; [exact V1|]. split; [exact V2|].
  split.
  { intros x Hx. destruct (line_cells 2 3 x Hx) as (k & -> & Hk). unfold larger. assert (k = 2 \/ k = 3 \/ k = 4) as [->|[->| ->]] by lia;
      [change (0 = 2 * 0)%R|change (2 = 2 * 1)%R|change (0 = 2 * 0)%R]; at_R; lra. }
  set (fill (u : vol scalar_cvars) := filled (V := scalar_cvars) Periodic 1 2 3 1 1 (vget u)).
  assert (R2 : rec_at weno2s 0 (fill hat_u) (2, 0, 0) = rec_fun weno2s [0; 0; 1]%R) by reflexivity.
  assert (R3 : rec_at weno2s 0 (fill hat_u) (3, 0, 0) = rec_fun weno2s [0; 1; 0]%R) by reflexivity.
  assert (Q2 : rec_at weno2s 0 (fill hat2_u) (2, 0, 0) = rec_fun weno2s [0; 0; 2]%R) by reflexivity.
  assert (Q3 : rec_at weno2s 0 (fill hat2_u) (3, 0, 0) = rec_fun weno2s [0; 2; 0]%R) by reflexivity.
  destruct (natural_step Periodic 1 2 fx weno2s 3 1 1 unit_p hat_u [hat_u] (alone hat_u)) as (st & E & T & S); auto; try lia; [cbn; lra|intros d; cbn; lra| |].
  { exists 0, (2, 0, 0). split; [lia|]. split; [cbn; lra|]. split; [unfold interior, interior1; cbn; lia|].
    unfold fx. cbn [the_flux iface]. unfold scalar_flux, flux_speed. cbn [fst snd wave_speed]. rewrite Rmax_left; lra. }
  destruct (natural_step Periodic 1 2 fx weno2s 3 1 1 unit_p hat2_u [hat2_u] (alone hat2_u)) as (st' & E' & T' & S'); auto; try lia; [cbn; lra|intros d; cbn; lra| |].
  { exists 0, (2, 0, 0). split; [lia|]. split; [cbn; lra|]. split; [unfold interior, interior1; cbn; lia|].
    unfold fx. cbn [the_flux iface]. unfold scalar_flux, flux_speed. cbn [fst snd wave_speed]. rewrite Rmax_left; lra. }
  intros [(s & s' & A & A' & At & _ & Ax)|[A _]]; [|congruence].
  rewrite E in A. rewrite E' in A'. injection A as <-. injection A' as <-.
  specialize (Ax (3, 0, 0) ltac:(unfold interior, interior1; cbn; lia)).
  rewrite S, S' in Ax by (unfold interior, interior1; cbn; lia). rewrite At in Ax.
  unfold semidiscrete in Ax. fold (fill hat_u) in Ax. fold (fill hat2_u) in Ax.
  unfold rhs in Ax. change (zrange 0 1) with [0] in Ax. cbn [fold_left] in Ax.
  unfold fx in Ax. cbn [the_flux iface] in Ax.
  change (move 0 (-1) (3, 0, 0)) with (2, 0, 0) in Ax. change (move 0 1 (2, 0, 0)) with (3, 0, 0) in Ax. change (move 0 1 (3, 0, 0)) with (4, 0, 0) in Ax.
  rewrite R2, R3, Q2, Q3 in Ax. unfold scalar_flux, flux_value, point_flux, larger in Ax. cbn [fst snd] in Ax.
  rewrite !weno_flat, !weno_top in Ax. pose proof weights_differ as W.
  change (vget hat2_u (3, 0, 0)) with 2%R in Ax. change (vget hat_u (3, 0, 0)) with 1%R in Ax.
  change (p_len unit_p 0) with 1%R in Ax. cbn [vadd vscal vzero scalar_cvars] in Ax.
  match type of Ax with @Logic.eq _ ?a ?b => assert (Bx : @Logic.eq R a b) by exact Ax end.
  revert Bx W. generalize (jump_weight 2 / (jump_weight 2 + flat_weight))%R (jump_weight 1 / (jump_weight 1 + flat_weight))%R.
  clear - T. intros w2 w1 Bx W. apply W. apply (Rmult_eq_reg_l (s_time st)); [|lra]. lra.
Qed.
Print Assumptions C83_weno_refuted.

(** Runs that meet the hypotheses: two winds and three times as heavy ones; two cells of the
    linear equation, 1 and 2, and 3 and 6. *)
Definition heavy_u : vol (euler_cvars 1) := mkvol (A := euler_cvars 1) 4 1 1 (fun i => times 3 (wind (if i =? 1 then 1 else 3)%R)).
Example C83_case_euler : agree (fun u u' => forall x, interior 1 1 2 1 1 x -> u' x = times (n := 1) 3 (u x))
    (serial_run ForwardEuler Neumann 1 1 (euler_numflux 1 2 HLL) no_reconstruction unit_p (fun _ => true)
      [wind_u; wind_u] (alone wind_u) [fun _ => []])
    (serial_run ForwardEuler Neumann 1 1 (euler_numflux 1 2 HLL) no_reconstruction unit_p (fun _ => true)
      [heavy_u; heavy_u] (alone heavy_u) [fun _ => []]).
Proof.
  apply C83_euler_units_partial with (name := "none"%string) (ok := fun _ => true) (ok' := fun _ => true);
    try lia; try lra; try apply always_checks; try reflexivity; try (cbn [In]; tauto); try apply pair_fits; try apply wind_volumes.
  - split; [cbn; lia|exact I].
  - alone_volumes.
  - intros x Hx. destruct (line_cells 1 2 x Hx) as (k & -> & Hk). assert (k = 1 \/ k = 2) as [->| ->] by lia; reflexivity.
Qed.
Example C83_case_linear : agree (fun u u' => forall x, interior 1 1 2 1 1 x -> u' x = larger 3 (u x))
    (serial_run ForwardEuler Neumann 1 1 (the_flux Linear (Two Upwind)) no_reconstruction unit_p (fun _ => true)
      [pair_u 1 2; pair_u 1 2] (alone (pair_u 1 2)) [fun _ => []])
    (serial_run ForwardEuler Neumann 1 1 (the_flux Linear (Two Upwind)) no_reconstruction unit_p (fun _ => true)
      [pair_u 3 6; pair_u 3 6] (alone (pair_u 3 6)) [fun _ => []]).
Proof.
  apply C83_linear_partial with (name := "none"%string) (ok := fun _ => true) (ok' := fun _ => true);
    try lia; try lra; try apply always_checks; try reflexivity; try (cbn [In offered]; tauto); try apply pair_fits; try apply pair_volumes.
  - split; [cbn; lia|exact I].
  - intros x Hx. destruct (line_cells 1 2 x Hx) as (k & -> & Hk). unfold larger.
    assert (k = 1 \/ k = 2) as [->| ->] by lia; [change (3 = 3 * 1)%R|change (6 = 3 * 2)%R]; at_R; lra.
Qed.
Example C83_case_tecno : tecno1 2 1 0 (times 3 (wind 1)) (times 3 (wind 3)) =
  (times 3 (fst (tecno1 2 1 0 (wind 1) (wind 3))), snd (tecno1 2 1 0 (wind 1) (wind 3))).
Proof. apply C83_tecno_face_partial; try lia; try lra; apply wind_adm. Qed.
