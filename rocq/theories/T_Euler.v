(** C33 (Euler), C39, C40, C54, C55. *)
From Coq Require Import ZArith Reals List Bool Lia Lra.
From Verif Require Import M_Base M_Vec M_Boundary M_Flux M_Combined M_Scalar M_Euler M_EulerEigen
  S_Boundary S_Flux S_Sum S_Entropy S_Scalar S_Euler
  L_Base L_Flux L_Sum L_Conserve L_FluxTop L_Entropy L_SumDeriv L_Euler L_EulerDeriv L_EulerEigen L_EulerEntropy.
Import ListNotations.
Open Scope R_scope.

Ltac pairs := repeat apply (f_equal2 (@pair _ _)); cbn; try reflexivity; toR; ring.

Ltac dims n d Hn Hd :=
  destruct n as [|[|[|[|n]]]]; try (exfalso; lia);
  destruct d as [|[|[|d]]]; try (exfalso; lia); clear Hn Hd.

(** C39. *)
Theorem C39_prim_of_cons : forall n gamma w, 0 < p_rho w -> gamma <> 1 ->
  to_prim n gamma (to_cons n gamma w) = w.
Proof. intros n gamma w H G. apply prim_cons; lra. Qed.
Theorem C39_cons_of_prim : forall n gamma u, 0 < rho_ u -> gamma <> 1 ->
  to_cons n gamma (to_prim n gamma u) = u.
Proof. intros n gamma u H G. apply cons_prim; lra. Qed.
Theorem C39_extra : forall n gamma w, 0 < p_rho w -> gamma <> 1 ->
  extra_u (to_cons n gamma w) = p_u w /\ extra_p gamma (to_cons n gamma w) = p_p w.
Proof.
  intros n gamma w H G. destruct (extra_is_prim n gamma (to_cons n gamma w)) as [-> ->].
  rewrite prim_cons by lra. split; reflexivity.
Qed.
(** The flux is the one of the primitive variables. *)
Theorem C39_flux : forall n gamma d w, 0 < p_rho w -> gamma <> 1 ->
  euler_flux n gamma d (to_cons n gamma w) = phys_flux n gamma d w.
Proof.
  intros n gamma d w H G. rewrite flux_phys; [now rewrite prim_cons by lra|change (p_rho w <> 0); lra|assumption].
Qed.
Example C39_nonvacuous :
  to_cons 2 (7 / 5) (mkprim (n := 2) 2 (3, (1, tt)) 4) = mkcons (n := 2) 2 (6, (2, tt)) 20.
Proof. apply cons_ext; cbn; [reflexivity|pairs|field]. Qed.

(** C33 for the Euler equations. *)
Lemma admissible_to_cons n gamma w : 0 < p_rho w -> 0 < p_p w -> gamma <> 1 -> admissible n gamma (to_cons n gamma w).
Proof. intros H1 H2 H3. split; [exact H1|]. now rewrite prim_cons by lra. Qed.

Theorem C33_euler_consistent_partial : forall n gamma k d u, 1 < gamma -> admissible n gamma u ->
  (k = HLL \/ k = HLL3 -> vnth n (Z.to_nat d) (p_u (to_prim n gamma u)) <> sound gamma u) ->
  consistent_at (euler_numflux n gamma k) (fun d u => phys_flux n gamma (Z.to_nat d) (to_prim n gamma u)) d u.
Proof.
  intros n gamma k d u Hg Ha Hs.
  assert (E : phys_flux n gamma (Z.to_nat d) (to_prim n gamma u) = euler_flux n gamma (Z.to_nat d) u).
  { symmetry. apply flux_phys; [destruct Ha; lra|lra]. }
  assert (C1 : fst (tecno1 gamma n d u u) = euler_flux n gamma (Z.to_nat d) u).
  { unfold tecno1. cbn [fst]. now rewrite cons_eqb_refl. }
  destruct k; unfold consistent_at, euler_numflux, combined4, combined6; cbn [map]; rewrite ?C1, E.
  - apply hll_same; [lra|assumption|]. apply Hs. now left.
  - apply hll3_same; [lra|assumption|]. apply Hs. now right.
  - unfold euler_central. cbn [fst]. apply comp_ext; intros i. rewrite comp_scal, comp_add. field.
  - reflexivity.
  - cbn [fst]. apply comp_ext; intros i. repeat (rewrite comp_add || rewrite comp_scal). field.
  - cbn [fst]. apply comp_ext; intros i. repeat (rewrite comp_add || rewrite comp_scal). field.
Qed.
(** At a sonic state HLL and HLL3 return zero: rho = p = 1, u = 2, gamma = 4,
    the speed of sound is 2. *)
Definition sonic : cons 1 := to_cons 1 4 (mkprim (n := 1) 1 (2, tt) 1).
Lemma sonic_admissible : admissible 1 4 sonic.
Proof. apply admissible_to_cons; cbn; lra. Qed.
Lemma sonic_speed : sound 4 sonic = 2 /\ vnth 1 0 (extra_u sonic) = 2.
Proof.
  split.
  - unfold sound, extra_p, sonic. cbn.
    match goal with |- sqrt ?x = _ => replace x with (2 * 2) by field end. apply sqrt_square; lra.
  - cbn. field.
Qed.
Theorem C33_sonic_refuted : exists u, admissible 1 4 u /\ forall k, k = HLL \/ k = HLL3 ->
  ~ consistent_at (euler_numflux 1 4 k) (fun d u => phys_flux 1 4 (Z.to_nat d) (to_prim 1 4 u)) 0 u.
Proof.
  exists sonic. split; [exact sonic_admissible|]. intros k Hk H.
  destruct sonic_speed as [S1 S2].
  assert (Hz : rho_ (phys_flux 1 4 0 (to_prim 1 4 sonic)) = 0).
  { destruct Hk as [-> | ->]; cbn [euler_numflux consistent_at] in H; unfold hll, hll3 in H;
      change (Z.to_nat 0) with 0%nat in H; cbv zeta in H; cbn [fst] in H.
    - rewrite hll_left_same, S1, S2 in H by (try exact sonic_admissible; lra).
      destruct (Req_EM_T (2 - 2) 0); [now rewrite <- H|lra].
    - rewrite hll3_left_same, S1, S2 in H by (try exact sonic_admissible; lra).
      destruct (Req_EM_T (2 - 2) 0); [now rewrite <- H|lra]. }
  unfold sonic in Hz. rewrite prim_cons in Hz by (cbn; lra). cbn in Hz. lra.
Qed.
Example C33_euler_nonvacuous : exists u, admissible 1 (7 / 5) u /\
  vnth 1 0 (p_u (to_prim 1 (7 / 5) u)) <> sound (7 / 5) u.
Proof.
  exists (to_cons 1 (7 / 5) (mkprim (n := 1) 1 (-1, tt) 1)). split; [apply admissible_to_cons; cbn; lra|].
  rewrite prim_cons by (cbn; lra). cbn. intros H.
  assert (0 <= sound (n := 1) (7 / 5) (to_cons 1 (7 / 5) (mkprim (n := 1) 1 (-1, tt) 1))) by apply sqrt_pos. lra.
Qed.

(** C40.  Direction 0: every column of the matrix is an eigenvector of the flux
    Jacobian for the eigenvalue in the same place. *)
Lemma sqrt_nz x : 0 < x -> sqrt x <> 0.
Proof. intros H. apply sqrt_lt_R0 in H. lra. Qed.
Lemma norm_nz (c : cons 3) : c <> (vzero : euler_cvars 3) -> / sqrt (rho_ c * rho_ c + vdot 3 (mom c) (mom c) + en c * en c) <> 0.
Proof.
  intros H. apply Rinv_neq_0_compat, sqrt_nz. destruct c as [r [[x [y [z []]]] e]]. cbn.
  assert (0 <= r * r /\ 0 <= x * x /\ 0 <= y * y /\ 0 <= z * z /\ 0 <= e * e) as (A1 & A2 & A3 & A4 & A5).
  { repeat split; apply Rle_0_sqr. }
  destruct (Req_dec r 0) as [->|Hr]; [|pose proof (Rsqr_pos_lt r Hr) as P; unfold Rsqr in P; lra].
  destruct (Req_dec x 0) as [->|Hx]; [|pose proof (Rsqr_pos_lt x Hx) as P; unfold Rsqr in P; lra].
  destruct (Req_dec y 0) as [->|Hy]; [|pose proof (Rsqr_pos_lt y Hy) as P; unfold Rsqr in P; lra].
  destruct (Req_dec z 0) as [->|Hz]; [|pose proof (Rsqr_pos_lt z Hz) as P; unfold Rsqr in P; lra].
  destruct (Req_dec e 0) as [->|He]; [|pose proof (Rsqr_pos_lt e He) as P; unfold Rsqr in P; lra].
  exfalso. apply H. cbn. reflexivity.
Qed.
Lemma eigen_eq (V : cvars) (f : V -> V) u r r' l l' : eigenpair f u r l -> r = r' -> l = l' -> eigenpair f u r' l'.
Proof. now intros H -> ->. Qed.

Theorem C40_direction_0 : forall n gamma u, (1 <= n <= 3)%nat -> 1 < gamma -> admissible n gamma u ->
  length (eigen_columns gamma n 0 u) = (n + 2)%nat /\
  Forall2 (eigenpair (V := euler_cvars n) (euler_flux n gamma 0) u) (eigen_columns gamma n 0 u) (eigen_values gamma n 0 u).
Proof.
  intros n gamma u Hn Hg Ha. destruct (normal_form gamma Hg n u Ha) as (rho & a & w & H1 & H2 & ->).
  assert (A : forall s, s = 1 \/ s = -1 -> eigenpair (V := euler_cvars n) (euler_flux n gamma 0) (nf gamma n rho a w)
    (exact_acoustic gamma n 0 s a w) (vnth n 0 w + s * a)).
  { intros s Hs. apply eig_acoustic; try assumption; lia. }
  assert (B := eig_entropy gamma Hg n 0 rho a w Hn ltac:(lia) H1 H2).
  assert (C := fun k => eig_shear gamma Hg n 0 k rho a w Hn ltac:(lia)).
  destruct n as [|[|[|[|n]]]]; try (exfalso; lia).
  - destruct w as [x []]. split; [reflexivity|]. unfold eigen_columns, eigen_values, rotate. cbv zeta.
    rewrite !nf_acoustic, nf_entropy, nf_prim, nf_sound by assumption. cbn [app repeat p_u fst].
    assert (0 < rho_ (nf gamma 1 rho a (x, tt))) by exact H1.
    repeat apply Forall2_cons; [| | |constructor]; apply eigenpair_scale.
    + apply sqrt_nz, Rdiv_lt_0_compat; [exact H1|lra].
    + eapply eigen_eq; [exact (A (-1) (or_intror eq_refl))| |cbn; ring]. apply cons_ext; cbn; try reflexivity. f_equal. toR; ring.
    + apply sqrt_nz, Rdiv_lt_0_compat; [apply Rmult_lt_0_compat; [exact H1|]|]; lra.
    + exact B.
    + apply sqrt_nz, Rdiv_lt_0_compat; [exact H1|lra].
    + eapply eigen_eq; [exact (A 1 (or_introl eq_refl))| |cbn; ring]. apply cons_ext; cbn; try reflexivity. f_equal. toR; ring.
  - destruct w as [x [y []]]. split; [reflexivity|]. unfold eigen_columns, eigen_values, rotate. cbv zeta.
    rewrite !nf_acoustic, nf_entropy, nf_prim, nf_sound by assumption. cbn [app repeat p_u fst snd].
    repeat apply Forall2_cons; [| | | |constructor].
    + eapply eigen_eq; [exact (A (-1) (or_intror eq_refl))| |cbn; ring].
      apply cons_ext; cbn; try reflexivity. pairs.
    + exact B.
    + exact (C 1%nat ltac:(lia) ltac:(lia) H1 H2).
    + eapply eigen_eq; [exact (A 1 (or_introl eq_refl))| |cbn; ring].
      apply cons_ext; cbn; try reflexivity. pairs.
  - destruct w as [x [y [z []]]]. split; [reflexivity|]. unfold eigen_columns, eigen_values, rotate. cbv zeta.
    rewrite !nf_acoustic, nf_entropy, nf_prim, nf_sound by assumption. cbn [app repeat p_u fst snd map].
    assert (N : forall r l, eigenpair (V := euler_cvars 3) (euler_flux 3 gamma 0) (nf gamma 3 rho a (x, (y, (z, tt)))) r l ->
       eigenpair (V := euler_cvars 3) (euler_flux 3 gamma 0) (nf gamma 3 rho a (x, (y, (z, tt)))) (normalized r) l).
    { intros r l E. apply eigenpair_scale; [|exact E]. apply norm_nz. apply E. }
    repeat apply Forall2_cons; [| | | | |constructor]; apply N.
    + eapply eigen_eq; [exact (A (-1) (or_intror eq_refl))| |cbn; ring].
      apply cons_ext; cbn; try reflexivity. pairs.
    + exact B.
    + exact (C 1%nat ltac:(lia) ltac:(lia) H1 H2).
    + exact (C 2%nat ltac:(lia) ltac:(lia) H1 H2).
    + eapply eigen_eq; [exact (A 1 (or_introl eq_refl))| |cbn; ring].
      apply cons_ext; cbn; try reflexivity. pairs.
Qed.
(** All directions: every entry of computeEigenValues is an eigenvalue of the flux
    Jacobian in that direction, none exceeds the wave speed used for the
    timestep, and the wave speed is attained. *)
Lemma rotate_nf gamma n d rho a (w : rvec n) : (1 <= n <= 3)%nat -> (d < n)%nat -> 1 < gamma ->
  exists w', rotate n d (nf gamma n rho a w) = nf gamma n rho a w' /\ vnth n 0 w' = vnth n d w.
Proof.
  intros Hn Hd Hg. dims n d Hn Hd.
  - exists w. split; reflexivity.
  - exists w. split; reflexivity.
  - destruct w as [x [y []]]. exists (y, (- x, tt)). split; [|reflexivity].
    apply cons_ext; cbn; try reflexivity; [pairs|field; lra].
  - exists w. split; reflexivity.
  - destruct w as [x [y [z []]]]. exists (y, (- x, (z, tt))). split; [|reflexivity].
    apply cons_ext; cbn; try reflexivity; [pairs|field; lra].
  - destruct w as [x [y [z []]]]. exists (z, (y, (- x, tt))). split; [|reflexivity].
    apply cons_ext; cbn; try reflexivity; [pairs|field; lra].
Qed.
Lemma values_nf gamma n d rho a (w : rvec n) : (1 <= n <= 3)%nat -> (d < n)%nat -> 1 < gamma -> 0 < rho -> 0 < a ->
  eigen_values gamma n d (nf gamma n rho a w) = [vnth n d w - a] ++ repeat (vnth n d w) n ++ [vnth n d w + a].
Proof.
  intros Hn Hd Hg H1 H2. destruct (rotate_nf gamma n d rho a w Hn Hd Hg) as (w' & E & F).
  unfold eigen_values. destruct n as [|n]; [lia|]. rewrite E, nf_prim, nf_sound by assumption. cbn [p_u].
  change (fst w' = vnth (S n) d w) in F. rewrite F. reflexivity.
Qed.
Theorem C40_eigenvalues : forall n d gamma u, (1 <= n <= 3)%nat -> (d < n)%nat -> 1 < gamma -> admissible n gamma u ->
  length (eigen_values gamma n d u) = (n + 2)%nat /\
  (forall l, In l (eigen_values gamma n d u) ->
     (exists r, eigenpair (V := euler_cvars n) (euler_flux n gamma d) u r l) /\ Rabs l <= euler_speed n gamma d u) /\
  exists l, In l (eigen_values gamma n d u) /\ Rabs l = euler_speed n gamma d u.
Proof.
  intros n d gamma u Hn Hd Hg Ha. destruct (normal_form gamma Hg n u Ha) as (rho & a & w & H1 & H2 & ->).
  rewrite values_nf by assumption.
  assert (Hs : euler_speed n gamma d (nf gamma n rho a w) = Rabs (vnth n d w) + a).
  { unfold euler_speed. change (sound gamma (nf gamma n rho a w)) with (soundp gamma (nf gamma n rho a w)).
    rewrite nf_sound by assumption. change (extra_u (nf gamma n rho a w)) with (p_u (to_prim n gamma (nf gamma n rho a w))).
    rewrite nf_prim by assumption. reflexivity. }
  rewrite Hs. split; [rewrite !app_length, repeat_length; cbn; lia|]. split.
  - intros l Hl. rewrite !in_app_iff in Hl. destruct Hl as [[<-|[]]|[Hl|[<-|[]]]].
    + split.
      * exists (exact_acoustic gamma n d (-1) a w).
        eapply eigen_eq; [apply eig_acoustic; try assumption; now right|reflexivity|ring].
      * unfold Rabs. destruct (Rcase_abs (vnth n d w - a)), (Rcase_abs (vnth n d w)); lra.
    + apply repeat_spec in Hl. subst l. split.
      * exists (exact_entropy n w). now apply eig_entropy.
      * lra.
    + split.
      * exists (exact_acoustic gamma n d 1 a w).
        eapply eigen_eq; [apply eig_acoustic; try assumption; now left|reflexivity|ring].
      * unfold Rabs. destruct (Rcase_abs (vnth n d w + a)), (Rcase_abs (vnth n d w)); lra.
  - destruct (Rle_dec 0 (vnth n d w)).
    + exists (vnth n d w + a). split; [rewrite !in_app_iff; cbn; tauto|]. rewrite !Rabs_pos_eq; lra.
    + exists (vnth n d w - a). split; [now left|]. rewrite !Rabs_left; lra.
Qed.
(** In the directions 1 and 2 the columns belong to the rotated state and are not
    rotated back: at every state at rest the first column is no eigenvector. *)
Theorem C40_other_directions_refuted : forall n d gamma rho p, (2 <= n <= 3)%nat -> (1 <= d < n)%nat -> 1 < gamma ->
  0 < rho -> 0 < p -> exists u, p_rho (to_prim n gamma u) = rho /\ p_p (to_prim n gamma u) = p /\ admissible n gamma u /\
  ~ Forall2 (eigenpair (V := euler_cvars n) (euler_flux n gamma d) u) (eigen_columns gamma n d u) (eigen_values gamma n d u).
Proof.
  intros n d gamma rho p Hn Hd Hg Hr Hp.
  set (u := to_cons n gamma (mkprim rho (vzero : rvec n) p)).
  assert (Ha : admissible n gamma u) by (apply admissible_to_cons; cbn; lra).
  exists u. unfold u at 1 2. rewrite prim_cons by (cbn; lra). split; [reflexivity|]. split; [reflexivity|]. split; [exact Ha|].
  intros H. destruct (normal_form gamma Hg n u Ha) as (rho' & a & w & H1 & H2 & E).
  assert (E2 : to_prim n gamma u = mkprim rho' w (rho' * (a * a) / gamma)) by (rewrite E; apply nf_prim; assumption).
  unfold u in E2. rewrite prim_cons in E2 by (cbn; lra). injection E2 as <- <- _.
  assert (Hd0 : vnth n d (vzero : rvec n) = 0).
  { dims n d Hn Hd; reflexivity. }
  rewrite E in H. rewrite values_nf in H by (assumption || lia). rewrite Hd0 in H.
  assert (Er : rotate n d (nf gamma n rho a vzero) = nf gamma n rho a vzero).
  { apply cons_ext; dims n d Hn Hd; try reflexivity; cbn; pairs. }
  unfold eigen_columns in H. rewrite Er in H.
  dims n d Hn Hd; cbn [map app] in H; inversion H as [|? ? ? ? [_ G] _ Q1 Q2]; clear H; subst;
    specialize (G 0%nat); rewrite nf_acoustic in G by assumption.
  - eapply uniqueness_limite in G; [|cbn; dlim; reflexivity]. cbn in G. lra.
  - unfold normalized in G.
    match type of G with context [/ sqrt (rho_ ?c * _ + _ + _)] => pose proof (norm_nz c) as N; set (k := / sqrt _) in * end.
    assert (K : k <> 0) by (apply N; apply cons_nonzero; cbn; lra). clearbody k.
    eapply uniqueness_limite in G; [|cbn; dlim; reflexivity]. cbn in G. nra.
  - unfold normalized in G.
    match type of G with context [/ sqrt (rho_ ?c * _ + _ + _)] => pose proof (norm_nz c) as N; set (k := / sqrt _) in * end.
    assert (K : k <> 0) by (apply N; apply cons_nonzero; cbn; lra). clearbody k.
    eapply uniqueness_limite in G; [|cbn; dlim; reflexivity]. cbn in G. nra.
Qed.

(** C54.  The entropy variables are the gradient of the entropy, and the
    potential is v.f - q: in any dimension and direction. *)
Theorem C54_entropy_gradient : forall n gamma (U : R -> euler_cvars n) t (D : euler_cvars n),
  1 < gamma -> admissible n gamma (U t) ->
  (forall i, derivable_pt_lim (fun s => comp i (U s)) t (comp i D)) ->
  derivable_pt_lim (fun s => math_entropy n gamma (to_prim n gamma (U s))) t (cdot n (euler_entropy_vars n gamma (U t)) D).
Proof. intros n gamma U t D Hg Ha H. now apply entropy_gradient. Qed.
Theorem C54_potential : forall n gamma d u, 1 < gamma -> admissible n gamma u ->
  cdot n (euler_entropy_vars n gamma u) (phys_flux n gamma d (to_prim n gamma u))
  - math_entropy_flux n gamma d (to_prim n gamma u) = euler_entropy_pot n d u.
Proof.
  intros n gamma d u Hg Ha. rewrite <- flux_phys by (destruct Ha; lra). now apply entropy_potential.
Qed.
(** Two-point identity of the flux, n = 1, 2. *)
Theorem C54_two_point_partial : forall n gamma d l r, (1 <= n <= 2)%nat -> (0 <= d < Z.of_nat n)%Z -> 1 < gamma ->
  admissible n gamma l -> admissible n gamma r ->
  cdot n (euler_entropy_vars n gamma r) (fst (tecno1 gamma n d l r))
  - cdot n (euler_entropy_vars n gamma l) (fst (tecno1 gamma n d l r))
  = vnth n (Z.to_nat d) (mom r) - vnth n (Z.to_nat d) (mom l).
Proof.
  intros n gamma d l r Hn Hd Hg Hl Hr. unfold tecno1. cbn [fst]. destruct (cons_eqb n l r) eqn:E.
  - apply cons_eqb_eq in E. subst. lra.
  - destruct n as [|[|[|n]]]; try (exfalso; lia); cbn [tecno_form].
    + replace d with 0%Z by lia. now apply tecno1_identity.
    + apply tecno2_identity; try assumption. lia.
Qed.
Lemma tecno_conservative n gamma : (1 <= n <= 2)%nat -> 1 < gamma ->
  entropy_conservative (V := euler_cvars n) (Z.of_nat n) (admissible n gamma)
    (fun w => cdot n (euler_entropy_vars n gamma w)) (fun d u => vnth n (Z.to_nat d) (mom u)) (tecno1 gamma n).
Proof. intros Hn Hg d l r Hd Hl Hr. now apply C54_two_point_partial. Qed.

Definition euler_entropy_fluxes : list (euler_name * Z) := [(Tecno1, 1%Z); (Tecno4, 2%Z); (Tecno6, 3%Z)].

Lemma euler_rate_zero n gamma g nx ny nz k need (u : cell -> euler_cvars n) :
  (1 <= n <= 2)%nat -> 1 < gamma -> (0 < nx)%Z -> (0 < ny)%Z -> (0 < nz)%Z ->
  (g <= nx)%Z -> (1 < Z.of_nat n -> g <= ny)%Z ->
  In (k, need) euler_entropy_fluxes -> (need <= g)%Z ->
  (forall c, in_volume (Z.of_nat n) g nx ny nz c -> u c = u (image periodic1 (Z.of_nat n) g nx ny nz c)) ->
  (forall c, interior (Z.of_nat n) g nx ny nz c -> admissible n gamma (u c)) ->
  isum (Z.of_nat n) g (nvec nx ny nz)
    (fun c => cdot n (euler_entropy_vars n gamma (u c)) (rhs (Z.of_nat n) (euler_numflux n gamma k) no_reconstruction u c)) = 0.
Proof.
  intros Hn Hgm Hx Hy Hz Gx Gy Hk Hg Hp Hu.
  assert (E : entropy_rate (V := euler_cvars n) (Z.of_nat n) g (fun w => cdot n (euler_entropy_vars n gamma w))
     (euler_numflux n gamma k) no_reconstruction (nvec nx ny nz) u = 0).
  { cbn in Hk. destruct Hk as [Hk|[Hk|[Hk|[]]]]; injection Hk as <- <-; unfold euler_numflux.
    - apply entropy_two_point with (P := admissible n gamma) (psi := fun d u => vnth n (Z.to_nat d) (mom u));
        first [intros w; apply cdot_linear | now apply tecno_conservative | exact Hu | eassumption | lia].
    - apply entropy_combined4 with (P := admissible n gamma) (psi := fun d u => vnth n (Z.to_nat d) (mom u));
        first [intros w; apply cdot_linear | now apply tecno_conservative | exact Hu | eassumption | lia].
    - apply entropy_combined6 with (P := admissible n gamma) (psi := fun d u => vnth n (Z.to_nat d) (mom u));
        first [intros w; apply cdot_linear | now apply tecno_conservative | exact Hu | eassumption | lia]. }
  exact E.
Qed.
(** What the flux loops write has inner product zero with the entropy
    variables. *)
Theorem C54_net_flux_conserves_entropy_partial :
  forall n gamma g nx ny nz k need u s,
  (1 <= n <= 2)%nat -> 1 < gamma -> (0 < nx)%Z -> (0 < ny)%Z -> (0 < nz)%Z ->
  (g <= nx)%Z -> (1 < Z.of_nat n -> g <= ny)%Z ->
  In (k, need) euler_entropy_fluxes -> (need <= g)%Z ->
  ext (V := euler_cvars n) (Z.of_nat n) g nx ny nz u -> ext_state (V := euler_cvars n) (Z.of_nat n) g nx ny nz s ->
  (forall c, in_volume (Z.of_nat n) g nx ny nz c -> vget u c = vget u (image periodic1 (Z.of_nat n) g nx ny nz c)) ->
  (forall c, interior (Z.of_nat n) g nx ny nz c -> admissible n gamma (vget u c)) ->
  exists s', compute_flux (Z.of_nat n) g (euler_numflux n gamma k) no_reconstruction u (fun _ => 0%Z) (fun _ => 0%Z) s = Ok s' /\
    isum (Z.of_nat n) g (nvec nx ny nz) (fun c => cdot n (euler_entropy_vars n gamma (vget u c)) (vget (f_out s') c)) = 0.
Proof.
  intros n gamma g nx ny nz k need u s Hn Hgm Hx Hy Hz Gx Gy Hk Hg Hu Hs Hp Hb.
  assert (HC : compatible (euler_numflux n gamma k) no_reconstruction g).
  { cbn in Hk. destruct Hk as [Hk|[Hk|[Hk|[]]]]; injection Hk as <- <-; (split; [simpl; lia|]); cbn.
    - exact Logic.I.
    - intros i Hi. repeat destruct Hi as [<-|Hi]; lia || destruct Hi.
    - intros i Hi. repeat destruct Hi as [<-|Hi]; lia || destruct Hi. }
  destruct (compute_top (Z.of_nat n) g (euler_numflux n gamma k) no_reconstruction nx ny nz ltac:(lia) HC Hx Hy Hz u s Hu Hs)
    as (s' & E & _ & I & _).
  exists s'. split; [exact E|].
  rewrite <- (euler_rate_zero n gamma g nx ny nz k need (vget u)) by assumption.
  apply isum_ext. intros c Hc. rewrite I; [reflexivity|]. apply interior_iff; [lia|exact Hc].
Qed.
(** Along a solution of the semi-discrete scheme the total entropy is
    stationary. *)
Theorem C54_total_entropy_constant_partial :
  forall n gamma g nx ny nz k need (U : R -> cell -> euler_cvars n) t kappa,
  (1 <= n <= 2)%nat -> 1 < gamma -> (0 < nx)%Z -> (0 < ny)%Z -> (0 < nz)%Z ->
  (g <= nx)%Z -> (1 < Z.of_nat n -> g <= ny)%Z ->
  In (k, need) euler_entropy_fluxes -> (need <= g)%Z ->
  (forall c, in_volume (Z.of_nat n) g nx ny nz c -> U t c = U t (image periodic1 (Z.of_nat n) g nx ny nz c)) ->
  (forall c, interior (Z.of_nat n) g nx ny nz c -> admissible n gamma (U t c)) ->
  (forall c i, interior (Z.of_nat n) g nx ny nz c ->
     derivable_pt_lim (fun t => comp i (U t c)) t
       (comp i (vscal kappa (rhs (Z.of_nat n) (euler_numflux n gamma k) no_reconstruction (U t) c)))) ->
  derivable_pt_lim (fun t => isum (Z.of_nat n) g (nvec nx ny nz) (fun c => math_entropy n gamma (to_prim n gamma (U t c)))) t 0.
Proof.
  intros n gamma g nx ny nz k need U t kappa Hn Hgm Hx Hy Hz Gx Gy Hk Hg Hp Hu HD.
  set (F := fun c => cdot n (euler_entropy_vars n gamma (U t c)) (rhs (Z.of_nat n) (euler_numflux n gamma k) no_reconstruction (U t) c)).
  apply (dlim_eq _ _ (isum (Z.of_nat n) g (nvec nx ny nz) (fun c => kappa * F c))).
  - apply isum_deriv. intros c Hc. apply interior_iff in Hc; [|lia].
    eapply dlim_eq; [apply (entropy_gradient n gamma (fun t => U t c))|].
    + assumption.
    + now apply Hu.
    + intros i. now apply HD.
    + unfold F. apply (cdot_linear n).
  - unfold isum. rewrite sum3_scal. fold (isum (Z.of_nat n) g (nvec nx ny nz) F). unfold F.
    rewrite (euler_rate_zero n gamma g nx ny nz k need) by assumption. ring.
Qed.

(** Three dimensions: fails in direction 0 once the third velocity component
    jumps, and in direction 2, where the flux is never set. *)
Lemma z_example (r x y z : R) gamma : 1 < gamma -> 0 < r ->
  z_last 3 gamma (to_cons 3 gamma (mkprim (n := 3) r (x, (y, (z, tt))) r)) = r /\
  z_vel 3 gamma (to_cons 3 gamma (mkprim (n := 3) r (x, (y, (z, tt))) r)) = (x, (y, (z, tt))).
Proof.
  intros Hg Hr. unfold z_last, z_vel. rewrite prim_cons by (cbn; lra). cbn [p_p p_u].
  change (rho_ (to_cons 3 gamma (mkprim (n := 3) r (x, (y, (z, tt))) r))) with r. split; [apply sqrt_square; lra|].
  replace (r / r) with 1 by (field; lra). rewrite sqrt_1. apply vscal_1.
Qed.
Theorem C54_three_dimensions_refuted : forall gamma, 1 < gamma ->
  exists l r, admissible 3 gamma l /\ admissible 3 gamma r /\ forall d, d = 0%Z \/ d = 2%Z ->
  cdot 3 (euler_entropy_vars 3 gamma r) (fst (tecno1 gamma 3 d l r))
  - cdot 3 (euler_entropy_vars 3 gamma l) (fst (tecno1 gamma 3 d l r))
  <> vnth 3 (Z.to_nat d) (mom r) - vnth 3 (Z.to_nat d) (mom l).
Proof.
  intros gamma Hg.
  set (l := to_cons 3 gamma (mkprim (n := 3) 1 (1, (0, (0, tt))) 1)).
  set (r := to_cons 3 gamma (mkprim (n := 3) 2 (1, (0, (1, tt))) 2)).
  assert (Hl : admissible 3 gamma l) by (apply admissible_to_cons; cbn; lra).
  assert (Hr : admissible 3 gamma r) by (apply admissible_to_cons; cbn; lra).
  exists l, r. split; [exact Hl|]. split; [exact Hr|]. intros d Hd E.
  assert (Hne : cons_eqb 3 l r = false).
  { destruct (cons_eqb 3 l r) eqn:Q; [|reflexivity]. apply cons_eqb_eq in Q.
    apply (f_equal rho_) in Q. cbn in Q. lra. }
  unfold tecno1 in E. cbn [fst] in E. rewrite Hne in E. cbn [tecno_form] in E. destruct Hd as [-> | ->].
  - change (Z.to_nat 0) with 0%nat in E. rewrite tecno3_identity in E by assumption.
    destruct (z_example 1 1 0 0 gamma Hg ltac:(lra)) as [A1 A2]. destruct (z_example 2 1 0 1 gamma Hg ltac:(lra)) as [B1 B2].
    fold l in A1, A2. fold r in B1, B2. rewrite A1, A2, B1, B2 in E. cbn [vnth fst snd] in E.
    pose proof (logmean_ln 1 2 ltac:(lra) ltac:(lra)) as L. unfold bar in E.
    assert (logmean 1 2 = 0) by lra. rewrite H in L. lra.
  - change (Z.to_nat 2) with 2%nat in E. cbn [tecno_form3] in E. unfold cdot in E. cbn in E. lra.
Qed.
Example C54_nonvacuous :
  exists u : vol (euler_cvars 1), ext (V := euler_cvars 1) 1 1 3 1 1 u /\
  (forall c, in_volume 1 1 3 1 1 c -> vget u c = vget u (image periodic1 1 1 3 1 1 c)) /\
  (forall c, interior 1 1 3 1 1 c -> admissible 1 (7 / 5) (vget u c)) /\ vget u (1, 0, 0)%Z <> vget u (2, 0, 0)%Z.
Proof.
  exists (mkvol (A := euler_cvars 1) 5 1 1 (fun i => if ((i =? 1) || (i =? 4))%Z
     then to_cons 1 (7 / 5) (mkprim (n := 1) 1 (3, tt) 1) else to_cons 1 (7 / 5) (mkprim (n := 1) 2 (0, tt) 5))).
  split; [repeat split|]. split; [|split].
  - intros [[x y] z] H. unfold in_volume in H. cbn in H.
    assert (y = 0 /\ z = 0 /\ (x = 0 \/ x = 1 \/ x = 2 \/ x = 3 \/ x = 4))%Z as (-> & -> & Hx) by lia.
    destruct Hx as [->|[->|[->|[->| ->]]]]; reflexivity.
  - intros [[x y] z] H. unfold vget. cbn [vdat].
    match goal with |- context [if ?b then _ else _] => destruct b end; apply admissible_to_cons; cbn; lra.
  - intros H. apply (f_equal rho_) in H. change (@eq R 1 2) in H. lra.
Qed.

(** C55.  The flux is not continuous at equal states: states with the same density
    and pressure, but velocities as close as one likes, exchange no mass. *)
Theorem C55_tends_to_point_flux_refuted : forall gamma, 1 < gamma ->
  exists (u : cons 1) (r : R -> cons 1), admissible 1 gamma u /\ r 0 = u /\ (forall e, admissible 1 gamma (r e)) /\
  (forall i, continuity_pt (fun e => comp i (r e : euler_cvars 1)) 0) /\
  rho_ (phys_flux 1 gamma 0 (to_prim 1 gamma u)) = 1 /\
  forall e, e <> 0 -> rho_ (fst (tecno1 gamma 1 0 u (r e))) = 0.
Proof.
  intros gamma Hg. set (r := fun e => to_cons 1 gamma (mkprim (n := 1) 1 (1 + e, tt) 1)).
  exists (r 0), r. assert (Ha : forall e, admissible 1 gamma (r e)) by (intros; apply admissible_to_cons; cbn; lra).
  split; [apply Ha|]. split; [reflexivity|]. split; [exact Ha|]. split; [|split].
  - intros i. apply derivable_continuous_pt. exists (comp i (mkcons (n := 1) 0 (1, tt) 1 : euler_cvars 1)).
    revert i. apply pair_deriv; [|apply pair_deriv; [apply pair_deriv|]]; intros i; cbn; dlim; try lra; field; lra.
  - unfold r. rewrite prim_cons by (cbn; lra). cbn. ring.
  - intros e He. unfold tecno1. cbn [fst]. destruct (cons_eqb 1 (r 0) (r e)) eqn:Q.
    { apply cons_eqb_eq in Q. apply (f_equal mom) in Q. cbn in Q. injection Q as Q. lra. }
    cbn [tecno_form tecno_form1 rho_ mkcons fst].
    assert (E : forall e, z_last 1 gamma (r e) = 1).
    { intros e'. unfold z_last, r. rewrite prim_cons by (cbn; lra). cbn. now rewrite Rmult_1_r, sqrt_1. }
    rewrite !E. unfold logmean. destruct (Req_EM_T (1 - 1) 0); [|lra]. ring.
Qed.

Print Assumptions C33_euler_consistent_partial.
Print Assumptions C33_sonic_refuted.
Print Assumptions C39_prim_of_cons.
Print Assumptions C39_cons_of_prim.
Print Assumptions C39_extra.
Print Assumptions C39_flux.
Print Assumptions C40_direction_0.
Print Assumptions C40_eigenvalues.
Print Assumptions C40_other_directions_refuted.
Print Assumptions C54_entropy_gradient.
Print Assumptions C54_potential.
Print Assumptions C54_two_point_partial.
Print Assumptions C54_net_flux_conserves_entropy_partial.
Print Assumptions C54_total_entropy_constant_partial.
Print Assumptions C54_three_dimensions_refuted.
Print Assumptions C55_tends_to_point_flux_refuted.
