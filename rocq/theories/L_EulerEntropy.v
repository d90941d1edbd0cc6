(** Entropy of the Euler equations and the Tecno1 flux. *)
From Coq Require Import Reals List ZArith Lra Lia Bool.
From Verif Require Import M_Base M_Vec M_Flux M_Combined M_Euler S_Euler S_Entropy L_Euler L_EulerDeriv.
Import ListNotations.
Open Scope R_scope.

Lemma vdot_add_r n (a x y : rvec n) : vdot n a (vadd x y) = vdot n a x + vdot n a y.
Proof.
  induction n as [|n IH]; cbn [vdot]; [ring|]. destruct a as [a0 a], x as [x0 x], y as [y0 y].
  change (snd (vadd ((x0, x) : rvec (S n)) (y0, y))) with (vadd x y). rewrite IH. cbn. toR. ring.
Qed.
Lemma vdot_scal_r n c (a x : rvec n) : vdot n a (vscal c x) = c * vdot n a x.
Proof. rewrite <- (vscal_1 a) at 1. rewrite vdot_scal. ring. Qed.
Lemma vdot_scal_l n c (a x : rvec n) : vdot n (vscal c a) x = c * vdot n a x.
Proof. rewrite <- (vscal_1 x) at 1. rewrite vdot_scal. ring. Qed.
Lemma vdot_comm n (a b : rvec n) : vdot n a b = vdot n b a.
Proof. induction n as [|n IH]; cbn [vdot]; [ring|]. rewrite IH. toR; ring. Qed.
Lemma vdot_unit n d (a : rvec n) : vdot n a (unit_vec n d) = vnth n d a.
Proof.
  revert d; induction n as [|n IH]; intros d; cbn [vdot vnth unit_vec]; [ring|]. destruct a as [a0 a].
  destruct d as [|d]; cbn [fst snd].
  - assert (E : vdot n a vzero = 0).
    { rewrite <- (vscal_zero 0), vdot_scal_r. ring. }
    change (a0 * 1 + vdot n a vzero = a0). rewrite E. toR. ring.
  - rewrite IH. toR; ring.
Qed.
Lemma vdot_pos n (a : rvec n) : 0 <= vdot n a a.
Proof. induction n as [|n IH]; cbn [vdot]; [lra|]. specialize (IH (snd a)). pose proof (Rle_0_sqr (fst a)) as H. unfold Rsqr in H. 
  apply Rplus_le_le_0_compat; assumption. Qed.

Section C.
Variable n : nat.
Lemma cdot_linear (w : cons n) : linear (V := euler_cvars n) (cdot n w).
Proof.
  split; [|split].
  - unfold cdot. change (rho_ (vzero : euler_cvars n)) with 0. change (mom (vzero : euler_cvars n)) with (vzero : rvec n).
    change (en (vzero : euler_cvars n)) with 0. rewrite <- (vscal_zero 0), vdot_scal_r. ring.
  - intros x y. unfold cdot.
    change (rho_ (vadd x y : euler_cvars n)) with (rho_ x + rho_ y).
    change (mom (vadd x y : euler_cvars n)) with (vadd (mom x) (mom y)).
    change (en (vadd x y : euler_cvars n)) with (en x + en y). rewrite vdot_add_r. ring.
  - intros a x. unfold cdot.
    change (rho_ (vscal a x : euler_cvars n)) with (a * rho_ x).
    change (mom (vscal a x : euler_cvars n)) with (vscal a (mom x)).
    change (en (vscal a x : euler_cvars n)) with (a * en x). rewrite vdot_scal_r. ring.
Qed.
End C.

(** The logarithmic mean. *)
Lemma logmean_ln l r : 0 < l -> 0 < r -> (ln r - ln l) * logmean l r = r - l.
Proof.
  intros Hl Hr. unfold logmean. destruct (Req_EM_T (r - l) 0) as [E|E]; [lra|].
  destruct (Req_EM_T (ln r - ln l) 0) as [F|F]; [exfalso; apply E|field; lra].
  assert (r = l) by (apply ln_inv; lra). lra.
Qed.
Lemma div_logmean_ln l r F : 0 < l -> 0 < r -> (r - l) * div_logmean l r F = (ln r - ln l) * F.
Proof.
  intros Hl Hr. unfold div_logmean. destruct (Req_EM_T (logmean l r) 0) as [E|E].
  - pose proof (logmean_ln l r Hl Hr) as H. rewrite E in H. assert (r = l) by lra. subst. ring.
  - pose proof (logmean_ln l r Hl Hr) as H. rewrite <- H. field. assumption.
Qed.

(** States through Roe's parameter vector. *)
Section Z.
Variables (n : nat) (gamma : R) (Hg : 1 < gamma) (u : cons n).
Hypothesis Ha : admissible n gamma u.
Notation z1 := (z_first n gamma u).
Notation z5 := (z_last n gamma u).
Notation p := (p_p (to_prim n gamma u)).
Lemma z1_pos : 0 < z1.
Proof. destruct Ha. apply sqrt_lt_R0. now apply Rdiv_lt_0_compat. Qed.
Lemma z5_pos : 0 < z5.
Proof. destruct Ha. apply sqrt_lt_R0. now apply Rmult_lt_0_compat. Qed.
Lemma z_rho : rho_ u = z1 * z5.
Proof.
  destruct Ha as [H1 H2]. unfold z_first, z_last. rewrite <- sqrt_mult.
  - replace (rho_ u / p * (rho_ u * p)) with (rho_ u * rho_ u) by (field; lra). rewrite sqrt_square; lra.
  - apply Rlt_le, Rdiv_lt_0_compat; lra.
  - apply Rlt_le, Rmult_lt_0_compat; lra.
Qed.
Lemma z_p : p * z1 = z5.
Proof.
  destruct Ha as [H1 H2]. unfold z_first, z_last. replace p with (sqrt (p * p)) at 1 by (apply sqrt_square; lra).
  rewrite <- sqrt_mult.
  - f_equal. field. lra.
  - apply Rlt_le, Rmult_lt_0_compat; lra.
  - apply Rlt_le, Rdiv_lt_0_compat; lra.
Qed.
Lemma z_mom : mom u = vscal z5 (z_vel n gamma u).
Proof.
  destruct Ha as [H1 H2]. unfold z_vel. fold (z_first n gamma u). unfold to_prim; cbn [p_u].
  rewrite !vscal_vscal. replace (z5 * z1 * / rho_ u) with 1; [now rewrite vscal_1|].
  rewrite z_rho. pose proof z1_pos; pose proof z5_pos. field. split; lra.
Qed.
Lemma z_entropy : euler_entropy_vars n gamma u =
  mkcons (gamma / (gamma - 1) + ln z5 + (gamma + 1) / (gamma - 1) * ln z1 - vdot n (z_vel n gamma u) (z_vel n gamma u) / 2)
         (vscal z1 (z_vel n gamma u)) (- (z1 * z1)).
Proof.
  pose proof z1_pos as P1; pose proof z5_pos as P5. pose proof z_p as Hp. pose proof z_rho as Hr.
  pose proof z_mom as Hm. destruct Ha as [H1 H2].
  assert (Ep : p = z5 / z1) by (rewrite <- Hp; field; lra).
  assert (Eu : p_u (to_prim n gamma u) = vscal (/ z1) (z_vel n gamma u)).
  { unfold z_vel. fold (z_first n gamma u). rewrite vscal_vscal. replace (/ z1 * z1) with 1 by (field; lra). now rewrite vscal_1. }
  unfold euler_entropy_vars, entropy_s. rewrite Eu, Ep, Hm. apply cons_ext; cbn [rho_ mom en mkcons fst snd].
  - rewrite vdot_scal, Hr. unfold Rdiv. rewrite !ln_mult by (try apply Rinv_0_lt_compat; lra). rewrite ln_Rinv by lra.
    set (k := vdot n (z_vel n gamma u) (z_vel n gamma u)). field. repeat split; lra.
  - rewrite vscal_vscal. f_equal. field. lra.
  - rewrite Hr. field. lra.
Qed.
End Z.

(** The two-point identity: in the z variables it is linear in the two
    identities of the logarithmic mean. *)
Section TwoPoint.
Variables (gamma : R) (Hg : 1 < gamma).

Ltac close G5 G1 w m q a b c d :=
  match goal with |- @eq _ ?A ?B =>
    let H := fresh in
    assert (H : A - B = w * ((ln d - ln c) * m - (d - c))
                - (gamma + 1) / (gamma - 1) * ((b - a) * q - (ln b - ln a) * (w * m)))
      by (field; repeat split; lra);
    rewrite G5, G1 in H; clear G5 G1; toR; apply Rminus_diag_uniq; rewrite H; ring
  end.

Lemma tecno1_identity l r : admissible 1 gamma l -> admissible 1 gamma r ->
  cdot 1 (euler_entropy_vars 1 gamma r) (tecno_form1 gamma 0 l r)
  - cdot 1 (euler_entropy_vars 1 gamma l) (tecno_form1 gamma 0 l r)
  = vnth 1 0 (mom r) - vnth 1 0 (mom l).
Proof.
  intros Hl Hr.
  pose proof (z1_pos _ _ l Hl) as L1. pose proof (z5_pos _ _ l Hl) as L5.
  pose proof (z1_pos _ _ r Hr) as R1. pose proof (z5_pos _ _ r Hr) as R5.
  rewrite (z_entropy 1 gamma Hg l Hl), (z_entropy 1 gamma Hg r Hr), (z_mom 1 gamma l Hl), (z_mom 1 gamma r Hr).
  unfold tecno_form1, tecno_energy, cdot.
  destruct (z_vel 1 gamma l) as [xl []], (z_vel 1 gamma r) as [xr []].
  set (a := z_first 1 gamma l) in *; set (b := z_first 1 gamma r) in *.
  set (c := z_last 1 gamma l) in *; set (d := z_last 1 gamma r) in *.
  pose proof (logmean_ln c d L5 R5) as G5.
  cbn. unfold bar. pose proof (div_logmean_ln a b ((xl + xr) / 2 * logmean c d) L1 R1) as G1.
  close G5 G1 ((xl + xr) / 2) (logmean c d) (div_logmean a b ((xl + xr) / 2 * logmean c d)) a b c d.
Qed.
Lemma tecno2_identity k l r : (k < 2)%nat -> admissible 2 gamma l -> admissible 2 gamma r ->
  cdot 2 (euler_entropy_vars 2 gamma r) (tecno_form2 gamma k l r)
  - cdot 2 (euler_entropy_vars 2 gamma l) (tecno_form2 gamma k l r)
  = vnth 2 k (mom r) - vnth 2 k (mom l).
Proof.
  intros Hk Hl Hr.
  pose proof (z1_pos _ _ l Hl) as L1. pose proof (z5_pos _ _ l Hl) as L5.
  pose proof (z1_pos _ _ r Hr) as R1. pose proof (z5_pos _ _ r Hr) as R5.
  rewrite (z_entropy 2 gamma Hg l Hl), (z_entropy 2 gamma Hg r Hr), (z_mom 2 gamma l Hl), (z_mom 2 gamma r Hr).
  unfold tecno_form2, tecno_energy, cdot.
  destruct (z_vel 2 gamma l) as [xl [yl []]], (z_vel 2 gamma r) as [xr [yr []]].
  set (a := z_first 2 gamma l) in *; set (b := z_first 2 gamma r) in *.
  set (c := z_last 2 gamma l) in *; set (d := z_last 2 gamma r) in *.
  pose proof (logmean_ln c d L5 R5) as G5.
  destruct k as [|[|k]]; [| |lia]; cbn; unfold bar.
  - pose proof (div_logmean_ln a b ((xl + xr) / 2 * logmean c d) L1 R1) as G1.
    close G5 G1 ((xl + xr) / 2) (logmean c d) (div_logmean a b ((xl + xr) / 2 * logmean c d)) a b c d.
  - pose proof (div_logmean_ln a b ((yl + yr) / 2 * logmean c d) L1 R1) as G1.
    close G5 G1 ((yl + yr) / 2) (logmean c d) (div_logmean a b ((yl + yr) / 2 * logmean c d)) a b c d.
Qed.
End TwoPoint.

Lemma vdot_deriv n (M : R -> rvec n) t (D : rvec n) :
  (forall i, derivable_pt_lim (fun s => comp i (M s)) t (comp i D)) ->
  derivable_pt_lim (fun s => vdot n (M s) (M s)) t (2 * vdot n (M t) D).
Proof.
  induction n as [|n IH]; intros H; cbn [vdot].
  - eapply dlim_eq; [apply derivable_pt_lim_const|ring].
  - pose proof (pair_deriv_fst scalar_cvars (vec_cvars n) M t D H 0%nat) as H1.
    change (derivable_pt_lim (fun s => fst (M s)) t (fst D)) in H1.
    pose proof (IH (fun s => snd (M s)) (snd D) (pair_deriv_snd scalar_cvars (vec_cvars n) M t D H)) as H2.
    eapply dlim_eq.
    + refine (derivable_pt_lim_plus (fun s => fst (M s) * fst (M s)) (fun s => vdot n (snd (M s)) (snd (M s))) t _ _ _ H2).
      refine (derivable_pt_lim_mult (fun s => fst (M s)) (fun s => fst (M s)) t _ _ H1 H1).
    + cbv beta. cbn [vdot]. toR. ring.
Qed.

(** The entropy variables are the gradient of the entropy: chain rule along any
    differentiable curve of states. *)
Lemma entropy_gradient n gamma (U : R -> cons n) t (D : cons n) : 1 < gamma -> admissible n gamma (U t) ->
  (forall i, derivable_pt_lim (fun s => comp i (U s : euler_cvars n)) t (comp i (D : euler_cvars n))) ->
  derivable_pt_lim (fun s => math_entropy n gamma (to_prim n gamma (U s))) t (cdot n (euler_entropy_vars n gamma (U t)) D).
Proof.
  intros Hg [Hr Hp] H.
  assert (H1 : derivable_pt_lim (fun s => rho_ (U s)) t (rho_ D)).
  { exact (pair_deriv_fst scalar_cvars (pair_cvars (vec_cvars n) scalar_cvars) U t D H 0%nat). }
  pose proof (pair_deriv_snd scalar_cvars (pair_cvars (vec_cvars n) scalar_cvars) U t D H) as H0.
  assert (H3 : derivable_pt_lim (fun s => en (U s)) t (en D)).
  { exact (pair_deriv_snd (vec_cvars n) scalar_cvars (fun s => snd (U s)) t (snd D) H0 0%nat). }
  assert (H2 : derivable_pt_lim (fun s => vdot n (mom (U s)) (mom (U s))) t (2 * vdot n (mom (U t)) (mom D))).
  { apply vdot_deriv. exact (pair_deriv_fst (vec_cvars n) scalar_cvars (fun s => snd (U s)) t (snd D) H0). }
  clear H H0.
  set (r := fun s => rho_ (U s)) in *. set (e := fun s => en (U s)) in *.
  set (q := fun s => vdot n (mom (U s)) (mom (U s))) in *.
  set (p := fun s => (gamma - 1) * (e s - 1 / 2 * q s / r s)).
  change (0 < r t) in Hr. change (0 < p t) in Hp.
  change (derivable_pt_lim (fun s => - r s * (ln (p s) - gamma * ln (r s)) / (gamma - 1)) t
    (cdot n (euler_entropy_vars n gamma (U t)) D)).
  assert (Hpd : derivable_pt_lim p t ((gamma - 1) * (en D - 1 / 2 * (2 * vdot n (mom (U t)) (mom D) * r t - rho_ D * q t) / (r t * r t)))).
  { unfold p. eapply dlim_eq.
    - refine (derivable_pt_lim_scal (fun s => e s - 1 / 2 * q s / r s) (gamma - 1) t _ _).
      refine (derivable_pt_lim_minus e (fun s => 1 / 2 * q s / r s) t _ _ H3 _).
      refine (derivable_pt_lim_div (fun s => 1 / 2 * q s) r t _ _ _ H1 _); [|lra].
      refine (derivable_pt_lim_scal q (1 / 2) t _ H2).
    - unfold Rsqr. field. lra. }
  assert (L1 : derivable_pt_lim (fun s => ln (p s)) t _) by
    exact (derivable_pt_lim_comp p ln t _ _ Hpd (derivable_pt_lim_ln (p t) Hp)).
  assert (L2 : derivable_pt_lim (fun s => ln (r s)) t _) by
    exact (derivable_pt_lim_comp r ln t _ _ H1 (derivable_pt_lim_ln (r t) Hr)).
  eapply dlim_eq.
  - refine (derivable_pt_lim_div (fun s => - r s * (ln (p s) - gamma * ln (r s))) (fun _ => gamma - 1) t _ _ _ (derivable_pt_lim_const _ _) _); [|lra].
    refine (derivable_pt_lim_mult (fun s => - r s) (fun s => ln (p s) - gamma * ln (r s)) t _ _ _ _).
    + exact (derivable_pt_lim_opp r t _ H1).
    + refine (derivable_pt_lim_minus (fun s => ln (p s)) (fun s => gamma * ln (r s)) t _ _ L1 _).
      exact (derivable_pt_lim_scal (fun s => ln (r s)) gamma t _ L2).
  - cbv beta. unfold Rsqr, cdot, euler_entropy_vars, entropy_s. cbn [rho_ mom en mkcons fst snd].
    fold (rho_ (U t)) (mom (U t)) (en (U t)).
    change (p_p (to_prim n gamma (U t))) with (p t). change (rho_ (U t)) with (r t).
    change (p_u (to_prim n gamma (U t))) with (vscal (/ r t) (mom (U t))).
    rewrite vdot_scal, vdot_scal_l. change (vdot n (mom (U t)) (mom (U t))) with (q t).
    set (k := vdot n (mom (U t)) (mom D)).
    change (snd (snd D)) with (en D). change (fst D) with (rho_ D).
    field. repeat split; lra.
Qed.

Lemma entropy_potential n gamma d (u : cons n) : 1 < gamma -> admissible n gamma u ->
  cdot n (euler_entropy_vars n gamma u) (euler_flux n gamma d u) - math_entropy_flux n gamma d (to_prim n gamma u)
  = euler_entropy_pot n d u.
Proof.
  intros Hg [Hr Hp]. rewrite flux_phys by lra. pose proof (cons_prim n gamma u ltac:(lra) ltac:(lra)) as E.
  change (rho_ u) with (p_rho (to_prim n gamma u)) in Hr. remember (to_prim n gamma u) as w eqn:Ew.
  subst u. clear Ew. destruct w as [r v p]. cbn [p_rho p_p p_u] in *.
  unfold cdot, euler_entropy_vars, entropy_s, euler_entropy_pot, math_entropy_flux, math_entropy. rewrite prim_cons by (cbn; lra).
  unfold phys_flux, to_cons. cbn [p_rho p_u p_p rho_ mom en mkcons fst snd].
  rewrite vdot_add_r, !vdot_scal_r, vdot_unit, !vnth_scal, !vdot_scal_l.
  set (k := vdot n v v). set (y := vnth n d v). toR. field. lra.
Qed.

(** In three dimensions, direction 0, the identity misses the third velocity. *)
Section Three.
Variables (gamma : R) (Hg : 1 < gamma).
Lemma tecno3_identity l r : admissible 3 gamma l -> admissible 3 gamma r ->
  cdot 3 (euler_entropy_vars 3 gamma r) (tecno_form3 gamma 0 l r)
  - cdot 3 (euler_entropy_vars 3 gamma l) (tecno_form3 gamma 0 l r)
  = vnth 3 0 (mom r) - vnth 3 0 (mom l)
    - (vnth 3 2 (z_vel 3 gamma r) * vnth 3 2 (z_vel 3 gamma r) - vnth 3 2 (z_vel 3 gamma l) * vnth 3 2 (z_vel 3 gamma l)) / 2
      * (bar (vnth 3 0 (z_vel 3 gamma l)) (vnth 3 0 (z_vel 3 gamma r)) * logmean (z_last 3 gamma l) (z_last 3 gamma r)).
Proof.
  intros Hl Hr.
  pose proof (z1_pos _ _ l Hl) as L1. pose proof (z5_pos _ _ l Hl) as L5.
  pose proof (z1_pos _ _ r Hr) as R1. pose proof (z5_pos _ _ r Hr) as R5.
  rewrite (z_entropy 3 gamma Hg l Hl), (z_entropy 3 gamma Hg r Hr), (z_mom 3 gamma l Hl), (z_mom 3 gamma r Hr).
  unfold tecno_form3, tecno_energy, cdot.
  destruct (z_vel 3 gamma l) as [xl [yl [zl []]]], (z_vel 3 gamma r) as [xr [yr [zr []]]].
  set (a := z_first 3 gamma l) in *; set (b := z_first 3 gamma r) in *.
  set (c := z_last 3 gamma l) in *; set (d := z_last 3 gamma r) in *.
  pose proof (logmean_ln c d L5 R5) as G5. cbn; unfold bar.
  pose proof (div_logmean_ln a b ((xl + xr) / 2 * logmean c d) L1 R1) as G1.
  match goal with |- @eq _ ?A ?B =>
    assert (H : A - B = (xl + xr) / 2 * ((ln d - ln c) * logmean c d - (d - c))
                - (gamma + 1) / (gamma - 1) * ((b - a) * div_logmean a b ((xl + xr) / 2 * logmean c d) - (ln b - ln a) * ((xl + xr) / 2 * logmean c d)))
      by (field; repeat split; lra) end.
  rewrite G5, G1 in H. toR. apply Rminus_diag_uniq. rewrite H. ring.
Qed.
End Three.
