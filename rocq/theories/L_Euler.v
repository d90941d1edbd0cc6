(** Lemmas about the Euler model. *)
From Coq Require Import Reals List ZArith Lra Lia Bool.
From Verif Require Import M_Base M_Vec M_Flux M_Combined M_Euler S_Euler.
Import ListNotations.
Open Scope R_scope.

Ltac toR := match goal with |- @eq _ ?a ?b => change (@eq R a b) end.

Ltac nz := repeat split; first [assumption | lra | nra].

Section V.
Context {V : cvars}.
Lemma vscal_1 (a : V) : vscal 1 a = a.
Proof. apply comp_ext; intros i. rewrite comp_scal. ring. Qed.
Lemma vscal_vscal c d (a : V) : vscal c (vscal d a) = vscal (c * d) a.
Proof. apply comp_ext; intros i. rewrite !comp_scal. ring. Qed.
Lemma vadd_vscal c d (a : V) : vadd (vscal c a) (vscal d a) = vscal (c + d) a.
Proof. apply comp_ext; intros i. rewrite comp_add, !comp_scal. ring. Qed.
Lemma vadd_opp (a : V) : vadd a (vscal (-1) a) = vzero.
Proof. apply comp_ext; intros i. rewrite comp_add, comp_scal, comp_zero. ring. Qed.
Lemma vscal_zero c : vscal c (vzero : V) = vzero.
Proof. apply comp_ext; intros i. rewrite comp_scal, comp_zero. ring. Qed.
Lemma vadd_zero (a : V) : vadd a vzero = a.
Proof. apply comp_ext; intros i. rewrite comp_add, comp_zero. ring. Qed.
End V.

Lemma vdot_scal n c d (a b : rvec n) : vdot n (vscal c a) (vscal d b) = c * d * vdot n a b.
Proof.
  induction n as [|n IH]; cbn [vdot]; [ring|]. destruct a as [x a], b as [y b].
  change (snd (vscal c ((x, a) : rvec (S n)))) with (vscal c a).
  change (snd (vscal d ((y, b) : rvec (S n)))) with (vscal d b).
  rewrite IH. cbn [fst snd]. change (fst (vscal c ((x, a) : rvec (S n)))) with (c * x).
  change (fst (vscal d ((y, b) : rvec (S n)))) with (d * y). ring.
Qed.
Lemma vnth_scal n d c (a : rvec n) : vnth n d (vscal c a) = c * vnth n d a.
Proof.
  revert d; induction n as [|n IH]; intros d; cbn [vnth]; [ring|]. destruct a as [x a].
  destruct d as [|d]; [reflexivity|]. apply IH.
Qed.
Lemma vnth_add n d (a b : rvec n) : vnth n d (vadd a b) = vnth n d a + vnth n d b.
Proof.
  revert d; induction n as [|n IH]; intros d; cbn [vnth]; [ring|]. destruct a as [x a], b as [y b].
  destruct d as [|d]; [reflexivity|]. apply IH.
Qed.
Lemma vset_same n d (a : rvec n) : vset n d (vnth n d a) a = a.
Proof.
  revert d; induction n as [|n IH]; intros d; cbn [vset vnth]; [reflexivity|]. destruct a as [x a].
  destruct d as [|d]; [reflexivity|]. cbn [fst snd]. now rewrite IH.
Qed.
Lemma vset_add n d p (a : rvec n) : vset n d (vnth n d a + p) a = vadd a (vscal p (unit_vec n d)).
Proof.
  revert d; induction n as [|n IH]; intros d; cbn [vset vnth unit_vec]; [now destruct a|]. destruct a as [x a].
  destruct d as [|d]; cbn [fst snd].
  - apply (f_equal2 (fun p q => (p, q) : rvec (S n))).
    + cbn; toR; ring.
    + change (a = vadd a (vscal p (vzero : rvec n))). now rewrite vscal_zero, vadd_zero.
  - rewrite IH. apply (f_equal2 (fun p q => (p, q) : rvec (S n))); [|reflexivity].
    cbn; symmetry; toR; ring.
Qed.
Lemma vset_set n d x y (a : rvec n) : vset n d x (vset n d y a) = vset n d x a.
Proof.
  revert d; induction n as [|n IH]; intros d; cbn [vset]; [reflexivity|]. destruct a as [z a].
  destruct d as [|d]; [reflexivity|]. cbn [fst snd]. now rewrite IH.
Qed.

Section E.
Variables (n : nat) (gamma : R).

Lemma cons_eta (u : cons n) : u = mkcons (rho_ u) (mom u) (en u).
Proof. destruct u as [r [m e]]. reflexivity. Qed.
Lemma cons_ext (u v : cons n) : rho_ u = rho_ v -> mom u = mom v -> en u = en v -> u = v.
Proof. destruct u as [r [m e]], v as [r' [m' e']]. cbn. intros -> -> ->. reflexivity. Qed.

Lemma extra_is_prim u : extra_u u = p_u (to_prim n gamma u) /\ extra_p gamma u = p_p (to_prim n gamma u).
Proof. split; reflexivity. Qed.

Lemma prim_cons w : p_rho w <> 0 -> gamma <> 1 -> to_prim n gamma (to_cons n gamma w) = w.
Proof.
  intros Hr Hg. destruct w as [r v p]. cbn [p_rho] in Hr. unfold to_prim, to_cons; cbn [p_rho p_u p_p].
  unfold rho_, mom, en, mkcons; cbn [fst snd]. f_equal.
  - rewrite vscal_vscal. replace (/ r * r) with 1 by (field; auto). apply vscal_1.
  - rewrite vdot_scal. field. split; [auto|lra].
Qed.
Lemma cons_prim u : rho_ u <> 0 -> gamma <> 1 -> to_cons n gamma (to_prim n gamma u) = u.
Proof.
  intros Hr Hg. apply cons_ext; unfold to_prim, to_cons; cbn [p_rho p_u p_p].
  - reflexivity.
  - change (vscal (rho_ u) (vscal (/ rho_ u) (mom u)) = mom u). rewrite vscal_vscal.
    replace (rho_ u * / rho_ u) with 1 by (field; auto). apply vscal_1.
  - change ((gamma - 1) * (en u - 1 / 2 * vdot n (mom u) (mom u) / rho_ u) / (gamma - 1) +
      1 / 2 * rho_ u * vdot n (vscal (/ rho_ u) (mom u)) (vscal (/ rho_ u) (mom u)) = en u).
    rewrite vdot_scal. field. split; [auto|lra].
Qed.

Lemma flux_phys d u : rho_ u <> 0 -> gamma <> 1 ->
  euler_flux n gamma d u = phys_flux n gamma d (to_prim n gamma u).
Proof.
  intros Hr Hg. pose proof (cons_prim u Hr Hg) as E.
  apply cons_ext; unfold euler_flux, phys_flux, to_prim; cbn [p_rho p_u p_p].
  - change (vnth n d (mom u) = rho_ u * vnth n d (vscal (/ rho_ u) (mom u))). rewrite vnth_scal. field. auto.
  - change (vset n d (vnth n d (vscal (vnth n d (extra_u u)) (mom u)) + extra_p gamma u)
       (vscal (vnth n d (extra_u u)) (mom u)) =
      vadd (vscal (rho_ u * vnth n d (vscal (/ rho_ u) (mom u))) (vscal (/ rho_ u) (mom u)))
       (vscal (extra_p gamma u) (unit_vec n d))).
    rewrite vset_add. f_equal. unfold extra_u. rewrite vscal_vscal. f_equal. field. auto.
  - change ((en u + extra_p gamma u) * vnth n d (extra_u u) =
      vnth n d (extra_u u) * (p_p (to_prim n gamma u) / (gamma - 1) +
        rho_ u * vdot n (p_u (to_prim n gamma u)) (p_u (to_prim n gamma u)) / 2 + extra_p gamma u)).
    replace (en u) with (en (to_cons n gamma (to_prim n gamma u))) at 1 by now rewrite E.
    change (en (to_cons n gamma (to_prim n gamma u))) with
      (p_p (to_prim n gamma u) / (gamma - 1) + 1 / 2 * rho_ u * vdot n (p_u (to_prim n gamma u)) (p_u (to_prim n gamma u))).
    lra.
Qed.

(** Equal states. *)
Variable u : cons n.
Hypothesis Hg : 0 < gamma.
Hypothesis Ha : admissible n gamma u.
Notation c := (sound gamma u).

Lemma sound_pos : 0 < c.
Proof.
  destruct Ha as [H1 H2]. unfold sound. apply sqrt_lt_R0. change (extra_p gamma u) with (p_p (to_prim n gamma u)).
  apply Rdiv_lt_0_compat; [|exact H1]. now apply Rmult_lt_0_compat.
Qed.
Lemma roe_u_same : roe_u n u u = extra_u u.
Proof.
  destruct Ha as [H1 H2]. unfold roe_u. rewrite vadd_vscal, vscal_vscal.
  pose proof (sqrt_lt_R0 _ H1).
  replace (/ (sqrt (rho_ u) + sqrt (rho_ u)) * (sqrt (rho_ u) + sqrt (rho_ u))) with 1 by (field; lra).
  apply vscal_1.
Qed.
Lemma roe_cs_same : roe_cs n gamma u u = c.
Proof.
  destruct Ha as [H1 H2]. pose proof (sqrt_lt_R0 _ H1). unfold roe_cs, roe_p, sound. f_equal. field. split; lra.
Qed.
Lemma hll_left_same d : hll_left n gamma d u u = vnth n d (extra_u u) - c.
Proof. unfold hll_left. rewrite roe_u_same, roe_cs_same. fold (sound gamma u). apply Rmin_left. lra. Qed.
Lemma hll_right_same d : hll_right n gamma d u u = vnth n d (extra_u u) + c.
Proof. unfold hll_right. rewrite roe_u_same, roe_cs_same. fold (sound gamma u). apply Rmax_left. lra. Qed.
Lemma hll3_left_same d : hll3_left n gamma d u u = vnth n d (extra_u u) - c.
Proof.
  unfold hll3_left. rewrite roe_u_same, roe_cs_same. fold (sound gamma u). cbv zeta.
  rewrite (Rmax_left 0 (vnth n d (extra_u u) - vnth n d (extra_u u))) by lra.
  rewrite Rmin_left; lra.
Qed.
Lemma hll3_right_same d : hll3_right n gamma d u u = vnth n d (extra_u u) + c.
Proof.
  unfold hll3_right. rewrite roe_u_same, roe_cs_same. fold (sound gamma u). cbv zeta.
  rewrite (Rmax_left 0 (vnth n d (extra_u u) - vnth n d (extra_u u))) by lra.
  rewrite Rmax_left; lra.
Qed.

Lemma hll_same d : vnth n (Z.to_nat d) (extra_u u) <> c ->
  fst (hll n gamma d u u) = euler_flux n gamma (Z.to_nat d) u.
Proof.
  intros Hn. unfold hll. cbv zeta. set (k := Z.to_nat d) in *. clearbody k. cbn [fst].
  rewrite hll_left_same, hll_right_same. pose proof sound_pos as Hc.
  destruct (Req_EM_T _ 0); [lra|]. destruct (Rgt_dec _ 0); [reflexivity|]. destruct (Rlt_dec _ 0); [reflexivity|].
  apply comp_ext; intros i. rewrite comp_scal, !comp_add, !comp_scal, comp_add, comp_scal.
  set (F := comp i (euler_flux n gamma k u)). field. lra.
Qed.
Lemma hll3_same d : vnth n (Z.to_nat d) (extra_u u) <> c ->
  fst (hll3 n gamma d u u) = euler_flux n gamma (Z.to_nat d) u.
Proof.
  intros Hn. unfold hll3. cbv zeta. set (k := Z.to_nat d) in *. clearbody k. cbn [fst].
  rewrite hll3_left_same, hll3_right_same. pose proof sound_pos as Hc. destruct Ha as [H1 H2].
  assert (Hcr : 0 < c * rho_ u) by now apply Rmult_lt_0_compat.
  destruct (Req_EM_T _ 0); [lra|]. destruct (Rgt_dec _ 0); [reflexivity|]. destruct (Rlt_dec _ 0) as [L|L]; [reflexivity|].
  set (w := vnth n k (extra_u u)) in *.
  replace (w - (w + c)) with (- c) by ring. replace (w - (w - c)) with c by ring.
  assert (Hm : vnth n k (mom u) = rho_ u * w).
  { unfold w, extra_u. rewrite vnth_scal. field. nz. }
  rewrite Hm.
  replace ((rho_ u * w * - c - rho_ u * w * c + extra_p gamma u - extra_p gamma u) / (- c * rho_ u - c * rho_ u)) with w
    by (field; nz).
  rewrite vadd_opp.
  assert (Hus : vset n k w (vscal (/ (- c * rho_ u - c * rho_ u)) (vadd (vadd vzero (vscal (- (w + c)) (mom u))) (vscal (w - c) (mom u))))
     = extra_u u).
  { unfold w at 1. rewrite <- (vset_same n k (extra_u u)) at 2. f_equal. unfold extra_u.
    apply comp_ext; intros i. rewrite !comp_scal, !comp_add, comp_zero, !comp_scal. field. nz. }
  rewrite Hus.
  assert (Hmid : forall s, s <> w -> hll3_middle n gamma k u s w (extra_u u) = u).
  { intros s Hs. unfold hll3_middle. fold w. apply cons_ext; unfold mkcons, rho_, mom, en; cbn [fst snd];
      fold (rho_ u) (mom u) (en u).
    - field. nz.
    - unfold extra_u. rewrite vscal_vscal. replace (rho_ u * (w - s) / (w - s) * / rho_ u) with 1 by (field; nz). apply vscal_1.
    - field. nz. }
  rewrite !Hmid by lra. 
  destruct (Rge_dec w 0); apply comp_ext; intros i; rewrite comp_add, comp_scal, comp_add, comp_scal; ring.
Qed.
End E.

Lemma vec_eqb_refl n (a : rvec n) : vec_eqb n a a = true.
Proof.
  induction n as [|n IH]; [reflexivity|]. destruct a as [x a]. cbn [vec_eqb fst snd].
  rewrite IH. destruct (Req_EM_T x x); [reflexivity|congruence].
Qed.
Lemma cons_eqb_refl n (u : cons n) : cons_eqb n u u = true.
Proof.
  unfold cons_eqb. rewrite vec_eqb_refl. destruct (Req_EM_T (rho_ u) (rho_ u)); [|congruence].
  destruct (Req_EM_T (en u) (en u)); [reflexivity|congruence].
Qed.
Lemma vec_eqb_eq n (a b : rvec n) : vec_eqb n a b = true -> a = b.
Proof.
  induction n as [|n IH]; [now destruct a, b|]. destruct a as [x a], b as [y b]. cbn [vec_eqb fst snd].
  destruct (Req_EM_T x y) as [->|]; [|discriminate]. intros H. now rewrite (IH a b H).
Qed.
Lemma cons_eqb_eq n (u v : cons n) : cons_eqb n u v = true -> u = v.
Proof.
  unfold cons_eqb. destruct (Req_EM_T (rho_ u) (rho_ v)); [|discriminate].
  destruct (Req_EM_T (en u) (en v)); [|rewrite andb_false_r; discriminate]. rewrite andb_true_r. intros H.
  apply vec_eqb_eq in H. now apply cons_ext.
Qed.
