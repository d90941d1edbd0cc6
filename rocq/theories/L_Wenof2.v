(** The damping of WENOF2. *)
From Coq Require Import Reals List ZArith Lia Lra Psatz.
From Verif Require Import M_Base M_Vec M_Flux M_Euler M_Recon S_Recon S_Euler L_Euler L_EulerEntropy L_Recon.
Import ListNotations.
Open Scope R_scope.

Section W.
Variables (n : nat) (gamma : R).
Hypothesis Hg : 1 < gamma.

Lemma vec_ext (a b : rvec n) : (forall i, comp (c0 := vec_cvars n) i a = comp i b) -> a = b.
Proof. apply comp_ext. Qed.

Lemma vdot_add_l (a x y : rvec n) : vdot n (vadd x y) a = vdot n x a + vdot n y a.
Proof. rewrite (vdot_comm n (vadd x y)), vdot_add_r, (vdot_comm n a x), (vdot_comm n a y). reflexivity. Qed.
Ltac vd := repeat (rewrite vdot_add_l || rewrite vdot_add_r || rewrite vdot_scal_l || rewrite vdot_scal_r).

Lemma residual_pressure (m d : prim n) th : 0 < p_rho m ->
  let a := psub n m (pscal n th d) in
  let U := residual n (to_cons n gamma m) (to_cons n gamma a) (to_cons n gamma (mirror_prim n m a)) in
  rho_ U = p_rho m /\
  p_p (to_prim n gamma U) = p_p m - (gamma - 1) * (th * th) * vdot n (p_u d) (p_u d) *
    (1 / 2 * p_rho m + 1 / 2 * (th * th) * (p_rho d * p_rho d) / p_rho m).
Proof.
  intros Hr a U. destruct m as [r v p], d as [dr dv dp]. cbn [p_rho p_u p_p] in *.
  assert (Ur : rho_ U = r).
  { unfold U, residual, to_cons, mirror_prim, a, psub, pscal, mkcons, rho_. cbn [fst snd p_rho p_u p_p]. field. }
  split; [exact Ur|].
  assert (Um : mom U = vadd (vscal r v) (vscal (- (th * th * dr)) dv)).
  { apply vec_ext. intros i.
    unfold U, residual, to_cons, mirror_prim, a, psub, pscal, mkcons, rho_, mom, en. cbn [fst snd p_rho p_u p_p].
    rewrite ?comp_add, ?comp_scal, ?comp_add, ?comp_scal, ?comp_add, ?comp_scal, ?comp_add, ?comp_scal. field. }
  assert (Ue : en U = p / (gamma - 1) + 1 / 2 * r * vdot n v v - 1 / 2 * r * (th * th) * vdot n dv dv
                      - th * th * dr * vdot n v dv).
  { unfold U, residual, to_cons, mirror_prim, a, psub, pscal, mkcons, rho_, mom, en. cbn [fst snd p_rho p_u p_p].
    vd. rewrite ?(vdot_comm n dv v). field. lra. }
  unfold to_prim. cbn [p_p]. rewrite Ur, Um, Ue.
  assert (Q : vdot n (vadd (vscal r v) (vscal (- (th * th * dr)) dv)) (vadd (vscal r v) (vscal (- (th * th * dr)) dv))
     = r * r * vdot n v v - 2 * r * (th * th * dr) * vdot n v dv + th * th * dr * (th * th * dr) * vdot n dv dv).
  { vd. rewrite (vdot_comm n dv v). ring. }
  rewrite Q. field. lra.
Qed.

Lemma damp_square m d : 0 < p_p m -> 0 < p_rho m ->
  let th := wenof2_damp n gamma m d in
  th * th <= 1 / 4 /\
  th * th * vdot n (p_u d) (p_u d) * (1 / 2 * p_rho m + 2 * (p_rho d * p_rho d) / p_rho m) <= p_p m / (gamma - 1).
Proof.
  intros Hp Hr th. pose proof (damp_bounds n gamma m d Hg Hp) as B. fold th in B.
  split; [nra|].
  assert (R0 : 0 < p_p m / (gamma - 1)) by (apply Rdiv_lt_0_compat; lra).
  assert (E : th * th = 1 / 4 * (p_p m / (gamma - 1) / Rmax (p_p m / (gamma - 1)) (wenof2_ll n m d))).
  { unfold th, wenof2_damp. cbv zeta. set (q := p_p m / (gamma - 1) / Rmax _ _).
    assert (0 <= q).
    { apply Rlt_le, Rdiv_lt_0_compat; [exact R0|]. eapply Rlt_le_trans; [exact R0|apply Rmax_l]. }
    replace (1 / 2 * sqrt q * (1 / 2 * sqrt q)) with (1 / 4 * (sqrt q * sqrt q)) by field. now rewrite sqrt_sqrt. }
  set (r := p_p m / (gamma - 1)) in *.
  assert (LL : vdot n (p_u d) (p_u d) * (1 / 2 * p_rho m + 2 * (p_rho d * p_rho d) / p_rho m) <= 4 * wenof2_ll n m d).
  { unfold wenof2_ll. pose proof (Rmin_l 0 (p_rho d * vdot n (p_u m) (p_u d))) as Mn.
    set (q := Rmin _ _) in *. clearbody q.
    replace (vdot n (p_u d) (p_u d) * (1 / 2 * p_rho m + 2 * (p_rho d * p_rho d) / p_rho m)) with
      (4 * (1 / 8 * p_rho m * vdot n (p_u d) (p_u d) + 1 / 2 * p_rho d * p_rho d * vdot n (p_u d) (p_u d) / p_rho m))
      by (field; lra). lra. }
  rewrite Rmult_assoc. pose proof (Rmax_l r (wenof2_ll n m d)) as X1. pose proof (Rmax_r r (wenof2_ll n m d)) as X2.
  set (mx := Rmax r (wenof2_ll n m d)) in *. clearbody mx th.
  apply Rle_trans with (th * th * (4 * mx)).
  - apply Rmult_le_compat_l; [nra|lra].
  - rewrite E. right. field. lra.
Qed.

Lemma damped_residual m d : 0 < p_p m -> 0 < p_rho m ->
  let th := wenof2_damp n gamma m d in
  forall s, s = th \/ s = - th ->
  let a := psub n m (pscal n s d) in
  let U := residual n (to_cons n gamma m) (to_cons n gamma a) (to_cons n gamma (mirror_prim n m a)) in
  rho_ U = p_rho m /\ 0 <= p_p (to_prim n gamma U).
Proof.
  intros Hp Hr th s Hs a U. destruct (residual_pressure m d s Hr) as [E1 E2]. fold a in E1, E2. fold U in E1, E2.
  split; [exact E1|]. rewrite E2. destruct (damp_square m d Hp Hr) as [A B]. fold th in A, B.
  assert (Q : s * s = th * th) by (destruct Hs as [-> | ->]; ring). rewrite Q. clear E2 Q Hs U a E1.
  pose proof (vdot_pos n (p_u d)) as V0.
  assert (C : th * th * vdot n (p_u d) (p_u d) * (1 / 2 * p_rho m + 1 / 2 * (th * th) * (p_rho d * p_rho d) / p_rho m)
     <= p_p m / (gamma - 1)).
  { eapply Rle_trans; [|exact B]. apply Rmult_le_compat_l; [apply Rmult_le_pos; [nra|exact V0]|].
    apply Rplus_le_compat_l. unfold Rdiv. apply Rmult_le_compat_r; [left; now apply Rinv_0_lt_compat|]. nra. }
  apply (Rmult_le_compat_l (gamma - 1)) in C; [|lra].
  replace ((gamma - 1) * (p_p m / (gamma - 1))) with (p_p m) in C by (field; lra). lra.
Qed.

Lemma psub_opp m s d : psub n m (pscal n (- s) d) = padd n m (pscal n s d).
Proof.
  unfold psub, padd, pscal; cbn [p_rho p_u p_p]. f_equal; [ring| |ring].
  apply vec_ext. intros i. rewrite ?comp_add, ?comp_scal, ?comp_scal. ring.
Qed.

Theorem wenof2_residual (l m r : cons n) : admissible n gamma m ->
  let lr := wenof2 n gamma l m r in
  forall a, a = fst lr \/ a = snd lr ->
  let U := residual n m a (to_cons n gamma (mirror_prim n (to_prim n gamma m) (to_prim n gamma a))) in
  rho_ U = rho_ m /\ 0 <= p_p (to_prim n gamma U).
Proof.
  intros Hm lr a Ha U. destruct (wenof2_admissible n gamma l m r Hg Hm) as [[A _] [B _]].
  destruct Hm as [Hr Hp]. set (pm := to_prim n gamma m) in *.
  assert (Em : m = to_cons n gamma pm) by (symmetry; apply cons_prim; lra).
  assert (R : 0 < p_rho pm) by exact Hr.
  assert (X : exists d s, a = to_cons n gamma (psub n pm (pscal n s d)) /\
     (s = wenof2_damp n gamma pm d \/ s = - wenof2_damp n gamma pm d)).
  { destruct Ha as [-> | ->]; unfold lr, wenof2; cbn [fst snd].
    - do 2 eexists. split; [reflexivity|now left].
    - do 2 eexists. split; [|right; reflexivity]. rewrite psub_opp. reflexivity. }
  destruct X as (d & s & Ea & Hs).
  assert (Ra : 0 < rho_ a) by (destruct Ha as [-> | ->]; [fold lr in A|fold lr in B]; lra).
  assert (Pa : to_prim n gamma a = psub n pm (pscal n s d)).
  { rewrite Ea. apply prim_cons; [|lra]. rewrite Ea in Ra. intros Z.
    change (rho_ (to_cons n gamma (psub n pm (pscal n s d)))) with (p_rho (psub n pm (pscal n s d))) in Ra. lra. }
  unfold U. rewrite Pa. rewrite Ea. rewrite Em at 1 3.
  exact (damped_residual pm d Hp R s Hs).
Qed.
End W.
