(** Fluxes and reconstructions of the Euler equations for a flow seen in more components
    or in other units of mass. *)
From Coq Require Import ZArith Reals List Bool Lia Lra String Permutation.
From Verif Require Import M_Base M_Vec M_Boundary M_Flux M_Combined M_Euler M_Recon M_Sim M_Config S_Boundary S_Flux S_Sum S_Sim
  S_Symmetry S_Embed L_Euler L_SymScheme L_EulerSym L_Symmetry L_Axes.
From Verif Require Import M_Euler.
Import ListNotations.
Open Scope R_scope.

(** * Runs on one grid with the records seen through [tau] *)
Section Relabel.
Context {V W : cvars}.
Variables (tau : V -> W) (it : integrator) (b : bckind) (dims g : Z)
  (fx : numflux V) (rc : recon V) (fx' : numflux W) (rc' : recon W) (nx ny nz : Z)
  (p : params) (ok : V -> bool) (ok' : W -> bool) (obeys : vol V -> bool) (obeys' : vol W -> bool).
Hypothesis Hdims : (1 <= dims <= 3)%Z.
Hypothesis Hcomp : compatible fx rc g.
Hypothesis Hcomp' : compatible fx' rc' g.
Hypothesis Hfit : fits_grid dims g nx ny nz.
Hypothesis tau_add : forall a c, tau (vadd a c) = vadd (tau a) (tau c).
Hypothesis tau_scal : forall k a, tau (vscal k a) = vscal k (tau a).
Hypothesis Hok : forall a, ok' (tau a) = ok a.
Hypothesis Hob : checks_all dims g nx ny nz ok obeys.
Hypothesis Hob' : checks_all dims g nx ny nz ok' obeys'.

Theorem relabel_runs u0 rest sc u0' rest' sc' adjs :
  (forall d, (0 <= d < dims)%Z -> carries tau fx d fx' d) -> carries_recon tau rc rc' ->
  volumes it dims g nx ny nz u0 rest sc -> volumes it dims g nx ny nz u0' rest' sc' ->
  (forall c, interior dims g nx ny nz c -> vget u0' c = tau (vget u0 c)) ->
  agree (fun u u' => forall c, interior dims g nx ny nz c -> u' c = tau (u c))
    (serial_run it b dims g fx rc p obeys (u0 :: rest) sc adjs)
    (serial_run it b dims g fx' rc' p obeys' (u0' :: rest') sc' adjs).
Proof.
  intros Hf Hr (V1 & V2 & V3) (V4 & V5 & V6) H0.
  pose proof Hfit as (H1 & H2 & H3 & H4 & H5 & H6 & H7).
  apply (symmetric_runs b b dims g fx rc fx' rc' nx ny nz nx ny nz Hdims tau (fun c => c) (fun d => d) (fun d => false)
    tau_add tau_scal) with (ok := ok) (ok' := ok'); auto.
  - intros c Hc. now exists c.
  - intros c d s. now apply (image_move_inside b dims g fx rc Hdims Hcomp).
  - intros c d s Hc Hd Hs. unfold sgn. now rewrite Z.mul_1_l.
  - rewrite map_id. apply Permutation_refl.
  - intros d u u' c c' Hd Ed H.
    now apply (face_carry g fx rc fx' rc' tau Hr d d u u' c c' Hcomp (Hf d Hd)).
  - discriminate.
Qed.
End Relabel.

(** * Padding *)
Lemma pad_add n m a c : pad n m (vadd a c) = vadd (pad n m a) (pad n m c).
Proof.
  revert m a c; induction n as [|n IH]; intros m a c.
  - cbn [pad]. apply comp_ext; intros i. rewrite comp_add, comp_zero; ring.
  - destruct m as [|m]; [reflexivity|]. cbn. now rewrite IH.
Qed.
Lemma pad_scal n m k a : pad n m (vscal k a) = vscal k (pad n m a).
Proof.
  revert m a; induction n as [|n IH]; intros m a.
  - cbn [pad]. apply comp_ext; intros i. rewrite comp_scal, comp_zero; ring.
  - destruct m as [|m]; [reflexivity|]. cbn. now rewrite IH.
Qed.
Lemma dot_zero m (a : rvec m) : vdot m vzero a = 0.
Proof. induction m as [|m IH]; [reflexivity|]. cbn. rewrite IH. ring. Qed.
Lemma pad_dot n m a c : (n <= m)%nat -> vdot m (pad n m a) (pad n m c) = vdot n a c.
Proof.
  revert m a c; induction n as [|n IH]; intros m a c H.
  - cbn [pad]. apply dot_zero.
  - destruct m as [|m]; [lia|]. cbn. now rewrite IH by lia.
Qed.
Lemma pad_nth n m d a : (d < n <= m)%nat -> vnth m d (pad n m a) = vnth n d a.
Proof.
  revert m d a; induction n as [|n IH]; intros m d a H; [lia|].
  destruct m as [|m]; [lia|]. destruct d as [|d]; cbn; [reflexivity|]. apply IH. lia.
Qed.
Lemma pad_set n m d x a : (d < n <= m)%nat -> vset m d x (pad n m a) = pad n m (vset n d x a).
Proof.
  revert m d a; induction n as [|n IH]; intros m d a H; [lia|].
  destruct m as [|m]; [lia|]. destruct d as [|d]; cbn; [reflexivity|]. now rewrite IH by lia.
Qed.
Lemma pad_inj n m a c : (n <= m)%nat -> pad n m a = pad n m c -> a = c.
Proof.
  revert m a c; induction n as [|n IH]; intros m a c H E.
  - now destruct a, c.
  - destruct m as [|m]; [lia|]. cbn in E. injection E as E1 E2. apply IH in E2; [|lia].
    destruct a, c. cbn in *. now subst.
Qed.

(** * Seen through an isometry, with the mass measured in other units *)
Section Seen.
Variables (n m : nat) (gamma : R) (M : rvec n -> rvec m) (k : R).
Hypothesis Hk : 0 < k.
Hypothesis Ma : forall a c, M (vadd a c) = vadd (M a) (M c).
Hypothesis Ms : forall x a, M (vscal x a) = vscal x (M a).
Hypothesis Md : forall a c, vdot m (M a) (M c) = vdot n a c.
Hypothesis Mi : forall a c, M a = M c -> a = c.
Notation tau := (seen M k).

Lemma scal_scal (X : cvars) x y (a : X) : vscal x (vscal y a) = vscal (x * y) a.
Proof. apply comp_ext; intros i. rewrite !comp_scal. ring. Qed.
Lemma dot_scal q x y (a c : rvec q) : vdot q (vscal x a) (vscal y c) = x * y * vdot q a c.
Proof.
  induction q as [|q IH]; [cbn; ring|]. destruct a as [a0 a], c as [c0 c]. specialize (IH a c). cbn. cbn in IH. rewrite IH.
  match goal with |- @eq _ ?u ?v => change (@eq R u v) end. ring.
Qed.
Lemma seen_add a c : tau (vadd a c) = vadd (tau a) (tau c).
Proof.
  apply cons_ext; cbn [seen rho_ mom en mkcons fst snd].
  - change (k * (rho_ a + rho_ c) = k * rho_ a + k * rho_ c). ring.
  - change (vscal k (M (vadd (mom a) (mom c))) = vadd (vscal k (M (mom a))) (vscal k (M (mom c)))).
    rewrite Ma. apply comp_ext; intros i. rewrite !comp_scal, !comp_add, !comp_scal. ring.
  - change (k * (en a + en c) = k * en a + k * en c). ring.
Qed.
Lemma seen_scal x a : tau (vscal x a) = vscal x (tau a).
Proof.
  apply cons_ext; cbn [seen rho_ mom en mkcons fst snd].
  - change (k * (x * rho_ a) = x * (k * rho_ a)). ring.
  - change (vscal k (M (vscal x (mom a))) = vscal x (vscal k (M (mom a)))). rewrite Ms, !scal_scal. f_equal. ring.
  - change (k * (x * en a) = x * (k * en a)). ring.
Qed.
Lemma seen_inj a c : tau a = tau c -> a = c.
Proof.
  intros E. apply cons_ext.
  - apply (Rmult_eq_reg_l k); [|lra]. exact (f_equal rho_ E).
  - apply Mi. pose proof (f_equal (fun u => vscal (/ k) (mom u)) E) as Q. cbn [seen mom mkcons fst snd] in Q.
    rewrite !scal_scal, Rinv_l, !vscal_one in Q by lra. exact Q.
  - apply (Rmult_eq_reg_l k); [|lra]. exact (f_equal en E).
Qed.
Lemma rho_seen u : rho_ (tau u) = k * rho_ u. Proof. reflexivity. Qed.
Lemma mom_seen u : mom (tau u) = vscal k (M (mom u)). Proof. reflexivity. Qed.
Lemma en_seen u : en (tau u) = k * en u. Proof. reflexivity. Qed.

Lemma ratio x y : k * x / (k * y) = x / y.
Proof. unfold Rdiv. rewrite Rinv_mult. transitivity (k * / k * (x * / y)); [ring|]. rewrite Rinv_r by lra. ring. Qed.
Lemma extra_u_seen u : extra_u (tau u) = M (extra_u u).
Proof.
  unfold extra_u. rewrite mom_seen, rho_seen, scal_scal, Ms. f_equal. rewrite Rinv_mult.
  transitivity (/ k * k * / rho_ u); [ring|]. rewrite Rinv_l by lra. ring.
Qed.
Lemma extra_p_seen u : extra_p gamma (tau u) = k * extra_p gamma u.
Proof.
  unfold extra_p. rewrite mom_seen, rho_seen, en_seen, dot_scal, Md.
  replace (1 / 2 * (k * k * vdot n (mom u) (mom u)) / (k * rho_ u)) with (k * (1 / 2 * vdot n (mom u) (mom u) / rho_ u)).
  - ring.
  - replace (1 / 2 * (k * k * vdot n (mom u) (mom u))) with (k * (k * (1 / 2 * vdot n (mom u) (mom u)))) by ring.
    rewrite ratio. unfold Rdiv. ring.
Qed.
Lemma cs_seen u : sqrt (gamma * extra_p gamma (tau u) / rho_ (tau u)) = sqrt (gamma * extra_p gamma u / rho_ u).
Proof. rewrite extra_p_seen, rho_seen. f_equal. replace (gamma * (k * extra_p gamma u)) with (k * (gamma * extra_p gamma u)) by ring. apply ratio. Qed.
Lemma sqrt_seen x : sqrt (k * x) = sqrt k * sqrt x.
Proof. apply sqrt_mult_alt. lra. Qed.
Lemma sk : 0 < sqrt k. Proof. now apply sqrt_lt_R0. Qed.
Lemma roe_u_seen l r : roe_u m (tau l) (tau r) = M (roe_u n l r).
Proof.
  unfold roe_u. rewrite !extra_u_seen, !rho_seen, !sqrt_seen, Ms, Ma, !Ms. pose proof sk.
  apply comp_ext; intros i. rewrite !comp_scal, !comp_add, !comp_scal.
  rewrite <- Rmult_plus_distr_l, Rinv_mult.
  match goal with |- / ?q * / ?s * (?q * ?x * ?y + ?q * ?z * ?w) = _ => transitivity (/ q * q * (/ s * (x * y + z * w))); [ring|] end.
  rewrite Rinv_l by lra. ring.
Qed.
Lemma roe_cs_seen l r : roe_cs m gamma (tau l) (tau r) = roe_cs n gamma l r.
Proof.
  unfold roe_cs. f_equal. rewrite !rho_seen.
  assert (E : roe_p m gamma (tau l) (tau r) = k * roe_p n gamma l r).
  { unfold roe_p. rewrite !extra_p_seen, !rho_seen, !sqrt_seen. pose proof sk.
    rewrite <- Rmult_plus_distr_l.
    unfold Rdiv. rewrite Rinv_mult.
    transitivity (/ sqrt k * sqrt k * (k * ((extra_p gamma l * sqrt (rho_ l) + extra_p gamma r * sqrt (rho_ r)) * / (sqrt (rho_ l) + sqrt (rho_ r))))); [ring|].
    rewrite Rinv_l by lra. ring. }
  rewrite E. replace (gamma * (k * roe_p n gamma l r)) with (k * (gamma * roe_p n gamma l r)) by ring.
  replace ((k * rho_ l + k * rho_ r) / 2) with (k * ((rho_ l + rho_ r) / 2)) by field. apply ratio.
Qed.

Section Direction.
Variable d : Z.
Notation dn := (Z.to_nat d).
Hypothesis Mn : forall a, vnth m dn (M a) = vnth n dn a.
Hypothesis Mt : forall x a, vset m dn x (M a) = M (vset n dn x a).

Lemma u_seen u : vnth m dn (extra_u (tau u)) = vnth n dn (extra_u u).
Proof. now rewrite extra_u_seen, Mn. Qed.
Lemma m_seen u : vnth m dn (mom (tau u)) = k * vnth n dn (mom u).
Proof. rewrite mom_seen, <- Ms, Mn. apply vnth_scal. Qed.
Lemma flux_seen u : euler_flux m gamma dn (tau u) = tau (euler_flux n gamma dn u).
Proof.
  unfold euler_flux. rewrite u_seen, m_seen, extra_p_seen, mom_seen, en_seen. apply cons_ext.
  - reflexivity.
  - cbn [seen rho_ mom en mkcons fst snd].
    set (x := vnth n dn (extra_u u)). set (v := mom u). rewrite scal_scal.
    replace (vscal (x * k) (M v)) with (M (vscal k (vscal x v))) by (now rewrite !Ms, scal_scal, Rmult_comm).
    rewrite Mn, Mt, <- Ms. f_equal. rewrite <- vset_scal. f_equal. rewrite vnth_scal. ring.
  - cbn [seen rho_ mom en mkcons fst snd]. ring.
Qed.
Lemma carries_central_seen : carries tau (euler_numflux n gamma ECentral) d (euler_numflux m gamma ECentral) d.
Proof.
  intros l r. unfold euler_central. cbn [fst snd]. rewrite !flux_seen, seen_scal, seen_add. f_equal.
  unfold euler_speed, sound. now rewrite !cs_seen, !u_seen.
Qed.
Lemma hll_left_seen l r : hll_left m gamma dn (tau l) (tau r) = hll_left n gamma dn l r.
Proof. unfold hll_left. now rewrite u_seen, cs_seen, roe_cs_seen, roe_u_seen, Mn. Qed.
Lemma hll_right_seen l r : hll_right m gamma dn (tau l) (tau r) = hll_right n gamma dn l r.
Proof. unfold hll_right. now rewrite u_seen, cs_seen, roe_cs_seen, roe_u_seen, Mn. Qed.
Lemma hll3_left_seen l r : hll3_left m gamma dn (tau l) (tau r) = hll3_left n gamma dn l r.
Proof. unfold hll3_left. now rewrite !u_seen, cs_seen, roe_cs_seen, roe_u_seen, Mn. Qed.
Lemma hll3_right_seen l r : hll3_right m gamma dn (tau l) (tau r) = hll3_right n gamma dn l r.
Proof. unfold hll3_right. now rewrite !u_seen, cs_seen, roe_cs_seen, roe_u_seen, Mn. Qed.
Lemma carries_hll_seen : carries tau (euler_numflux n gamma HLL) d (euler_numflux m gamma HLL) d.
Proof.
  intros l r. unfold hll. cbn [fst snd]. rewrite hll_left_seen, hll_right_seen, !flux_seen. f_equal.
  destruct (Req_EM_T _ _); [symmetry; apply tau_zero; exact seen_scal|].
  destruct (Rgt_dec _ _); [reflexivity|]. destruct (Rlt_dec _ _); [reflexivity|].
  now rewrite !seen_scal, !seen_add, !seen_scal, !seen_add, !seen_scal.
Qed.
Lemma middle_seen a sp sm us :
  hll3_middle m gamma dn (tau a) sp sm (M us) = tau (hll3_middle n gamma dn a sp sm us).
Proof.
  unfold hll3_middle. rewrite u_seen, extra_p_seen, rho_seen, en_seen. apply cons_ext; cbn [seen rho_ mom en mkcons fst snd].
  - unfold Rdiv; ring.
  - rewrite Ms, scal_scal. f_equal. unfold Rdiv; ring.
  - unfold Rdiv; ring.
Qed.
Lemma carries_hll3_seen : carries tau (euler_numflux n gamma HLL3) d (euler_numflux m gamma HLL3) d.
Proof.
  intros l r. unfold hll3. cbn [fst snd].
  rewrite hll3_left_seen, hll3_right_seen, !flux_seen, !u_seen, !extra_p_seen, !m_seen, !rho_seen, !mom_seen.
  set (sl := hll3_left n gamma dn l r). set (sr := hll3_right n gamma dn l r).
  set (ul := vnth n dn (extra_u l) - sl). set (ur := vnth n dn (extra_u r) - sr).
  replace (ur * (k * rho_ r) - ul * (k * rho_ l)) with (k * (ur * rho_ r - ul * rho_ l)) by ring.
  set (aa := ur * rho_ r - ul * rho_ l).
  replace ((k * vnth n dn (mom r) * ur - k * vnth n dn (mom l) * ul + k * extra_p gamma r - k * extra_p gamma l) / (k * aa))
    with ((vnth n dn (mom r) * ur - vnth n dn (mom l) * ul + extra_p gamma r - extra_p gamma l) / aa)
    by (rewrite <- ratio; f_equal; ring).
  set (sm := (_ / aa)). set (us := vset n dn sm _). set (us' := vset m dn sm _).
  assert (E : us' = M us).
  { unfold us, us'. rewrite <- Mt. f_equal. rewrite Ms, !Ma, !Ms.
    apply comp_ext; intros i. rewrite !comp_scal, !comp_add, !comp_scal, Rinv_mult.
    match goal with |- / k * / aa * (k * ?a + -1 * (k * ?b) + ?x * (k * ?c) + ?y * (k * ?e)) = _ =>
      transitivity (/ k * k * (/ aa * (a + -1 * b + x * c + y * e))); [ring|] end.
    rewrite Rinv_l by lra. ring. }
  rewrite E. f_equal.
  destruct (Req_EM_T _ _); [symmetry; apply tau_zero; exact seen_scal|].
  destruct (Rgt_dec _ _); [reflexivity|]. destruct (Rlt_dec _ _); [reflexivity|].
  destruct (Rge_dec _ _); rewrite middle_seen; now rewrite !seen_add, !seen_scal, !seen_add, !seen_scal.
Qed.
Lemma tecno_seen l r : tecno_form gamma m dn (tau l) (tau r) = tau (tecno_form gamma n dn l r) ->
  tecno1 gamma m d (tau l) (tau r) = (tau (fst (tecno1 gamma n d l r)), snd (tecno1 gamma n d l r)).
Proof.
  intros H. unfold tecno1. cbn [fst snd]. rewrite hll3_left_seen, hll3_right_seen, H, flux_seen.
  assert (E : cons_eqb m (tau l) (tau r) = cons_eqb n l r).
  { destruct (cons_eqb n l r) eqn:E.
    - apply cons_eqb_spec in E. apply cons_eqb_spec. now subst.
    - destruct (cons_eqb m (tau l) (tau r)) eqn:E'; [|reflexivity]. apply cons_eqb_spec in E'. apply seen_inj in E'.
      apply (cons_eqb_spec n) in E'. congruence. }
  rewrite E. now destruct (cons_eqb n l r).
Qed.
Lemma carries_tecno_seen :
  (forall l r, tecno_form gamma m dn (tau l) (tau r) = tau (tecno_form gamma n dn l r)) ->
  carries tau (Flux2 (tecno1 gamma n)) d (Flux2 (tecno1 gamma m)) d.
Proof. intros H l r. apply tecno_seen, H. Qed.
End Direction.
End Seen.
