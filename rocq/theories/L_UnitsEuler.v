(** The Euler equations with another unit of time. *)
From Coq Require Import ZArith Reals List Bool Lia Lra String.
From Verif Require Import M_Base M_Vec M_Flux M_Combined M_Scalar M_Recon M_Config
  S_Symmetry S_Units L_Euler L_SymScheme L_EulerSym L_TecnoSym L_Embed L_EmbedRecon.
From Verif Require Import M_Euler.
Import ListNotations.
Open Scope R_scope.

Section Quick.
Variables (n : nat) (gamma k : R).
Hypothesis Hk : 0 < k.
Notation tau := (@quick n k).

Lemma k2 : 0 < k * k. Proof. now apply Rmult_lt_0_compat. Qed.
Lemma sqrt_k2 x : sqrt (k * k * x) = k * sqrt x.
Proof. rewrite sqrt_mult_alt by (pose proof k2; lra). rewrite sqrt_square by lra. reflexivity. Qed.
Lemma Rmax_kk a b : Rmax (k * a) (k * b) = k * Rmax a b.
Proof.
  unfold Rmax. destruct (Rle_dec (k * a) (k * b)) as [A|A], (Rle_dec a b) as [B|B]; try reflexivity; exfalso.
  - apply B. now apply Rmult_le_reg_l in A.
  - apply A. apply Rmult_le_compat_l; lra.
Qed.
Notation Rmin_kk := (Rmin_k k Hk).
Notation Rabs_kk := (Rabs_k k Hk).

Lemma quick_add a c : tau (vadd a c) = vadd (tau a) (tau c).
Proof.
  apply cons_ext; cbn [quick rho_ mom en mkcons fst snd].
  - reflexivity.
  - change (vscal k (vadd (mom a) (mom c)) = vadd (vscal k (mom a)) (vscal k (mom c))).
    apply comp_ext; intros i. rewrite !comp_scal, !comp_add, !comp_scal. ring.
  - change (k * k * (en a + en c) = k * k * en a + k * k * en c). ring.
Qed.
Lemma quick_scal x a : tau (vscal x a) = vscal x (tau a).
Proof.
  apply cons_ext; cbn [quick rho_ mom en mkcons fst snd].
  - reflexivity.
  - change (vscal k (vscal x (mom a)) = vscal x (vscal k (mom a))). rewrite !scal_scal. f_equal. ring.
  - change (k * k * (x * en a) = x * (k * k * en a)). ring.
Qed.
Lemma rho_quick u : rho_ (tau u) = rho_ u. Proof. reflexivity. Qed.
Lemma mom_quick u : mom (tau u) = vscal k (mom u). Proof. reflexivity. Qed.
Lemma en_quick u : en (tau u) = k * k * en u. Proof. reflexivity. Qed.
Lemma u_quick u : extra_u (tau u) = vscal k (extra_u u).
Proof. unfold extra_u. rewrite mom_quick, rho_quick, !scal_scal. f_equal. ring. Qed.
Lemma p_quick u : extra_p gamma (tau u) = k * k * extra_p gamma u.
Proof. unfold extra_p. rewrite mom_quick, rho_quick, en_quick, dot_scal. unfold Rdiv. ring. Qed.
Lemma cs_quick u : sqrt (gamma * extra_p gamma (tau u) / rho_ (tau u)) = k * sqrt (gamma * extra_p gamma u / rho_ u).
Proof. rewrite p_quick, rho_quick, <- sqrt_k2. f_equal. unfold Rdiv. ring. Qed.
Lemma roe_u_quick l r : roe_u n (tau l) (tau r) = vscal k (roe_u n l r).
Proof.
  unfold roe_u. rewrite !u_quick, !rho_quick. apply comp_ext; intros i.
  rewrite !comp_scal, !comp_add, !comp_scal. ring.
Qed.
Lemma roe_cs_quick l r : roe_cs n gamma (tau l) (tau r) = k * roe_cs n gamma l r.
Proof.
  unfold roe_cs, roe_p. rewrite !p_quick, !rho_quick, <- sqrt_k2. f_equal. unfold Rdiv. ring.
Qed.

Section Direction.
Variable d : Z.
Notation dn := (Z.to_nat d).
Lemma ud_quick u : vnth n dn (extra_u (tau u)) = k * vnth n dn (extra_u u).
Proof. rewrite u_quick. apply vnth_scal. Qed.
Lemma md_quick u : vnth n dn (mom (tau u)) = k * vnth n dn (mom u).
Proof. rewrite mom_quick. apply vnth_scal. Qed.
Lemma flux_quick u : euler_flux n gamma dn (tau u) = vscal k (tau (euler_flux n gamma dn u)).
Proof.
  unfold euler_flux. rewrite ud_quick, md_quick, p_quick, mom_quick, en_quick. apply cons_ext.
  - reflexivity.
  - cbn [quick rho_ mom en mkcons fst snd].
    set (x := vnth n dn (extra_u u)). set (v := mom u). set (q := extra_p gamma u).
    change (vset n dn (vnth n dn (vscal (k * x) (vscal k v)) + k * k * q) (vscal (k * x) (vscal k v))
      = vscal k (vscal k (vset n dn (vnth n dn (vscal x v) + q) (vscal x v)))).
    rewrite !scal_scal, <- vset_scal, scal_scal, !vnth_scal.
    replace (k * x * k) with (k * k * x) by ring. f_equal. ring.
  - change ((k * k * en u + k * k * extra_p gamma u) * (k * vnth n dn (extra_u u)) =
      k * (k * k * ((en u + extra_p gamma u) * vnth n dn (extra_u u)))). ring.
Qed.
Lemma speed_quick u : euler_speed n gamma dn (tau u) = k * euler_speed n gamma dn u.
Proof. unfold euler_speed, sound. rewrite cs_quick, ud_quick, Rabs_kk. ring. Qed.
Lemma central_quick : carries tau (faster k (euler_numflux n gamma ECentral)) d (euler_numflux n gamma ECentral) d.
Proof.
  intros l r. unfold euler_central. cbn [fst snd]. rewrite !flux_quick, !speed_quick, Rmax_kk, !quick_scal, !quick_add. f_equal.
  apply comp_ext; intros i. rewrite !comp_scal, !comp_add, !comp_scal. ring.
Qed.
Lemma left_quick l r : hll_left n gamma dn (tau l) (tau r) = k * hll_left n gamma dn l r.
Proof. unfold hll_left. rewrite ud_quick, cs_quick, roe_cs_quick, roe_u_quick, vnth_scal, <- !Rmult_minus_distr_l. apply Rmin_kk. Qed.
Lemma right_quick l r : hll_right n gamma dn (tau l) (tau r) = k * hll_right n gamma dn l r.
Proof. unfold hll_right. rewrite ud_quick, cs_quick, roe_cs_quick, roe_u_quick, vnth_scal, <- !Rmult_plus_distr_l. apply Rmax_kk. Qed.
Lemma left3_quick l r : hll3_left n gamma dn (tau l) (tau r) = k * hll3_left n gamma dn l r.
Proof.
  unfold hll3_left. cbv zeta. rewrite !ud_quick, cs_quick, roe_cs_quick, roe_u_quick, vnth_scal, <- Rmin_kk.
  replace 0 with (k * 0) at 1 by ring. rewrite <- Rmult_minus_distr_l, Rmax_kk. f_equal; ring.
Qed.
Lemma right3_quick l r : hll3_right n gamma dn (tau l) (tau r) = k * hll3_right n gamma dn l r.
Proof.
  unfold hll3_right. cbv zeta. rewrite !ud_quick, cs_quick, roe_cs_quick, roe_u_quick, vnth_scal, <- Rmax_kk.
  replace 0 with (k * 0) at 1 by ring. rewrite <- Rmult_minus_distr_l, Rmax_kk. f_equal; ring.
Qed.
(** The cases of the fluxes. *)
Lemma eq0_k (A : Type) x (a b : A) : (if Req_EM_T (k * x) 0 then a else b) = (if Req_EM_T x 0 then a else b).
Proof.
  destruct (Req_EM_T (k * x) 0) as [P|P], (Req_EM_T x 0) as [Q|Q]; try reflexivity; exfalso.
  - apply Rmult_integral in P. lra.
  - apply P. rewrite Q. ring.
Qed.
Lemma gt0_k (A : Type) x (a b : A) : (if Rgt_dec (k * x) 0 then a else b) = (if Rgt_dec x 0 then a else b).
Proof.
  destruct (Rgt_dec (k * x) 0) as [P|P], (Rgt_dec x 0) as [Q|Q]; try reflexivity; exfalso.
  - apply Q. apply (Rmult_lt_reg_l k); lra.
  - apply P. now apply Rmult_gt_0_compat.
Qed.
Lemma lt0_k (A : Type) x (a b : A) : (if Rlt_dec (k * x) 0 then a else b) = (if Rlt_dec x 0 then a else b).
Proof.
  destruct (Rlt_dec (k * x) 0) as [P|P], (Rlt_dec x 0) as [Q|Q]; try reflexivity; exfalso.
  - apply Q. apply (Rmult_lt_reg_l k); lra.
  - apply P. replace 0 with (k * 0) by ring. now apply Rmult_lt_compat_l.
Qed.
Lemma ge0_k (A : Type) x (a b : A) : (if Rge_dec (k * x) 0 then a else b) = (if Rge_dec x 0 then a else b).
Proof.
  destruct (Rge_dec (k * x) 0) as [P|P], (Rge_dec x 0) as [Q|Q]; try reflexivity; exfalso.
  - apply Q. apply Rle_ge. apply (Rmult_le_reg_l k); lra.
  - apply P. apply Rle_ge. apply Rmult_le_pos; lra.
Qed.
Lemma zero_quick : vzero = vscal k (tau vzero).
Proof. rewrite (tau_zero tau quick_scal). apply comp_ext; intros i. rewrite comp_scal, comp_zero. ring. Qed.

Lemma hll_quick : carries tau (faster k (euler_numflux n gamma HLL)) d (euler_numflux n gamma HLL) d.
Proof.
  intros l r. unfold hll. cbn [fst snd]. rewrite left_quick, right_quick, !flux_quick, !Rabs_kk, Rmax_kk. f_equal.
  rewrite eq0_k, gt0_k, lt0_k, <- quick_scal.
  destruct (Req_EM_T _ _); [rewrite quick_scal; exact zero_quick|].
  destruct (Rgt_dec _ _); [now rewrite quick_scal|]. destruct (Rlt_dec _ _); [now rewrite quick_scal|].
  rewrite !quick_scal, !quick_add, !quick_scal, !quick_add, !quick_scal.
  set (sl := hll_left n gamma dn l r). set (sr := hll_right n gamma dn l r).
  rewrite <- Rmult_minus_distr_l, Rinv_mult.
  apply comp_ext; intros i. rewrite !comp_scal, !comp_add, !comp_scal, !comp_add, !comp_scal.
  match goal with |- / k * ?q * (k * sr * (k * ?a) + - (k * sl) * (k * ?c) + k * sr * (k * sl) * ?e) = _ =>
    transitivity (/ k * k * (k * (q * (sr * a + - sl * c + sr * sl * e)))); [ring|] end.
  rewrite Rinv_l by lra. ring.
Qed.

Lemma ratio_k x y : k * x / (k * y) = x / y.
Proof. now apply ratio. Qed.
Lemma middle_quick a sp sm us :
  hll3_middle n gamma dn (tau a) (k * sp) (k * sm) (vscal k us) = tau (hll3_middle n gamma dn a sp sm us).
Proof.
  unfold hll3_middle. rewrite ud_quick, p_quick, rho_quick, en_quick. cbv zeta.
  rewrite <- !Rmult_minus_distr_l.
  set (ud := vnth n dn (extra_u a)).
  assert (E : rho_ a * (k * (ud - sp)) / (k * (sm - sp)) = rho_ a * (ud - sp) / (sm - sp)).
  { replace (rho_ a * (k * (ud - sp))) with (k * (rho_ a * (ud - sp))) by ring. apply ratio_k. }
  rewrite E. apply cons_ext; cbn [quick rho_ mom en mkcons fst snd].
  - reflexivity.
  - rewrite !scal_scal. f_equal. ring.
  - match goal with |- ?x / _ = _ => transitivity (k * (k * k * ((ud - sp) * en a + extra_p gamma a * ud
      - (extra_p gamma a + rho_ a * (ud - sm) * (ud - sp)) * sm)) / (k * (sm - sp))); [f_equal; ring|] end.
    rewrite ratio_k. unfold Rdiv. ring.
Qed.
Lemma hll3_quick : carries tau (faster k (euler_numflux n gamma HLL3)) d (euler_numflux n gamma HLL3) d.
Proof.
  intros l r. unfold hll3. cbn [fst snd].
  rewrite left3_quick, right3_quick, !flux_quick, !ud_quick, !p_quick, !md_quick, !rho_quick, !mom_quick, !Rabs_kk, ?Rmax_kk.
  set (sl := hll3_left n gamma dn l r). set (sr := hll3_right n gamma dn l r).
  rewrite <- !Rmult_minus_distr_l.
  set (ul := vnth n dn (extra_u l) - sl). set (ur := vnth n dn (extra_u r) - sr).
  replace (k * ur * rho_ r - k * ul * rho_ l) with (k * (ur * rho_ r - ul * rho_ l)) by ring.
  set (aa := ur * rho_ r - ul * rho_ l).
  replace ((k * vnth n dn (mom r) * (k * ur) - k * vnth n dn (mom l) * (k * ul) + k * k * extra_p gamma r - k * k * extra_p gamma l) / (k * aa))
    with (k * ((vnth n dn (mom r) * ur - vnth n dn (mom l) * ul + extra_p gamma r - extra_p gamma l) / aa)).
  2: { transitivity (k * (k * (vnth n dn (mom r) * ur - vnth n dn (mom l) * ul + extra_p gamma r - extra_p gamma l)) / (k * aa)).
       - rewrite ratio_k. unfold Rdiv. ring.
       - f_equal. ring. }
  set (sm := (_ / aa)). set (us := vset n dn sm _). set (us' := vset n dn (k * sm) _).
  assert (E : us' = vscal k us).
  { unfold us, us'. rewrite <- vset_scal. f_equal.
    match goal with |- vscal _ (vadd (vadd (vadd (mom (vscal k (tau ?x))) (vscal (-1) (mom (vscal k (tau ?y))))) _) _) = _ =>
      change (mom (vscal k (tau x))) with (vscal k (vscal k (mom x)));
      change (mom (vscal k (tau y))) with (vscal k (vscal k (mom y))) end.
    apply comp_ext; intros i. rewrite !comp_scal, !comp_add, !comp_scal, Rinv_mult.
    match goal with |- / k * / aa * (k * (k * ?a) + -1 * (k * (k * ?b)) + ?x * (k * ?c) + k * sl * (k * ?e)) = _ =>
      transitivity (/ k * k * (k * (/ aa * (a + -1 * b + - sr * c + sl * e)))); [ring|] end.
    rewrite Rinv_l by lra. ring. }
  rewrite E. f_equal. rewrite eq0_k, gt0_k, lt0_k, ge0_k, quick_scal.
  destruct (Req_EM_T _ _); [exact zero_quick|].
  destruct (Rgt_dec _ _); [reflexivity|]. destruct (Rlt_dec _ _); [reflexivity|].
  destruct (Rge_dec _ _); rewrite middle_quick; rewrite !quick_add, !quick_scal, !quick_add, !quick_scal;
    apply comp_ext; intros i; rewrite ?comp_scal, ?comp_add, ?comp_scal, ?comp_add, ?comp_scal; ring.
Qed.
End Direction.

Lemma quick_flux f d : In f [HLL; HLL3; ECentral] -> carries tau (faster k (euler_numflux n gamma f)) d (euler_numflux n gamma f) d.
Proof. intros [<-|[<-|[<-|[]]]]; [apply hll_quick|apply hll3_quick|apply central_quick]. Qed.

(** * Reconstructions *)
Lemma homogeneous_kk f : homogeneous k f -> homogeneous (k * k) f.
Proof. intros H a b c. rewrite !Rmult_assoc, !H. reflexivity. Qed.
Lemma quick_lift f : homogeneous k f -> forall a b c,
  lift3 (euler_lifting n) f (tau a) (tau b) (tau c) = tau (lift3 (euler_lifting n) f a b c).
Proof.
  intros Hf a b c.
  assert (Z : forall q (x y z : rvec q), lift3 (vec_lifting q) f (vscal k x) (vscal k y) (vscal k z) = vscal k (lift3 (vec_lifting q) f x y z)).
  { induction q as [|q IH]; intros x y z; [reflexivity|]. cbn. rewrite IH. apply (f_equal2 pair); [|reflexivity]. apply Hf. }
  apply cons_ext.
  - reflexivity.
  - apply Z.
  - apply (homogeneous_kk f Hf).
Qed.
Definition pq (w : prim n) : prim n := mkprim (p_rho w) (vscal k (p_u w)) (k * k * p_p w).
Lemma to_prim_q u : to_prim n gamma (tau u) = pq (to_prim n gamma u).
Proof.
  unfold to_prim, pq. cbn [p_rho p_u p_p quick rho_ mom en mkcons fst snd]. rewrite dot_scal, !scal_scal. f_equal.
  - f_equal. ring.
  - unfold Rdiv. ring.
Qed.
Lemma to_cons_q w : to_cons n gamma (pq w) = tau (to_cons n gamma w).
Proof.
  unfold to_cons, pq, quick. cbn [p_rho p_u p_p rho_ mom en mkcons fst snd]. rewrite dot_scal, !scal_scal.
  apply cons_ext; cbn [rho_ mom en mkcons fst snd].
  - reflexivity.
  - f_equal. ring.
  - unfold Rdiv. ring.
Qed.
Lemma prim_ext (a b : prim n) : p_rho a = p_rho b -> p_u a = p_u b -> p_p a = p_p b -> a = b.
Proof. destruct a, b. cbn. intros -> -> ->. reflexivity. Qed.
Lemma vadd_scal q x (a c : rvec q) : vadd (vscal x a) (vscal x c) = vscal x (vadd a c).
Proof. apply comp_ext; intros i. rewrite !comp_scal, !comp_add, !comp_scal. ring. Qed.
Lemma padd_q a b : padd n (pq a) (pq b) = pq (padd n a b).
Proof. apply prim_ext; cbn [padd pq p_rho p_u p_p]; [reflexivity|apply vadd_scal|ring]. Qed.
Lemma psub_q a b : psub n (pq a) (pq b) = pq (psub n a b).
Proof.
  apply prim_ext; cbn [psub pq p_rho p_u p_p]; [reflexivity| |ring].
  apply comp_ext; intros i. rewrite !comp_scal, !comp_add, !comp_scal. ring.
Qed.
Lemma pscal_q x a : pscal n x (pq a) = pq (pscal n x a).
Proof. apply prim_ext; cbn [pscal pq p_rho p_u p_p]; [reflexivity| |ring]. rewrite !scal_scal. f_equal. ring. Qed.
Lemma Rmax_kk2 a b : Rmax (k * k * a) (k * k * b) = k * k * Rmax a b.
Proof. now rewrite !Rmult_assoc, !Rmax_kk. Qed.
Lemma Rmin_kk2 a b : Rmin (k * k * a) (k * k * b) = k * k * Rmin a b.
Proof. now rewrite !Rmult_assoc, !Rmin_kk. Qed.
Lemma pclamp_q a b : pclamp n (pq a) (pq b) = pq (pclamp n a b).
Proof.
  apply prim_ext; cbn [pclamp pq p_rho p_u p_p]; [reflexivity|reflexivity|]. unfold clamp.
  rewrite <- Rmax_kk2, <- Rmin_kk2. f_equal; [ring|]. f_equal; ring.
Qed.
Lemma damp_q a b : wenof2_damp n gamma (pq a) (pq b) = wenof2_damp n gamma a b.
Proof.
  assert (E : wenof2_ll n (pq a) (pq b) = k * k * wenof2_ll n a b).
  { unfold wenof2_ll, pq. cbn [p_rho p_u p_p]. rewrite !dot_scal.
    replace (Rmin 0 (p_rho b * (k * k * vdot n (p_u a) (p_u b)))) with (k * k * Rmin 0 (p_rho b * vdot n (p_u a) (p_u b))).
    - unfold Rdiv. ring.
    - rewrite <- Rmin_kk2. f_equal; ring. }
  unfold wenof2_damp. cbv zeta. rewrite E. cbn [pq p_p].
  replace (k * k * p_p a / (gamma - 1)) with (k * k * (p_p a / (gamma - 1))) by (unfold Rdiv; ring).
  rewrite Rmax_kk2. f_equal. f_equal. unfold Rdiv at 1. rewrite Rinv_mult.
  match goal with |- k * k * ?x * (/ (k * k) * / ?y) = _ => transitivity (k * k * / (k * k) * (x * / y)); [ring|] end.
  rewrite Rinv_r by (pose proof k2; lra). unfold Rdiv. ring.
Qed.
Lemma quick_wenof2 : carries_recon tau (wenof2_recon n gamma) (wenof2_recon n gamma).
Proof.
  split; [reflexivity|]. intros [|l [|u [|r [|]]]] Hl; try (exfalso; cbn [List.length rec_ghosts wenof2_recon] in Hl; lia).
  cbn [wenof2_recon rec_fun map]. unfold wenof2. rewrite !to_prim_q.
  change (rho_ (tau l)) with (rho_ l). change (rho_ (tau u)) with (rho_ u). change (rho_ (tau r)) with (rho_ r).
  cbn [fst snd]. repeat rewrite ?psub_q, ?pscal_q, ?padd_q, ?pclamp_q, ?damp_q. now rewrite !to_cons_q.
Qed.
Lemma ind_q a : comp 0 (tau a) = 1 * comp 0 a.
Proof. rewrite Rmult_1_l. reflexivity. Qed.
Lemma quick_recon name rc : find_recon (Euler n) gamma name = Some rc -> carries_recon tau rc rc.
Proof.
  unfold find_recon. pose proof (or_introl (B := 1 = -1) (eq_refl 1)) as S1.
  pose proof quick_add as TA. pose proof quick_scal as TS. pose proof quick_lift as TL.
  repeat (match goal with |- (if ?b then _ else _) = _ -> _ => destruct b end; [intros [= <-]|]); try discriminate.
  - apply carries_none.
  - now apply carries_eno with (s := 1); [..|intros a; apply ind_q].
  - now apply carries_eno with (s := 1); [..|intros a; apply ind_q].
  - now apply carries_eno with (s := 1); [..|intros a; apply ind_q].
  - now apply carries_weno2 with (s := 1); [..|intros a; apply ind_q].
  - now apply carries_weno with (s := 1); [..|intros a; apply ind_q].
  - apply quick_wenof2.
  - apply (carries_limiter_k tau k); [exact TL|now apply mc_homogeneous].
  - apply (carries_limiter_k tau k); [exact TL|now apply mm_homogeneous].
Qed.
End Quick.
