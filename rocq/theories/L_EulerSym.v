(** The Euler equations and their fluxes under an exchange of axes and under a reflection. *)
From Coq Require Import ZArith Reals List Bool Lia Lra.
From Verif Require Import M_Base M_Vec M_Flux M_Combined M_Euler M_Recon S_Symmetry S_EulerSym L_Euler L_SymScheme.
Import ListNotations.
Open Scope R_scope.

Lemma vset_scal n d k x (v : rvec n) : vset n d (k * x) (vscal k v) = vscal k (vset n d x v).
Proof.
  revert d v; induction n; intros d v; [now destruct v|]. destruct v as [v0 v], d; cbn; [reflexivity|].
  f_equal. apply IHn.
Qed.

(** [M] maps velocities, the direction [d] goes to [d'] with the sign [s]. *)
Record turn (n : nat) (M : rvec n -> rvec n) (d d' : nat) (s : R) : Prop := mkturn {
  M_add : forall a b, M (vadd a b) = vadd (M a) (M b);
  M_scal : forall k a, M (vscal k a) = vscal k (M a);
  M_dot : forall a b, vdot n (M a) (M b) = vdot n a b;
  M_nth : forall a, vnth n d' (M a) = s * vnth n d a;
  M_set : forall x a, M (vset n d x a) = vset n d' (s * x) (M a)
}.
Section Turn.
Variables (n : nat) (gamma : R) (M : rvec n -> rvec n) (d d' : nat) (s : R).
Hypothesis T : turn n M d d' s.
Hypothesis Hs : s = 1 \/ s = -1.
Let Ma := M_add _ _ _ _ _ T.
Let Ms := M_scal _ _ _ _ _ T.
Let Md := M_dot _ _ _ _ _ T.
Let Mn := M_nth _ _ _ _ _ T.
Let Mset := M_set _ _ _ _ _ T.
Notation tau := (on_momentum M).
Lemma ss : s * s = 1. Proof. destruct Hs as [->| ->]; ring. Qed.

Lemma tau_add a c : tau (vadd a c) = vadd (tau a) (tau c).
Proof. apply cons_ext; cbn; auto. Qed.
Lemma tau_scal k a : tau (vscal k a) = vscal k (tau a).
Proof. apply cons_ext; cbn; auto. Qed.
Lemma extra_u_tau u : extra_u (tau u) = M (extra_u u).
Proof. unfold extra_u. cbn. now rewrite Ms. Qed.
Lemma extra_p_tau u : extra_p gamma (tau u) = extra_p gamma u.
Proof. unfold extra_p. cbn. now rewrite Md. Qed.
Lemma u_tau u : vnth n d' (extra_u (tau u)) = s * vnth n d (extra_u u).
Proof. now rewrite extra_u_tau, Mn. Qed.
Lemma sound_tau u : sound gamma (tau u) = sound gamma u.
Proof. unfold sound. now rewrite extra_p_tau. Qed.
Lemma flux_tau u : euler_flux n gamma d' (tau u) = vscal s (tau (euler_flux n gamma d u)).
Proof.
  unfold euler_flux. rewrite u_tau, extra_p_tau. apply cons_ext.
  - cbn. apply Mn.
  - change (vset n d' (vnth n d' (vscal (s * vnth n d (extra_u u)) (M (mom u))) + extra_p gamma u)
             (vscal (s * vnth n d (extra_u u)) (M (mom u)))
            = vscal s (M (vset n d (vnth n d (vscal (vnth n d (extra_u u)) (mom u)) + extra_p gamma u)
                (vscal (vnth n d (extra_u u)) (mom u))))).
    generalize (vnth n d (extra_u u)) (extra_p gamma u) (mom u). intros k p m.
    rewrite Mset, <- vset_scal, Ms, vscal_vscal, !vnth_scal, Mn. f_equal.
    transitivity ((s * s) * (k * vnth n d m) + p); [ring|]. transitivity ((s * s) * (k * vnth n d m + p)); [rewrite ss|]; ring.
  - cbn. ring.
Qed.
Lemma speed_tau u : euler_speed n gamma d' (tau u) = euler_speed n gamma d u.
Proof.
  unfold euler_speed. rewrite u_tau, sound_tau. f_equal. rewrite Rabs_mult.
  destruct Hs as [->| ->]; [rewrite Rabs_R1|rewrite Rabs_left by lra]; ring.
Qed.
Lemma roe_u_tau l r : roe_u n (tau l) (tau r) = M (roe_u n l r).
Proof. unfold roe_u. rewrite !extra_u_tau. cbn [on_momentum rho_ mkcons fst]. now rewrite !Ms, Ma, !Ms. Qed.
Lemma roe_p_tau l r : roe_p n gamma (tau l) (tau r) = roe_p n gamma l r.
Proof. unfold roe_p. now rewrite !extra_p_tau. Qed.
Lemma roe_cs_tau l r : roe_cs n gamma (tau l) (tau r) = roe_cs n gamma l r.
Proof. unfold roe_cs. now rewrite roe_p_tau. Qed.
Lemma roe_d_tau l r : vnth n d' (roe_u n (tau l) (tau r)) = s * vnth n d (roe_u n l r).
Proof. now rewrite roe_u_tau, Mn. Qed.
Lemma zv_tau u : z_vel n gamma (tau u) = M (z_vel n gamma u) /\ z_first n gamma (tau u) = z_first n gamma u /\
  z_last n gamma (tau u) = z_last n gamma u.
Proof.
  unfold z_vel, z_first, z_last, to_prim. cbn [p_p p_u on_momentum rho_ mkcons fst mom snd en]. rewrite Md, !Ms. auto.
Qed.
Lemma central_tau l r :
  vscal (1 / 2) (vadd (euler_flux n gamma d' (tau l)) (euler_flux n gamma d' (tau r)))
  = vscal s (tau (vscal (1 / 2) (vadd (euler_flux n gamma d l) (euler_flux n gamma d r)))).
Proof.
  rewrite !flux_tau, tau_scal, tau_add. apply comp_ext; intros i. rewrite !comp_scal, !comp_add, !comp_scal. ring.
Qed.
End Turn.

(** ** Comparison of states *)
Lemma vec_eqb_spec n (a b : rvec n) : vec_eqb n a b = true <-> a = b.
Proof. split; [apply vec_eqb_eq | intros ->; apply vec_eqb_refl]. Qed.
Lemma cons_eqb_spec n (a b : cons n) : cons_eqb n a b = true <-> a = b.
Proof. split; [apply cons_eqb_eq | intros ->; apply cons_eqb_refl]. Qed.
Lemma cons_eqb_iff n (a b a' b' : cons n) : (a' = b' <-> a = b) -> cons_eqb n a' b' = cons_eqb n a b.
Proof.
  intros H. destruct (cons_eqb n a b) eqn:E.
  - apply cons_eqb_spec in E. apply cons_eqb_spec. tauto.
  - destruct (cons_eqb n a' b') eqn:E'; [|reflexivity]. apply cons_eqb_spec in E'.
    assert (a = b) by tauto. apply (cons_eqb_spec n) in H0. congruence.
Qed.

(** ** The same direction of travel: s = 1 *)
Section Plus.
Variables (n : nat) (gamma : R) (M : rvec n -> rvec n) (d d' : Z).
Hypothesis T : turn n M (Z.to_nat d) (Z.to_nat d') 1.
Notation tau := (on_momentum M).
Let S1 : (1 = 1 \/ 1 = -1) := or_introl eq_refl.
Notation dn := (Z.to_nat d).
Notation dn' := (Z.to_nat d').
Lemma vscal_one (V : cvars) (a : V) : vscal 1 a = a.
Proof. apply comp_ext; intros i. rewrite comp_scal. ring. Qed.
Lemma flux_plus u : euler_flux n gamma dn' (tau u) = tau (euler_flux n gamma dn u).
Proof. rewrite (flux_tau n gamma M dn dn' 1 T S1). apply vscal_one. Qed.
Lemma u_plus u : vnth n dn' (extra_u (tau u)) = vnth n dn (extra_u u).
Proof. rewrite (u_tau n M dn dn' 1 T). ring. Qed.
Lemma roe_plus l r : vnth n dn' (roe_u n (tau l) (tau r)) = vnth n dn (roe_u n l r).
Proof. rewrite (roe_d_tau n M dn dn' 1 T). ring. Qed.

Lemma carries_central : carries tau (euler_numflux n gamma ECentral) d (euler_numflux n gamma ECentral) d'.
Proof.
  intros l r. unfold euler_central. cbn [fst snd].
  rewrite (central_tau n gamma M dn dn' 1 T S1), vscal_one, !(speed_tau n gamma M dn dn' 1 T S1). reflexivity.
Qed.
Lemma hll_left_plus l r : hll_left n gamma dn' (tau l) (tau r) = hll_left n gamma dn l r.
Proof. unfold hll_left. now rewrite u_plus, roe_plus, (roe_cs_tau n gamma M dn dn' 1 T), (extra_p_tau n gamma M dn dn' 1 T). Qed.
Lemma hll_right_plus l r : hll_right n gamma dn' (tau l) (tau r) = hll_right n gamma dn l r.
Proof. unfold hll_right. now rewrite u_plus, roe_plus, (roe_cs_tau n gamma M dn dn' 1 T), (extra_p_tau n gamma M dn dn' 1 T). Qed.
Lemma hll3_left_plus l r : hll3_left n gamma dn' (tau l) (tau r) = hll3_left n gamma dn l r.
Proof. unfold hll3_left. now rewrite !u_plus, roe_plus, (roe_cs_tau n gamma M dn dn' 1 T), (extra_p_tau n gamma M dn dn' 1 T). Qed.
Lemma hll3_right_plus l r : hll3_right n gamma dn' (tau l) (tau r) = hll3_right n gamma dn l r.
Proof. unfold hll3_right. now rewrite !u_plus, roe_plus, (roe_cs_tau n gamma M dn dn' 1 T), (extra_p_tau n gamma M dn dn' 1 T). Qed.
Lemma carries_hll : carries tau (euler_numflux n gamma HLL) d (euler_numflux n gamma HLL) d'.
Proof.
  intros l r. unfold hll. cbn [fst snd]. rewrite hll_left_plus, hll_right_plus, !flux_plus. f_equal.
  destruct (Req_EM_T _ _); [symmetry; apply tau_zero; apply (tau_scal n M dn dn' 1 T)|].
  destruct (Rgt_dec _ _); [reflexivity|]. destruct (Rlt_dec _ _); [reflexivity|].
  now rewrite !(tau_scal n M dn dn' 1 T), !(tau_add n M dn dn' 1 T), !(tau_scal n M dn dn' 1 T), !(tau_add n M dn dn' 1 T), !(tau_scal n M dn dn' 1 T).
Qed.
Lemma middle_plus a sp sm us :
  hll3_middle n gamma dn' (tau a) sp sm (M us) = tau (hll3_middle n gamma dn a sp sm us).
Proof.
  unfold hll3_middle. rewrite u_plus, (extra_p_tau n gamma M dn dn' 1 T). apply cons_ext; cbn; auto.
  now rewrite (M_scal _ _ _ _ _ T).
Qed.
Lemma carries_hll3 : carries tau (euler_numflux n gamma HLL3) d (euler_numflux n gamma HLL3) d'.
Proof.
  intros l r. unfold hll3. cbn [fst snd].
  rewrite hll3_left_plus, hll3_right_plus, !flux_plus, !u_plus, !(extra_p_tau n gamma M dn dn' 1 T).
  change (rho_ (tau r)) with (rho_ r). change (rho_ (tau l)) with (rho_ l).
  change (mom (tau l)) with (M (mom l)). change (mom (tau r)) with (M (mom r)).
  change (mom (tau (euler_flux n gamma dn l))) with (M (mom (euler_flux n gamma dn l))).
  change (mom (tau (euler_flux n gamma dn r))) with (M (mom (euler_flux n gamma dn r))).
  rewrite !(M_nth _ _ _ _ _ T), !Rmult_1_l.
  set (sm := (_ / _)).
  set (us := vset n dn sm _). set (us' := vset n dn' sm _).
  assert (E : us' = M us).
  { unfold us, us'. rewrite (M_set _ _ _ _ _ T), Rmult_1_l.
    now rewrite !(M_scal _ _ _ _ _ T), !(M_add _ _ _ _ _ T), !(M_scal _ _ _ _ _ T). }
  rewrite E. f_equal.
  destruct (Req_EM_T _ _); [symmetry; apply tau_zero; apply (tau_scal n M dn dn' 1 T)|].
  destruct (Rgt_dec _ _); [reflexivity|]. destruct (Rlt_dec _ _); [reflexivity|].
  destruct (Rge_dec _ _); rewrite middle_plus;
    now rewrite !(tau_add n M dn dn' 1 T), !(tau_scal n M dn dn' 1 T), !(tau_add n M dn dn' 1 T), !(tau_scal n M dn dn' 1 T).
Qed.
End Plus.

(** ** Against the direction of travel: s = -1 *)
Section Minus.
Variables (n : nat) (gamma : R) (M : rvec n -> rvec n) (d : Z).
Hypothesis T : turn n M (Z.to_nat d) (Z.to_nat d) (-1).
Notation tau := (on_momentum M).
Notation dn := (Z.to_nat d).
Let S1 : (-1 = 1 \/ -1 = -1) := or_intror eq_refl.
Lemma roe_u_sym l r : roe_u n r l = roe_u n l r.
Proof.
  unfold roe_u. rewrite (Rplus_comm (sqrt (rho_ r))). f_equal. apply comp_ext; intros i. rewrite !comp_add. ring.
Qed.
Lemma roe_cs_sym l r : roe_cs n gamma r l = roe_cs n gamma l r.
Proof. unfold roe_cs, roe_p. rewrite (Rplus_comm (sqrt (rho_ r))), (Rplus_comm (rho_ r)), (Rplus_comm (_ * _)). reflexivity. Qed.

Lemma mirrors_central : mirrors tau (euler_numflux n gamma ECentral) d.
Proof.
  intros l r. unfold euler_central. cbn [fst snd].
  rewrite (central_tau n gamma M dn dn (-1) T S1), !(speed_tau n gamma M dn dn (-1) T S1), (Rmax_comm (euler_speed n gamma dn r)).
  do 4 f_equal. apply comp_ext; intros i. rewrite !comp_add. ring.
Qed.
Lemma Rmin_opp a b : Rmin (- a) (- b) = - Rmax a b.
Proof. unfold Rmin, Rmax. repeat destruct (Rle_dec _ _); lra. Qed.
Lemma Rmax_opp a b : Rmax (- a) (- b) = - Rmin a b.
Proof. unfold Rmin, Rmax. repeat destruct (Rle_dec _ _); lra. Qed.
Lemma hll_left_minus l r : hll_left n gamma dn (tau r) (tau l) = - hll_right n gamma dn l r.
Proof.
  unfold hll_left, hll_right.
  rewrite (u_tau n M dn dn (-1) T), (roe_d_tau n M dn dn (-1) T), (roe_cs_tau n gamma M dn dn (-1) T), (extra_p_tau n gamma M dn dn (-1) T), roe_u_sym, roe_cs_sym, <- Rmin_opp.
  change (rho_ (tau r)) with (rho_ r). f_equal; ring.
Qed.
Lemma hll_right_minus l r : hll_right n gamma dn (tau r) (tau l) = - hll_left n gamma dn l r.
Proof.
  unfold hll_left, hll_right.
  rewrite (u_tau n M dn dn (-1) T), (roe_d_tau n M dn dn (-1) T), (roe_cs_tau n gamma M dn dn (-1) T), (extra_p_tau n gamma M dn dn (-1) T), roe_u_sym, roe_cs_sym, <- Rmax_opp.
  change (rho_ (tau l)) with (rho_ l). f_equal; ring.
Qed.
Lemma hll3_left_minus l r : hll3_left n gamma dn (tau r) (tau l) = - hll3_right n gamma dn l r.
Proof.
  unfold hll3_left, hll3_right.
  rewrite !(u_tau n M dn dn (-1) T), (roe_d_tau n M dn dn (-1) T), (roe_cs_tau n gamma M dn dn (-1) T), (extra_p_tau n gamma M dn dn (-1) T), roe_u_sym, roe_cs_sym, <- Rmin_opp.
  change (rho_ (tau r)) with (rho_ r).
  replace (-1 * vnth n dn (extra_u r) - -1 * vnth n dn (extra_u l)) with (vnth n dn (extra_u l) - vnth n dn (extra_u r)) by ring.
  f_equal; ring.
Qed.
Lemma hll3_right_minus l r : hll3_right n gamma dn (tau r) (tau l) = - hll3_left n gamma dn l r.
Proof.
  unfold hll3_left, hll3_right.
  rewrite !(u_tau n M dn dn (-1) T), (roe_d_tau n M dn dn (-1) T), (roe_cs_tau n gamma M dn dn (-1) T), (extra_p_tau n gamma M dn dn (-1) T), roe_u_sym, roe_cs_sym, <- Rmax_opp.
  change (rho_ (tau l)) with (rho_ l).
  replace (-1 * vnth n dn (extra_u r) - -1 * vnth n dn (extra_u l)) with (vnth n dn (extra_u l) - vnth n dn (extra_u r)) by ring.
  f_equal; ring.
Qed.
(** HLL is mirrored when no speed is exactly zero and they are in order. *)
Lemma hll_minus l r : hll_left n gamma dn l r <> 0 -> hll_right n gamma dn l r <> 0 ->
  hll_left n gamma dn l r <= hll_right n gamma dn l r ->
  hll n gamma d (tau r) (tau l) = (vscal (-1) (tau (fst (hll n gamma d l r))), snd (hll n gamma d l r)).
Proof.
  intros Hl Hr Ho. unfold hll. cbn [fst snd]. rewrite hll_left_minus, hll_right_minus, !(flux_tau n gamma M dn dn (-1) T S1).
  set (sl := hll_left n gamma dn l r) in *. set (sr := hll_right n gamma dn l r) in *.
  rewrite !Rabs_Ropp, (Rmax_comm (Rabs sr)). f_equal.
  destruct (Req_EM_T sl 0), (Req_EM_T (- sr) 0); try lra.
  destruct (Rgt_dec sl 0), (Rlt_dec sr 0), (Rgt_dec (- sr) 0), (Rlt_dec (- sl) 0); try lra; try reflexivity.
  rewrite !(tau_scal n M dn dn (-1) T), !(tau_add n M dn dn (-1) T), !(tau_scal n M dn dn (-1) T), !(tau_add n M dn dn (-1) T), !(tau_scal n M dn dn (-1) T).
  apply comp_ext; intros i. rewrite !comp_scal, !comp_add, !comp_scal, !comp_add, !comp_scal.
  replace (- sl - - sr) with (sr - sl) by ring. ring.
Qed.
End Minus.

(** ** Tecno *)
Lemma logmean_sym l r : logmean r l = logmean l r.
Proof.
  unfold logmean. destruct (Req_EM_T (l - r) 0), (Req_EM_T (r - l) 0); try lra.
  destruct (Req_EM_T (ln l - ln r) 0), (Req_EM_T (ln r - ln l) 0); try lra. field. lra.
Qed.
Lemma bar_sym l r : bar r l = bar l r.
Proof. unfold bar. lra. Qed.
Lemma bar_opp l r : bar (- l) (- r) = - bar l r.
Proof. unfold bar. lra. Qed.
Lemma div_logmean_turn l r F : div_logmean r l (- F) = - div_logmean l r F.
Proof. unfold div_logmean. rewrite logmean_sym. destruct (Req_EM_T _ _); [ring|]. field; assumption. Qed.
Lemma energy_turn gamma z0l z0r F s : tecno_energy gamma z0r z0l (- F) (- s) = - tecno_energy gamma z0l z0r F s.
Proof. unfold tecno_energy. rewrite (bar_sym z0l z0r), div_logmean_turn. unfold Rdiv. ring. Qed.

Section Tecno.
Variables (n : nat) (gamma : R) (M : rvec n -> rvec n).
Hypothesis Minv : forall a, M (M a) = a.
Notation tau := (on_momentum M).
Lemma tau_inv u : tau (tau u) = u.
Proof. apply cons_ext; cbn; auto. Qed.
Lemma tau_same a b : tau a = tau b <-> a = b.
Proof. split; [|now intros ->]. intros H. now rewrite <- (tau_inv a), H, tau_inv. Qed.
Lemma carries_tecno d d' : turn n M (Z.to_nat d) (Z.to_nat d') 1 ->
  (forall l r, tecno_form gamma n (Z.to_nat d') (tau l) (tau r) = tau (tecno_form gamma n (Z.to_nat d) l r)) ->
  carries tau (Flux2 (tecno1 gamma n)) d (Flux2 (tecno1 gamma n)) d'.
Proof.
  intros T H l r. unfold tecno1. cbn [fst snd].
  rewrite (hll3_left_plus n gamma M d d' T), (hll3_right_plus n gamma M d d' T).
  rewrite (cons_eqb_iff n l r (tau l) (tau r) (tau_same l r)), H, (flux_plus n gamma M d d' T).
  now destruct (cons_eqb n l r).
Qed.
Lemma mirrors_tecno d : turn n M (Z.to_nat d) (Z.to_nat d) (-1) ->
  (forall l r, tecno_form gamma n (Z.to_nat d) (tau r) (tau l) = vscal (-1) (tau (tecno_form gamma n (Z.to_nat d) l r))) ->
  mirrors tau (Flux2 (tecno1 gamma n)) d.
Proof.
  intros T H l r. unfold tecno1. cbn [fst snd].
  rewrite (hll3_left_minus n gamma M d T), (hll3_right_minus n gamma M d T), !Rabs_Ropp, Rmax_comm.
  rewrite (cons_eqb_iff n l r (tau r) (tau l)) by (split; [intros E; symmetry; now apply tau_same | now intros ->]).
  rewrite H, (flux_tau n gamma M (Z.to_nat d) (Z.to_nat d) (-1) T (or_intror eq_refl)).
  destruct (cons_eqb n l r) eqn:E; [|reflexivity]. apply cons_eqb_spec in E. now subst.
Qed.
End Tecno.

(** ** Exchange of components and reflection *)
Ltac three := match goal with x : Z, H : (0 <= ?x < _)%Z |- _ =>
  is_var x; assert (x = 0 \/ x = 1 \/ x = 2)%Z as [E|[E|E]] by lia; subst x; try lia end.
Ltac small n Hn := destruct n as [|[|[|[|n]]]]; try lia; cbn [Z.of_nat Pos.of_succ_nat Pos.succ] in *;
  repeat three; unfold vswap, vflip, swap_axis; cbn [Z.eqb Pos.eqb];
  change (Z.to_nat 0) with 0%nat; change (Z.to_nat 1) with 1%nat; change (Z.to_nat 2) with 2%nat.
Ltac crush := cbn; intros; repeat match goal with v : (_ * _)%type |- _ => destruct v; cbn end; cbn;
  repeat match goal with |- (_, _) = (_, _) => f_equal end; try reflexivity; try ring;
  try (match goal with |- @eq _ ?x ?y => change (@eq R x y); ring end).

Lemma swap_turn n a e d : (1 <= n <= 3)%nat -> (0 <= a < Z.of_nat n)%Z -> (0 <= e < Z.of_nat n)%Z -> (0 <= d < Z.of_nat n)%Z ->
  turn n (vswap n a e) (Z.to_nat d) (Z.to_nat (swap_axis a e d)) 1.
Proof.
  intros Hn Ha He Hd. small n Hn; constructor; crush.
Qed.
Lemma swap_inv n a e v : (1 <= n <= 3)%nat -> (0 <= a < Z.of_nat n)%Z -> (0 <= e < Z.of_nat n)%Z -> vswap n a e (vswap n a e v) = v.
Proof. intros Hn Ha He. revert v. small n Hn; crush. Qed.
Lemma flip_turn n k d : (1 <= n <= 3)%nat -> (0 <= k < Z.of_nat n)%Z -> (0 <= d < Z.of_nat n)%Z ->
  turn n (vflip n k) (Z.to_nat d) (Z.to_nat d) (if (d =? k)%Z then -1 else 1).
Proof. intros Hn Ha Hd. small n Hn; constructor; crush. Qed.
Lemma flip_inv n k v : (1 <= n <= 3)%nat -> (0 <= k < Z.of_nat n)%Z -> vflip n k (vflip n k v) = v.
Proof. intros Hn Ha. revert v. small n Hn; crush. Qed.
