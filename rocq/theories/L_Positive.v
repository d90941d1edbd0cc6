(** Lemmas for C86: the HLL flux of the Euler equations and the cone of admissible states. *)
From Coq Require Import Reals List ZArith Lra Lia Bool.
From Verif Require Import M_Base M_Vec M_Flux M_Combined S_Euler L_Euler L_EulerEntropy M_Euler.
Import ListNotations.
Open Scope R_scope.

Lemma vdot_unit_unit n d : vdot n (unit_vec n d) (unit_vec n d) <= 1.
Proof.
  revert d. induction n as [|n IH]; intros d; [cbn; lra|]. destruct d as [|d].
  - change (1 * 1 + vdot n vzero vzero <= 1). assert (E : vdot n vzero vzero = 0); [|rewrite E; lra].
    clear. induction n as [|n IH]; [reflexivity|]. change (0 * 0 + vdot n vzero vzero = 0). rewrite IH. ring.
  - change (0 * 0 + vdot n (unit_vec n d) (unit_vec n d) <= 1). specialize (IH d). lra.
Qed.

Lemma sq_mean s a b x y : 0 <= s -> 0 < a -> 0 < b ->
  (s * x + y) * (s * x + y) / (s * a + b) <= s * (x * x / a) + y * y / b.
Proof.
  intros Hs Ha Hb. assert (Hc : 0 < s * a + b) by nra.
  apply (Rmult_le_reg_r (s * a + b)); [exact Hc|]. unfold Rdiv at 1. rewrite Rmult_assoc, Rinv_l, Rmult_1_r by lra.
  assert (E : (s * (x * x / a) + y * y / b) * (s * a + b) - (s * x + y) * (s * x + y) = s * (a * b) * ((x / a - y / b) * (x / a - y / b)))
    by (field; lra).
  assert (0 <= s * (a * b) * ((x / a - y / b) * (x / a - y / b))).
  { apply Rmult_le_pos; [apply Rmult_le_pos; [exact Hs|nra]|apply Rle_0_sqr]. }
  lra.
Qed.
Lemma vdot_mean n s a b (x y : rvec n) : 0 <= s -> 0 < a -> 0 < b ->
  vdot n (vadd (vscal s x) y) (vadd (vscal s x) y) / (s * a + b) <= s * (vdot n x x / a) + vdot n y y / b.
Proof.
  intros Hs Ha Hb. induction n as [|n IH].
  - cbn [vdot]. unfold Rdiv. lra.
  - destruct x as [x0 x], y as [y0 y]. specialize (IH x y). pose proof (sq_mean s a b x0 y0 Hs Ha Hb) as Q.
    match goal with |- ?l / _ <= s * (?p / a) + ?q / b =>
      change l with ((s * x0 + y0) * (s * x0 + y0) + vdot n (vadd (vscal s x) y) (vadd (vscal s x) y));
      change p with (x0 * x0 + vdot n x x); change q with (y0 * y0 + vdot n y y) end.
    generalize dependent (vdot n (vadd (vscal s x) y) (vadd (vscal s x) y)). intros u IH.
    unfold Rdiv in *. rewrite !Rmult_plus_distr_r. rewrite Rmult_plus_distr_l. lra.
Qed.

Section Cone.
Variables (n : nat) (gamma : R).
Hypothesis Hg : 1 < gamma.
Notation adm := (admissible n gamma).
Notation E := (euler_cvars n).

Lemma adm_add s (x y : E) : 0 <= s -> adm x -> adm y -> adm (vadd (vscal s x) y).
Proof.
  intros Hs Hx Hy. destruct Hx as (X1 & X2), Hy as (Y1 & Y2).
  destruct x as [a [m e]], y as [b [k f]].
  change (0 < a) in X1. change (0 < b) in Y1.
  change (0 < (gamma - 1) * (e - 1 / 2 * vdot n m m / a)) in X2. change (0 < (gamma - 1) * (f - 1 / 2 * vdot n k k / b)) in Y2.
  split.
  - change (0 < s * a + b). nra.
  - change (0 < (gamma - 1) * (s * e + f - 1 / 2 * vdot n (vadd (vscal s m) k) (vadd (vscal s m) k) / (s * a + b))).
    pose proof (vdot_mean n s a b m k Hs X1 Y1) as Q.
    generalize dependent (vdot n (vadd (vscal s m) k) (vadd (vscal s m) k)). intros z Q.
    generalize dependent (vdot n m m). intros mm X2 Q. generalize dependent (vdot n k k). intros kk Y2 Q.
    assert (A1 : 0 < e - 1 / 2 * mm / a) by (apply (Rmult_lt_reg_l (gamma - 1)); lra).
    assert (A2 : 0 < f - 1 / 2 * kk / b) by (apply (Rmult_lt_reg_l (gamma - 1)); lra).
    apply Rmult_lt_0_compat; [lra|]. unfold Rdiv in *.
    assert (s * (1 / 2 * mm * / a) <= s * e) by (apply Rmult_le_compat_l; lra). lra.
Qed.
Lemma adm_scal s (x : E) : 0 < s -> adm x -> adm (vscal s x).
Proof.
  intros Hs Hx. destruct Hx as (X1 & X2). destruct x as [a [m e]].
  change (0 < a) in X1. change (0 < (gamma - 1) * (e - 1 / 2 * vdot n m m / a)) in X2.
  split.
  - change (0 < s * a). nra.
  - change (0 < (gamma - 1) * (s * e - 1 / 2 * vdot n (vscal s m) (vscal s m) / (s * a))).
    rewrite vdot_scal. generalize dependent (vdot n m m). intros mm X2.
    replace ((gamma - 1) * (s * e - 1 / 2 * (s * s * mm) / (s * a))) with (s * ((gamma - 1) * (e - 1 / 2 * mm / a))) by (field; lra).
    now apply Rmult_lt_0_compat.
Qed.

(** Nonnegative multiples of admissible states, and the zero vector. *)
Definition wadm (x : E) : Prop := x = vzero \/ adm x.
Lemma wadm_scal s x : 0 <= s -> wadm x -> wadm (vscal s x).
Proof.
  intros Hs [->|Hx]; [left; apply vscal_zero|]. destruct (Req_EM_T s 0) as [->|Hn].
  - left. apply comp_ext. intros i. rewrite comp_scal, comp_zero. ring.
  - right. apply adm_scal; [lra|exact Hx].
Qed.
Lemma adm_wadm (x y : E) : adm x -> wadm y -> adm (vadd x y).
Proof.
  intros Hx [->|Hy]; [now rewrite vadd_zero|]. rewrite <- (vscal_1 x). apply adm_add; [lra|exact Hx|exact Hy].
Qed.
Lemma wadm_add x y : wadm x -> wadm y -> wadm (vadd x y).
Proof.
  intros [->|Hx] Hy; [|right; now apply adm_wadm].
  replace (vadd vzero y) with y; [exact Hy|]. apply comp_ext. intros i. rewrite comp_add, comp_zero. ring.
Qed.

(** Below, w is 1 or -1. *)
Lemma adm_flux (d : nat) w a (u : E) : w * w = 1 -> adm u -> sound gamma u <= a - w * vnth n d (extra_u u) ->
  adm (vadd (vscal a u) (vscal (- w) (euler_flux n gamma d u))).
Proof.
  intros Hw Hu Hb. pose proof (sound_pos n gamma u ltac:(lra) Hu) as Hc.
  assert (Hcc : sound gamma u * sound gamma u = gamma * extra_p gamma u / rho_ u).
  { unfold sound. apply sqrt_sqrt. destruct Hu as [U1 U2]. change (p_p (to_prim n gamma u)) with (extra_p gamma u) in U2.
    apply Rlt_le, Rdiv_lt_0_compat; [|exact U1]. apply Rmult_lt_0_compat; lra. }
  destruct Hu as [U1 U2]. change (p_p (to_prim n gamma u)) with (extra_p gamma u) in U2.
  set (v := vnth n d (extra_u u)) in *. set (p := extra_p gamma u) in *. set (c := sound gamma u) in *.
  assert (Hp : p = (gamma - 1) * (en u - 1 / 2 * vdot n (mom u) (mom u) / rho_ u)) by reflexivity.
  assert (Hm : vnth n d (mom u) = rho_ u * v).
  { unfold v, extra_u. rewrite vnth_scal. field. lra. }
  assert (Hf : euler_flux n gamma d u = mkcons (n := n) (vnth n d (mom u)) (vadd (vscal v (mom u)) (vscal p (unit_vec n d))) ((en u + p) * v)).
  { unfold euler_flux. fold v p. now rewrite vset_add. }
  rewrite Hf. clear Hf. clearbody v p c. destruct u as [r [m e]].
  change (rho_ ((r, (m, e)) : cons n)) with r in *. change (mom ((r, (m, e)) : cons n)) with m in *.
  change (en ((r, (m, e)) : cons n)) with e in *.
  assert (Hb2 : 0 < a - w * v) by lra.
  set (b := a - w * v) in *.
  assert (Em : vadd (vscal a m) (vscal (- w) (vadd (vscal v m) (vscal p (unit_vec n d)))) =
               vadd (vscal b m) (vscal (- (w * p)) (unit_vec n d))).
  { apply comp_ext. intros i. rewrite !comp_add, !comp_scal, !comp_add, !comp_scal. unfold b. ring. }
  split.
  - change (0 < a * r + - w * vnth n d m). rewrite Hm. replace (a * r + - w * (r * v)) with (b * r) by (unfold b; ring).
    now apply Rmult_lt_0_compat.
  - match goal with |- 0 < ?x => change x with ((gamma - 1) * (a * e + - w * ((e + p) * v) -
      1 / 2 * vdot n (vadd (vscal a m) (vscal (- w) (vadd (vscal v m) (vscal p (unit_vec n d)))))
                     (vadd (vscal a m) (vscal (- w) (vadd (vscal v m) (vscal p (unit_vec n d)))))
        / (a * r + - w * vnth n d m))) end.
    rewrite Em, Hm. replace (a * r + - w * (r * v)) with (b * r) by (unfold b; ring).
    assert (Ev : vdot n (vadd (vscal b m) (vscal (- (w * p)) (unit_vec n d))) (vadd (vscal b m) (vscal (- (w * p)) (unit_vec n d))) =
      b * b * vdot n m m - 2 * b * (w * p) * (r * v) + p * p * vdot n (unit_vec n d) (unit_vec n d)).
    { rewrite vdot_add_r, !vdot_scal_r. rewrite (vdot_comm _ _ m), (vdot_comm _ _ (unit_vec n d)).
      rewrite !vdot_add_r, !vdot_scal_r. rewrite (vdot_comm _ (unit_vec n d) m), vdot_unit, Hm.
      replace (b * (b * vdot n m m + - (w * p) * (r * v)) + - (w * p) * (b * (r * v) + - (w * p) * vdot n (unit_vec n d) (unit_vec n d)))
        with (b * b * vdot n m m - 2 * b * (w * p) * (r * v) + (w * w) * (p * p) * vdot n (unit_vec n d) (unit_vec n d)) by ring.
      rewrite Hw. ring. }
    rewrite Ev. clear Ev Em. pose proof (vdot_unit_unit n d) as Hq. pose proof (vdot_pos n (unit_vec n d)) as Hq0.
    generalize dependent (vdot n m m). intros mm Hp. generalize dependent (vdot n (unit_vec n d) (unit_vec n d)). intros q Hq Hq0.
    apply Rmult_lt_0_compat; [lra|].
    change R in r, e.
    assert (He : e = p / (gamma - 1) + 1 / 2 * mm / r) by (rewrite Hp; field; lra).
    replace (a * e + - w * ((e + p) * v) - 1 / 2 * (b * b * mm - 2 * b * (w * p) * (r * v) + p * p * q) / (b * r))
      with (p * (/ (b * r)) * (b * b * r / (gamma - 1) - p * q / 2)).
    2:{ rewrite He. unfold b. field. repeat split; fold b; lra. }
    apply Rmult_lt_0_compat; [apply Rmult_lt_0_compat; [exact U2|apply Rinv_0_lt_compat; now apply Rmult_lt_0_compat]|].
    assert (Hbb : gamma * p <= b * b * r).
    { assert (c * c <= b * b) by nra. rewrite Hcc in H. apply (Rmult_le_compat_r r) in H; [|lra].
      replace (gamma * p / r * r) with (gamma * p) in H by (toR; field; lra). exact H. }
    assert (gamma * p / (gamma - 1) <= b * b * r / (gamma - 1)).
    { unfold Rdiv. apply Rmult_le_compat_r; [|exact Hbb]. apply Rlt_le, Rinv_0_lt_compat. lra. }
    assert (p < gamma * p / (gamma - 1)).
    { apply (Rmult_lt_reg_r (gamma - 1)); [lra|]. unfold Rdiv. rewrite (Rmult_assoc (gamma * p)), Rinv_l by lra. nra. }
    assert (p * q <= p) by nra. lra.
Qed.

(** The part of a cell that stays: multiples of the state less a part of its flux. *)
Lemma wadm_own d a k t (u : E) : adm u -> sound gamma u + Rabs (vnth n d (extra_u u)) <= a -> a * Rabs t <= k ->
  wadm (vadd (vscal k u) (vscal t (euler_flux n gamma d u))).
Proof.
  intros Hu Ha Hk. pose proof (sound_pos n gamma u ltac:(lra) Hu) as Hc.
  pose proof (Rabs_pos (vnth n d (extra_u u))) as Hv0. pose proof (Rle_abs (vnth n d (extra_u u))) as Hv1.
  pose proof (Rle_abs (- vnth n d (extra_u u))) as Hv2. rewrite Rabs_Ropp in Hv2.
  assert (A : adm (vadd (vscal a u) (vscal (- (1)) (euler_flux n gamma d u)))) by (apply adm_flux; [ring|exact Hu|lra]).
  assert (B : adm (vadd (vscal a u) (vscal (- (-1)) (euler_flux n gamma d u)))) by (apply adm_flux; [ring|exact Hu|lra]).
  assert (a0 : 0 < a) by lra.
  assert (Hk' : Rabs t <= k / a).
  { apply (Rmult_le_reg_l a); [exact a0|]. replace (a * (k / a)) with k by (field; lra). exact Hk. }
  pose proof (Rle_abs t). pose proof (Rle_abs (- t)) as T2. rewrite Rabs_Ropp in T2.
  replace (vadd (vscal k u) (vscal t (euler_flux n gamma d u))) with
    (vadd (vscal ((k / a - t) / 2) (vadd (vscal a u) (vscal (- (1)) (euler_flux n gamma d u))))
          (vscal ((k / a + t) / 2) (vadd (vscal a u) (vscal (- (-1)) (euler_flux n gamma d u))))).
  2:{ apply comp_ext. intros i. rewrite !comp_add, !comp_scal, !comp_add, !comp_scal. field. lra. }
  apply wadm_add; apply wadm_scal; try (right; assumption); lra.
Qed.

(** What leaves a cell through its right face, and what enters through its left face. *)
Lemma hll_out d a (l r : E) : adm l -> adm r -> snd (hll n gamma d l r) <= a ->
  exists al A w, wadm w /\ 0 <= al <= 1 /\ 0 <= A <= a * al /\ A <= a * (1 - al) /\
    vscal (-1) (fst (hll n gamma d l r)) =
    vadd w (vadd (vscal (- A) l) (vscal (- al) (euler_flux n gamma (Z.to_nat d) l))).
Proof.
  intros Hl Hr. unfold hll. cbv zeta. cbn [fst snd]. set (e := Z.to_nat d).
  assert (SL : hll_left n gamma e l r <= vnth n e (extra_u l) - sound gamma l) by apply Rmin_l.
  assert (SR : vnth n e (extra_u r) + sound gamma r <= hll_right n gamma e l r) by apply Rmax_l.
  set (sl := hll_left n gamma e l r) in *. set (sr := hll_right n gamma e l r) in *. clearbody sl sr. intros Ha.
  pose proof (Rmax_l (Rabs sl) (Rabs sr)). pose proof (Rmax_r (Rabs sl) (Rabs sr)).
  pose proof (Rle_abs sr). pose proof (Rle_abs (- sl)) as Hs. rewrite Rabs_Ropp in Hs. pose proof (Rabs_pos sl).
  destruct (Req_EM_T sl 0) as [E0|N0].
  { exists 0, 0, vzero. split; [now left|]. repeat split; try nra. apply comp_ext. intros i.
    rewrite ?comp_add, ?comp_scal, ?comp_zero, ?comp_add, ?comp_scal. ring. }
  destruct (Rgt_dec sl 0) as [P|NP].
  { exists 1, 0, vzero. split; [now left|]. repeat split; try nra. apply comp_ext. intros i.
    rewrite ?comp_add, ?comp_scal, ?comp_zero, ?comp_add, ?comp_scal. ring. }
  assert (W : forall x, sr <= x -> wadm (vadd (vscal x r) (vscal (- (1)) (euler_flux n gamma e r)))).
  { intros x Hx. right. apply adm_flux; [ring|exact Hr|lra]. }
  destruct (Rlt_dec sr 0) as [P2|NP2].
  { exists 0, 0, (vscal (-1) (euler_flux n gamma e r)). split; [|repeat split; try nra].
    - replace (vscal (-1) (euler_flux n gamma e r)) with
        (vadd (vscal (- sr) r) (vadd (vscal sr r) (vscal (- (1)) (euler_flux n gamma e r)))).
      + apply wadm_add; [apply wadm_scal; [lra|now right]|apply W; lra].
      + apply comp_ext. intros i. rewrite !comp_add, !comp_scal. ring.
    - apply comp_ext. intros i. rewrite ?comp_add, ?comp_scal, ?comp_zero, ?comp_add, ?comp_scal. ring. }
  assert (D : 0 < sr - sl) by lra. assert (I : 0 < / (sr - sl)) by now apply Rinv_0_lt_compat.
  exists (sr / (sr - sl)), (sr * - sl / (sr - sl)), (vscal (- sl / (sr - sl)) (vadd (vscal sr r) (vscal (- (1)) (euler_flux n gamma e r)))).
  split; [apply wadm_scal; [unfold Rdiv; apply Rmult_le_pos; lra|apply W; lra]|].
  assert (Q : sr * / (sr - sl) - sl * / (sr - sl) = 1) by (field; lra).
  assert (Q1 : 0 <= sr * / (sr - sl)) by (apply Rmult_le_pos; lra).
  assert (Q2 : 0 <= - sl * / (sr - sl)) by (apply Rmult_le_pos; lra).
  unfold Rdiv. repeat split; try lra.
  - replace (sr * - sl * / (sr - sl)) with (sr * / (sr - sl) * - sl) by ring. apply Rmult_le_pos; lra.
  - replace (sr * - sl * / (sr - sl)) with (- sl * (sr * / (sr - sl))) by ring. apply Rmult_le_compat_r; lra.
  - replace (1 - sr * / (sr - sl)) with (- sl * / (sr - sl)) by lra.
    rewrite Rmult_assoc. apply Rmult_le_compat_r; lra.
  - apply comp_ext. intros i. rewrite ?comp_add, ?comp_scal, ?comp_add, ?comp_scal, ?comp_add, ?comp_scal. field. lra.
Qed.
Lemma hll_in d a (l r : E) : adm l -> adm r -> snd (hll n gamma d l r) <= a ->
  exists be B w, wadm w /\ 0 <= be <= 1 /\ 0 <= B <= a * be /\ B <= a * (1 - be) /\
    fst (hll n gamma d l r) = vadd w (vadd (vscal (- B) r) (vscal be (euler_flux n gamma (Z.to_nat d) r))).
Proof.
  intros Hl Hr. unfold hll. cbv zeta. cbn [fst snd]. set (e := Z.to_nat d).
  assert (SL : hll_left n gamma e l r <= vnth n e (extra_u l) - sound gamma l) by apply Rmin_l.
  assert (SR : vnth n e (extra_u r) + sound gamma r <= hll_right n gamma e l r) by apply Rmax_l.
  set (sl := hll_left n gamma e l r) in *. set (sr := hll_right n gamma e l r) in *. clearbody sl sr. intros Ha.
  pose proof (Rmax_l (Rabs sl) (Rabs sr)). pose proof (Rmax_r (Rabs sl) (Rabs sr)).
  pose proof (Rle_abs sr). pose proof (Rle_abs (- sl)) as Hs. rewrite Rabs_Ropp in Hs. pose proof (Rabs_pos sl).
  destruct (Req_EM_T sl 0) as [E0|N0].
  { exists 0, 0, vzero. split; [now left|]. repeat split; try nra. apply comp_ext. intros i.
    rewrite ?comp_add, ?comp_scal, ?comp_zero, ?comp_add, ?comp_scal. ring. }
  assert (W : wadm (vadd (vscal (- sl) l) (vscal (- (-1)) (euler_flux n gamma e l)))).
  { right. apply adm_flux; [ring|exact Hl|lra]. }
  destruct (Rgt_dec sl 0) as [P|NP].
  { exists 0, 0, (euler_flux n gamma e l). split; [|repeat split; try nra].
    - replace (euler_flux n gamma e l) with
        (vadd (vscal sl l) (vadd (vscal (- sl) l) (vscal (- (-1)) (euler_flux n gamma e l)))).
      + apply wadm_add; [apply wadm_scal; [lra|now right]|exact W].
      + apply comp_ext. intros i. rewrite !comp_add, !comp_scal. ring.
    - apply comp_ext. intros i. rewrite ?comp_add, ?comp_scal, ?comp_zero, ?comp_add, ?comp_scal. ring. }
  destruct (Rlt_dec sr 0) as [P2|NP2].
  { exists 1, 0, vzero. split; [now left|]. repeat split; try nra. apply comp_ext. intros i.
    rewrite ?comp_add, ?comp_scal, ?comp_zero, ?comp_add, ?comp_scal. ring. }
  assert (D : 0 < sr - sl) by lra. assert (I : 0 < / (sr - sl)) by now apply Rinv_0_lt_compat.
  exists (- sl / (sr - sl)), (sr * - sl / (sr - sl)), (vscal (sr / (sr - sl)) (vadd (vscal (- sl) l) (vscal (- (-1)) (euler_flux n gamma e l)))).
  split; [apply wadm_scal; [unfold Rdiv; apply Rmult_le_pos; lra|exact W]|].
  assert (Q : sr * / (sr - sl) - sl * / (sr - sl) = 1) by (field; lra).
  assert (Q1 : 0 <= sr * / (sr - sl)) by (apply Rmult_le_pos; lra).
  assert (Q2 : 0 <= - sl * / (sr - sl)) by (apply Rmult_le_pos; lra).
  unfold Rdiv. repeat split; try lra.
  - replace (sr * - sl * / (sr - sl)) with (sr * / (sr - sl) * - sl) by ring. apply Rmult_le_pos; lra.
  - rewrite Rmult_assoc. apply Rmult_le_compat_r; lra.
  - replace (1 - - sl * / (sr - sl)) with (sr * / (sr - sl)) by lra.
    replace (sr * - sl * / (sr - sl)) with (- sl * (sr * / (sr - sl))) by ring. apply Rmult_le_compat_r; lra.
  - apply comp_ext. intros i. rewrite ?comp_add, ?comp_scal, ?comp_add, ?comp_scal, ?comp_add, ?comp_scal. field. lra.
Qed.

(** A state and the fluxes of the two faces of a cell in one direction. *)
Lemma hll_direction d a (l u r : E) : adm l -> adm u -> adm r ->
  snd (hll n gamma d l u) <= a -> snd (hll n gamma d u r) <= a ->
  wadm (vadd (vscal a u) (vadd (fst (hll n gamma d l u)) (vscal (-1) (fst (hll n gamma d u r))))).
Proof.
  intros Hl Hu Hr H1 H2. pose proof (sound_pos n gamma u ltac:(lra) Hu) as Hc.
  assert (B1 : vnth n (Z.to_nat d) (extra_u u) + sound gamma u <= a).
  { eapply Rle_trans; [|exact H1]. unfold hll. cbn [snd]. eapply Rle_trans; [|apply Rmax_r]. eapply Rle_trans; [|apply Rle_abs].
    apply Rmax_l. }
  assert (B2 : - vnth n (Z.to_nat d) (extra_u u) + sound gamma u <= a).
  { eapply Rle_trans; [|exact H2]. unfold hll. cbn [snd]. eapply Rle_trans; [|apply Rmax_l]. rewrite <- Rabs_Ropp.
    eapply Rle_trans; [|apply Rle_abs].
    assert (X : hll_left n gamma (Z.to_nat d) u r <= vnth n (Z.to_nat d) (extra_u u) - sound gamma u) by apply Rmin_l. lra. }
  destruct (hll_in d a l u Hl Hu H1) as (be & B & w1 & W1 & Y1 & Y2 & Y3 & E1).
  destruct (hll_out d a u r Hu Hr H2) as (al & A & w2 & W2 & Z1 & Z2 & Z3 & E2).
  rewrite E1, E2.
  replace (vadd (vscal a u)
     (vadd (vadd w1 (vadd (vscal (- B) u) (vscal be (euler_flux n gamma (Z.to_nat d) u))))
        (vadd w2 (vadd (vscal (- A) u) (vscal (- al) (euler_flux n gamma (Z.to_nat d) u))))))
    with (vadd (vadd w1 w2) (vadd (vscal (a - A - B) u) (vscal (be - al) (euler_flux n gamma (Z.to_nat d) u)))).
  2:{ apply comp_ext. intros i. rewrite !comp_add, !comp_scal. ring. }
  apply wadm_add; [now apply wadm_add|]. apply wadm_own with (a := a); [exact Hu| |].
  - unfold Rabs. destruct (Rcase_abs _); lra.
  - unfold Rabs. destruct (Rcase_abs _); nra.
Qed.
End Cone.
