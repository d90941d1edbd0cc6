(** Property C25 in binary64 arithmetic: Uniform::scale stays within its bounds
    despite rounding. *)
From Coq Require Import ZArith Reals Lia Lra Bool.
From Flocq Require Import Core Plus_error.
From Flocq Require Import BinarySingleNaN.
From Verif Require Import M_Base M_TimeFloat L_TimeFloat.
Open Scope R_scope.

(** Uniform::scale, /repo/alsuq/src/distribution/Uniform.cpp lines 32-34, each
    operation rounded to nearest even (no fused multiply-add). *)
Definition uniform_scale64 (a b x : f64) : f64 := fadd (fmul x (fsub b a)) a.

(** The largest binary64 number below 1. *)
Definition below_one : R := 1 - bpow radix2 (-53).

Lemma F_below_one_max x : F x -> x < 1 -> x <= below_one.
Proof.
  intros Hx H.
  assert (F1 : F 1) by (apply (F_int 1); lia).
  assert (E : pred radix2 fe 1 = below_one).
  { change 1 with (bpow radix2 0) at 1. rewrite pred_bpow. unfold below_one.
    change (bpow radix2 0) with 1. f_equal. }
  rewrite <- E. apply pred_ge_gt; auto with typeclass_instances.
Qed.

(** Rounding the scaled width never gives more than the exact width. *)
Lemma scaled_width_le a b x :
  F a -> F b -> F x -> a <= b -> 0 <= x < 1 ->
  0 <= rnd (x * rnd (b - a)) <= b - a.
Proof.
  intros Fa Fb Fx Hab Hx.
  set (w := rnd (b - a)).
  assert (Hw0 : 0 <= w) by (apply rnd_ge_F; [apply F_0|lra]).
  assert (Hxw : 0 <= x * w) by (apply Rmult_le_pos; lra).
  split; [apply rnd_ge_F; [apply F_0|exact Hxw]|].
  destruct (generic_format_EM radix2 fe (b - a)) as [Fd|Nd].
  - (* the difference is exact *)
    assert (Ew : w = b - a) by (apply rnd_id; exact Fd).
    rewrite Ew. apply rnd_le_F; [exact Fd|]. rewrite <- Ew.
    rewrite <- (Rmult_1_l w) at 2. apply Rmult_le_compat_r; lra.
  - (* not exact: then it is large, and rounding goes below the rounded width *)
    assert (Hbig : bpow radix2 (-1021) < b - a).
    { apply Rnot_le_lt. intros Hsm. apply Nd.
      apply (FLT_format_plus_small radix2 (-1074) 53 b (- a)).
      - exact Fb.
      - apply generic_format_opp. exact Fa.
      - change (53 + -1074)%Z with (-1021)%Z.
        replace (b + - a) with (b - a) by ring. rewrite Rabs_pos_eq by lra. exact Hsm. }
    assert (Fw : F w) by apply F_rnd.
    assert (Fs : forall e, (-1074 <= e)%Z -> F (bpow radix2 e)).
    { intros e He. apply generic_format_bpow. unfold SpecFloat.fexp, SpecFloat.emin. lia. }
    assert (Hw1 : bpow radix2 (-1021) <= w) by (apply rnd_ge_F; [apply Fs; lia|lra]).
    assert (Hpw : bpow radix2 (-1022) <= pred radix2 fe w).
    { apply pred_ge_gt; auto with typeclass_instances.
      - apply Fs; lia.
      - eapply Rlt_le_trans; [|exact Hw1]. apply bpow_lt. lia. }
    assert (Hwpos : 0 < w).
    { eapply Rlt_le_trans; [|exact Hw1]. apply bpow_gt_0. }
    assert (Fp : F (pred radix2 fe w)) by (apply generic_format_pred; auto with typeclass_instances).
    assert (Hulp : pred radix2 fe w + ulp radix2 fe (pred radix2 fe w) = w)
      by (apply pred_plus_ulp; auto with typeclass_instances).
    assert (Hpp : 0 < pred radix2 fe w).
    { eapply Rlt_le_trans; [|exact Hpw]. apply bpow_gt_0. }
    assert (Hle : ulp radix2 fe (pred radix2 fe w) <= pred radix2 fe w * bpow radix2 (-52)).
    { rewrite <- (Rabs_pos_eq (pred radix2 fe w)) at 2 by lra.
      apply (ulp_FLT_le radix2 (-1074) 53). rewrite Rabs_pos_eq by lra. exact Hpw. }
    assert (Hlt : pred radix2 fe w < w) by (apply pred_lt_id; lra).
    assert (Hmid : x * w < (pred radix2 fe w + succ radix2 fe (pred radix2 fe w)) / 2).
    { rewrite succ_pred by (auto with typeclass_instances; exact Fw).
      assert (Hxm : x * w <= below_one * w)
        by (apply Rmult_le_compat_r; [lra|apply F_below_one_max; [exact Fx|lra]]).
      unfold below_one in Hxm.
      assert (E52 : bpow radix2 (-52) = 2 * bpow radix2 (-53)).
      { change 2 with (bpow radix2 1). rewrite <- bpow_plus. reflexivity. }
      rewrite E52 in Hle.
      assert (0 < bpow radix2 (-53)) by apply bpow_gt_0.
      assert (pred radix2 fe w * bpow radix2 (-53) < w * bpow radix2 (-53))
        by (apply Rmult_lt_compat_r; lra).
      lra. }
    assert (Hr : rnd (x * w) <= pred radix2 fe w)
      by (apply round_N_le_midp; auto with typeclass_instances).
    eapply Rle_trans; [exact Hr|].
    destruct (round_DN_or_UP radix2 fe ZnearestE (b - a)) as [E|E]; fold w in E.
    + eapply Rle_trans; [apply pred_le_id|]. rewrite E.
      apply round_DN_pt; auto with typeclass_instances.
    + rewrite E. eapply Rle_trans; [apply pred_UP_le_DN; auto with typeclass_instances|].
      apply round_DN_pt; auto with typeclass_instances.
Qed.

(** For all finite bounds whose difference does not overflow and all random
    numbers in [0,1) the computed value lies in [a,b]. *)
Theorem C25_binary64_in_bounds (a b x : f64) :
  is_finite a = true -> is_finite b = true -> is_finite x = true ->
  B2R a <= B2R b -> 0 <= B2R x < 1 ->
  is_finite (fsub b a) = true ->
  is_finite (uniform_scale64 a b x) = true
  /\ B2R a <= B2R (uniform_scale64 a b x) <= B2R b.
Proof.
  intros Fa Fb Fx Hab Hx Hover.
  assert (Ew : B2R (fsub b a) = rnd (B2R b - B2R a)).
  { unfold fsub in *. pose proof (Bminus_correct 53 1024 prec53 prec_emax mode_NE b a Fb Fa) as C.
    simpl round_mode in C.
    destruct (Rlt_bool _ _) eqn:E in C; [tauto|].
    destruct C as [C _]. exfalso.
    destruct (Bminus mode_NE b a); try discriminate Hover; cbn in C;
      unfold binary_overflow in C; cbn in C; discriminate. }
  pose proof (scaled_width_le (B2R a) (B2R b) (B2R x) (F_B2R a) (F_B2R b) (F_B2R x) Hab Hx) as [L0 L1].
  assert (Hwb : rnd (B2R b - B2R a) < big).
  { rewrite <- Ew. pose proof (abs_B2R_lt_emax 53 1024 (fsub b a)) as A.
    apply Rabs_lt_inv in A. exact (proj2 A). }
  assert (Hw0 : 0 <= rnd (B2R b - B2R a)) by (apply rnd_ge_F; [apply F_0|lra]).
  assert (Hle : rnd (B2R x * rnd (B2R b - B2R a)) <= rnd (B2R b - B2R a)).
  { apply rnd_le_F; [apply F_rnd|].
    rewrite <- (Rmult_1_l (rnd (B2R b - B2R a))) at 2. apply Rmult_le_compat_r; lra. }
  destruct (fmul_ok x (fsub b a) Fx Hover) as [Em Fm].
  { rewrite Ew. split; [exact L0|lra]. }
  rewrite Ew in Em.
  assert (Hup : rnd (B2R (fmul x (fsub b a)) + B2R a) <= B2R b)
    by (apply rnd_le_F; [apply F_B2R|rewrite Em; lra]).
  assert (Hlo : B2R a <= rnd (B2R (fmul x (fsub b a)) + B2R a))
    by (apply rnd_ge_F; [apply F_B2R|rewrite Em; lra]).
  unfold uniform_scale64.
  pose proof (Bplus_correct 53 1024 prec53 prec_emax mode_NE _ a Fm Fa) as C.
  simpl round_mode in C. rewrite Rlt_bool_true in C.
  - destruct C as (C1 & C2 & _). unfold fadd in *. rewrite C1. auto.
  - pose proof (abs_B2R_lt_emax 53 1024 a) as A. apply Rabs_lt_inv in A.
    pose proof (abs_B2R_lt_emax 53 1024 b) as B. apply Rabs_lt_inv in B.
    apply Rabs_lt. split; lra.
Qed.

(** Without the condition on the difference the value can be not a number:
    bounds -2^1023, 2^1023 and random number 0. *)
Definition two1023 (neg : bool) : f64 :=
  binary_normalize 53 1024 prec53 prec_emax mode_NE (if neg then -1 else 1)%Z 1023 neg.

Theorem C25_binary64_overflow_refuted :
  exists a b x : f64,
    is_finite a = true /\ is_finite b = true /\ is_finite x = true
    /\ Bltb a b = true /\ Beqb x fzero = true
    /\ is_nan (uniform_scale64 a b x) = true.
Proof.
  exists (two1023 true), (two1023 false), fzero.
  split; [vm_compute; reflexivity|]. split; [vm_compute; reflexivity|].
  split; [reflexivity|]. split; [vm_compute; reflexivity|].
  split; [vm_compute; reflexivity|]. vm_compute. reflexivity.
Qed.

(** Bounds 3 and 10, random number the largest below one: rounding takes the
    value to 10 exactly, so the upper bound is attained and the theorem cannot
    be sharpened to a strict inequality. *)
Example C25_binary64_nonvacuous :
  let x := Bpred (fofZ 1) in
  is_finite (fsub (fofZ 10) (fofZ 3)) = true
  /\ Bltb x (fofZ 1) = true
  /\ Beqb (uniform_scale64 (fofZ 3) (fofZ 10) x) (fofZ 10) = true.
Proof. vm_compute. auto. Qed.

Print Assumptions C25_binary64_in_bounds.
Print Assumptions C25_binary64_overflow_refuted.
