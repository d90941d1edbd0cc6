(** C15: save times in binary64 arithmetic. *)
From Coq Require Import ZArith Reals List Bool Lia Lra.
From Flocq Require Import Core.
From Flocq Require Import BinarySingleNaN.
From Verif Require Import M_Base M_TimeFloat L_TimeFloat.
Import ListNotations.
Open Scope Z_scope.

Definition f64_of (m e : Z) : f64 := binary_normalize 53 1024 prec53 prec_emax mode_NE m e false.

(** The interval 0.3 and a timestep of 1, and two earlier times. *)
Definition c15_T : f64 := f64_of 5404319552844595 (-54).
Definition c15_one : f64 := fofZ 1.
Definition c15_t1 : f64 := f64_of 5812962928166400 (-64).
Definition c15_t2 : f64 := f64_of 5323245751139784 (-58).

Lemma single_log (l : list (Z * f64)) k s :
  map (fun e => (fst e, B2SF (snd e))) l = [(k, B2SF s)] -> l = [(k, s)].
Proof.
  destruct l as [|[j v] [|]]; try discriminate. cbn [map fst snd]. intros Q. injection Q as -> Qv.
  now rewrite (B2SF_inj _ _ v s Qv).
Qed.

(** The stamp may lie above the save time, it may miss it by a step, and samples
    with different timesteps get different stamps for the same save. *)
Theorem C15_exact_refuted : exists T dts1 dts2 dts3 s1 s3,
  Forall (fun d => is_finite d = true /\ 0 < B2R d)%R (dts1 ++ dts2 ++ dts3) /\
  (* overshoot *)
  flog (fl_drive T false dts1) = [(1, s1)] /\ (B2R T < B2R s1)%R /\
  (* the step shortened to hit T does not reach it *)
  flog (fl_drive T false dts2) = [] /\ Bltb (ft (fl_drive T false dts2)) T = true /\
  (exists t dt, dts2 = [t; dt] /\ (B2R T < B2R dt)%R) /\
  (* another sample *)
  flog (fl_drive T false dts3) = [(1, s3)] /\ B2R s3 = B2R T /\ B2R s1 <> B2R s3.
Proof.
  pose (s1 := ft (fl_drive c15_T false [c15_t1; c15_one])).
  pose (s3 := ft (fl_drive c15_T false [c15_one])).
  exists c15_T, [c15_t1; c15_one], [c15_t2; c15_one], [c15_one], s1, s3.
  assert (Fin : forall x, is_finite x = true -> Bltb fzero x = true -> (is_finite x = true /\ 0 < B2R x)%R).
  { intros x Hx H. split; [exact Hx|]. rewrite Bltb_correct in H by (auto; reflexivity).
    change (B2R fzero) with 0%R in H. destruct (Rlt_bool_spec 0 (B2R x)); [assumption|discriminate]. }
  assert (LT : forall x y : f64, is_finite x = true -> is_finite y = true -> Bltb x y = true -> (B2R x < B2R y)%R).
  { intros x y Hx Hy H. rewrite Bltb_correct in H by auto. destruct (Rlt_bool_spec (B2R x) (B2R y)); [assumption|discriminate]. }
  assert (O : (B2R c15_T < B2R s1)%R) by (apply LT; vm_compute; reflexivity).
  assert (E : s3 = c15_T) by (apply B2SF_inj; vm_compute; reflexivity).
  split; [|split; [|split; [|split; [|split; [|split; [|split; [|split]]]]]]].
  - cbn [app]. repeat (apply Forall_cons; [apply Fin; vm_compute; reflexivity|]). apply Forall_nil.
  - apply single_log. vm_compute. reflexivity.
  - exact O.
  - assert (Q : length (flog (fl_drive c15_T false [c15_t2; c15_one])) = 0%nat) by (vm_compute; reflexivity).
    now apply length_zero_iff_nil.
  - vm_compute. reflexivity.
  - exists c15_t2, c15_one. split; [reflexivity|]. apply LT; vm_compute; reflexivity.
  - apply single_log. vm_compute. reflexivity.
  - now rewrite E.
  - rewrite E. lra.
Qed.

(** What holds: from the second save on every stamp is exactly the rounded
    product k * T, so samples agree; the first one is T or the next number. *)
Theorem C15_later_stamps_exact_partial : forall (T : f64) (wi : bool) (K : Z) (dts : list f64),
  is_finite T = true -> (bpow radix2 (-1021) <= B2R T)%R ->
  0 <= K <= 2 ^ 53 -> (IZR K * B2R T <= bpow radix2 1023)%R ->
  Z.of_nat (length dts) + 2 <= K ->
  Forall (fun d => is_finite d = true /\ 0 < B2R d)%R dts ->
  let r := fl_drive T wi dts in
  (* the saves are numbered consecutively, none is taken twice *)
  map fst (flog r) = zrange (if wi then 0 else 1) (fk r) /\
  forall k s, In (k, s) (flog r) ->
    is_finite s = true /\
    (k = 0 -> B2R s = 0%R) /\
    (k = 1 -> B2R s = B2R T \/ B2R s = succ radix2 (FLT_exp (-1074) 53) (B2R T)) /\
    (2 <= k -> B2R s = round radix2 (FLT_exp (-1074) 53) ZnearestE (IZR k * B2R T)).
Proof.
  intros T wi K dts H1 H2 H3 H4 H5 H6 r.
  destruct (drive_ok T wi K H1 H2 H3 H4 dts H5 H6) as (_ & _ & _ & Hl & Hm).
  split; [exact Hm|]. intros k s Hin. rewrite Forall_forall in Hl. exact (Hl _ Hin).
Qed.

Example C15_nonvacuous :
  (bpow radix2 (-1021) <= B2R c15_T)%R /\
  map fst (flog (fl_drive c15_T true [c15_one; c15_one; c15_t1; c15_one; c15_one])) = [0; 1; 2; 3; 4].
Proof.
  split; [|vm_compute; reflexivity].
  assert (E : c15_T = f64_of 5404319552844595 (-54)) by reflexivity.
  assert (L : (B2R (f64_of 1 (-1021)) <= B2R c15_T)%R).
  { assert (Q : Bleb (f64_of 1 (-1021)) c15_T = true) by (vm_compute; reflexivity).
    rewrite Bleb_correct in Q by (vm_compute; reflexivity).
    destruct (Rle_bool_spec (B2R (f64_of 1 (-1021))) (B2R c15_T)); [assumption|discriminate]. }
  apply Rle_trans with (2 := L). right.
  assert (S : B2SF (f64_of 1 (-1021)) = SpecFloat.S754_finite false 4503599627370496 (-1073)) by (vm_compute; reflexivity).
  rewrite <- SF2R_B2SF, S. unfold SF2R, F2R. cbn [Fnum Fexp cond_Zopp].
  change (IZR 4503599627370496) with (IZR (Zpower radix2 52)). rewrite IZR_Zpower by lia.
  rewrite <- bpow_plus. reflexivity.
Qed.

Print Assumptions C15_exact_refuted.
Print Assumptions C15_later_stamps_exact_partial.
