(** Save times in binary64 arithmetic. *)
From Coq Require Import ZArith Reals List Bool Lia Lra.
From Flocq Require Import Core Sterbenz Relative.
From Flocq Require Import BinarySingleNaN.
From Verif Require Import M_Base M_TimeFloat.
Import ListNotations.
Open Scope Z_scope.

Notation fe := (SpecFloat.fexp 53 1024).
Notation rnd := (round radix2 fe ZnearestE).
Notation F := (generic_format radix2 fe).
Notation big := (bpow radix2 1024).
Global Existing Instance prec53.
Global Existing Instance prec_emax.
Global Instance fe_valid : Valid_exp fe := fexp_correct 53 1024 prec53.
Global Instance fe_mono : Monotone_exp fe := FLT_exp_monotone _ _.

Lemma rnd_mono x y : (x <= y)%R -> (rnd x <= rnd y)%R.
Proof. apply round_le; auto with typeclass_instances. Qed.
Lemma rnd_id x : F x -> rnd x = x.
Proof. intros. apply round_generic; auto with typeclass_instances. Qed.
Lemma F_rnd x : F (rnd x).
Proof. apply generic_format_round; auto with typeclass_instances. Qed.
Lemma F_B2R (x : f64) : F (B2R x).
Proof. apply (generic_format_B2R 53 1024). Qed.
Lemma rnd_le_F x y : F y -> (x <= y)%R -> (rnd x <= y)%R.
Proof. intros Hy H. rewrite <- (rnd_id y Hy). now apply rnd_mono. Qed.
Lemma rnd_ge_F x y : F x -> (x <= y)%R -> (x <= rnd y)%R.
Proof. intros Hx H. rewrite <- (rnd_id x Hx). now apply rnd_mono. Qed.
Lemma F_0 : F 0.
Proof. apply generic_format_0. Qed.

Lemma fadd_ok x y : is_finite x = true -> is_finite y = true -> (0 <= rnd (B2R x + B2R y) < big)%R ->
  B2R (fadd x y) = rnd (B2R x + B2R y) /\ is_finite (fadd x y) = true.
Proof.
  intros Fx Fy H. unfold fadd. pose proof (Bplus_correct 53 1024 prec53 prec_emax mode_NE x y Fx Fy) as C.
  simpl round_mode in C. rewrite Rlt_bool_true in C by (rewrite Rabs_pos_eq; lra). tauto.
Qed.
Lemma fsub_ok x y : is_finite x = true -> is_finite y = true -> (0 <= rnd (B2R x - B2R y) < big)%R ->
  B2R (fsub x y) = rnd (B2R x - B2R y) /\ is_finite (fsub x y) = true.
Proof.
  intros Fx Fy H. unfold fsub. pose proof (Bminus_correct 53 1024 prec53 prec_emax mode_NE x y Fx Fy) as C.
  simpl round_mode in C. rewrite Rlt_bool_true in C by (rewrite Rabs_pos_eq; lra). tauto.
Qed.
Lemma fmul_ok x y : is_finite x = true -> is_finite y = true -> (0 <= rnd (B2R x * B2R y) < big)%R ->
  B2R (fmul x y) = rnd (B2R x * B2R y) /\ is_finite (fmul x y) = true.
Proof.
  intros Fx Fy H. unfold fmul. pose proof (Bmult_correct 53 1024 prec53 prec_emax mode_NE x y) as C.
  simpl round_mode in C. rewrite Rlt_bool_true in C by (rewrite Rabs_pos_eq; lra). rewrite Fx, Fy in C. tauto.
Qed.

Lemma F_int k : 0 <= k <= 2 ^ 53 -> F (IZR k).
Proof.
  intros H. apply (generic_format_FLT radix2 (-1074) 53).
  destruct (Z.eq_dec k (2 ^ 53)) as [->|N].
  - exists (Float radix2 1 53); simpl; try lia. unfold F2R; simpl. lra.
  - exists (Float radix2 k 0); simpl; try lia. unfold F2R; simpl. lra.
Qed.

Lemma fofZ_ok k : 0 <= k <= 2 ^ 53 -> B2R (fofZ k) = IZR k /\ is_finite (fofZ k) = true.
Proof.
  intros H. unfold fofZ. pose proof (binary_normalize_correct 53 1024 prec53 prec_emax mode_NE k 0 false) as C.
  cbv zeta in C. simpl round_mode in C.
  assert (E : F2R (Float radix2 k 0) = IZR k) by (unfold F2R; simpl; lra).
  rewrite E in C. rewrite (rnd_id _ (F_int k H)) in C.
  rewrite Rlt_bool_true in C; [tauto|]. rewrite Rabs_pos_eq by (apply IZR_le; lia).
  apply Rle_lt_trans with (bpow radix2 53).
  - rewrite <- IZR_Zpower by lia. apply IZR_le. simpl. lia.
  - apply bpow_lt. lia.
Qed.

Section Run.
Variable T : f64.
Variable wi : bool.
Variable K : Z.
Hypothesis FT : is_finite T = true.
Hypothesis HT : (bpow radix2 (-1021) <= B2R T)%R.
Hypothesis HK : 0 <= K <= 2 ^ 53.
Hypothesis HKT : (IZR K * B2R T <= bpow radix2 1023)%R.

Let T' := B2R T.
Let Tpos : (0 < T')%R.
Proof. unfold T'. pose proof (bpow_gt_0 radix2 (-1021)). lra. Qed.
Let FT' : F T' := F_B2R T.

(** The k-th save time as computed. *)
Definition X (k : Z) : R := rnd (IZR k * T').

Lemma X_bounds k : 0 <= k <= K -> (0 <= X k < big)%R.
Proof.
  intros H. unfold X. split.
  - apply rnd_ge_F; [apply F_0|]. apply Rmult_le_pos; [apply IZR_le; lia|lra].
  - apply Rle_lt_trans with (bpow radix2 1023).
    + apply rnd_le_F; [apply generic_format_bpow; simpl; unfold SpecFloat.fexp, SpecFloat.emin; lia|].
      apply Rle_trans with (2 := HKT). apply Rmult_le_compat_r; [unfold T' in Tpos; lra|apply IZR_le; lia].
    + apply bpow_lt. lia.
Qed.
Lemma X_ok k : 0 <= k <= K -> B2R (fmul (fofZ k) T) = X k /\ is_finite (fmul (fofZ k) T) = true.
Proof.
  intros H. destruct (fofZ_ok k ltac:(lia)) as [E Fk].
  pose proof (X_bounds k H) as B. unfold X in *. rewrite <- E in B |- *. unfold T' in *. now apply fmul_ok.
Qed.
Lemma X_mono j k : j <= k -> (X j <= X k)%R.
Proof. intros H. apply rnd_mono. apply Rmult_le_compat_r; [lra|now apply IZR_le]. Qed.
Lemma X_F k : F (X k).
Proof. apply F_rnd. Qed.
Lemma X_1 : X 1 = T'.
Proof. unfold X. rewrite Rmult_1_l. now apply rnd_id. Qed.
Lemma X_0 : X 0 = 0%R.
Proof. unfold X. rewrite Rmult_0_l. apply rnd_id, F_0. Qed.

Lemma F_double x : F x -> F (2 * x).
Proof.
  intros H. apply (FLT_format_generic radix2 (-1074) 53) in H. destruct H as [f E Hm He].
  apply (generic_format_FLT radix2 (-1074) 53).
  exists (Float radix2 (Fnum f) (Fexp f + 1)); cbn [Fnum Fexp]; [|exact Hm|lia].
  rewrite E. unfold F2R; cbn [Fnum Fexp]. rewrite bpow_plus. change (bpow radix2 1) with 2%R. ring.
Qed.

Lemma rel x : (T' <= x)%R -> (x * (9 / 10) <= rnd x <= x * (11 / 10))%R.
Proof.
  intros H. assert (B : (bpow radix2 (-1074 + 53 - 1) <= Rabs x)%R).
  { rewrite Rabs_pos_eq by lra. apply Rle_trans with (bpow radix2 (-1021)); [apply bpow_le; lia|unfold T' in *; lra]. }
  pose proof (relative_error_N_FLT radix2 (-1074) 53 eq_refl (fun z => negb (Z.even z)) x B) as R.
  change (FLT_exp (-1074) 53) with fe in R. fold ZnearestE in R.
  rewrite (Rabs_pos_eq x) in R by lra.
  assert (E : (/ 2 * bpow radix2 (- (53) + 1) <= 1 / 10)%R).
  { apply Rle_trans with (/ 2 * bpow radix2 (-4))%R; [|simpl; lra].
    apply Rmult_le_compat_l; [lra|]. apply bpow_le. lia. }
  assert (M : (/ 2 * bpow radix2 (- (53) + 1) * x <= 1 / 10 * x)%R) by (apply Rmult_le_compat_r; lra).
  apply Rabs_le_inv in R. lra.
Qed.

Lemma X_half k : 2 <= k -> (X k / 2 <= X (k - 1))%R.
Proof.
  intros H. destruct (Z.eq_dec k 2) as [->|N].
  - change (2 - 1) with 1. rewrite X_1. unfold X. rewrite rnd_id by now apply F_double. lra.
  - assert (K3 : (3 <= IZR k)%R) by (apply IZR_le; lia).
    assert (R1 : (T' <= IZR k * T')%R) by nra.
    assert (R2 : (T' <= IZR (k - 1) * T')%R) by (rewrite minus_IZR; nra).
    apply rel in R1. apply rel in R2. unfold X. rewrite minus_IZR in *. nra.
Qed.

Lemma T'_le_X k : 1 <= k -> (T' <= X k)%R.
Proof. intros H. rewrite <- X_1. now apply X_mono. Qed.

(** What the log may contain. *)
Definition stamp_ok (e : Z * f64) : Prop :=
  let '(k, s) := e in
  is_finite s = true /\
  (k = 0 -> B2R s = 0%R) /\
  (k = 1 -> B2R s = T' \/ B2R s = succ radix2 fe T') /\
  (2 <= k -> B2R s = X k).

Definition inv (s : fst_) : Prop :=
  is_finite (ft s) = true /\ 1 <= fk s /\
  (if fk s =? 1 then 0 <= B2R (ft s) < T' else X (fk s - 1) <= B2R (ft s) <= X (fk s))%R /\
  Forall stamp_ok (flog s) /\
  map fst (flog s) = zrange (if wi then 0 else 1) (fk s).

Lemma put_spec s : is_finite (ft s) = true -> 0 <= fk s <= K -> (B2R (ft s) <> 0)%R ->
  fl_put T wi s = if Rle_bool (X (fk s)) (B2R (ft s))
    then mkfst (ft s) (fk s + 1) (flog s ++ [(fk s, ft s)])
    else mkfst (ft s) (fk s) (flog s).
Proof.
  intros Ff Hk Hn. unfold fl_put.
  assert (E : feq (ft s) fzero = false).
  { unfold feq. rewrite Beqb_correct by auto. apply Req_bool_false. exact Hn. }
  rewrite E. cbv zeta. unfold fge. destruct (X_ok (fk s) Hk) as [Ex Fx].
  rewrite Bleb_correct by auto. now rewrite Ex.
Qed.

Lemma succ_le_double : (succ radix2 fe T' <= X 2)%R.
Proof.
  unfold X. rewrite rnd_id by now apply F_double.
  rewrite succ_eq_pos by lra. pose proof (ulp_le_id radix2 fe T' Tpos FT'). lra.
Qed.

Lemma min_spec a b : is_finite a = true -> is_finite b = true ->
  is_finite (fmin a b) = true /\ B2R (fmin a b) = Rmin (B2R a) (B2R b).
Proof.
  intros Fa Fb. unfold fmin. rewrite Bltb_correct by auto.
  destruct (Rlt_bool_spec (B2R b) (B2R a)); split; auto.
  - now rewrite Rmin_right by lra.
  - now rewrite Rmin_left by lra.
Qed.

Lemma between_succ x : F x -> (T' <= x <= succ radix2 fe T')%R -> x = T' \/ x = succ radix2 fe T'.
Proof.
  intros Fx [H1 H2]. destruct (Rle_lt_or_eq_dec _ _ H1) as [L|E]; [right|left; auto].
  apply Rle_antisym; [exact H2|]. apply succ_le_lt; auto with typeclass_instances.
Qed.

Lemma step_ok s dt : inv s -> fk s + 1 <= K -> is_finite dt = true -> (0 < B2R dt)%R ->
  inv (fl_step T wi s dt) /\ fk s <= fk (fl_step T wi s dt) <= fk s + 1.
Proof.
  intros (Ff & Hk & Hb & Hl & Hm) HkK Fd Hd. unfold fl_step, fl_adjust.
  destruct (Z.ltb_spec 0 (fk s)) as [_|]; [|lia].
  destruct (X_ok (fk s) ltac:(lia)) as [Ex Fx]. pose proof (X_bounds (fk s) ltac:(lia)) as [_ Xb].
  pose proof (X_F (fk s)) as XF. pose proof (F_B2R (ft s)) as TF.
  set (k := fk s) in *. set (t := B2R (ft s)) in *.
  assert (Ht0 : (0 <= t)%R).
  { destruct (Z.eqb_spec k 1); [lra|]. pose proof (T'_le_X (k - 1) ltac:(lia)). lra. }
  assert (HtX : (t <= X k)%R).
  { destruct (Z.eqb_spec k 1) as [E|]; [rewrite E, X_1; lra|lra]. }
  (* the difference *)
  assert (Dle : (rnd (X k - t) <= X k)%R) by (apply rnd_le_F; [exact XF|lra]).
  assert (Dge : (0 <= rnd (X k - t))%R) by (apply rnd_ge_F; [apply F_0|lra]).
  destruct (fsub_ok (fmul (fofZ k) T) (ft s) Fx Ff) as [Es Fs].
  { fold t. rewrite Ex. lra. }
  fold t in Es. rewrite Ex in Es.
  destruct (min_spec dt (fsub (fmul (fofZ k) T) (ft s)) Fd Fs) as [Fm Em].
  set (m := fmin dt (fsub (fmul (fofZ k) T) (ft s))) in *. rewrite Es in Em.
  assert (M1 : (B2R m <= rnd (X k - t))%R) by (rewrite Em; apply Rmin_r).
  assert (M0 : (0 <= B2R m)%R) by (rewrite Em; apply Rmin_glb; lra).
  assert (Half : (X k / 2 <= t -> rnd (X k - t) = X k - t)%R).
  { intros H2. apply rnd_id. apply sterbenz; auto with typeclass_instances. lra. }
  (* the new time *)
  assert (Up : (rnd (t + B2R m) <= if k =? 1 then succ radix2 fe T' else X k)%R).
  { destruct (Rle_dec (X k / 2) t) as [H2|H2].
    - rewrite (Half H2) in M1. apply Rle_trans with (X k).
      + apply rnd_le_F; [exact XF|lra].
      + destruct (Z.eqb_spec k 1) as [E|]; [|lra]. rewrite E, X_1. apply succ_ge_id.
    - destruct (Z.eqb_spec k 1) as [E|E].
      + rewrite E, X_1 in *. apply rnd_le_F; [apply generic_format_succ; auto with typeclass_instances|].
        rewrite succ_eq_pos by lra.
        pose proof (error_le_half_ulp radix2 fe (fun z => negb (Z.even z)) (T' - t)) as Er.
        apply Rabs_le_inv in Er.
        assert (U : (ulp radix2 fe (T' - t) <= ulp radix2 fe T')%R) by (apply ulp_le_pos; auto with typeclass_instances; lra).
        pose proof (ulp_ge_0 radix2 fe T'). lra.
      + exfalso. pose proof (X_half k ltac:(lia)). lra. }
  assert (Lo : (t <= rnd (t + B2R m))%R) by (apply rnd_ge_F; [exact TF|lra]).
  assert (Hbig : (rnd (t + B2R m) < big)%R).
  { eapply Rle_lt_trans; [exact Up|]. destruct (Z.eqb_spec k 1); [|exact Xb].
    apply Rle_lt_trans with (X 2); [apply succ_le_double|]. apply X_bounds. lia. }
  destruct (fadd_ok (ft s) m Ff Fm) as [Ea Fa]; [fold t; lra|]. fold t in Ea.
  set (t' := fadd (ft s) m) in *.
  assert (Pos : (0 < B2R t')%R).
  { rewrite Ea. destruct (Z.eqb_spec k 1) as [E|E].
    - destruct (Rle_lt_or_eq_dec _ _ Ht0) as [|Z0]; [lra|]. rewrite <- Z0. rewrite Rplus_0_l.
      rewrite rnd_id by apply F_B2R. rewrite Em. apply Rmin_glb_lt; [exact Hd|]. rewrite <- Z0, Rminus_0_r, E, X_1.
      rewrite rnd_id by exact FT'. exact Tpos.
    - pose proof (T'_le_X (k - 1) ltac:(lia)). lra. }
  rewrite put_spec by (cbn [ft fk]; auto; try lia; lra). cbn [ft fk flog].
  destruct (Rle_bool_spec (X k) (B2R t')) as [S|S].
  - (* saved *)
    split; [|cbn [fk]; lia]. split; [exact Fa|]. cbn [fk ft flog]. split; [lia|].
    assert (St : stamp_ok (k, t')).
    { split; [exact Fa|]. split; [lia|]. split.
      - intros E. apply between_succ; [apply F_B2R|]. rewrite E, X_1 in S. rewrite Ea in *. rewrite E in Up. simpl in Up. lra.
      - intros E. destruct (Z.eqb_spec k 1); [lia|]. rewrite Ea in *. lra. }
    split; [|split].
    + destruct (Z.eqb_spec (k + 1) 1); [lia|]. replace (k + 1 - 1) with k by lia. split; [exact S|].
      rewrite Ea. eapply Rle_trans; [exact Up|]. destruct (Z.eqb_spec k 1) as [E|E].
      * rewrite E. apply succ_le_double.
      * apply X_mono. lia.
    + apply Forall_app. auto.
    + rewrite map_app, Hm. cbn [map fst]. unfold zrange.
      assert (0 <= k - (if wi then 0 else 1)) by (destruct wi; lia).
      replace (Z.to_nat (k + 1 - (if wi then 0 else 1))) with (Datatypes.S (Z.to_nat (k - (if wi then 0 else 1)))) by lia.
      rewrite seq_S, map_app. simpl. f_equal. f_equal. lia.
  - split; [|cbn [fk]; lia]. split; [exact Fa|]. cbn [fk ft flog]. split; [exact Hk|]. split; [|split; auto].
    destruct (Z.eqb_spec k 1) as [E|E]; [rewrite E, X_1 in S; lra|]. rewrite Ea in *. lra.
Qed.

Lemma start_ok : 2 <= K -> inv (fl_put T wi (mkfst fzero (if wi then 0 else 1) [])) /\
  fk (fl_put T wi (mkfst fzero (if wi then 0 else 1) [])) = 1.
Proof.
  intros HK2. unfold fl_put. cbn [ft fk flog]. change (feq fzero fzero) with true. cbv iota zeta.
  unfold fge, inv. destruct wi.
  - destruct (X_ok 0 ltac:(lia)) as [Ex Fx]. rewrite Bleb_correct by auto. rewrite Ex, X_0.
    change (B2R fzero) with 0%R. rewrite Rle_bool_true by lra. split; [|reflexivity].
    split; [reflexivity|]. cbn [fk ft flog]. split; [lia|]. split; [simpl; lra|]. split.
    + constructor; [|constructor]. split; [reflexivity|]. split; [reflexivity|]. split; lia.
    + reflexivity.
  - destruct (X_ok 1 ltac:(lia)) as [Ex Fx]. rewrite Bleb_correct by auto. rewrite Ex, X_1.
    change (B2R fzero) with 0%R. rewrite Rle_bool_false by lra. split; [|reflexivity].
    split; [reflexivity|]. cbn [fk ft flog]. split; [lia|]. split; [simpl; lra|]. split; [constructor|reflexivity].
Qed.

Theorem drive_ok dts : Z.of_nat (length dts) + 2 <= K ->
  Forall (fun d => is_finite d = true /\ 0 < B2R d)%R dts ->
  inv (fl_drive T wi dts).
Proof.
  intros HL Hd. unfold fl_drive. destruct (start_ok ltac:(lia)) as [I0 K0].
  assert (Hk : fk (fl_put T wi (mkfst fzero (if wi then 0 else 1) [])) + Z.of_nat (length dts) + 1 <= K) by lia.
  clear K0 HL. revert I0 Hk. generalize (fl_put T wi (mkfst fzero (if wi then 0 else 1) [])) as s.
  induction Hd as [|d dts [Fd Pd] Hd IH]; intros s I0 Hk; [exact I0|]. cbn [fold_left].
  cbn [length] in Hk.
  destruct (step_ok s d I0 ltac:(lia) Fd Pd) as [I1 B]. apply IH; [exact I1|lia].
Qed.
End Run.
