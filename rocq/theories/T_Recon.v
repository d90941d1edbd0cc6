(** C41, C42, C43, C44: the reconstructions. *)
From Coq Require Import Reals List ZArith Lia Lra.
From Verif Require Import M_Base M_Vec M_Flux M_Euler M_Recon S_Recon S_Euler L_Euler L_Recon L_Wenof2.
Import ListNotations.
Open Scope R_scope.

(** C41: WENOF2 keeps density and pressure positive, in fact above 1/20 of the
    cell's, whatever the neighbours are. *)
Theorem C41_wenof2_positive : forall n gamma (l m r : cons n),
  1 < gamma -> admissible n gamma m ->
  let lr := rec_fun (wenof2_recon n gamma) [l; m; r] in
  admissible n gamma (fst lr) /\ admissible n gamma (snd lr) /\
  rho_ m / 20 <= rho_ (fst lr) /\ rho_ m / 20 <= rho_ (snd lr).
Proof.
  intros n gamma l m r Hg Hm lr.
  destruct (wenof2_admissible n gamma l m r Hg Hm) as [[A B] [C D]].
  destruct Hm as [Hr Hp]. unfold admissible.
  split; [|split; [|split]].
  - split; [apply (Rlt_le_trans _ (rho_ m / 20)); [lra | exact A]
           | apply (Rlt_le_trans _ (p_p (to_prim n gamma m) / 20)); [lra | exact B]].
  - split; [apply (Rlt_le_trans _ (rho_ m / 20)); [lra | exact C]
           | apply (Rlt_le_trans _ (p_p (to_prim n gamma m) / 20)); [lra | exact D]].
  - exact A.
  - exact C.
Qed.
Print Assumptions C41_wenof2_positive.
(** The slopes are damped enough: the rest of the cell after taking away a
    reconstructed state and its mirror image has non-negative pressure. *)
Theorem C41_wenof2_residual : forall n gamma (l m r : cons n),
  1 < gamma -> admissible n gamma m ->
  let lr := rec_fun (wenof2_recon n gamma) [l; m; r] in
  forall a, a = fst lr \/ a = snd lr ->
  let U := residual n m a (to_cons n gamma (mirror_prim n (to_prim n gamma m) (to_prim n gamma a))) in
  rho_ U = rho_ m /\ 0 <= p_p (to_prim n gamma U).
Proof. intros n gamma l m r Hg Hm lr. exact (wenof2_residual n gamma Hg l m r Hm). Qed.
Print Assumptions C41_wenof2_residual.

(** A cell with density and pressure 1 next to negative density and pressure. *)
Example C41_example :
  admissible 1 (7 / 5) (mkcons (n := 1) 1 (0, tt) (5 / 2)) /\
  ~ admissible 1 (7 / 5) (mkcons (n := 1) (-1) (7, tt) (-100)).
Proof.
  split.
  - split; cbn; lra.
  - intros [H _]. cbn in H. lra.
Qed.

(** C42: MC and MM, for every conserved variable of every equation. *)
Theorem C42_limiters : forall (V : cvars) (L : lifting V) slope (l m r : V) i,
  slope = mc_slope \/ slope = mm_slope ->
  let lr := rec_fun (limiter_recon L slope) [l; m; r] in
  between (comp i m) (comp i l) (comp i (fst lr)) /\
  between (comp i m) (comp i r) (comp i (snd lr)) /\
  (comp i (fst lr) + comp i (snd lr)) / 2 = comp i m /\
  (forall a s h, comp i l = a - s * h -> comp i m = a -> comp i r = a + s * h ->
    comp i (fst lr) = a - s * h / 2 /\ comp i (snd lr) = a + s * h / 2) /\
  ((comp i m <= comp i l /\ comp i m <= comp i r) \/ (comp i l <= comp i m /\ comp i r <= comp i m) ->
    comp i (fst lr) = comp i m /\ comp i (snd lr) = comp i m).
Proof.
  intros V L slope l m r i Hs lr.
  assert (limited slope) as Hl by (destruct Hs as [-> | ->]; [exact mc_limited | exact mm_limited]).
  assert (forall a s, slope (a - s) a (a + s) = s) as Hlin
    by (destruct Hs as [-> | ->]; [exact mc_linear | exact mm_linear]).
  assert (slope 0 0 0 = 0) as H0 by (specialize (Hlin 0 0); now rewrite Rminus_0_r, Rplus_0_r in Hlin).
  assert (comp i (fst lr) = face_left slope (comp i l) (comp i m) (comp i r)) as ->.
  { unfold lr; cbn [limiter_recon rec_fun fst]. apply comp_lift3. unfold face_left. lra. }
  assert (comp i (snd lr) = face_right slope (comp i l) (comp i m) (comp i r)) as ->.
  { unfold lr; cbn [limiter_recon rec_fun snd]. apply comp_lift3. unfold face_right. lra. }
  destruct (limited_faces slope (comp i l) (comp i m) (comp i r) Hl) as (A & B & C).
  repeat split; auto.
  - unfold face_left, face_right. field.
  - rewrite H, H1, H2. unfold face_left. rewrite Hlin. reflexivity.
  - rewrite H, H1, H2. unfold face_right. rewrite Hlin. reflexivity.
  - apply C. nra.
  - apply C. nra.
Qed.
Print Assumptions C42_limiters.

(** The liftings exist for the equations offered. *)
Example C42_liftings : lifting scalar_cvars * lifting (euler_cvars 3).
Proof. exact (scalar_lifting, euler_lifting 3). Qed.
(** MC on the values 0, 1, 4: slope min(6, 2, 2) = 2. *)
Example C42_example : rec_fun (limiter_recon scalar_lifting mc_slope) [0; 1; 4] = (0, 2).
Proof.
  cbn. assert (mc_slope 0 1 4 = 2) as E.
  { unfold mc_slope, minmod3. signs; try lra.
    destruct (Req_EM_T 1 1); [|lra]. mins; lra. }
  unfold face_left, face_right. rewrite E. f_equal; lra.
Qed.

(** C43, first part: on cell averages of a polynomial of degree < k, ENO of order
    k returns the values of the polynomial at the faces, whatever the indicator
    variable is and so whatever stencil is chosen. *)
Theorem C43_exact : forall (V : cvars) (k : nat) (ind : V -> R) (u : Z -> V) i cs a h,
  (2 <= k <= 4)%nat -> (length cs <= k)%nat -> h <> 0 ->
  poly_averages cs a h (- (Z.of_nat k - 1)) (Z.of_nat k) (fun j => comp i (u j)) ->
  let lr := rec_fun (eno_recon k ind) (map u (zrange (- (Z.of_nat k - 1)) (Z.of_nat k))) in
  comp i (fst lr) = peval cs a /\ comp i (snd lr) = peval cs (a + h).
Proof.
  intros V k ind u i cs a h Hk Hl Hh (P & HP & Ha) lr.
  change lr with (rec_fun (eno_recon k ind) (span k u)). rewrite (eno_span k ind u Hk).
  pose proof (eno_shift_le (k - 1) (fun o => ind (u o))) as Hs.
  apply stencil_exact; auto; [lia|]. exists P. split; auto.
  intros j Hj. apply Ha. lia.
Qed.
Print Assumptions C43_exact.

(** Averages of 1 + 2x + 3x^2 over the cells [j, j+1]: j^3-differences. *)
Example C43_example : poly_averages [1; 2; 3] 0 1 (-2) 3
  (fun j => 1 + (2 * IZR j + 1) + (3 * IZR j ^ 2 + 3 * IZR j + 1)).
Proof.
  exists (anti5 0 1 2 3 0 0). split.
  - intros x. replace (peval [1; 2; 3] x) with (peval [1; 2; 3; 0; 0] x) by (cbn; ring). apply anti5_deriv.
  - intros j _. unfold anti5. field.
Qed.

(** C43, second part, order 2: the value is that of the polynomial on the stencil
    chosen by the ENO rule. *)
Theorem C43_order2_stencil : forall (V : cvars) (ind : V -> R) (u : Z -> V),
  exists lo, eno_stencil (fun j => ind (u j)) 1 lo /\
  forall i cs a h, (length cs <= 2)%nat -> h <> 0 ->
    poly_averages cs a h lo (lo + 2) (fun j => comp i (u j)) ->
    let lr := rec_fun (eno_recon 2 ind) [u (-1)%Z; u 0%Z; u 1%Z] in
    comp i (fst lr) = peval cs a /\ comp i (snd lr) = peval cs (a + h).
Proof.
  intros V ind u. eexists. split; [apply eno2_stencil|].
  intros i cs a h Hl Hh H lr.
  change lr with (rec_fun (eno_recon 2 ind) (span 2 u)). rewrite (eno_span 2 ind u) by lia.
  pose proof (eno_shift_le 1 (fun o => ind (u o))) as Hs.
  unfold eno; cbn [Nat.sub fst snd].
  apply stencil_exact; auto; try lia.
  replace (Z.of_nat 2 - Z.of_nat (eno_shift 1 (fun o => ind (u o))))%Z
    with (- Z.of_nat (eno_shift 1 (fun j => ind (u j))) + 2)%Z by lia.
  exact H.
Qed.
Print Assumptions C43_order2_stencil.

(** The ENO rule fixes the stencil. *)
Theorem C43_stencil_unique : forall v n lo lo',
  eno_stencil v n lo -> eno_stencil v n lo' -> lo = lo'.
Proof. exact eno_stencil_unique. Qed.
Print Assumptions C43_stencil_unique.

(** C43, second part, is false for orders 3 and 4: at a jump just right of the
    cell the ENO rule takes the cells on the left, where the data are constant 0,
    but the code takes a stencil across the jump, and its right value is 1/3 (1/2
    for order 4) instead of 0. *)
Definition jump (j : Z) : scalar_cvars := if (j <=? 0)%Z then 0 else 1.
Theorem C43_order3_stencil_refuted : exists u : Z -> scalar_cvars,
  eno_stencil u 2 (-2) /\ (forall j, (-2 <= j <= 0)%Z -> u j = 0) /\
  snd (rec_fun (eno_recon 3 (fun x : scalar_cvars => x)) (map u (zrange (-2) 3))) = 1 / 3.
Proof.
  exists jump. split; [|split].
  - apply (eno_left jump 1 (-1)); [apply (eno_left jump 0 0); [constructor|]|];
    cbn; unfold jump; cbn;
    rewrite ?(Rabs_pos_eq ((0 - 0) / 1)), ?(Rabs_pos_eq ((1 - 0) / 1)),
      ?(Rabs_pos_eq (((0 - 0) / 1 - (0 - 0) / 1) / (1 + 1))), ?(Rabs_pos_eq (((1 - 0) / 1 - (0 - 0) / 1) / (1 + 1)))
      by lra; lra.
  - intros j Hj. unfold jump. destruct (Z.leb_spec j 0); [reflexivity | lia].
  - change (map jump (zrange (-2) 3)) with (span 3 jump). rewrite (eno_span 3 _ jump) by lia.
    unfold eno. cbn [Nat.sub eno_shift]. cbn [ddiff]. cbn. unfold jump; cbn.
    destruct (Rlt_dec _ _) as [H|H].
    2:{ exfalso. apply H. rewrite (Rabs_pos_eq (0 - 0)), (Rabs_pos_eq (1 - 0)); lra. }
    destruct (Rlt_dec _ _) as [H'|H'].
    { exfalso. rewrite (Rabs_pos_eq (1 - 0 - (0 - 0))), (Rabs_left1 (1 - 1 - (1 - 0))) in H'; lra. }
    cbn. lra.
Qed.
Print Assumptions C43_order3_stencil_refuted.
Theorem C43_order4_stencil_refuted : exists u : Z -> scalar_cvars,
  eno_stencil u 3 (-3) /\ (forall j, (-3 <= j <= 0)%Z -> u j = 0) /\
  snd (rec_fun (eno_recon 4 (fun x : scalar_cvars => x)) (map u (zrange (-3) 4))) = 1 / 2.
Proof.
  exists jump. split; [|split].
  - apply (eno_left jump 2 (-2)); [apply (eno_left jump 1 (-1)); [apply (eno_left jump 0 0); [constructor|]|]|];
    cbn; unfold jump; cbn; apply Rabs_def1.
    all: try (match goal with |- _ < Rabs ?x => rewrite (Rabs_pos_eq x) by lra; lra end).
    all: match goal with |- - Rabs ?x < _ => rewrite (Rabs_pos_eq x) by lra; lra end.
  - intros j Hj. unfold jump. destruct (Z.leb_spec j 0); [reflexivity | lia].
  - change (map jump (zrange (-3) 4)) with (span 4 jump). rewrite (eno_span 4 _ jump) by lia.
    unfold eno. cbn [Nat.sub eno_shift]. cbn [ddiff]. cbn. unfold jump; cbn.
    destruct (Rlt_dec _ _) as [H|H].
    2:{ exfalso. apply H. rewrite (Rabs_pos_eq (0 - 0)), (Rabs_pos_eq (1 - 0)); lra. }
    destruct (Rlt_dec _ _) as [H'|H'].
    { exfalso. rewrite (Rabs_pos_eq (1 - 0 - (0 - 0))), (Rabs_left1 (1 - 1 - (1 - 0))) in H'; lra. }
    destruct (Rlt_dec _ _) as [H3|H3].
    { exfalso. rewrite (Rabs_left1 (1 - 1 - (1 - 0) - (1 - 0 - (0 - 0)))),
        (Rabs_pos_eq (1 - 1 - (1 - 1) - (1 - 1 - (1 - 0)))) in H3; lra. }
    cbn. lra.
Qed.
Print Assumptions C43_order4_stencil_refuted.

(** C44: the WENO reconstructions `weno2` (WENO2.hpp), `weno3` and the class
    WENOCPU<2>. *)
Definition weno_of (k : nat) {V : cvars} (ind : V -> R) (rc : recon V) : Prop :=
  (k = 2%nat /\ rc = weno2_recon ind) \/ ((2 <= k <= 3)%nat /\ rc = weno_recon k ind).
Lemma weno_of_spec k (V : cvars) (ind : V -> R) rc (u : Z -> V) : weno_of k ind rc ->
  (2 <= k <= 3)%nat /\
  rec_fun rc (map u (zrange (- (Z.of_nat k - 1)) (Z.of_nat k))) = weno k ind u.
Proof.
  intros [[-> ->] | [Hk ->]].
  - split; [lia|]. apply weno2_weno.
  - split; auto. change (rec_fun (weno_recon k ind) (span k u) = weno k ind u). now apply weno_span.
Qed.

(** The face values are convex combinations, with positive weights that do not
    depend on the variable, of the face values of the polynomials of degree < k
    on the k stencils that contain the cell. *)
Theorem C44_convex : forall (V : cvars) (k : nat) (ind : V -> R) rc (u : Z -> V), weno_of k ind rc ->
  let lr := rec_fun rc (map u (zrange (- (Z.of_nat k - 1)) (Z.of_nat k))) in
  exists wl wr : nat -> R,
    (forall s, (s < k)%nat -> 0 < wl s) /\ rsum k wl = 1 /\
    (forall s, (s < k)%nat -> 0 < wr s) /\ rsum k wr = 1 /\
    forall i a h (ps : nat -> list R), h <> 0 ->
      (forall s, (s < k)%nat -> (length (ps s) <= k)%nat /\
        poly_averages (ps s) a h (- Z.of_nat s) (Z.of_nat k - Z.of_nat s) (fun j => comp i (u j))) ->
      comp i (fst lr) = rsum k (fun s => wl s * peval (ps s) a) /\
      comp i (snd lr) = rsum k (fun s => wr s * peval (ps s) (a + h)).
Proof.
  intros V k ind rc u Hrc. destruct (weno_of_spec k V ind rc u Hrc) as [Hk E]. cbv zeta. rewrite E.
  destruct (weno_convex k ind u Hk) as (wl & wr & L1 & L2 & R1 & R2 & H).
  exists wl, wr. repeat (split; [assumption|]). intros i a h ps Hh Hp.
  destruct (H i) as [-> ->]. split; apply rsum_ext; intros s Hs; destruct (Hp s Hs) as [A B]; f_equal;
  apply (stencil_exact u k s i (ps s) a h); auto; lia.
Qed.
Print Assumptions C44_convex.

(** Such polynomials exist: the averages 0, 1, 1 and the two stencils of order 2. *)
Example C44_convex_example : let v j := if (j =? -1)%Z then 0 else 1 in
  poly_averages [1] 0 1 0 2 v /\ poly_averages [1 / 2; 1] 0 1 (-1) 1 v.
Proof.
  split.
  - exists (anti5 0 1 0 0 0 0). split.
    + intros x. replace (peval [1] x) with (peval [1; 0; 0; 0; 0] x) by (cbn; ring). apply anti5_deriv.
    + intros j Hj. destruct (Z.eqb_spec j (-1)); [lia|]. unfold anti5. field.
  - exists (anti5 0 (1 / 2) 1 0 0 0). split.
    + intros x. replace (peval [1 / 2; 1] x) with (peval [1 / 2; 1; 0; 0; 0] x) by (cbn; ring). apply anti5_deriv.
    + intros j Hj. destruct (Z.eqb_spec j (-1)) as [-> | N].
      * unfold anti5. field.
      * assert (j = 0)%Z as -> by lia. unfold anti5. field.
Qed.

(** Constant states are reproduced. *)
Theorem C44_constants : forall (V : cvars) (k : nat) (ind : V -> R) rc (c : V), weno_of k ind rc ->
  rec_fun rc (map (fun _ => c) (zrange (- (Z.of_nat k - 1)) (Z.of_nat k))) = (c, c).
Proof.
  intros V k ind rc c Hrc. destruct (weno_of_spec k V ind rc (fun _ => c) Hrc) as [Hk ->].
  destruct (weno_convex k ind (fun _ => c) Hk) as (wl & wr & _ & L2 & _ & R2 & H).
  rewrite (surjective_pairing (weno _ _ _)). f_equal; apply comp_ext; intros i; destruct (H i) as [H1 H2].
  - rewrite H1. rewrite (rsum_ext k _ (fun s => wl s * comp i c)); [rewrite rsum_scal, L2; ring|].
    intros s Hs. destruct (stencil_const (fun _ => c) k s c) as [-> _]; auto; lia.
  - rewrite H2. rewrite (rsum_ext k _ (fun s => wr s * comp i c)); [rewrite rsum_scal, R2; ring|].
    intros s Hs. destruct (stencil_const (fun _ => c) k s c) as [_ ->]; auto; lia.
Qed.
Print Assumptions C44_constants.

(** With equal smoothness indicators the reconstruction is exact on cell averages
    of polynomials of degree < 2k - 1. *)
Theorem C44_linear_limit : forall (V : cvars) (k : nat) (ind : V -> R) rc (u : Z -> V) (B : R) i cs a h,
  weno_of k ind rc -> (length cs <= 2 * k - 1)%nat -> h <> 0 ->
  (forall s, (s < k)%nat -> weno_beta k s (fun o => ind (u o)) = B) ->
  poly_averages cs a h (- (Z.of_nat k - 1)) (Z.of_nat k) (fun j => comp i (u j)) ->
  let lr := rec_fun rc (map u (zrange (- (Z.of_nat k - 1)) (Z.of_nat k))) in
  comp i (fst lr) = peval cs a /\ comp i (snd lr) = peval cs (a + h).
Proof.
  intros V k ind rc u B i cs a h Hrc Hl Hh HB Hp. destruct (weno_of_spec k V ind rc u Hrc) as [Hk E].
  cbv zeta. rewrite E. now apply (weno_exact k ind u B).
Qed.
Print Assumptions C44_linear_limit.

(** Constant density (the indicator variable of the Euler equations) and any
    profile of the momentum. *)
Example C44_linear_example (p : Z -> R) :
  forall s, (s < 3)%nat -> weno_beta 3 s (fun o => rho_ (mkcons (n := 1) 1 (p o, tt) 5)) = 0.
Proof. intros s Hs. destruct s as [|[|[|s]]]; [| | |lia]; cbn; ring. Qed.

(** The smoothness indicators used in [weno_beta] are those of Jiang and Shu: for
    the polynomial p = c0 + c1 x + c2 x^2 on stencil s,
    beta_s = h * int p'^2 + h^3 * int p''^2 over the cell [a, a + h] (for k = 2,
    c2 = 0).  [Q] is an antiderivative of p'^2. *)
Theorem C44_indicators : forall k s (v : Z -> R) c0 c1 c2 a h Q, (2 <= k <= 3)%nat -> (s < k)%nat ->
  (k = 2%nat -> c2 = 0) -> h <> 0 ->
  poly_averages [c0; c1; c2] a h (- Z.of_nat s) (Z.of_nat k - Z.of_nat s) v ->
  (forall x, derivable_pt_lim Q x ((c1 + 2 * c2 * x) ^ 2)) ->
  weno_beta k s v = h * (Q (a + h) - Q a) + h ^ 3 * (h * (2 * c2) ^ 2).
Proof.
  intros k s v c0 c1 c2 a h Q Hk Hs Hc Hh (P & HP & Hv) HQ.
  destruct (poly_anti c0 c1 c2 0 0 P) as (K & HK).
  { intros x. replace (peval [c0; c1; c2; 0; 0] x) with (peval [c0; c1; c2] x) by (cbn; ring). apply HP. }
  destruct (poly_anti (c1 ^ 2) (4 * c1 * c2) (4 * c2 ^ 2) 0 0 Q) as (K' & HK').
  { intros x. replace (peval [c1 ^ 2; 4 * c1 * c2; 4 * c2 ^ 2; 0; 0] x) with ((c1 + 2 * c2 * x) ^ 2) by (cbn; ring).
    apply HQ. }
  rewrite !HK'.
  assert (k = 2 \/ k = 3)%nat as [-> | ->] by lia.
  - rewrite (Hc eq_refl) in *. destruct s as [|[|s]]; [| |lia]; cbn [weno_beta];
    rewrite !Hv by (cbn; lia); rewrite !HK; unfold anti5; field; auto.
  - destruct s as [|[|[|s]]]; [| | |lia]; cbn [weno_beta];
    rewrite !Hv by (cbn; lia); rewrite !HK; unfold anti5; field; auto.
Qed.
Print Assumptions C44_indicators.
