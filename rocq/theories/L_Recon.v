(** Lemmas about the reconstructions. *)
From Coq Require Import Reals List ZArith Lia Lra Bool.
From Verif Require Import M_Base M_Vec M_Flux M_Euler M_Recon S_Recon S_Euler L_Euler L_EulerEntropy.
Import ListNotations.
Open Scope R_scope.

(** ** Limiters *)
Lemma sign_cases x : (0 < x /\ sign x = 1) \/ (x = 0 /\ sign x = 0) \/ (x < 0 /\ sign x = -1).
Proof.
  unfold sign. destruct (Rgt_dec x 0); [left; lra|]. destruct (Req_EM_T x 0); [right; left; lra|].
  right; right; lra.
Qed.

Ltac signs := repeat match goal with
  | |- context [sign ?x] => let H := fresh in let E := fresh in
      destruct (sign_cases x) as [[H E]|[[H E]|[H E]]]; rewrite ?E; clear E
  end.
Ltac mins := repeat match goal with
  | |- context [Rabs ?x] => first [rewrite (Rabs_pos_eq x) by lra | rewrite (Rabs_left1 x) by lra]
  end; repeat match goal with |- context [Rmin ?a ?b] =>
    lazymatch b with context [Rmin _ _] => fail | _ => idtac end;
    destruct (Rle_dec a b); [rewrite (Rmin_left a b) by lra | rewrite (Rmin_right a b) by lra] end.

Ltac limiter := signs; repeat (destruct (Req_EM_T _ _); try lra);
  first [left; lra | right; left; mins; lra | right; right; mins; lra | mins; lra].
Lemma mm_bounds l m r : let s := mm_slope l m r in
  s = 0 \/ (0 <= s /\ s <= r - m /\ s <= m - l) \/ (s <= 0 /\ r - m <= s /\ m - l <= s).
Proof. intros s; unfold s, mm_slope, minmod2. limiter. Qed.
Lemma mc_bounds l m r : let s := mc_slope l m r in
  s = 0 \/ (0 <= s /\ s <= 2 * (r - m) /\ s <= 2 * (m - l)) \/
  (s <= 0 /\ 2 * (r - m) <= s /\ 2 * (m - l) <= s).
Proof. intros s; unfold s, mc_slope, minmod3. limiter. Qed.
Lemma mm_linear a s : mm_slope (a - s) a (a + s) = s.
Proof. unfold mm_slope, minmod2. limiter. Qed.
Lemma mc_linear a s : mc_slope (a - s) a (a + s) = s.
Proof. unfold mc_slope, minmod3. limiter. Qed.

(** A slope that is 0, or has the sign of both one-sided differences and is at
    most twice as large. *)
Definition limited (slope : R -> R -> R -> R) : Prop := forall l m r, let s := slope l m r in
  s = 0 \/ (0 <= s /\ s <= 2 * (r - m) /\ s <= 2 * (m - l)) \/
  (s <= 0 /\ 2 * (r - m) <= s /\ 2 * (m - l) <= s).
Lemma mm_limited : limited mm_slope.
Proof. intros l m r; cbn. generalize (mm_bounds l m r); cbn. lra. Qed.
Lemma mc_limited : limited mc_slope.
Proof. exact mc_bounds. Qed.
Lemma limited_faces slope l m r : limited slope ->
  between m l (face_left slope l m r) /\ between m r (face_right slope l m r) /\
  ((m - l) * (r - m) <= 0 -> face_left slope l m r = m /\ face_right slope l m r = m).
Proof.
  intros H. unfold face_left, face_right, between. specialize (H l m r); cbn in H.
  set (s := slope l m r) in *. clearbody s.
  destruct H as [->|[H|H]].
  - split; [|split]; try lra.
  - repeat split; try lra; nra.
  - repeat split; try lra; nra.
Qed.

(** ** Polynomials *)
Definition anti5 (K c0 c1 c2 c3 c4 x : R) : R :=
  K + c0 * x + c1 * x ^ 2 / 2 + c2 * x ^ 3 / 3 + c3 * x ^ 4 / 4 + c4 * x ^ 5 / 5.
Lemma anti5_deriv c0 c1 c2 c3 c4 x :
  derivable_pt_lim (anti5 0 c0 c1 c2 c3 c4) x (peval [c0; c1; c2; c3; c4] x).
Proof.
  unfold anti5. cbn [peval].
  assert (forall c n, derivable_pt_lim (fun y => c * y ^ S n / INR (S n)) x (c * x ^ n)) as Hm.
  { intros c n. assert (INR (S n) <> 0) by now apply not_0_INR.
    replace (c * x ^ n) with (c / INR (S n) * (INR (S n) * x ^ n)) by (field; auto).
    apply (derivable_pt_lim_ext (mult_real_fct (c / INR (S n)) (fun y => y ^ S n))).
    - intros y. unfold mult_real_fct. field; auto.
    - apply derivable_pt_lim_scal. apply (derivable_pt_lim_pow x (S n)). }
  pose proof (Hm c0 0%nat) as H0. pose proof (Hm c1 1%nat) as H1. pose proof (Hm c2 2%nat) as H2.
  pose proof (Hm c3 3%nat) as H3. pose proof (Hm c4 4%nat) as H4.
  pose proof (derivable_pt_lim_plus _ _ _ _ _
    (derivable_pt_lim_plus _ _ _ _ _ (derivable_pt_lim_plus _ _ _ _ _
      (derivable_pt_lim_plus _ _ _ _ _ H0 H1) H2) H3) H4) as H.
  replace (c0 + x * (c1 + x * (c2 + x * (c3 + x * (c4 + x * 0)))))
    with (c0 * x ^ 0 + c1 * x ^ 1 + c2 * x ^ 2 + c3 * x ^ 3 + c4 * x ^ 4) by ring.
  refine (derivable_pt_lim_ext _ _ _ _ _ H). intros y. unfold plus_fct. simpl INR. field.
Qed.
Lemma poly_anti c0 c1 c2 c3 c4 P :
  (forall x, derivable_pt_lim P x (peval [c0; c1; c2; c3; c4] x)) ->
  exists K, forall x, P x = anti5 K c0 c1 c2 c3 c4 x.
Proof.
  intros H. set (D := (P - anti5 0 c0 c1 c2 c3 c4)%F).
  assert (forall x, derivable_pt_lim D x 0) as HD.
  { intros x. replace 0 with (peval [c0; c1; c2; c3; c4] x - peval [c0; c1; c2; c3; c4] x) by ring.
    apply derivable_pt_lim_minus; [apply H | apply anti5_deriv]. }
  exists (D 0). intros x.
  assert (D x = D 0) as E.
  { assert (derivable D) as pr by (intros y; exists 0; apply HD).
    assert (constant D) as Hc.
    { apply (null_derivative_1 D pr). intros y. now apply derive_pt_eq_0. }
    apply Hc. }
  rewrite <- E. unfold D, minus_fct, anti5. ring.
Qed.
Lemma poly_pad cs : (length cs <= 5)%nat ->
  exists c0 c1 c2 c3 c4, (forall x, peval cs x = peval [c0; c1; c2; c3; c4] x) /\
    ((length cs <= 4)%nat -> c4 = 0) /\ ((length cs <= 3)%nat -> c3 = 0) /\
    ((length cs <= 2)%nat -> c2 = 0).
Proof.
  intros H. exists (nth 0 cs 0), (nth 1 cs 0), (nth 2 cs 0), (nth 3 cs 0), (nth 4 cs 0).
  do 6 (destruct cs as [|? cs]; [cbn; repeat split; intros; first [ring | lia] |]).
  cbn in H; lia.
Qed.

(** ** ENO *)
Lemma eno_shift_le l v : (eno_shift l v <= l)%nat.
Proof. induction l; cbn; [lia|]. destruct (Rlt_dec _ _); lia. Qed.

Definition span {V : cvars} (k : nat) (u : Z -> V) : list V :=
  map u (zrange (- (Z.of_nat k - 1)) (Z.of_nat k)).

Lemma averages_comp {V : cvars} i (u : Z -> V) P a h lo hi : averages P a h lo hi (fun j => comp i (u j)) ->
  forall j, (lo <= j < hi)%Z ->
  comp i (u j) = (P (a + (IZR j + 1) * h) - P (a + IZR j * h)) / h.
Proof. intros H j Hj. exact (H j Hj). Qed.

Ltac expand_avg H := repeat match goal with
  | |- context [comp ?i (?u ?j)] => rewrite (H j) by (cbn; lia)
  end.

Lemma stencil_exact {V : cvars} (u : Z -> V) (k s i : nat) cs a h :
  (2 <= k <= 4)%nat -> (s < k)%nat -> (length cs <= k)%nat -> h <> 0 ->
  poly_averages cs a h (- Z.of_nat s) (Z.of_nat k - Z.of_nat s) (fun j => comp i (u j)) ->
  comp i (stencil_left u k s) = peval cs a /\ comp i (stencil_right u k s) = peval cs (a + h).
Proof.
  intros Hk Hs Hl Hh (P & HP & Ha).
  destruct (poly_pad cs ltac:(lia)) as (c0 & c1 & c2 & c3 & c4 & Hp & Z4 & Z3 & Z2).
  destruct (poly_anti c0 c1 c2 c3 c4 P) as (K & HK).
  { intros x. rewrite <- Hp. apply HP. }
  pose proof (averages_comp i u P a h _ _ Ha) as Hv. clear Ha.
  rewrite !Hp. rewrite (Z4 ltac:(lia)) in *.
  assert (k = 2 \/ k = 3 \/ k = 4)%nat as [-> | [-> | ->]] by lia.
  - rewrite (Z3 ltac:(lia)), (Z2 ltac:(lia)) in *.
    assert (s = 0 \/ s = 1)%nat as [-> | ->] by lia;
    split; unfold stencil_left, stencil_right; cbn [nth eno_coef lincomb Z.of_nat Z.opp Pos.of_succ_nat];
    rewrite !comp_add, !comp_scal, comp_zero; cbn; expand_avg Hv; rewrite !HK; unfold anti5; field; auto.
  - rewrite (Z3 ltac:(lia)) in *.
    assert (s = 0 \/ s = 1 \/ s = 2)%nat as [-> | [-> | ->]] by lia;
    split; unfold stencil_left, stencil_right; cbn [nth eno_coef lincomb Z.of_nat Z.opp Pos.of_succ_nat];
    rewrite !comp_add, !comp_scal, comp_zero; cbn; expand_avg Hv; rewrite !HK; unfold anti5; field; auto.
  - assert (s = 0 \/ s = 1 \/ s = 2 \/ s = 3)%nat as [-> | [-> | [-> | ->]]] by lia;
    split; unfold stencil_left, stencil_right; cbn [nth eno_coef lincomb Z.of_nat Z.opp Pos.of_succ_nat];
    rewrite !comp_add, !comp_scal, comp_zero; cbn; expand_avg Hv; rewrite !HK; unfold anti5; field; auto.
Qed.

(** Only the cells at offsets -k < j < k matter. *)
Lemma ddiff_ext l v w x : (forall j, (x <= j <= x + Z.of_nat l)%Z -> v j = w j) -> ddiff l v x = ddiff l w x.
Proof.
  revert x. induction l; intros x H; cbn [ddiff]; [apply H; lia|].
  rewrite (IHl x), (IHl (x + 1)%Z); auto; intros j Hj; apply H; lia.
Qed.
Lemma eno_shift_ext l v w : (forall j, (-1 <= j <= Z.of_nat l)%Z -> v j = w j) -> eno_shift l v = eno_shift l w.
Proof.
  induction l; intros H; cbn [eno_shift]; auto.
  rewrite IHl by (intros; apply H; lia).
  rewrite (ddiff_ext (S l) v w (-1)), (ddiff_ext (S l) v w 0); auto; intros j Hj; apply H; lia.
Qed.
Lemma lincomb_ext {V : cvars} (u w : Z -> V) cs x :
  (forall j, (x <= j < x + Z.of_nat (length cs))%Z -> u j = w j) -> lincomb u cs x = lincomb w cs x.
Proof.
  revert x. induction cs; intros x H; cbn [lincomb]; auto.
  cbn [length] in H. rewrite (H x) by lia. f_equal. apply IHcs. intros; apply H; lia.
Qed.
Lemma eno_coef_length k s : (1 <= k <= 4)%nat -> (length (nth s (eno_coef k) []) <= k)%nat.
Proof.
  intros H. assert (k = 1 \/ k = 2 \/ k = 3 \/ k = 4)%nat as [-> | [-> | [-> | ->]]] by lia;
  cbn; do 6 (destruct s as [|s]; cbn; try lia).
Qed.
Lemma stencil_ext {V : cvars} (u w : Z -> V) k s : (1 <= k <= 4)%nat -> (s < k)%nat ->
  (forall j, (- Z.of_nat k < j < Z.of_nat k)%Z -> u j = w j) ->
  stencil_left u k s = stencil_left w k s /\ stencil_right u k s = stencil_right w k s.
Proof.
  intros Hk Hs H. pose proof (eno_coef_length k s Hk). pose proof (eno_coef_length k (S s) Hk).
  split; apply lincomb_ext; intros j Hj; apply H; lia.
Qed.
Lemma eno_ext {V : cvars} (u w : Z -> V) k ind : (2 <= k <= 4)%nat ->
  (forall j, (- Z.of_nat k < j < Z.of_nat k)%Z -> u j = w j) -> eno k ind u = eno k ind w.
Proof.
  intros Hk H. unfold eno.
  rewrite (eno_shift_ext (k - 1) (fun o => ind (u o)) (fun o => ind (w o)))
    by (intros j Hj; f_equal; apply H; lia).
  pose proof (eno_shift_le (k - 1) (fun o => ind (w o))) as Hs.
  destruct (stencil_ext u w k (eno_shift (k - 1) (fun o => ind (w o))) ltac:(lia) ltac:(lia) H) as [-> ->].
  reflexivity.
Qed.
Lemma at_span {V : cvars} (k : nat) (u : Z -> V) j : (- Z.of_nat k < j < Z.of_nat k)%Z -> at_ k (span k u) j = u j.
Proof.
  intros H. unfold at_, span.
  rewrite (nth_indep _ _ (u 0%Z)).
  2:{ rewrite map_length. unfold zrange. rewrite map_length, seq_length. lia. }
  rewrite map_nth. f_equal. unfold zrange.
  rewrite (nth_indep _ _ (- (Z.of_nat k - 1) + Z.of_nat 0)%Z).
  2:{ rewrite map_length, seq_length. lia. }
  rewrite (map_nth (fun i => (- (Z.of_nat k - 1) + Z.of_nat i)%Z)), seq_nth; lia.
Qed.
Lemma eno_span {V : cvars} (k : nat) ind (u : Z -> V) : (2 <= k <= 4)%nat ->
  rec_fun (eno_recon k ind) (span k u) = eno k ind u.
Proof. intros H. cbn. apply eno_ext; auto. intros j Hj. now apply at_span. Qed.
Lemma weno_beta_ext k i v w : (2 <= k <= 3)%nat ->
  (forall j, (- Z.of_nat k < j < Z.of_nat k)%Z -> v j = w j) -> weno_beta k i v = weno_beta k i w.
Proof.
  intros Hk H. assert (k = 2 \/ k = 3)%nat as [-> | ->] by lia;
  do 3 (destruct i as [|i]; [cbn [weno_beta]; rewrite ?(H 0%Z), ?(H 1%Z), ?(H 2%Z), ?(H (-1)%Z), ?(H (-2)%Z) by lia; auto |]);
  reflexivity.
Qed.
Lemma rsum_ext n f g : (forall i, (i < n)%nat -> f i = g i) -> rsum n f = rsum n g.
Proof. induction n; intros H; cbn; auto. rewrite IHn, (H n); auto. Qed.
Lemma vsum_ext {V : cvars} n (f g : nat -> V) : (forall i, (i < n)%nat -> f i = g i) -> vsum n f = vsum n g.
Proof. induction n; intros H; cbn; auto. rewrite IHn, (H n); auto. Qed.
Lemma comp_vsum {V : cvars} n (f : nat -> V) i : comp i (vsum n f) = rsum n (fun s => comp i (f s)).
Proof. induction n; cbn; [apply comp_zero|]. now rewrite comp_add, IHn. Qed.
Lemma weno_ext {V : cvars} (u w : Z -> V) k ind : (2 <= k <= 3)%nat ->
  (forall j, (- Z.of_nat k < j < Z.of_nat k)%Z -> u j = w j) -> weno k ind u = weno k ind w.
Proof.
  intros Hk H.
  assert (forall i, weno_beta k i (fun o => ind (u o)) = weno_beta k i (fun o => ind (w o))) as Hb.
  { intros i. apply weno_beta_ext; auto. intros j Hj. f_equal. auto. }
  unfold weno. f_equal; apply vsum_ext; intros s Hs.
  - rewrite (rsum_ext _ _ (alpha_left k (fun o => ind (w o)))) by (intros; unfold alpha_left; now rewrite Hb).
    unfold alpha_left. rewrite Hb. f_equal. now apply stencil_ext; try lia.
  - rewrite (rsum_ext _ _ (alpha_right k (fun o => ind (w o)))) by (intros; unfold alpha_right; now rewrite Hb).
    unfold alpha_right. rewrite Hb. f_equal. now apply stencil_ext; try lia.
Qed.
Lemma weno_span {V : cvars} (k : nat) ind (u : Z -> V) : (2 <= k <= 3)%nat ->
  rec_fun (weno_recon k ind) (span k u) = weno k ind u.
Proof. intros H. cbn. apply weno_ext; auto. intros j Hj. now apply at_span. Qed.

(** ** WENO *)
Lemma weno_eps_pos : 0 < weno_eps.
Proof. unfold weno_eps. apply Rinv_0_lt_compat. apply pow_lt. lra. Qed.
Lemma weno_beta_nonneg k i v : 0 <= weno_beta k i v.
Proof.
  assert (forall x, 0 <= x ^ 2) as P2 by (intros; apply pow2_ge_0).
  destruct k as [|[|[|[|k]]]]; destruct i as [|[|[|i]]]; cbn [weno_beta]; try apply Rle_refl; try apply P2;
  apply Rplus_le_le_0_compat; apply Rmult_le_pos; try lra; apply P2.
Qed.
Lemma denom_pos k i v : 0 < (weno_beta k i v + weno_eps) ^ 2.
Proof. apply pow_lt. pose proof (weno_beta_nonneg k i v). pose proof weno_eps_pos. lra. Qed.
Lemma weno_coef_pos k i : (2 <= k <= 3)%nat -> (i < k)%nat -> 0 < weno_coef k i.
Proof.
  intros Hk Hi. assert (k = 2 \/ k = 3)%nat as [-> | ->] by lia;
  do 3 (destruct i as [|i]; [first [lia | cbn; lra]|]); lia.
Qed.
Lemma alpha_left_pos k v i : (2 <= k <= 3)%nat -> (i < k)%nat -> 0 < alpha_left k v i.
Proof.
  intros Hk Hi. unfold alpha_left. apply Rdiv_lt_0_compat; [apply weno_coef_pos; lia | apply denom_pos].
Qed.
Lemma alpha_right_pos k v i : (2 <= k <= 3)%nat -> (i < k)%nat -> 0 < alpha_right k v i.
Proof.
  intros Hk Hi. unfold alpha_right. apply Rdiv_lt_0_compat; [apply weno_coef_pos; lia | apply denom_pos].
Qed.
Lemma rsum_pos n f : (0 < n)%nat -> (forall i, (i < n)%nat -> 0 < f i) -> 0 < rsum n f.
Proof.
  induction n; intros Hn H; [lia|]. cbn. destruct n.
  - cbn. rewrite Rplus_0_l. apply H. lia.
  - apply Rplus_lt_0_compat; [apply IHn; [lia | intros; apply H; lia] | apply H; lia].
Qed.
Lemma rsum_scal n c f : rsum n (fun i => f i * c) = rsum n f * c.
Proof. induction n; cbn; [ring | rewrite IHn; ring]. Qed.
Lemma weights_convex n f : (0 < n)%nat -> (forall i, (i < n)%nat -> 0 < f i) ->
  (forall i, (i < n)%nat -> 0 < f i / rsum n f) /\ rsum n (fun i => f i / rsum n f) = 1.
Proof.
  intros Hn H. pose proof (rsum_pos n f Hn H) as Hp. split.
  - intros i Hi. apply Rdiv_lt_0_compat; auto.
  - unfold Rdiv. rewrite rsum_scal. field. lra.
Qed.
Lemma weno_convex {V : cvars} k ind (u : Z -> V) : (2 <= k <= 3)%nat ->
  exists wl wr,
    (forall s, (s < k)%nat -> 0 < wl s) /\ rsum k wl = 1 /\
    (forall s, (s < k)%nat -> 0 < wr s) /\ rsum k wr = 1 /\
    forall i, comp i (fst (weno k ind u)) = rsum k (fun s => wl s * comp i (stencil_left u k s)) /\
              comp i (snd (weno k ind u)) = rsum k (fun s => wr s * comp i (stencil_right u k s)).
Proof.
  intros Hk. set (v := fun o => ind (u o)).
  destruct (weights_convex k (alpha_left k v)) as [L1 L2]; [lia | intros; now apply alpha_left_pos|].
  destruct (weights_convex k (alpha_right k v)) as [R1 R2]; [lia | intros; now apply alpha_right_pos|].
  exists (fun i => alpha_left k v i / rsum k (alpha_left k v)), (fun i => alpha_right k v i / rsum k (alpha_right k v)).
  repeat (split; [assumption|]). intros i. unfold weno; cbn [fst snd]. rewrite !comp_vsum. fold v.
  split; apply rsum_ext; intros s Hs; now rewrite comp_scal.
Qed.
Lemma weno_linear {V : cvars} k ind (u : Z -> V) (B : R) i : (2 <= k <= 3)%nat ->
  (forall s, (s < k)%nat -> weno_beta k s (fun o => ind (u o)) = B) ->
  comp i (fst (weno k ind u)) = rsum k (fun s => weno_coef k (k - 1 - s) * comp i (stencil_left u k s)) /\
  comp i (snd (weno k ind u)) = rsum k (fun s => weno_coef k s * comp i (stencil_right u k s)).
Proof.
  intros Hk HB.
  assert (0 < (B + weno_eps) ^ 2) as HD by (rewrite <- (HB 0%nat) by lia; apply denom_pos).
  unfold weno; cbn [fst snd]. rewrite !comp_vsum.
  rewrite (rsum_ext k (alpha_left k _) (fun s => weno_coef k (k - 1 - s) * / (B + weno_eps) ^ 2)).
  2:{ intros s Hs. unfold alpha_left. now rewrite HB by auto. }
  rewrite (rsum_ext k (alpha_right k _) (fun s => weno_coef k s * / (B + weno_eps) ^ 2)).
  2:{ intros s Hs. unfold alpha_right. now rewrite HB by auto. }
  rewrite !rsum_scal.
  assert (rsum k (fun s => weno_coef k (k - 1 - s)) = 1 /\ rsum k (weno_coef k) = 1) as [E1 E2].
  { assert (k = 2 \/ k = 3)%nat as [-> | ->] by lia; cbn; split; field. }
  rewrite E1, E2.
  split; apply rsum_ext; intros s Hs; rewrite comp_scal; unfold alpha_left, alpha_right; rewrite HB by auto;
  field; intros Hz; rewrite Hz in HD; cbn in HD; lra.
Qed.
Lemma weno_exact {V : cvars} k ind (u : Z -> V) (B : R) i cs a h : (2 <= k <= 3)%nat ->
  (length cs <= 2 * k - 1)%nat -> h <> 0 ->
  (forall s, (s < k)%nat -> weno_beta k s (fun o => ind (u o)) = B) ->
  poly_averages cs a h (- (Z.of_nat k - 1)) (Z.of_nat k) (fun j => comp i (u j)) ->
  comp i (fst (weno k ind u)) = peval cs a /\ comp i (snd (weno k ind u)) = peval cs (a + h).
Proof.
  intros Hk Hl Hh HB (P & HP & Ha).
  destruct (weno_linear k ind u B i Hk HB) as [-> ->].
  destruct (poly_pad cs ltac:(lia)) as (c0 & c1 & c2 & c3 & c4 & Hp & Z4 & Z3 & Z2).
  destruct (poly_anti c0 c1 c2 c3 c4 P) as (K & HK).
  { intros x. rewrite <- Hp. apply HP. }
  pose proof (averages_comp i u P a h _ _ Ha) as Hv. clear Ha.
  rewrite !Hp.
  assert (k = 2 \/ k = 3)%nat as [-> | ->] by lia.
  - rewrite (Z4 ltac:(lia)), (Z3 ltac:(lia)) in *.
    unfold stencil_left, stencil_right; cbn [rsum nth eno_coef lincomb Z.of_nat Z.opp Pos.of_succ_nat].
    rewrite !comp_add, !comp_scal, comp_zero. cbn. expand_avg Hv. rewrite !HK. unfold anti5.
    split; field; auto.
  - unfold stencil_left, stencil_right; cbn [rsum nth eno_coef lincomb Z.of_nat Z.opp Pos.of_succ_nat].
    rewrite !comp_add, !comp_scal, comp_zero. cbn. expand_avg Hv. rewrite !HK. unfold anti5.
    split; field; auto.
Qed.
Lemma stencil_const {V : cvars} (u : Z -> V) k s c : (1 <= k <= 4)%nat -> (s < k)%nat ->
  (forall j, u j = c) -> stencil_left u k s = c /\ stencil_right u k s = c.
Proof.
  intros Hk Hs H.
  assert (k = 1 \/ k = 2 \/ k = 3 \/ k = 4)%nat as [-> | [-> | [-> | ->]]] by lia;
  do 4 (destruct s as [|s]; [try lia; split; apply comp_ext; intros i; unfold stencil_left, stencil_right;
    cbn [nth eno_coef lincomb]; rewrite !comp_add, !comp_scal, comp_zero, !H; field|]); lia.
Qed.

(** WENO2.hpp computes WENOCPU<2>. *)
Lemma weno2_weno {V : cvars} ind (u : Z -> V) :
  weno2 ind (u (-1)%Z) (u 0%Z) (u 1%Z) = weno 2 ind u.
Proof.
  unfold weno2, weno, weno2_weights, alpha_left, alpha_right, stencil_left, stencil_right.
  cbn [fst snd rsum vsum nth eno_coef lincomb weno_beta weno_coef Nat.sub Z.of_nat Z.opp Pos.of_succ_nat].
  pose proof weno_eps_pos as He.
  pose proof (pow2_ge_0 (ind (u 1%Z) - ind (u 0%Z))) as H0.
  pose proof (pow2_ge_0 (ind (u 0%Z) - ind (u (-1)%Z))) as H1.
  f_equal; apply comp_ext; intros i; repeat rewrite ?comp_add, ?comp_scal, ?comp_zero; cbn [Z.add Z.pos_sub Pos.add];
  set (b0 := (ind (u 1%Z) - ind (u 0%Z)) ^ 2) in *; set (b1 := (ind (u 0%Z) - ind (u (-1)%Z)) ^ 2) in *;
  clearbody b0 b1; generalize (comp i (u (-1)%Z)) as x, (comp i (u 0%Z)) as y, (comp i (u 1%Z)) as z; intros;
  set (e := weno_eps) in *; clearbody e;
  assert (0 < e + b0) as P0 by lra; assert (0 < e + b1) as P1 by lra;
  rewrite (Rplus_comm b0 e), (Rplus_comm b1 e);
  set (p := e + b0) in *; set (q := e + b1) in *; clearbody p q; clear - P0 P1;
  assert (0 < p * p) by nra; assert (0 < q * q) by nra;
  field; repeat split; try lra; nra.
Qed.

(** ** WENOF2 *)
Lemma clamp_bounds c x : 0 < c -> - bound * c <= clamp c x <= bound * c.
Proof.
  intros H. unfold clamp, bound.
  pose proof (Rmax_l (- (19 / 10) * c) (Rmin (19 / 10 * c) x)).
  pose proof (Rmin_l (19 / 10 * c) x).
  assert (Rmax (- (19 / 10) * c) (Rmin (19 / 10 * c) x) <= 19 / 10 * c) by (apply Rmax_lub; lra).
  lra.
Qed.
Lemma damp_bounds n gamma m d : 1 < gamma -> 0 < p_p m -> 0 <= wenof2_damp n gamma m d <= 1 / 2.
Proof.
  intros Hg Hp. unfold wenof2_damp.
  assert (0 < p_p m / (gamma - 1)) as Hr by (apply Rdiv_lt_0_compat; lra).
  set (r := p_p m / (gamma - 1)) in *. set (q := Rmax r _).
  assert (r <= q) as Hq by apply Rmax_l. clearbody r q.
  assert (0 <= r / q <= 1) as Hd.
  { split; [apply Rlt_le, Rdiv_lt_0_compat; lra|]. apply (Rmult_le_reg_r q); [lra|]. field_simplify; lra. }
  pose proof (sqrt_pos (r / q)). pose proof (sqrt_le_1_alt (r / q) 1 (proj2 Hd)) as Hs. rewrite sqrt_1 in Hs. lra.
Qed.
Lemma damped_pos a c d : 0 <= a <= 1 / 2 -> 0 < c -> - bound * c <= d <= bound * c ->
  c / 20 <= c - a * d /\ c / 20 <= c + a * d.
Proof. unfold bound. intros. split; nra. Qed.
Lemma wenof2_admissible n gamma l m r : 1 < gamma -> admissible n gamma m ->
  let w := wenof2 n gamma l m r in
  (rho_ m / 20 <= rho_ (fst w) /\ p_p (to_prim n gamma m) / 20 <= p_p (to_prim n gamma (fst w))) /\
  (rho_ m / 20 <= rho_ (snd w) /\ p_p (to_prim n gamma m) / 20 <= p_p (to_prim n gamma (snd w))).
Proof.
  intros Hg [Hr Hp] w. unfold w, wenof2; cbn [fst snd].
  set (ws := weno2_weights _ _ _). clearbody ws.
  set (pm := to_prim n gamma m) in *.
  assert (p_rho pm = rho_ m) as Er by reflexivity.
  split.
  - set (d := padd n _ _). clearbody d.
    pose proof (damp_bounds n gamma pm (pclamp n pm d) Hg Hp) as Ha. set (a := wenof2_damp _ _ _ _) in *. clearbody a.
    destruct (damped_pos a (p_rho pm) (clamp (p_rho pm) (p_rho d)) Ha) as [A1 A2]; [lra | apply clamp_bounds; lra|].
    destruct (damped_pos a (p_p pm) (clamp (p_p pm) (p_p d)) Ha) as [B1 B2]; [lra | apply clamp_bounds; lra|].
    rewrite prim_cons; [split; [exact A1 | exact B1] | | lra].
    change (p_rho pm - a * clamp (p_rho pm) (p_rho d) <> 0); lra.
  - set (d := padd n (pscal n (snd (snd ws)) _) _). clearbody d.
    pose proof (damp_bounds n gamma pm (pclamp n pm d) Hg Hp) as Ha. set (a := wenof2_damp _ _ _ _) in *. clearbody a.
    destruct (damped_pos a (p_rho pm) (clamp (p_rho pm) (p_rho d)) Ha) as [A1 A2]; [lra | apply clamp_bounds; lra|].
    destruct (damped_pos a (p_p pm) (clamp (p_p pm) (p_p d)) Ha) as [B1 B2]; [lra | apply clamp_bounds; lra|].
    rewrite prim_cons; [split; [exact A2 | exact B2] | | lra].
    change (p_rho pm + a * clamp (p_rho pm) (p_rho d) <> 0); lra.
Qed.

(** ** The stencil of ENO *)
Lemma newton_ddiff1 v lo : newton 1 v lo = ddiff 1 v lo.
Proof. cbn. field. Qed.
Lemma eno2_stencil v : eno_stencil v 1 (- Z.of_nat (eno_shift 1 v)).
Proof.
  cbn [eno_shift plus]. destruct (Rlt_dec _ _) as [H|H].
  - apply (eno_left v 0 0); [constructor|]. rewrite !newton_ddiff1. exact H.
  - apply (eno_right v 0 0); [constructor|]. rewrite !newton_ddiff1. apply Rnot_lt_le. exact H.
Qed.
Lemma eno_stencil_unique v n lo lo' : eno_stencil v n lo -> eno_stencil v n lo' -> lo = lo'.
Proof.
  intros H. revert lo'. induction H; intros lo' H'; inversion H'; subst; auto.
  - rewrite (IHeno_stencil _ H2); auto.
  - pose proof (IHeno_stencil _ H2); subst. lra.
  - pose proof (IHeno_stencil _ H2); subst. lra.
Qed.
