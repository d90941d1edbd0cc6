(** Lemmas about the scalar fluxes. *)
From Coq Require Import Reals List Lra Lia.
From Verif Require Import M_Base M_Vec M_Flux M_Combined M_Scalar.
Import ListNotations.
Open Scope R_scope.

Lemma bl_den u : 0 < u * u + (1 - u) * (1 - u).
Proof. nra. Qed.
Lemma bl_flux_nonneg u : 0 <= point_flux BuckleyLeverett u.
Proof. apply Rmult_le_pos; [nra|]. left. apply Rinv_0_lt_compat, bl_den. Qed.
Lemma bl_flux_0 : point_flux BuckleyLeverett 0 = 0.
Proof. simpl. field. Qed.
Lemma bl_flux_mono x y : 0 <= x <= y -> y <= 1 -> point_flux BuckleyLeverett x <= point_flux BuckleyLeverett y.
Proof.
  intros H1 H2. simpl. pose proof (bl_den x). pose proof (bl_den y).
  apply (Rmult_le_reg_r ((x * x + (1 - x) * (1 - x)) * (y * y + (1 - y) * (1 - y)))); [nra|].
  replace (x * x / (x * x + (1 - x) * (1 - x)) * ((x * x + (1 - x) * (1 - x)) * (y * y + (1 - y) * (1 - y))))
    with (x * x * (y * y + (1 - y) * (1 - y))) by (field; lra).
  replace (y * y / (y * y + (1 - y) * (1 - y)) * ((x * x + (1 - x) * (1 - x)) * (y * y + (1 - y) * (1 - y))))
    with (y * y * (x * x + (1 - x) * (1 - x))) by (field; lra).
  assert (x * (1 - y) <= y * (1 - x)) by lra.
  assert (0 <= x * (1 - y)) by (apply Rmult_le_pos; lra).
  assert ((x * (1 - y)) * (x * (1 - y)) <= (y * (1 - x)) * (y * (1 - x))) by (apply Rmult_le_compat; lra).
  nra.
Qed.

Lemma consistent e n u : In (Two n) (offered e) -> n <> LinearRoe -> flux_value e n u u = point_flux e u.
Proof.
  intros H N. unfold flux_value. destruct n; try congruence.
  - field.
  - replace (u - u) with 0 by ring. field.
  - assert (Hc : e = Burgers \/ e = BuckleyLeverett).
    { destruct e; simpl in H; try (now left); try (now right);
        repeat (destruct H as [H|H]; [discriminate|]); destruct H. }
    destruct (Rle_dec 0 u) as [Hu|Hu].
    + rewrite (Rmax_left u 0) by lra. rewrite (Rmin_right u 0) by lra. apply Rmax_left.
      destruct Hc; subst e; [simpl; nra|]. rewrite bl_flux_0. apply bl_flux_nonneg.
    + rewrite (Rmax_right u 0) by lra. rewrite (Rmin_left u 0) by lra. apply Rmax_right.
      destruct Hc; subst e; [simpl; nra|]. rewrite bl_flux_0. apply bl_flux_nonneg.
  - destruct (Rge_dec u (- u)).
    + rewrite Rmax_left by lra. reflexivity.
    + rewrite Rmin_left by lra. reflexivity.
  - destruct (Rge_dec _ 0); reflexivity.
  - destruct (Req_EM_T u u); [reflexivity|lra].
Qed.

(** Godunov for Burgers. *)
Lemma godunov_min l r : l <= r ->
  (exists m, l <= m <= r /\ flux_value Burgers Godunov l r = point_flux Burgers m) /\
  (forall x, l <= x <= r -> flux_value Burgers Godunov l r <= point_flux Burgers x).
Proof.
  intros H. unfold flux_value, point_flux.
  destruct (Rle_dec 0 l) as [L|L].
  { rewrite (Rmax_left l 0), (Rmin_right r 0) by lra.
    rewrite Rmax_left by nra. split; [exists l; split; lra|]. intros x Hx. nra. }
  destruct (Rle_dec r 0) as [Rr|Rr].
  { rewrite (Rmax_right l 0), (Rmin_left r 0) by lra. rewrite Rmax_right by nra.
    split; [exists r; split; lra|]. intros x Hx. nra. }
  rewrite (Rmax_right l 0), (Rmin_right r 0) by lra. rewrite Rmax_left by lra.
  split; [exists 0; split; lra|]. intros x Hx. nra.
Qed.
Lemma godunov_max l r : r <= l ->
  (exists m, r <= m <= l /\ flux_value Burgers Godunov l r = point_flux Burgers m) /\
  (forall x, r <= x <= l -> point_flux Burgers x <= flux_value Burgers Godunov l r).
Proof.
  intros H. unfold flux_value, point_flux.
  destruct (Rle_dec 0 r) as [Rr|Rr].
  { rewrite (Rmax_left l 0), (Rmin_right r 0) by lra. rewrite Rmax_left by nra.
    split; [exists l; split; lra|]. intros x Hx. nra. }
  destruct (Rle_dec l 0) as [L|L].
  { rewrite (Rmax_right l 0), (Rmin_left r 0) by lra. rewrite Rmax_right by nra.
    split; [exists r; split; lra|]. intros x Hx. nra. }
  rewrite (Rmax_left l 0), (Rmin_left r 0) by lra. split.
  - destruct (Rle_dec (l * l / 2) (r * r / 2)).
    + rewrite Rmax_right by lra. exists r. split; lra.
    + rewrite Rmax_left by lra. exists l. split; lra.
  - intros x Hx. destruct (Rle_dec 0 x).
    + apply Rle_trans with (l * l / 2); [nra|apply Rmax_l].
    + apply Rle_trans with (r * r / 2); [nra|apply Rmax_r].
Qed.
Lemma bl_godunov l r : 0 <= l <= 1 -> 0 <= r <= 1 ->
  flux_value BuckleyLeverett Godunov l r = point_flux BuckleyLeverett l.
Proof.
  intros Hl Hr. unfold flux_value. rewrite (Rmax_left l 0), (Rmin_right r 0) by lra.
  rewrite bl_flux_0. apply Rmax_left, bl_flux_nonneg.
Qed.

(** Entropy. *)
Definition entropy_var' (u : R) : R := 1 / ((2 - u) * (2 - u)) + 1 / (u * u).
Lemma entropy_var_deriv u : 0 < u < 2 -> derivable_pt_lim entropy_var u (entropy_var' u).
Proof.
  intros H. unfold entropy_var, entropy_var'.
  replace (1 / ((2 - u) * (2 - u)) + 1 / (u * u)) with
    (((0 * (2 - u) - (0 - 1) * 1) / (2 - u)²) - ((0 * (u - 0) - (1 - 0) * 1) / (u - 0)²)) by (unfold Rsqr; field; lra).
  apply (derivable_pt_lim_minus (fun u => 1 / (2 - u)) (fun u => 1 / (u - 0))).
  - apply (derivable_pt_lim_div (fun _ => 1) (fun u => 2 - u)); [apply derivable_pt_lim_const| |lra].
    apply (derivable_pt_lim_minus (fun _ => 2) id); [apply derivable_pt_lim_const|apply derivable_pt_lim_id].
  - apply (derivable_pt_lim_div (fun _ => 1) (fun u => u - 0)); [apply derivable_pt_lim_const| |lra].
    apply (derivable_pt_lim_minus id (fun _ => 0)); [apply derivable_pt_lim_id|apply derivable_pt_lim_const].
Qed.
Definition entropy_ (u : R) : R := - ln (2 - u) - ln u.
Lemma dln_comp u : u < 2 -> derivable_pt_lim (fun u => ln (2 - u)) u (/ (2 - u) * (0 - 1)).
Proof.
  intros H. apply (derivable_pt_lim_comp (fun u => 2 - u) ln).
  - apply (derivable_pt_lim_minus (fun _ => 2) id); [apply derivable_pt_lim_const|apply derivable_pt_lim_id].
  - apply derivable_pt_lim_ln. lra.
Qed.
Lemma entropy_deriv u : 0 < u < 2 -> derivable_pt_lim entropy_ u (entropy_var u).
Proof.
  intros H. unfold entropy_.
  replace (entropy_var u) with (- (/ (2 - u) * (0 - 1)) - / u) by (unfold entropy_var; field; lra).
  apply (derivable_pt_lim_minus (fun u => - ln (2 - u)) ln).
  - apply (derivable_pt_lim_opp (fun u => ln (2 - u))). apply dln_comp. lra.
  - apply derivable_pt_lim_ln. lra.
Qed.
Lemma entropy_pot_deriv u : 0 < u < 2 -> derivable_pt_lim entropy_pot u (entropy_var' u * point_flux Burgers u).
Proof.
  intros H. unfold entropy_pot. 
  pose proof (entropy_var_deriv u H) as Dv.
  assert (D1 : derivable_pt_lim (fun u => entropy_var u * (1 / 2)) u (entropy_var' u * (1 / 2) + entropy_var u * 0)).
  { apply (derivable_pt_lim_mult entropy_var (fun _ => 1 / 2)); auto. apply derivable_pt_lim_const. }
  assert (D2 : derivable_pt_lim (fun u => entropy_var u * (1 / 2) * u) u
     ((entropy_var' u * (1 / 2) + entropy_var u * 0) * u + entropy_var u * (1 / 2) * 1)).
  { apply (derivable_pt_lim_mult (fun u => entropy_var u * (1 / 2)) id); auto. apply derivable_pt_lim_id. }
  assert (D3 : derivable_pt_lim (fun u => entropy_var u * (1 / 2) * u * u) u
     (((entropy_var' u * (1 / 2) + entropy_var u * 0) * u + entropy_var u * (1 / 2) * 1) * u
      + entropy_var u * (1 / 2) * u * 1)).
  { apply (derivable_pt_lim_mult (fun u => entropy_var u * (1 / 2) * u) id); auto. apply derivable_pt_lim_id. }
  assert (D4 : derivable_pt_lim (fun u => -2 * u) u (0 * u + -2 * 1)).
  { apply (derivable_pt_lim_mult (fun _ => -2) id); [apply derivable_pt_lim_const|apply derivable_pt_lim_id]. }
  assert (D5 : derivable_pt_lim (fun u => 2 * ln (2 - u)) u (0 * ln (2 - u) + 2 * (/ (2 - u) * (0 - 1)))).
  { apply (derivable_pt_lim_mult (fun _ => 2) (fun u => ln (2 - u))); [apply derivable_pt_lim_const|apply dln_comp; lra]. }
  assert (D6 : derivable_pt_lim (fun u => 0 * ln (u - 0)) u 0).
  { apply (derivable_pt_lim_ext (fun _ => 0)); [intros; ring|apply derivable_pt_lim_const]. }
  assert (D7 := derivable_pt_lim_minus _ _ u _ _ (derivable_pt_lim_minus _ _ u _ _ D4 D5) D6).
  assert (D8 := derivable_pt_lim_minus _ _ u _ _ D3 D7).
  match type of D8 with derivable_pt_lim _ _ ?x => replace (entropy_var' u * point_flux Burgers u) with x end.
  - exact D8.
  - unfold entropy_var', entropy_var, point_flux. field. lra.
Qed.
Lemma entropy_var_mono l r : 0 < l -> l < r -> r < 2 -> entropy_var l < entropy_var r.
Proof.
  intros H1 H2 H3. unfold entropy_var, Rdiv. rewrite !Rmult_1_l, !Rminus_0_r.
  assert (/ (2 - l) < / (2 - r)) by (apply Rinv_lt_contravar; nra).
  assert (/ r < / l) by (apply Rinv_lt_contravar; nra). lra.
Qed.
Lemma entropy_var_neq l r : 0 < l < 2 -> 0 < r < 2 -> l <> r -> entropy_var l <> entropy_var r.
Proof.
  intros H1 H2 H3. destruct (Rtotal_order l r) as [L|[L|L]]; [|contradiction|].
  - pose proof (entropy_var_mono l r). lra.
  - pose proof (entropy_var_mono r l). lra.
Qed.
Lemma entropy_flux_exact l r : 0 < l < 2 -> 0 < r < 2 ->
  (entropy_var r - entropy_var l) * flux_value Burgers EntropyConservative l r = entropy_pot r - entropy_pot l.
Proof.
  intros Hl Hr. unfold flux_value. destruct (Req_EM_T l r) as [->|N]; [ring|].
  pose proof (entropy_var_neq l r Hl Hr N). field. lra.
Qed.
Lemma entropy_flux_sym l r : 0 < l < 2 -> 0 < r < 2 ->
  flux_value Burgers EntropyConservative l r = flux_value Burgers EntropyConservative r l.
Proof.
  intros Hl Hr. unfold flux_value. destruct (Req_EM_T l r) as [->|N]; [now destruct (Req_EM_T r r)|].
  destruct (Req_EM_T r l) as [->|_]; [contradiction|].
  pose proof (entropy_var_neq l r Hl Hr N). field. lra.
Qed.
