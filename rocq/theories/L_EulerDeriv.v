(** Derivatives of the Euler flux and entropy. *)
From Coq Require Import Reals List ZArith Lra Lia Bool.
From Verif Require Import M_Base M_Vec M_Flux M_Combined M_Euler M_EulerEigen S_Euler L_Euler.
Import ListNotations.
Open Scope R_scope.

(** Derivative of a pair from the derivatives of its parts. *)
Lemma pair_deriv (U W : cvars) (F : R -> pair_cvars U W) t (L : pair_cvars U W) :
  (forall i, derivable_pt_lim (fun s => comp i (fst (F s))) t (comp i (fst L))) ->
  (forall i, derivable_pt_lim (fun s => comp i (snd (F s))) t (comp i (snd L))) ->
  forall i, derivable_pt_lim (fun s => comp i (F s)) t (comp i L).
Proof.
  intros H1 H2 i. change (fun s => comp i (F s)) with
    (fun s => if Nat.even i then comp (Nat.div2 i) (fst (F s)) else comp (Nat.div2 i) (snd (F s))).
  change (comp i L) with (if Nat.even i then comp (Nat.div2 i) (fst L) else comp (Nat.div2 i) (snd L)).
  destruct (Nat.even i); auto.
Qed.
Lemma pair_deriv_fst (U W : cvars) (F : R -> pair_cvars U W) t (L : pair_cvars U W) :
  (forall i, derivable_pt_lim (fun s => comp i (F s)) t (comp i L)) ->
  forall i, derivable_pt_lim (fun s => comp i (fst (F s))) t (comp i (fst L)).
Proof.
  intros H i. specialize (H (2 * i)%nat).
  assert (E : forall x : pair_cvars U W, comp (2 * i) x = comp i (fst x)).
  { intros x. change (comp (2 * i) x) with (if Nat.even (2 * i) then comp (Nat.div2 (2 * i)) (fst x) else comp (Nat.div2 (2 * i)) (snd x)).
    rewrite Nat.even_mul. simpl Nat.even. simpl orb. now rewrite Nat.div2_double. }
  intros eps He. destruct (H eps He) as [delta Hd]. exists delta. intros h H1 H2.
  rewrite <- !E. now apply Hd.
Qed.
Lemma pair_deriv_snd (U W : cvars) (F : R -> pair_cvars U W) t (L : pair_cvars U W) :
  (forall i, derivable_pt_lim (fun s => comp i (F s)) t (comp i L)) ->
  forall i, derivable_pt_lim (fun s => comp i (snd (F s))) t (comp i (snd L)).
Proof.
  intros H i. specialize (H (S (2 * i))%nat).
  assert (E : forall x : pair_cvars U W, comp (S (2 * i)) x = comp i (snd x)).
  { intros x. change (comp (S (2 * i)) x) with (if Nat.even (S (2 * i)) then comp (Nat.div2 (S (2 * i))) (fst x) else comp (Nat.div2 (S (2 * i))) (snd x)).
    rewrite Nat.even_succ, Nat.odd_mul. simpl Nat.odd. simpl andb. now rewrite Nat.div2_succ_double. }
  intros eps He. destruct (H eps He) as [delta Hd]. exists delta. intros h H1 H2.
  rewrite <- !E. now apply Hd.
Qed.

Lemma dlim_eq f x a b : derivable_pt_lim f x a -> a = b -> derivable_pt_lim f x b.
Proof. now intros H <-. Qed.
Lemma dlim_ext f g x a : (forall t, f t = g t) -> derivable_pt_lim f x a -> derivable_pt_lim g x a.
Proof. intros E H eps He. destruct (H eps He) as [d Hd]. exists d. intros h H1 H2. rewrite <- !E. now apply Hd. Qed.
Lemma dlim_id x : derivable_pt_lim (fun t => t) x 1.
Proof. apply derivable_pt_lim_id. Qed.
Lemma dlim_inv f x a : derivable_pt_lim f x a -> f x <> 0 -> derivable_pt_lim (fun t => / f t) x (- a / (f x * f x)).
Proof.
  intros H Hn. apply (dlim_ext (fun t => 1 / f t)); [intros; unfold Rdiv; ring|].
  eapply dlim_eq; [apply (derivable_pt_lim_div (fun _ => 1) f x 0 a); [apply derivable_pt_lim_const|assumption|assumption]|].
  unfold Rsqr. field. assumption.
Qed.

(** Compute the derivative of an expression built from t with + - * / by
    constants and expressions. *)
Ltac dlim_step :=
  match goal with
  | |- derivable_pt_lim (fun t => ?c) _ _ => apply derivable_pt_lim_const
  | |- derivable_pt_lim (fun t => t) _ _ => apply dlim_id
  | |- derivable_pt_lim (fun t => @?a t + @?b t) ?x _ => refine (derivable_pt_lim_plus a b x _ _ _ _)
  | |- derivable_pt_lim (fun t => @?a t - @?b t) ?x _ => refine (derivable_pt_lim_minus a b x _ _ _ _)
  | |- derivable_pt_lim (fun t => @?a t * @?b t) ?x _ => refine (derivable_pt_lim_mult a b x _ _ _ _)
  | |- derivable_pt_lim (fun t => @?a t / @?b t) ?x _ => refine (derivable_pt_lim_div a b x _ _ _ _ _)
  | |- derivable_pt_lim (fun t => / @?a t) ?x _ => refine (dlim_inv a x _ _ _)
  | |- derivable_pt_lim (fun t => - @?a t) ?x _ => refine (derivable_pt_lim_opp a x _ _)
  end.
Ltac dlim := eapply dlim_eq; [repeat dlim_step|].

Lemma eigenpair_scale (V : cvars) (f : V -> V) u r lambda c :
  c <> 0 -> eigenpair f u r lambda -> eigenpair f u (vscal c r) lambda.
Proof.
  intros Hc [Hr H]. split.
  - intros E. apply Hr. apply comp_ext; intros i. rewrite comp_zero.
    assert (comp i (vscal c r) = 0) as G by now rewrite E, comp_zero. rewrite comp_scal in G.
    apply Rmult_integral in G. destruct G; [contradiction|assumption].
  - intros i. apply (dlim_ext (fun t => (fun s => comp i (f (vadd u (vscal s r)))) (t * c))).
    { intros t. cbn beta. now rewrite vscal_vscal. }
    eapply dlim_eq.
    + apply (derivable_pt_lim_comp (fun t => t * c) (fun s => comp i (f (vadd u (vscal s r))))).
      * eapply dlim_eq; [repeat dlim_step|reflexivity].
      * cbn beta. rewrite Rmult_0_l. apply H.
    + rewrite comp_scal. ring.
Qed.
