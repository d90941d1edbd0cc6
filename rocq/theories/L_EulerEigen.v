(** Eigenpairs of the Euler flux. *)
From Coq Require Import Reals List ZArith Lra Lia Bool.
From Verif Require Import M_Base M_Vec M_Flux M_Combined M_Euler M_EulerEigen S_Euler L_Euler L_EulerDeriv.
Import ListNotations.
Open Scope R_scope.

Section N.
Variables (gamma : R) (Hg : 1 < gamma).

Definition nf (n : nat) (rho a : R) (w : rvec n) : cons n := to_cons n gamma (mkprim rho w (rho * (a * a) / gamma)).

Lemma normal_form n (u : cons n) : admissible n gamma u ->
  exists rho a w, 0 < rho /\ 0 < a /\ u = nf n rho a w.
Proof.
  intros Ha. pose proof (sound_pos n gamma u ltac:(lra) Ha) as Hs. destruct Ha as [H1 H2].
  exists (rho_ u), (sound gamma u), (extra_u u). split; [assumption|]. split; [assumption|].
  unfold nf. rewrite <- (cons_prim n gamma u) at 1 by lra. f_equal.
  assert (E : sound gamma u * sound gamma u = gamma * extra_p gamma u / rho_ u).
  { unfold sound. apply sqrt_sqrt. change (extra_p gamma u) with (p_p (to_prim n gamma u)).
    apply Rlt_le, Rdiv_lt_0_compat; [apply Rmult_lt_0_compat; lra|lra]. }
  rewrite E. unfold to_prim, extra_p, extra_u. f_equal. field. lra.
Qed.
Lemma nf_prim n rho a (w : rvec n) : 0 < rho ->
  to_prim n gamma (nf n rho a w) = mkprim rho w (rho * (a * a) / gamma).
Proof. intros. apply prim_cons; cbn [p_rho]; lra. Qed.
Lemma nf_sound n rho a (w : rvec n) : 0 < rho -> 0 < a -> soundp gamma (nf n rho a w) = a.
Proof.
  intros H1 H2. unfold soundp. rewrite nf_prim by assumption. cbn [p_p nf].
  change (rho_ (nf n rho a w)) with rho.
  replace (gamma * (rho * (a * a) / gamma) / rho) with (a * a) by (field; lra). apply sqrt_square. lra.
Qed.
Lemma nf_acoustic m s rho a (w : rvec (S m)) : 0 < rho -> 0 < a ->
  col_acoustic gamma m s (nf (S m) rho a w) =
  mkcons (n := S m) 1 (fst w + s * a, snd w) (a * a / (gamma - 1) + vdot (S m) w w / 2 + s * (fst w * a)).
Proof.
  intros H1 H2. unfold col_acoustic, enthalpy. rewrite nf_sound, nf_prim by assumption. cbn [p_u p_p].
  apply cons_ext; try reflexivity.
  change (en (mkcons (n := S m) 1 (fst w + s * a, snd w)
   ((en (nf (S m) rho a w) + rho * (a * a) / gamma) / rho_ (nf (S m) rho a w) + s * (fst w * a)))) with
   (((rho * (a * a) / gamma) / (gamma - 1) + 1 / 2 * rho * vdot (S m) w w + rho * (a * a) / gamma) / rho + s * (fst w * a)).
  change (en (mkcons (n := S m) 1 (fst w + s * a, snd w) (a * a / (gamma - 1) + vdot (S m) w w / 2 + s * (fst w * a))))
    with (a * a / (gamma - 1) + vdot (S m) w w / 2 + s * (fst w * a)).
  field. lra.
Qed.
Lemma nf_entropy m rho a (w : rvec (S m)) : 0 < rho ->
  col_entropy gamma m (nf (S m) rho a w) = mkcons 1 w (1 / 2 * vdot (S m) w w).
Proof. intros H1. unfold col_entropy. rewrite nf_prim by assumption. reflexivity. Qed.

Lemma cons_nonzero n (u : cons n) : rho_ u <> 0 -> u <> vzero.
Proof. intros H ->. now apply H. Qed.

Ltac split_comps :=
  intros i; rewrite <- comp_scal; revert i;
  apply pair_deriv; [intros i|apply pair_deriv; [repeat apply pair_deriv; intros i|intros i]].

Ltac fcalc := cbn; unfold extra_p, extra_u; cbn; dlim; cbn beta; unfold Rsqr; try lra; field; repeat split; lra.
Ltac all_comps := split_comps; fcalc.

(** The exact eigenvectors for coordinate direction d. *)
Definition exact_acoustic (n d : nat) (s a : R) (w : rvec n) : cons n :=
  mkcons 1 (vadd w (vscal (s * a) (unit_vec n d))) (a * a / (gamma - 1) + vdot n w w / 2 + s * (vnth n d w * a)).
Definition exact_entropy (n : nat) (w : rvec n) : cons n := mkcons 1 w (1 / 2 * vdot n w w).
Definition exact_shear (n k : nat) (w : rvec n) : cons n := mkcons 0 (unit_vec n k) (vnth n k w).

Ltac dims n d Hn Hd :=
  destruct n as [|[|[|[|n]]]]; try (exfalso; lia);
  destruct d as [|[|[|d]]]; try (exfalso; lia); clear Hn Hd.
Ltac vecs w := repeat match type of w with _ => let x := fresh "x" in destruct w as [x w] end.

Lemma eig_acoustic n d s rho a (w : rvec n) : (1 <= n <= 3)%nat -> (d < n)%nat -> 0 < rho -> 0 < a -> s = 1 \/ s = -1 ->
  eigenpair (V := euler_cvars n) (euler_flux n gamma d) (nf n rho a w) (exact_acoustic n d s a w) (vnth n d w + s * a).
Proof.
  intros Hn Hd H1 H2 Hs. split; [apply cons_nonzero; cbn; lra|].
  assert (Hs' : s * s = 1) by (destruct Hs as [-> | ->]; lra).
  dims n d Hn Hd; destruct Hs as [-> | ->].
  1-2: destruct w as [x []]; all_comps.
  1-4: destruct w as [x [y []]]; all_comps.
  1-6: destruct w as [x [y [z []]]]; all_comps.
Qed.
Lemma eig_entropy n d rho a (w : rvec n) : (1 <= n <= 3)%nat -> (d < n)%nat -> 0 < rho -> 0 < a ->
  eigenpair (V := euler_cvars n) (euler_flux n gamma d) (nf n rho a w) (exact_entropy n w) (vnth n d w).
Proof.
  intros Hn Hd H1 H2. split; [apply cons_nonzero; cbn; lra|].
  dims n d Hn Hd.
  1: destruct w as [x []]; all_comps.
  1-2: destruct w as [x [y []]]; all_comps.
  1-3: destruct w as [x [y [z []]]]; all_comps.
Qed.
Lemma eig_shear n d k rho a (w : rvec n) : (1 <= n <= 3)%nat -> (d < n)%nat -> (k < n)%nat -> k <> d -> 0 < rho -> 0 < a ->
  eigenpair (V := euler_cvars n) (euler_flux n gamma d) (nf n rho a w) (exact_shear n k w) (vnth n d w).
Proof.
  intros Hn Hd Hk Hkd H1 H2. split.
  { intros E. assert (G : vnth n k (mom (exact_shear n k w)) = 0).
    { rewrite E. clear. change (mom (vzero : euler_cvars n)) with (vzero : rvec n).
      revert k; induction n as [|n IH]; intros [|k]; cbn [vnth]; try reflexivity. apply IH. }
    change (mom (exact_shear n k w)) with (unit_vec n k) in G.
    assert (vnth n k (unit_vec n k) = 1); [|lra].
    clear -Hk. revert k Hk; induction n as [|n IH]; intros [|k] Hk; cbn [vnth unit_vec]; try lia; [reflexivity|]. apply IH. lia. }
  dims n d Hn Hd; destruct k as [|[|[|k]]]; try (exfalso; lia).
  1-2: destruct w as [x [y []]]; all_comps.
  1-6: destruct w as [x [y [z []]]]; all_comps.
Qed.
End N.
