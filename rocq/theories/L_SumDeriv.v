(** Derivatives of finite sums, and of the scalar flux functions. *)
From Coq Require Import ZArith Reals List Bool Lia Lra.
From Verif Require Import M_Base M_Vec M_Flux S_Boundary S_Flux S_Sum S_Scalar L_Base L_Loops L_Flux L_Sum M_Scalar L_Scalar.
Import ListNotations.
Open Scope R_scope.

Lemma sumz_deriv lo hi (f : R -> Z -> R) (f' : Z -> R) t :
  (forall k, (lo <= k < hi)%Z -> derivable_pt_lim (fun t => f t k) t (f' k)) ->
  derivable_pt_lim (fun t => sumz lo hi (f t)) t (sumz lo hi f').
Proof.
  intros H. unfold sumz.
  assert (G : forall k, In k (zrange lo hi) -> derivable_pt_lim (fun t => f t k) t (f' k)).
  { intros k Hk. apply H. now apply zrange_In in Hk. }
  induction (zrange lo hi) as [|k l IH]; cbn [map fold_right].
  - apply derivable_pt_lim_const.
  - apply (derivable_pt_lim_plus (fun t => f t k) (fun t => fold_right Rplus 0 (map (f t) l))).
    + apply G. now left.
    + apply IH. intros; apply G; now right.
Qed.
Lemma sum3_deriv lo hi (f : R -> cell -> R) (f' : cell -> R) t :
  (forall c, (forall k, dir k -> (lo k <= coord k c < hi k)%Z) -> derivable_pt_lim (fun t => f t c) t (f' c)) ->
  derivable_pt_lim (fun t => sum3 lo hi (f t)) t (sum3 lo hi f').
Proof.
  intros H. unfold sum3. apply (sumz_deriv _ _ (fun t z => sumz (lo 1%Z) (hi 1%Z) (fun y =>
    sumz (lo 0%Z) (hi 0%Z) (fun x => f t (x, y, z))))). intros z Hz.
  apply (sumz_deriv _ _ (fun t y => sumz (lo 0%Z) (hi 0%Z) (fun x => f t (x, y, z)))). intros y Hy.
  apply (sumz_deriv _ _ (fun t x => f t (x, y, z))). intros x Hx.
  apply H. intros k Hk. dcase Hk; assumption.
Qed.
Lemma isum_deriv dims g n (f : R -> cell -> R) (f' : cell -> R) t :
  (forall c, (forall k, dir k -> (ilo dims g k <= coord k c < ihi dims g n k)%Z) -> derivable_pt_lim (fun t => f t c) t (f' c)) ->
  derivable_pt_lim (fun t => isum dims g n (f t)) t (isum dims g n f').
Proof. apply sum3_deriv. Qed.

Lemma eigen_deriv e u : derivable_pt_lim (flux_fun e) u (eigenvalue e u).
Proof.
  destruct e; cbn [flux_fun eigenvalue].
  - replace u with ((INR 2 * u ^ 1 * 2 - 0 * u ^ 2) / 2²) at 2 by (unfold Rsqr; simpl; field).
    apply (derivable_pt_lim_div (fun u => u ^ 2) (fun _ => 2)); [apply derivable_pt_lim_pow|apply derivable_pt_lim_const|lra].
  - replace (u * u) with ((INR 3 * u ^ 2 * 3 - 0 * u ^ 3) / 3²) by (unfold Rsqr; simpl; field).
    apply (derivable_pt_lim_div (fun u => u ^ 3) (fun _ => 3)); [apply derivable_pt_lim_pow|apply derivable_pt_lim_const|lra].
  - apply derivable_pt_lim_id.
  - pose proof (bl_den u) as D.
    assert (D1 : derivable_pt_lim (fun u => (1 - u) ^ 2) u (INR 2 * (1 - u) ^ 1 * (0 - 1))).
    { apply (derivable_pt_lim_comp (fun u => 1 - u) (fun v => v ^ 2)); [|apply (derivable_pt_lim_pow (1 - u) 2)].
      apply (derivable_pt_lim_minus (fun _ => 1) id); [apply derivable_pt_lim_const|apply derivable_pt_lim_id]. }
    assert (D2 := derivable_pt_lim_plus (fun u => u ^ 2) _ u _ _ (derivable_pt_lim_pow u 2) D1).
    assert (N : (u ^ 2 + (1 - u) ^ 2) <> 0) by (simpl; lra).
    assert (D3 := derivable_pt_lim_div (fun u => u ^ 2) _ u _ _ (derivable_pt_lim_pow u 2) D2 N).
    match type of D3 with derivable_pt_lim _ _ ?x => replace ((2 * u * (u * u + (1 - u) * (1 - u)) - u * u * (2 * u - 2 * (1 - u))) /
     ((u * u + (1 - u) * (1 - u)) * (u * u + (1 - u) * (1 - u)))) with x end; [exact D3|].
    unfold Rsqr, plus_fct, pred, INR. field. cbn [pow] in *. nra.
Qed.
