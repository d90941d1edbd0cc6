(** Reconstructions and combined fluxes in another point of view. *)
From Coq Require Import ZArith Reals List Bool Lia Lra.
From Verif Require Import M_Base M_Vec M_Flux M_Combined M_Scalar M_Euler M_Recon S_Symmetry.
Import ListNotations.
Open Scope R_scope.

Ltac len3 := exfalso; match goal with H : Z.of_nat _ = _ |- _ =>
  cbn [length rec_ghosts no_reconstruction weno2_recon limiter_recon weno_recon] in H; lia end.

Section Linear.
Context {V W : cvars}.
Variable tau : V -> W.
Hypothesis tau_add : forall a c, tau (vadd a c) = vadd (tau a) (tau c).
Hypothesis tau_scal : forall k a, tau (vscal k a) = vscal k (tau a).

Lemma vscal0 {X : cvars} (a : X) : vscal 0 a = vzero.
Proof. apply comp_ext; intros i. rewrite comp_scal, comp_zero; ring. Qed.
Lemma tau_zero : tau vzero = vzero.
Proof. now rewrite <- (vscal0 vzero), tau_scal, vscal0. Qed.

(** ** Combined fluxes *)
Lemma carries4 (f : Z -> V -> V -> V * R) (f' : Z -> W -> W -> W * R) d d' :
  carries tau (Flux2 f) d (Flux2 f') d' -> carries tau (combined4 f) d (combined4 f') d'.
Proof.
  intros H. cbn in H. split; [reflexivity|]. intros us Hl.
  destruct us as [|a [|b [|c [|e [|]]]]]; try discriminate. cbn [map fst snd].
  rewrite !H. cbn [fst snd]. now rewrite ?tau_add, ?tau_scal, ?tau_add, ?tau_scal.
Qed.
Lemma carries6 (f : Z -> V -> V -> V * R) (f' : Z -> W -> W -> W * R) d d' :
  carries tau (Flux2 f) d (Flux2 f') d' -> carries tau (combined6 f) d (combined6 f') d'.
Proof.
  intros H. cbn in H. split; [reflexivity|]. intros us Hl.
  destruct us as [|a [|b [|c [|e [|g [|h [|]]]]]]]; try discriminate. cbn [map fst snd].
  rewrite !H. cbn [fst snd]. now rewrite ?tau_add, ?tau_scal, ?tau_add, ?tau_scal, ?tau_add.
Qed.

(** ** Reconstructions *)
Lemma carries_none : carries_recon tau no_reconstruction no_reconstruction.
Proof. split; [reflexivity|]. intros [|a [|]] Hl; try len3. reflexivity. Qed.

Variables (ind : V -> R) (ind' : W -> R) (s : R).
Hypothesis Hs : s = 1 \/ s = -1.
Hypothesis Hind : forall a, ind' (tau a) = s * ind a.

Lemma ddiff_scal l v v' x : (forall o, v' o = s * v o) -> ddiff l v' x = s * ddiff l v x.
Proof. revert x; induction l; intros x H; cbn [ddiff]; [apply H|]. rewrite !IHl by assumption. ring. Qed.
Lemma abs_s x : Rabs (s * x) = Rabs x.
Proof. rewrite Rabs_mult. destruct Hs as [->| ->]; [rewrite Rabs_R1|rewrite Rabs_left by lra]; ring. Qed.
Lemma shift_scal l v v' : (forall o, v' o = s * v o) -> eno_shift l v' = eno_shift l v.
Proof.
  intros H; induction l; cbn [eno_shift]; [reflexivity|].
  now rewrite IHl, !(ddiff_scal (S l) v v'), !abs_s.
Qed.
Lemma lincomb_tau cs (u : Z -> V) (u' : Z -> W) x : (forall o, u' o = tau (u o)) ->
  lincomb u' cs x = tau (lincomb u cs x).
Proof.
  intros H; revert x; induction cs; intros x; cbn [lincomb].
  - now rewrite tau_zero.
  - now rewrite IHcs, H, tau_add, tau_scal.
Qed.
Lemma at_map k (us : list V) o : at_ k (map tau us) o = tau (at_ k us o).
Proof. unfold at_. rewrite <- tau_zero. apply map_nth. Qed.

Lemma carries_eno k : carries_recon tau (eno_recon k ind) (eno_recon k ind').
Proof.
  split; [reflexivity|]. intros us _. cbn [eno_recon rec_fun]. unfold eno, stencil_left, stencil_right. cbn [fst snd].
  rewrite (shift_scal (k - 1) (fun o => ind (at_ k us o)) (fun o => ind' (at_ k (map tau us) o))).
  - now rewrite !(lincomb_tau _ (at_ k us) (at_ k (map tau us))) by apply at_map.
  - intros o. now rewrite at_map, Hind.
Qed.

Lemma beta_scal k i v v' : (forall o, v' o = s * v o) -> weno_beta k i v' = weno_beta k i v.
Proof.
  intros H. destruct k as [|[|[|[|]]]]; try reflexivity; destruct i as [|[|[|]]]; try reflexivity;
    cbn [weno_beta]; rewrite !H; destruct Hs as [->| ->]; ring.
Qed.
Lemma rsum_ext k f f' : (forall i, f' i = f i) -> rsum k f' = rsum k f.
Proof. intros H. induction k; cbn [rsum]; [reflexivity|]. now rewrite IHk, H. Qed.
Lemma vsum_tau k (f : nat -> V) (f' : nat -> W) : (forall i, f' i = tau (f i)) -> vsum k f' = tau (vsum k f).
Proof. intros H. induction k; cbn [vsum]; [now rewrite tau_zero|]. now rewrite IHk, H, tau_add. Qed.
Lemma carries_weno k : carries_recon tau (weno_recon k ind) (weno_recon k ind').
Proof.
  split; [reflexivity|]. intros us _. cbn [weno_recon rec_fun]. unfold weno. cbn [fst snd].
  set (v := fun o => ind (at_ k us o)). set (v' := fun o => ind' (at_ k (map tau us) o)).
  assert (E : forall o, v' o = s * v o) by (intros o; unfold v, v'; now rewrite at_map, Hind).
  assert (El : forall i, alpha_left k v' i = alpha_left k v i) by (intros i; unfold alpha_left; now rewrite (beta_scal k i v v')).
  assert (Er : forall i, alpha_right k v' i = alpha_right k v i) by (intros i; unfold alpha_right; now rewrite (beta_scal k i v v')).
  f_equal; apply vsum_tau; intros i; rewrite tau_scal; unfold stencil_left, stencil_right;
    rewrite (lincomb_tau _ (at_ k us) (at_ k (map tau us))) by apply at_map.
  - now rewrite El, (rsum_ext k (alpha_left k v)).
  - now rewrite Er, (rsum_ext k (alpha_right k v)).
Qed.
Lemma weights_scal a b c : weno2_weights (s * a) (s * b) (s * c) = weno2_weights a b c.
Proof.
  unfold weno2_weights.
  replace ((s * c - s * b) ^ 2) with ((c - b) ^ 2) by (destruct Hs as [->| ->]; ring).
  now replace ((s * b - s * a) ^ 2) with ((b - a) ^ 2) by (destruct Hs as [->| ->]; ring).
Qed.
Lemma carries_weno2 : carries_recon tau (weno2_recon ind) (weno2_recon ind').
Proof.
  split; [reflexivity|]. intros [|l [|m [|r [|]]]] Hl; try len3. cbn [weno2_recon rec_fun map]. unfold weno2.
  rewrite !Hind, weights_scal. cbn [fst snd]. now rewrite !tau_scal, !tau_add, !tau_scal.
Qed.

(** The limiters are odd functions of the three values. *)
Definition odd3 (f : R -> R -> R -> R) : Prop := forall a b c, f (- a) (- b) (- c) = - f a b c.
Variables (L : lifting V) (L' : lifting W).
Hypothesis Hlift : forall f, odd3 f -> forall a b c, lift3 L' f (tau a) (tau b) (tau c) = tau (lift3 L f a b c).
Lemma carries_limiter slope : odd3 slope -> carries_recon tau (limiter_recon L slope) (limiter_recon L' slope).
Proof.
  intros Ho. split; [reflexivity|]. intros [|l [|m [|r [|]]]] Hl; try len3.
  cbn [limiter_recon rec_fun map fst snd]. f_equal; apply Hlift; intros a b c; unfold face_left, face_right; rewrite Ho; lra.
Qed.
End Linear.

Lemma sign_opp x : sign (- x) = - sign x.
Proof. unfold sign. repeat destruct (Rgt_dec _ _); repeat destruct (Req_EM_T _ _); lra. Qed.
Lemma minmod2_opp a b : minmod2 (- a) (- b) = - minmod2 a b.
Proof. unfold minmod2. rewrite !sign_opp, !Rabs_Ropp. repeat destruct (Req_EM_T _ _); lra. Qed.
Lemma minmod3_opp a b c : minmod3 (- a) (- b) (- c) = - minmod3 a b c.
Proof. unfold minmod3. rewrite !sign_opp, !Rabs_Ropp. repeat destruct (Req_EM_T _ _); lra. Qed.
Lemma minmod2_comm a b : minmod2 a b = minmod2 b a.
Proof.
  unfold minmod2. rewrite (Rmin_comm (Rabs b)). destruct (Req_EM_T (sign a) (sign b)) as [E|E], (Req_EM_T (sign b) (sign a)) as [E'|E'];
    try congruence.
Qed.
Lemma minmod3_rev a b c : minmod3 a b c = minmod3 c b a.
Proof.
  unfold minmod3.
  assert (E : Rmin (Rabs a) (Rmin (Rabs b) (Rabs c)) = Rmin (Rabs c) (Rmin (Rabs b) (Rabs a)))
    by (unfold Rmin; repeat destruct (Rle_dec _ _); lra).
  rewrite E. repeat destruct (Req_EM_T _ _); try congruence.
Qed.
Lemma mc_odd : odd3 mc_slope.
Proof.
  intros a b c. unfold mc_slope. rewrite <- minmod3_opp. f_equal; lra.
Qed.
Lemma mm_odd : odd3 mm_slope.
Proof. intros a b c. unfold mm_slope. rewrite <- minmod2_opp. f_equal; lra. Qed.

(** ** Mirror *)
(** Left and right change places, the slope its sign. *)
Definition turns (slope : R -> R -> R -> R) : Prop := forall a b c, slope c b a = - slope a b c.
Lemma mc_turns : turns mc_slope.
Proof. intros a b c. unfold mc_slope. rewrite <- minmod3_opp, minmod3_rev. f_equal; lra. Qed.
Lemma mm_turns : turns mm_slope.
Proof. intros a b c. unfold mm_slope. rewrite <- minmod2_opp, minmod2_comm. f_equal; lra. Qed.

Section Mirror.
Context {V : cvars}.
Variable tau : V -> V.
Hypothesis tau_add : forall a c, tau (vadd a c) = vadd (tau a) (tau c).
Hypothesis tau_scal : forall k a, tau (vscal k a) = vscal k (tau a).

Ltac vec := apply comp_ext; intros ?; rewrite ?comp_add, ?comp_scal, ?comp_add, ?comp_scal, ?comp_add, ?comp_scal, ?comp_zero.

Lemma mirrors4 (f : Z -> V -> V -> V * R) d : mirrors tau (Flux2 f) d -> mirrors tau (combined4 f) d.
Proof.
  intros H. cbn in H. split; [reflexivity|]. intros us Hl.
  destruct us as [|a [|b [|c [|e [|]]]]]; try discriminate. cbn [map rev app fst snd].
  rewrite !H. cbn [fst snd]. rewrite !tau_add, !tau_scal, !tau_add. f_equal.
  - vec. ring.
  - rewrite <- !Rmax_assoc. f_equal. f_equal. apply Rmax_comm.
Qed.
Lemma mirrors6 (f : Z -> V -> V -> V * R) d : mirrors tau (Flux2 f) d -> mirrors tau (combined6 f) d.
Proof.
  intros H. cbn in H. split; [reflexivity|]. intros us Hl.
  destruct us as [|a [|b [|c [|e [|g [|h [|]]]]]]]; try discriminate. cbn [map rev app fst snd].
  rewrite !H. cbn [fst snd]. rewrite !tau_add, !tau_scal, !tau_add. f_equal.
  - vec. ring.
  - repeat match goal with |- context [snd ?x] => generalize (snd x); intros ? end.
    unfold Rmax. repeat destruct (Rle_dec _ _); lra.
Qed.

Lemma mirrors_none : mirrors_recon tau (@no_reconstruction V).
Proof. intros [|a [|]] Hl; try len3. reflexivity. Qed.

Variables (ind : V -> R) (s : R).
Hypothesis Hs : s = 1 \/ s = -1.
Hypothesis Hind : forall a, ind (tau a) = s * ind a.

Lemma mirrors_weno2 : mirrors_recon tau (weno2_recon ind).
Proof.
  intros [|l [|m [|r [|]]]] Hl; try len3. cbn [weno2_recon rec_fun map rev app]. unfold weno2.
  rewrite !Hind, (weights_scal tau ind ind s Hs Hind). cbn [fst snd].
  assert (E : weno2_weights (ind r) (ind m) (ind l)
    = let w := weno2_weights (ind l) (ind m) (ind r) in
      ((snd (snd w), fst (snd w)), (snd (fst w), fst (fst w)))).
  { unfold weno2_weights. cbn [fst snd]. replace ((ind l - ind m) ^ 2) with ((ind m - ind l) ^ 2) by ring.
    replace ((ind m - ind r) ^ 2) with ((ind r - ind m) ^ 2) by ring.
    f_equal; (f_equal; [f_equal; apply Rplus_comm | f_equal; apply Rplus_comm]). }
  rewrite E. cbn [fst snd]. rewrite !tau_scal, !tau_add, !tau_scal. f_equal; vec; ring.
Qed.

Lemma mirrors_weno3 : mirrors_recon tau (weno_recon 3 ind).
Proof.
  intros us Hl. destruct us as [|a [|b [|c [|d [|e [|]]]]]]; try len3. clear Hl.
  cbn [weno_recon rec_fun map rev app]. unfold weno. cbn [fst snd].
  set (us := [a; b; c; d; e]). set (us' := [tau e; tau d; tau c; tau b; tau a]).
  set (v := fun o => ind (at_ 3 us o)). set (v' := fun o => ind (at_ 3 us' o)).
  assert (E0 : v' 0%Z = s * v 0%Z) by apply Hind. assert (E1 : v' 1%Z = s * v (-1)%Z) by apply Hind.
  assert (E2 : v' 2%Z = s * v (-2)%Z) by apply Hind. assert (E3 : v' (-1)%Z = s * v 1%Z) by apply Hind.
  assert (E4 : v' (-2)%Z = s * v 2%Z) by apply Hind.
  assert (B : forall i, (i < 3)%nat -> weno_beta 3 i v' = weno_beta 3 (2 - i) v).
  { intros [|[|[|i]]] Hi; [| | |lia]; cbn [weno_beta Nat.sub]; rewrite ?E0, ?E1, ?E2, ?E3, ?E4; destruct Hs as [->| ->]; ring. }
  assert (Al : forall i, (i < 3)%nat -> alpha_left 3 v' i = alpha_right 3 v (2 - i)).
  { intros i Hi. unfold alpha_left, alpha_right. now rewrite B. }
  assert (Ar : forall i, (i < 3)%nat -> alpha_right 3 v' i = alpha_left 3 v (2 - i)).
  { intros i Hi. unfold alpha_left, alpha_right. rewrite B by assumption. do 2 f_equal. lia. }
  cbn [vsum rsum]. rewrite !Al, !Ar by lia. cbn [Nat.sub].
  set (l0 := alpha_left 3 v 0). set (l1 := alpha_left 3 v 1). set (l2 := alpha_left 3 v 2).
  set (r0 := alpha_right 3 v 0). set (r1 := alpha_right 3 v 1). set (r2 := alpha_right 3 v 2).
  replace (0 + r2 + r1 + r0) with (0 + r0 + r1 + r2) by ring. replace (0 + l2 + l1 + l0) with (0 + l0 + l1 + l2) by ring.
  set (sl := 0 + l0 + l1 + l2). set (sr := 0 + r0 + r1 + r2).
  unfold stencil_left, stencil_right. cbn [eno_coef nth lincomb Z.of_nat Pos.of_succ_nat Pos.succ Z.opp].
  cbn [Z.add Pos.add Pos.succ Z.pos_sub Pos.pred_double].
  change (at_ 3 us' 0%Z) with (tau c); change (at_ 3 us' 1%Z) with (tau b); change (at_ 3 us' 2%Z) with (tau a);
  change (at_ 3 us' (-1)%Z) with (tau d); change (at_ 3 us' (-2)%Z) with (tau e);
  change (at_ 3 us 0%Z) with c; change (at_ 3 us 1%Z) with d; change (at_ 3 us 2%Z) with e;
  change (at_ 3 us (-1)%Z) with b; change (at_ 3 us (-2)%Z) with a.
  repeat rewrite ?tau_add, ?tau_scal. rewrite !(tau_zero tau tau_scal).
  generalize (l0 / sl) (l1 / sl) (l2 / sl) (r0 / sr) (r1 / sr) (r2 / sr); intros k0 k1 k2 m0 m1 m2.
  f_equal; apply comp_ext; intros i; repeat rewrite ?comp_add, ?comp_scal, ?comp_zero; ring.
Qed.

Variable L : lifting V.
Hypothesis Hlift : forall f, odd3 f -> forall a b c, lift3 L f (tau a) (tau b) (tau c) = tau (lift3 L f a b c).
Lemma lift3_rev f f' : (forall a b c, f c b a = f' a b c) -> f 0 0 0 = 0 -> f' 0 0 0 = 0 ->
  forall a b c, lift3 L f c b a = lift3 L f' a b c.
Proof. intros H Z Z' a b c. apply comp_ext; intros i. rewrite !(comp_lift3 V L) by assumption. apply H. Qed.
Lemma mirrors_limiter slope : odd3 slope -> turns slope -> mirrors_recon tau (limiter_recon L slope).
Proof.
  intros Ho Ht. assert (Z : slope 0 0 0 = 0) by (pose proof (Ht 0 0 0); lra).
  intros [|l [|m [|r [|]]]] Hl; try len3. cbn [limiter_recon rec_fun map rev app fst snd].
  assert (Ol : odd3 (face_left slope)) by (intros a b c; unfold face_left; rewrite Ho; lra).
  assert (Or : odd3 (face_right slope)) by (intros a b c; unfold face_right; rewrite Ho; lra).
  rewrite !Hlift by assumption. f_equal; f_equal; apply lift3_rev;
    try (intros a b c; unfold face_left, face_right; rewrite Ht; lra); unfold face_left, face_right; rewrite Z; lra.
Qed.
End Mirror.
