(** C33 (scalar equations), C34, C36, C37, C53. *)
From Coq Require Import ZArith Reals List Bool Lia Lra.
From Verif Require Import M_Base M_Vec M_Boundary M_Flux M_Combined M_Scalar
  S_Boundary S_Flux S_Sum S_Entropy S_Scalar L_Base L_Flux L_Sum L_Conserve L_FluxTop L_Entropy L_Scalar L_SumDeriv.
Import ListNotations.
Open Scope R_scope.

Lemma point_flux_spec e u : point_flux e u = flux_fun e u.
Proof. destruct e; cbn [point_flux flux_fun pow]; rewrite ?Rmult_1_r, ?Rmult_assoc; reflexivity. Qed.

(** C33.  Every flux offered for a scalar equation is consistent, except the Roe
    flux of the linear equation; for that one states >= 0 are needed. *)
Theorem C33_scalar_consistent_partial : forall e n d u,
  In n (offered e) -> (n = Two LinearRoe -> 0 <= u) ->
  consistent_at (the_flux e n) (fun _ => flux_fun e) d u.
Proof.
  intros e n d u Hn Hu.
  assert (C : forall m, In (Two m) (offered e) -> n <> Two LinearRoe \/ m <> LinearRoe -> 
     m <> LinearRoe -> flux_value e m u u = flux_fun e u).
  { intros m Hm _ Hl. rewrite <- point_flux_spec. now apply consistent. }
  assert (B : forall m, n = Combined4 m \/ n = Combined6 m -> flux_value e m u u = flux_fun e u).
  { intros m Hm. destruct e; cbn in Hn;
      repeat (destruct Hn as [Hn|Hn]; [subst n; try (destruct Hm; discriminate)|]); try destruct Hn;
      try (destruct Hm as [Hm|Hm]; try discriminate; injection Hm as <-; apply C;
           [cbn; tauto|right; discriminate|discriminate]). }
  destruct n as [m|m|m]; unfold the_flux, consistent_at, combined4, combined6, scalar_flux; cbn [map fst snd vadd vscal scalar_cvars].
  - destruct (Req_dec 0 0) as [_|H0]; [|lra].
    assert (Hm : m = LinearRoe \/ m <> LinearRoe) by (destruct m; (now left) || (right; discriminate)).
    destruct Hm as [->|Hm].
    + specialize (Hu eq_refl). rewrite <- point_flux_spec. unfold flux_value. rewrite Rmax_left by lra. reflexivity.
    + apply C; auto.
  - rewrite (B m) by auto. change (@eq R (4 / 3 * flux_fun e u + -1 * (1 / 6 * (flux_fun e u + flux_fun e u))) (flux_fun e u)). field.
  - rewrite (B m) by auto. change (@eq R (3 / 2 * flux_fun e u + -1 * (3 / 10 * (flux_fun e u + flux_fun e u)) +
      1 / 30 * (flux_fun e u + flux_fun e u + flux_fun e u)) (flux_fun e u)). field.
Qed.
(** The Roe flux of the linear equation maps (-1, -1) to 0. *)
Theorem C33_linear_roe_refuted :
  exists u, In (Two LinearRoe) (offered Linear) /\
    ~ consistent_at (the_flux Linear (Two LinearRoe)) (fun _ => flux_fun Linear) 0 u.
Proof.
  exists (-1). split; [cbn; auto|]. cbn [the_flux consistent_at scalar_flux fst flux_value point_flux flux_fun].
  rewrite Rmax_right by lra. lra.
Qed.

(** C34. *)
Theorem C34_burgers : forall l r,
  riemann_flux (flux_fun Burgers) l r (flux_value Burgers Godunov l r).
Proof.
  assert (E : forall x, flux_fun Burgers x = point_flux Burgers x) by (intros; now rewrite point_flux_spec).
  intros l r. split; intros H.
  - destruct (godunov_min l r H) as ((m & H1 & H2) & H3). split.
    + exists m. rewrite E. auto.
    + intros x Hx. rewrite E. auto.
  - destruct (godunov_max l r H) as ((m & H1 & H2) & H3). split.
    + exists m. rewrite E. auto.
    + intros x Hx. rewrite E. auto.
Qed.
Theorem C34_buckley_leverett : forall l r, 0 <= l <= 1 -> 0 <= r <= 1 ->
  riemann_flux (flux_fun BuckleyLeverett) l r (flux_value BuckleyLeverett Godunov l r).
Proof.
  assert (E : forall x, flux_fun BuckleyLeverett x = point_flux BuckleyLeverett x) by (intros; now rewrite point_flux_spec).
  intros l r Hl Hr. rewrite bl_godunov by assumption. split; intros H.
  - split; [exists l; rewrite E; split; lra|]. intros x Hx. rewrite E. apply bl_flux_mono; lra.
  - split; [exists l; rewrite E; split; lra|]. intros x Hx. rewrite E. apply bl_flux_mono; lra.
Qed.
(** The value is the only one with this property. *)
Theorem C34_unique : forall f l r F F', riemann_flux f l r F -> riemann_flux f l r F' -> F = F'.
Proof.
  intros f l r F F' (H1 & H2) (H1' & H2'). destruct (Rle_dec l r) as [L|L].
  - destruct (H1 L) as ((m & M & E) & B), (H1' L) as ((m' & M' & E') & B').
    apply Rle_antisym; [rewrite E'; auto|rewrite E; auto].
  - assert (L' : r <= l) by lra.
    destruct (H2 L') as ((m & M & E) & B), (H2' L') as ((m' & M' & E') & B').
    apply Rle_antisym; [rewrite E; auto|rewrite E'; auto].
Qed.
(** A transonic rarefaction, a shock. *)
Example C34_nonvacuous :
  flux_value Burgers Godunov (-1) 2 = 0 /\ flux_value Burgers Godunov 2 (-1) = 2.
Proof.
  unfold flux_value, point_flux. split.
  - rewrite (Rmax_right (-1) 0), (Rmin_right 2 0), Rmax_left; lra.
  - rewrite (Rmax_left 2 0), (Rmin_left (-1) 0), Rmax_left; lra.
Qed.

(** C36.  The entropy variable is the derivative of the logarithmic entropy, and
    psi' = v' f. *)
Theorem C36_potential : forall u, 0 < u < 2 ->
  derivable_pt_lim log_entropy u (entropy_var u) /\
  exists v', derivable_pt_lim entropy_var u v' /\
    derivable_pt_lim entropy_pot u (v' * flux_fun Burgers u).
Proof.
  intros u Hu. split; [exact (entropy_deriv u Hu)|]. exists (entropy_var' u). split.
  - now apply entropy_var_deriv.
  - rewrite <- point_flux_spec. now apply entropy_pot_deriv.
Qed.
Theorem C36_two_point : forall l r, 0 < l < 2 -> 0 < r < 2 ->
  (entropy_var r - entropy_var l) * flux_value Burgers EntropyConservative l r = entropy_pot r - entropy_pot l.
Proof. exact entropy_flux_exact. Qed.

Lemma scalar_linear (w : scalar_cvars) : linear (V := scalar_cvars) (fun x : scalar_cvars => entropy_var w * x).
Proof. split; [|split]; intros; cbn [vzero vadd vscal scalar_cvars]; match goal with |- ?a = ?b => change (@eq R a b) end; ring. Qed.
Lemma burgers_conservative :
  forall dims, entropy_conservative dims (fun u : scalar_cvars => 0 < u < 2) (fun u x : scalar_cvars => entropy_var u * x)
    (fun _ => entropy_pot) (scalar_flux Burgers EntropyConservative).
Proof.
  intros dims d l r Hd Hl Hr. unfold scalar_flux. cbn [fst].
  rewrite <- (entropy_flux_exact l r Hl Hr).
  match goal with |- ?a = ?b => change (@eq R a b) end. ring.
Qed.

(** The three entropy-conservative fluxes offered for Burgers, with the ghost
    cells each needs. *)
Definition entropy_fluxes : list (flux_name * Z) :=
  [(Two EntropyConservative, 1%Z); (Combined4 EntropyConservative, 2%Z); (Combined6 EntropyConservative, 3%Z)].

Lemma rate_zero dims g nx ny nz n need (u : cell -> scalar_cvars) :
  (1 <= dims <= 3)%Z -> (0 < nx)%Z -> (0 < ny)%Z -> (0 < nz)%Z ->
  (g <= nx)%Z -> (1 < dims -> g <= ny)%Z -> (2 < dims -> g <= nz)%Z ->
  In (n, need) entropy_fluxes -> (need <= g)%Z ->
  (forall c, in_volume dims g nx ny nz c -> u c = u (image periodic1 dims g nx ny nz c)) ->
  (forall c, interior dims g nx ny nz c -> 0 < u c < 2) ->
  isum dims g (nvec nx ny nz) (fun c => entropy_var (u c) * rhs dims (the_flux Burgers n) no_reconstruction u c) = 0.
Proof.
  intros Hd Hx Hy Hz Gx Gy Gz Hn Hg Hp Hu.
  assert (E : entropy_rate dims g (fun u x : scalar_cvars => entropy_var u * x) (the_flux Burgers n) no_reconstruction (nvec nx ny nz) u = 0).
  { cbn in Hn. destruct Hn as [Hn|[Hn|[Hn|[]]]]; injection Hn as <- <-; unfold the_flux.
    - apply entropy_two_point with (P := fun u : scalar_cvars => 0 < u < 2) (psi := fun _ => entropy_pot); first [apply scalar_linear | apply burgers_conservative | exact Hu | eassumption | lia].
    - apply entropy_combined4 with (P := fun u : scalar_cvars => 0 < u < 2) (psi := fun _ => entropy_pot); first [apply scalar_linear | apply burgers_conservative | exact Hu | eassumption | lia].
    - apply entropy_combined6 with (P := fun u : scalar_cvars => 0 < u < 2) (psi := fun _ => entropy_pot); first [apply scalar_linear | apply burgers_conservative | exact Hu | eassumption | lia]. }
  exact E.
Qed.

(** What the flux loops write has inner product zero with the entropy
    variables. *)
Theorem C36_net_flux_conserves_entropy :
  forall dims g nx ny nz n need u s,
  (1 <= dims <= 3)%Z -> (0 < nx)%Z -> (0 < ny)%Z -> (0 < nz)%Z ->
  (g <= nx)%Z -> (1 < dims -> g <= ny)%Z -> (2 < dims -> g <= nz)%Z ->
  In (n, need) entropy_fluxes -> (need <= g)%Z ->
  ext (V := scalar_cvars) dims g nx ny nz u -> ext_state (V := scalar_cvars) dims g nx ny nz s ->
  (forall c, in_volume dims g nx ny nz c -> vget u c = vget u (image periodic1 dims g nx ny nz c)) ->
  (forall c, interior dims g nx ny nz c -> 0 < vget u c < 2) ->
  exists s', compute_flux dims g (the_flux Burgers n) no_reconstruction u (fun _ => 0%Z) (fun _ => 0%Z) s = Ok s' /\
    isum dims g (nvec nx ny nz) (fun c => entropy_var (vget u c) * vget (f_out s') c) = 0.
Proof.
  intros dims g nx ny nz n need u s Hd Hx Hy Hz Gx Gy Gz Hn Hg Hu Hs Hp Hb.
  assert (HC : compatible (the_flux Burgers n) no_reconstruction g).
  { cbn in Hn. destruct Hn as [Hn|[Hn|[Hn|[]]]]; injection Hn as <- <-; (split; [simpl; lia|]); cbn.
    - exact Logic.I.
    - intros k Hk. repeat destruct Hk as [<-|Hk]; lia || destruct Hk.
    - intros k Hk. repeat destruct Hk as [<-|Hk]; lia || destruct Hk. }
  destruct (compute_top dims g (the_flux Burgers n) no_reconstruction nx ny nz Hd HC Hx Hy Hz u s Hu Hs)
    as (s' & E & _ & I & _).
  exists s'. split; [exact E|].
  rewrite <- (rate_zero dims g nx ny nz n need (vget u)) by assumption.
  apply isum_ext. intros c Hc. rewrite I; [reflexivity|]. apply interior_iff; [lia|exact Hc].
Qed.

(** Along a solution of the semi-discrete scheme du_c/dt = kappa rhs_c the total
    entropy is stationary. *)
Theorem C36_total_entropy_constant :
  forall dims g nx ny nz n need (U : R -> cell -> scalar_cvars) t kappa,
  (1 <= dims <= 3)%Z -> (0 < nx)%Z -> (0 < ny)%Z -> (0 < nz)%Z ->
  (g <= nx)%Z -> (1 < dims -> g <= ny)%Z -> (2 < dims -> g <= nz)%Z ->
  In (n, need) entropy_fluxes -> (need <= g)%Z ->
  (forall c, in_volume dims g nx ny nz c -> U t c = U t (image periodic1 dims g nx ny nz c)) ->
  (forall c, interior dims g nx ny nz c -> 0 < U t c < 2) ->
  (forall c, interior dims g nx ny nz c ->
     derivable_pt_lim (fun t => U t c) t (kappa * rhs dims (the_flux Burgers n) no_reconstruction (U t) c)) ->
  derivable_pt_lim (fun t => isum dims g (nvec nx ny nz) (fun c => log_entropy (U t c))) t 0.
Proof.
  intros dims g nx ny nz n need U t kappa Hd Hx Hy Hz Gx Gy Gz Hn Hg Hp Hu HD.
  replace 0 with (isum dims g (nvec nx ny nz) (fun c => entropy_var (U t c) *
     (kappa * rhs dims (the_flux Burgers n) no_reconstruction (U t) c))).
  - apply isum_deriv. intros c Hc. apply interior_iff in Hc; [|lia].
    apply (derivable_pt_lim_comp (fun t => U t c) log_entropy).
    + now apply HD.
    + apply entropy_deriv. now apply Hu.
  - rewrite (isum_ext dims g (nvec nx ny nz) _ (fun c => kappa * (entropy_var (U t c) * rhs dims (the_flux Burgers n) no_reconstruction (U t) c))).
    + unfold isum. rewrite sum3_scal. fold (isum dims g (nvec nx ny nz) (fun c => entropy_var (U t c) * rhs dims (the_flux Burgers n) no_reconstruction (U t) c)).
      rewrite (rate_zero dims g nx ny nz n need) by assumption. ring.
    + intros c _. ring.
Qed.
(** The other scalar equations carry the same entropy potential although their
    flux functions differ (no entropy-conservative flux is offered for them). *)
Theorem C36_other_potentials_refuted : forall e, e <> Burgers ->
  exists u, 0 < u < 2 /\ forall v', derivable_pt_lim entropy_var u v' ->
    ~ derivable_pt_lim entropy_pot u (v' * flux_fun e u).
Proof.
  intros e He. exists (1 / 2). split; [lra|]. intros v' Hv H.
  assert (v' = entropy_var' (1 / 2)) by (eapply uniqueness_limite; [exact Hv|apply entropy_var_deriv; lra]).
  subst v'.
  assert (E := uniqueness_limite _ _ _ _ H (entropy_pot_deriv (1 / 2) ltac:(lra))).
  unfold entropy_var' in E. destruct e; try congruence; cbn [flux_fun point_flux pow] in E; field_simplify in E; lra.
Qed.
(** A field on three cells that meets the hypotheses. *)
Example C36_nonvacuous :
  exists u : vol scalar_cvars, ext (V := scalar_cvars) 1 1 3 1 1 u /\
  (forall c, in_volume 1 1 3 1 1 c -> vget u c = vget u (image periodic1 1 1 3 1 1 c)) /\
  (forall c, interior 1 1 3 1 1 c -> 0 < vget u c < 2) /\ vget u (1, 0, 0)%Z <> vget u (2, 0, 0)%Z.
Proof.
  exists (mkvol (A := scalar_cvars) 5 1 1 (fun i => if ((i =? 1) || (i =? 4))%Z then 1 / 2 else 1)).
  split; [repeat split|]. split; [|split].
  - intros [[x y] z] H. unfold in_volume in H. cbn in H.
    assert (y = 0 /\ z = 0 /\ (x = 0 \/ x = 1 \/ x = 2 \/ x = 3 \/ x = 4))%Z as (-> & -> & Hx) by lia.
    destruct Hx as [->|[->|[->|[->| ->]]]]; reflexivity.
  - intros [[x y] z] H. unfold vget. cbn [vdat]. match goal with |- context [if ?b then _ else _] => destruct b end; lra.
  - intros H. change (@eq R (1 / 2) 1) in H. lra.
Qed.

(** C37. *)
Theorem C37_consistent : forall (V : cvars) (F : Z -> V -> V -> V * R) d u,
  consistent_at (combined4 F) (fun d u => fst (F d u u)) d u /\
  consistent_at (combined6 F) (fun d u => fst (F d u u)) d u.
Proof.
  intros V F d u. split; apply comp_ext; intros i; cbn [map]; unfold consistent_at, combined4, combined6; cbn [map fst];
    rewrite ?comp_add, ?comp_scal, ?comp_add; field.
Qed.
(** Reversing the stencil does not change the flux. *)
Theorem C37_symmetric : forall (V : cvars) (F : Z -> V -> V -> V * R) d,
  (forall a b, fst (F d a b) = fst (F d b a)) ->
  (forall a b c e, match combined4 F with FluxN _ G => fst (G d [a; b; c; e]) = fst (G d [e; c; b; a]) | _ => False end) /\
  (forall a b c e x y, match combined6 F with
     FluxN _ G => fst (G d [a; b; c; e; x; y]) = fst (G d [y; x; e; c; b; a]) | _ => False end).
Proof.
  intros V F d H. split; intros; unfold combined4, combined6; apply comp_ext; intros i; cbn [fst];
    rewrite ?comp_add, ?comp_scal, ?comp_add.
  - rewrite (H c b), (H e b), (H c a). ring.
  - rewrite (H e c), (H e b), (H x c), (H y c), (H x b), (H e a). ring.
Qed.
Theorem C37_entropy :
  forall (V : cvars) dims g nx ny nz (u : cell -> V) (P : V -> Prop) v psi F,
  (1 <= dims <= 3)%Z -> (0 < nx)%Z -> (0 < ny)%Z -> (0 < nz)%Z ->
  (g <= nx)%Z -> (1 < dims -> g <= ny)%Z -> (2 < dims -> g <= nz)%Z ->
  (forall c, in_volume dims g nx ny nz c -> u c = u (image periodic1 dims g nx ny nz c)) ->
  (forall c, interior dims g nx ny nz c -> P (u c)) ->
  (forall w, linear (v w)) -> entropy_conservative dims P v psi F ->
  ((2 <= g)%Z -> entropy_rate dims g v (combined4 F) no_reconstruction (nvec nx ny nz) u = 0) /\
  ((3 <= g)%Z -> entropy_rate dims g v (combined6 F) no_reconstruction (nvec nx ny nz) u = 0).
Proof.
  intros V dims g nx ny nz u P v psi F Hd Hx Hy Hz Gx Gy Gz Hp HP Hv HF. split; intros G.
  - eapply entropy_combined4; eauto; lia.
  - eapply entropy_combined6; eauto; lia.
Qed.
(** For the linear flux a u the difference of the combined fluxes is exact for
    polynomials of degree 4 and 6: h d/dx. *)
Theorem C37_order : forall a h l x0,
  let F := fun (_ : Z) (p q : scalar_cvars) => ((a * (p + q) / 2 : scalar_cvars), Rabs a) in
  let u := fun c : cell => (poly l (x0 + h * IZR (coord 0 c)) : scalar_cvars) in
  forall c, ((length l <= 5)%nat ->
    fst (iface (combined4 F) no_reconstruction 0 u c) - fst (iface (combined4 F) no_reconstruction 0 u (move 0 (-1) c))
    = h * (a * dpoly l (x0 + h * IZR (coord 0 c)))) /\
  ((length l <= 7)%nat ->
    fst (iface (combined6 F) no_reconstruction 0 u c) - fst (iface (combined6 F) no_reconstruction 0 u (move 0 (-1) c))
    = h * (a * dpoly l (x0 + h * IZR (coord 0 c)))).
Proof.
  intros a h l x0 F u c. destruct c as [[x y] z].
  split; intros Hl; unfold iface, combined4, combined6; cbn [map]; rewrite !rec_none; unfold u, F; cbn [fst snd coord move Z.eqb];
    cbn [vadd vscal scalar_cvars]; rewrite !plus_IZR;
    match goal with |- ?p = ?q => change (@eq R p q) end; set (X := IZR x); clearbody X.
  - do 6 (destruct l as [|? l]; [cbn [poly dpoly]; field|]). cbn in Hl. lia.
  - do 8 (destruct l as [|? l]; [cbn [poly dpoly]; field|]). cbn in Hl. lia.
Qed.

(** C53.  The reported wave speed bounds the characteristic speed of all states
    between the two; false for Buckley-Leverett, whose flux is not convex. *)
Theorem C53_eigenvalue_is_derivative : forall e u, derivable_pt_lim (flux_fun e) u (eigenvalue e u).
Proof. exact eigen_deriv. Qed.
Theorem C53_wave_speed_bounds_partial : forall e l r x f',
  e <> BuckleyLeverett -> Rmin l r <= x <= Rmax l r ->
  derivable_pt_lim (flux_fun e) x f' -> Rabs f' <= flux_speed e l r.
Proof.
  intros e l r x f' He Hx Hf.
  rewrite (uniqueness_limite _ _ _ _ Hf (eigen_deriv e x)). clear Hf. unfold flux_speed.
  assert (B : Rabs x <= Rmax (Rabs l) (Rabs r)).
  { unfold Rabs, Rmax, Rmin in *. repeat match goal with |- context [if ?b then _ else _] => destruct b
      | H : context [if ?b then _ else _] |- _ => destruct b end; lra. }
  destruct e; cbn [eigenvalue wave_speed]; try congruence.
  - rewrite !Rabs_mult. unfold Rmax in B |- *. pose proof (Rabs_pos x). pose proof (Rabs_pos l). pose proof (Rabs_pos r).
    destruct (Rle_dec (Rabs l) (Rabs r)); destruct (Rle_dec _ _); nra.
  - rewrite Rabs_right by lra. apply Rmax_l.
Qed.
Theorem C53_buckley_leverett_refuted : exists l r x f',
  0 <= l <= 1 /\ 0 <= r <= 1 /\ Rmin l r <= x <= Rmax l r /\
  derivable_pt_lim (flux_fun BuckleyLeverett) x f' /\ f' = 2 /\ flux_speed BuckleyLeverett l r = 0.
Proof.
  exists 0, 1, (1 / 2), (eigenvalue BuckleyLeverett (1 / 2)).
  rewrite Rmin_left, Rmax_right by lra. repeat split; try lra.
  - apply eigen_deriv.
  - cbn. field.
  - unfold flux_speed, wave_speed.
    replace (2 * 0 * (0 * 0 + (1 - 0) * (1 - 0)) - 0 * 0 * (2 * 0 - 2 * (1 - 0))) with 0 by ring.
    replace (2 * 1 * (1 * 1 + (1 - 1) * (1 - 1)) - 1 * 1 * (2 * 1 - 2 * (1 - 1))) with 0 by ring.
    rewrite Rabs_R0. rewrite Rmax_left; unfold Rdiv; lra.
Qed.

Print Assumptions C33_scalar_consistent_partial.
Print Assumptions C33_linear_roe_refuted.
Print Assumptions C34_burgers.
Print Assumptions C34_buckley_leverett.
Print Assumptions C34_unique.
Print Assumptions C36_potential.
Print Assumptions C36_two_point.
Print Assumptions C36_net_flux_conserves_entropy.
Print Assumptions C36_total_entropy_constant.
Print Assumptions C36_other_potentials_refuted.
Print Assumptions C37_consistent.
Print Assumptions C37_symmetric.
Print Assumptions C37_entropy.
Print Assumptions C37_order.
Print Assumptions C53_eigenvalue_is_derivative.
Print Assumptions C53_wave_speed_bounds_partial.
Print Assumptions C53_buckley_leverett_refuted.
