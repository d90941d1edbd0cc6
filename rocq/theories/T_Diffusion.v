(** C38: the TeCNO diffusion operator.
    Full statement: the term TecnoDiffusion (Roe or Rusanov, no reconstruction)
    adds sums to zero over a periodic grid, and its inner product with the
    entropy variables is not positive, whatever the eigenvector matrices are.
    Proved when the grid has at least two ghost layers (every use together with
    the fluxes tecno4 and tecno6 or a reconstruction of order two or more).
    The operator itself asks for one ghost layer, and with one layer the
    statement is false: see C38_one_ghost_layer_refuted. *)
From Coq Require Import ZArith Reals List Bool Lia Lra.
From Verif Require Import M_Base M_Vec M_Boundary M_Flux M_Scalar M_Euler M_EulerEigen M_Diffusion
  S_Boundary S_Flux S_Sum S_Entropy S_Euler S_Diffusion
  L_Base L_Loops L_Boundary L_Flux L_System L_Sum L_Conserve L_Entropy L_FluxTop L_Diffusion L_SumDeriv L_Euler L_EulerDeriv L_EulerEntropy T_Scalar T_Euler.
Import ListNotations.
Open Scope R_scope.

Section Stated.
Context {V : cvars} (bs : basis V) (eq : diff_eq (V := V)) (m : dmatrix).
Variables (dims g nx ny nz : Z) (u out : vol V) (s : dstate (V := V)).
(** Hypotheses shared by the theorems below. *)
Definition setting : Prop :=
  square bs eq /\ (1 <= dims <= 3)%Z /\ (0 < nx)%Z /\ (0 < ny)%Z /\ (0 < nz)%Z /\
  (g <= nx)%Z /\ (1 < dims -> g <= ny)%Z /\ (2 < dims -> g <= nz)%Z /\
  ext dims g nx ny nz u /\ ext dims g nx ny nz out /\ ext_dstate dims g nx ny nz s.
Definition periodic_field : Prop :=
  forall c, in_volume dims g nx ny nz c -> vget u c = vget u (image periodic1 dims g nx ny nz c).
(** What was added to [out], as a field. *)
Definition added (out' : vol V) (c : cell) : V := vadd (vget out' c) (vscal (-1) (vget out c)).
End Stated.

(** Every interior cell receives the difference of the dissipations
    1/2 R |Lambda| R^T [v] of its faces; the previous contents of the operator's
    own volumes do not matter. *)
Theorem C38_closed_form_partial :
  forall (V : cvars) (bs : basis V) eq m dims g nx ny nz u out s,
  (2 <= g)%Z -> setting bs eq dims g nx ny nz u out s ->
  exists s' out', apply_diffusion bs eq m dims u s out = Ok (s', out') /\
    ext_dstate dims g nx ny nz s' /\ ext dims g nx ny nz out' /\
    forall c, interior dims g nx ny nz c ->
      vget out' c = vadd (vget out c) (diffusion_term bs eq m dims (vget u) c).
Proof.
  intros V bs eq m dims g nx ny nz u out s Hg (Hsq & Hd & Hx & Hy & Hz & Gx & Gy & Gz & Hu & Ho & Hs).
  now apply apply_diffusion_spec.
Qed.

Lemma added_term (V : cvars) (a b t : V) : a = vadd b t -> vadd a (vscal (-1) b) = t.
Proof. intros ->. apply comp_ext. intros i. rewrite !comp_add, comp_scal. ring. Qed.

Theorem C38_sums_to_zero_partial :
  forall (V : cvars) (bs : basis V) eq m dims g nx ny nz u out s i,
  (2 <= g)%Z -> setting bs eq dims g nx ny nz u out s -> periodic_field dims g nx ny nz u ->
  exists s' out', apply_diffusion bs eq m dims u s out = Ok (s', out') /\
    isum dims g (nvec nx ny nz) (fun c => comp i (added out out' c)) = 0.
Proof.
  intros V bs eq m dims g nx ny nz u out s i Hg HS Hp.
  destruct (C38_closed_form_partial V bs eq m dims g nx ny nz u out s Hg HS) as (s' & o & E & _ & _ & W).
  exists s', o. split; [exact E|].
  destruct HS as (Hsq & Hd & Hx & Hy & Hz & Gx & Gy & Gz & Hu & Ho & Hs).
  rewrite (isum_ext dims g (nvec nx ny nz) _ (fun c => comp i (diffusion_term bs eq m dims (vget u) c))).
  - apply (term_sum bs eq m dims g nx ny nz); auto.
  - intros c Hc. unfold added. f_equal. apply added_term. apply W. apply interior_iff; [lia|exact Hc].
Qed.

Theorem C38_dissipates_partial :
  forall (V : cvars) (bs : basis V) eq m dims g nx ny nz u out s,
  (2 <= g)%Z -> setting bs eq dims g nx ny nz u out s -> periodic_field dims g nx ny nz u ->
  exists s' out', apply_diffusion bs eq m dims u s out = Ok (s', out') /\
    isum dims g (nvec nx ny nz) (fun c => inner bs (dentropy eq (vget u c)) (added out out' c)) <= 0.
Proof.
  intros V bs eq m dims g nx ny nz u out s Hg HS Hp.
  destruct (C38_closed_form_partial V bs eq m dims g nx ny nz u out s Hg HS) as (s' & o & E & _ & _ & W).
  exists s', o. split; [exact E|].
  destruct HS as (Hsq & Hd & Hx & Hy & Hz & Gx & Gy & Gz & Hu & Ho & Hs).
  rewrite (isum_ext dims g (nvec nx ny nz) _ (fun c => inner bs (dentropy eq (vget u c)) (diffusion_term bs eq m dims (vget u) c))).
  - apply (term_dissipates bs eq m dims g nx ny nz); auto.
  - intros c Hc. unfold added. f_equal. apply added_term. apply W. apply interior_iff; [lia|exact Hc].
Qed.

(** The weights are the ones of the Roe and Rusanov matrices. *)
Theorem C38_weights : forall m eigs, is_weights m eigs (weights m eigs).
Proof.
  intros m eigs. split; [apply weights_length|]. destruct m; cbn [weights].
  - intros i Hi. rewrite (nth_indep _ 0 (Rabs 0)) by now rewrite map_length. apply map_nth.
  - intros i Hi. set (mx := fold_left _ eigs 0).
    assert (E : nth i (map (fun _ : R => mx) eigs) 0 = mx).
    { rewrite (nth_indep _ 0 ((fun _ => mx) 0)) by now rewrite map_length. exact (map_nth (fun _ => mx) eigs 0 i). }
    rewrite E.
    assert (G : forall l a, a <= fold_left (fun a l => Rmax (Rabs l) a) l a /\
        (forall x, In x l -> Rabs x <= fold_left (fun a l => Rmax (Rabs l) a) l a) /\
        (fold_left (fun a l => Rmax (Rabs l) a) l a = a \/
         exists x, In x l /\ fold_left (fun a l => Rmax (Rabs l) a) l a = Rabs x)).
    { clear. induction l as [|x l IH]; intros a; cbn [fold_left].
      - split; [lra|]. split; [intros x []|now left].
      - destruct (IH (Rmax (Rabs x) a)) as (A & B & C).
        pose proof (Rmax_l (Rabs x) a). pose proof (Rmax_r (Rabs x) a).
        split; [lra|]. split.
        + intros y [<-|Hy]; [lra|now apply B].
        + destruct C as [C|(y & Hy & C)].
          * destruct (Rle_dec (Rabs x) a) as [L|L].
            -- left. rewrite C. now apply Rmax_right.
            -- right. exists x. split; [now left|]. rewrite C. apply Rmax_left. lra.
          * right. exists y. split; [now right|exact C]. }
    destruct (G eigs 0) as (A & B & C). fold mx in A, B, C. split.
    + intros j Hj. apply B. now apply nth_In.
    + destruct C as [C|(x & Hx & C)].
      * (* all eigenvalues are zero *)
        exists i. split; [exact Hi|]. pose proof (B _ (nth_In eigs 0 Hi)) as H.
        pose proof (Rabs_pos (nth i eigs 0)). lra.
      * destruct (In_nth eigs x 0 Hx) as (j & Hj & <-). exists j. now split.
Qed.

(** The equations the operator is instantiated for. *)
Theorem C38_burgers_square : square scalar_basis burgers_diffusion.
Proof. intros d s. split; reflexivity. Qed.
Theorem C38_euler_square : forall n gamma, (1 <= n <= 3)%nat -> square (euler_basis n) (euler_diffusion n gamma).
Proof.
  intros n gamma Hn d s. destruct n as [|[|[|[|n]]]]; try lia; split; reflexivity.
Qed.
Lemma vec_inner n (a b : cv (vec_cvars n)) : inner (vec_basis n) a b = vdot n a b.
Proof.
  induction n as [|n IH]; [reflexivity|]. unfold inner in *. cbn [vec_basis pair_basis comps scalar_basis app combine map fold_right fst snd].
  rewrite IH. reflexivity.
Qed.
Theorem C38_euler_inner : forall n (a b : cons n), inner (euler_basis n) a b = cdot n a b.
Proof.
  intros n [r [mm e]] [r' [mm' e']]. unfold cdot. cbn [rho_ mom en fst snd]. rewrite <- vec_inner. unfold inner.
  cbn [euler_basis pair_basis comps scalar_basis fst snd app combine map fold_right].
  rewrite combine_app by now rewrite !comps_length. rewrite map_app, fold_plus_app. cbn. ring.
Qed.

(** With one ghost layer, the number the operator asks for: Burgers in one
    dimension, two interior cells, periodic, first call (fresh memory holds
    42).  The term neither sums to zero nor decreases the entropy: the
    dissipation at the last interface is computed from cells that were never
    written. *)
Definition one_u : vol scalar_cvars := mkvol 4 1 1 (fun i => if Z.even i then 2 / 5 else 1 / 2).
Definition one_out : vol scalar_cvars := mkvol 4 1 1 (fun _ => 0).
Theorem C38_one_ghost_layer_refuted :
  setting scalar_basis burgers_diffusion 1 1 2 1 1 one_u one_out (fresh_dstate (V := scalar_cvars) 42 one_u) /\
  periodic_field 1 1 2 1 1 one_u /\
  exists s' out', apply_diffusion scalar_basis burgers_diffusion Roe 1 one_u (fresh_dstate (V := scalar_cvars) 42 one_u) one_out = Ok (s', out') /\
    isum 1 1 (nvec 2 1 1) (fun c => comp 0 (added one_out out' c)) <> 0 /\
    0 < isum 1 1 (nvec 2 1 1) (fun c => inner scalar_basis (dentropy burgers_diffusion (vget one_u c)) (added one_out out' c)).
Proof.
  split.
  { split; [exact C38_burgers_square|]. repeat (split; [lia || (intros; lia) || (repeat split)|]). repeat split. }
  split.
  { intros [[x y] z] H. unfold in_volume in H. cbn in H. assert (y = 0 /\ z = 0)%Z as [-> ->] by lia.
    assert (x = 0 \/ x = 1 \/ x = 2 \/ x = 3)%Z as [->|[->|[->| ->]]] by lia; reflexivity. }
  eexists. eexists. split.
  { lazy -[Rplus Rmult Rmax Ropp Rinv Rdiv Rminus R0 R1 IZR Rabs entropy_var]. reflexivity. }
  assert (E1 : entropy_var (2 / 5) = - (15 / 8)) by (unfold entropy_var; field).
  assert (E2 : entropy_var (1 / 2) = - (4 / 3)) by (unfold entropy_var; field).
  lazy -[Rplus Rmult Rmax Ropp Rinv Rdiv Rminus R0 R1 IZR Rabs entropy_var Rlt].
  rewrite ?E1, ?E2, ?(Rabs_pos_eq (1 / 2 * (2 / 5 + 1 / 2))), ?(Rabs_pos_eq (1 / 2 * (1 / 2 + 2 / 5))) by lra.
  split; lra.
Qed.

(** The hypotheses hold for the two-dimensional Euler equations on a 3 x 2
    interior with two ghost layers. *)
Definition ex_state (k : Z) : euler_cvars 2 := mkcons (n := 2) (1 + IZR k) (IZR k, (1, tt)) (10 + IZR (k * k)).
Definition ex_field2 (c : cell) : euler_cvars 2 :=
  let '(x, y, z) := c in ex_state (periodic1 2 3 x + 10 * periodic1 2 2 y).
Definition ex_u2 : vol (euler_cvars 2) := mkvol 7 6 1 (fun i => ex_field2 (i mod 7, i / 7, 0)%Z).
Example C38_nonvacuous :
  setting (euler_basis 2) (euler_diffusion 2 (7 / 5)) 2 2 3 2 1 ex_u2 ex_u2 (fresh_dstate (V := euler_cvars 2) (ex_state 42) ex_u2) /\
  periodic_field 2 2 3 2 1 ex_u2 /\ vget ex_u2 (2, 2, 0)%Z <> vget ex_u2 (3, 2, 0)%Z.
Proof.
  split.
  { split; [apply C38_euler_square; lia|]. repeat (split; [lia || (intros; lia) || (repeat split)|]). repeat split. }
  assert (E : forall x y, (0 <= x < 7)%Z -> vget ex_u2 (x, y, 0)%Z = ex_state (periodic1 2 3 x + 10 * periodic1 2 2 y)).
  { intros x y Hx. unfold vget, ex_u2, index; cbn [vnx vny vdat].
    rewrite (Z.mul_0_l 7), (Z.mul_0_l 6), Z.add_0_l.
    rewrite Z.add_comm, Z.mod_add, Z.div_add by lia.
    rewrite Z.mod_small, Z.div_small by lia. unfold ex_field2. do 2 f_equal. }
  split.
  - intros [[x y] z] H. unfold in_volume in H. cbn in H.
    assert (z = 0)%Z by lia. subst z. unfold image. cbn [Z.ltb Z.compare Pos.compare Pos.compare_cont].
    assert (P : forall n t, (0 < n)%Z -> (2 <= periodic1 2 n t < 2 + n)%Z).
    { intros n t Hn. unfold periodic1. pose proof (Z.mod_pos_bound (t - 2) n Hn). lia. }
    assert (Q : forall n t, (0 < n)%Z -> periodic1 2 n (periodic1 2 n t) = periodic1 2 n t).
    { intros n t Hn. unfold periodic1. f_equal. rewrite Z.add_simpl_l, Z.mod_mod; lia. }
    pose proof (P 3%Z x ltac:(lia)). rewrite !E by lia. now rewrite !Q by lia.
  - rewrite !E by lia. intros X. apply (f_equal rho_) in X. cbn [ex_state mkcons rho_ fst] in X.
    vm_compute periodic1 in X. rewrite <- !plus_IZR in X. apply eq_IZR in X. discriminate X.
Qed.

(** ** C56: TeCNO schemes are entropy stable. *)
(** Flux with zero entropy rate, then diffusion. *)
Theorem C56_stable_partial :
  forall (V : cvars) (bs : basis V) eq m dims g nx ny nz fx u f s,
  (2 <= g)%Z -> setting bs eq dims g nx ny nz u u s -> periodic_field dims g nx ny nz u ->
  compatible fx no_reconstruction g -> ext_state dims g nx ny nz f ->
  entropy_rate dims g (fun w => inner bs (dentropy eq w)) fx no_reconstruction (nvec nx ny nz) (vget u) = 0 ->
  exists f' s' out',
    compute_flux dims g fx no_reconstruction u (fun _ => 0%Z) (fun _ => 0%Z) f = Ok f' /\
    apply_diffusion bs eq m dims u s (f_out f') = Ok (s', out') /\
    isum dims g (nvec nx ny nz) (fun c => inner bs (dentropy eq (vget u c)) (vget out' c)) <= 0 /\
    forall c, interior dims g nx ny nz c ->
      vget out' c = vadd (rhs dims fx no_reconstruction (vget u) c) (diffusion_term bs eq m dims (vget u) c).
Proof.
  intros V bs eq m dims g nx ny nz fx u f s Hg HS Hp HC Hf HR.
  destruct HS as (Hsq & Hd & Hx & Hy & Hz & Gx & Gy & Gz & Hu & _ & Hs).
  destruct (compute_top dims g fx no_reconstruction nx ny nz Hd HC Hx Hy Hz u f Hu Hf) as (f' & E1 & Ef & I1 & _).
  assert (Ho : ext dims g nx ny nz (f_out f')) by apply Ef.
  destruct (C38_closed_form_partial V bs eq m dims g nx ny nz u (f_out f') s Hg) as (s' & o & E2 & _ & _ & W).
  { do 9 (split; [assumption|]). split; assumption. }
  exists f', s', o. split; [exact E1|]. split; [exact E2|].
  assert (WW : forall c, interior dims g nx ny nz c ->
      vget o c = vadd (rhs dims fx no_reconstruction (vget u) c) (diffusion_term bs eq m dims (vget u) c)).
  { intros c Hc. rewrite W, I1 by exact Hc. reflexivity. }
  split; [|exact WW].
  rewrite (isum_ext dims g (nvec nx ny nz) _ (fun c =>
     inner bs (dentropy eq (vget u c)) (rhs dims fx no_reconstruction (vget u) c)
     + inner bs (dentropy eq (vget u c)) (diffusion_term bs eq m dims (vget u) c))).
  - unfold isum. rewrite sum3_plus. unfold entropy_rate, isum in HR. rewrite HR.
    pose proof (term_dissipates bs eq m dims g nx ny nz Hd Hg Gx Gy Gz (vget u) Hp) as T. unfold isum in T. lra.
  - intros c Hc. rewrite WW by (apply interior_iff; [lia|exact Hc]). apply inner_add.
Qed.

(** Euler in one and two dimensions with tecno1, tecno4 or tecno6 and either
    dissipation matrix.  In three dimensions the flux itself is wrong
    (C54_three_dimensions_refuted). *)
Theorem C56_euler_partial :
  forall n gamma m g nx ny nz k need u f s,
  (1 <= n <= 2)%nat -> 1 < gamma -> (2 <= g)%Z -> In (k, need) euler_entropy_fluxes -> (need <= g)%Z ->
  setting (euler_basis n) (euler_diffusion n gamma) (Z.of_nat n) g nx ny nz u u s ->
  periodic_field (Z.of_nat n) g nx ny nz u ->
  ext_state (Z.of_nat n) g nx ny nz f ->
  (forall c, interior (Z.of_nat n) g nx ny nz c -> admissible n gamma (vget u c)) ->
  exists f' s' out',
    compute_flux (Z.of_nat n) g (euler_numflux n gamma k) no_reconstruction u (fun _ => 0%Z) (fun _ => 0%Z) f = Ok f' /\
    apply_diffusion (euler_basis n) (euler_diffusion n gamma) m (Z.of_nat n) u s (f_out f') = Ok (s', out') /\
    isum (Z.of_nat n) g (nvec nx ny nz) (fun c => cdot n (euler_entropy_vars n gamma (vget u c)) (vget out' c)) <= 0.
Proof.
  intros n gamma m g nx ny nz k need u f s Hn Hgm Hg Hk Hng HS Hp Hf Ha.
  assert (HC : compatible (euler_numflux n gamma k) no_reconstruction g).
  { cbn in Hk. destruct Hk as [Hk|[Hk|[Hk|[]]]]; injection Hk as <- <-; (split; [simpl; lia|]); cbn.
    - exact Logic.I.
    - intros i Hi. repeat destruct Hi as [<-|Hi]; lia || destruct Hi.
    - intros i Hi. repeat destruct Hi as [<-|Hi]; lia || destruct Hi. }
  pose proof HS as (Hsq & Hd & Hx & Hy & Hz & Gx & Gy & Gz & Hu & _ & Hs).
  destruct (C56_stable_partial _ (euler_basis n) (euler_diffusion n gamma) m (Z.of_nat n) g nx ny nz
    (euler_numflux n gamma k) u f s Hg HS Hp HC Hf) as (f' & s' & o & E1 & E2 & L & _).
  - rewrite <- (euler_rate_zero n gamma g nx ny nz k need (vget u)) by assumption.
    apply isum_ext. intros c _. apply C38_euler_inner.
  - exists f', s', o. split; [exact E1|]. split; [exact E2|].
    rewrite (isum_ext (Z.of_nat n) g (nvec nx ny nz) _ (fun c => inner (euler_basis n) (dentropy (euler_diffusion n gamma) (vget u c)) (vget o c))).
    + exact L.
    + intros c _. symmetry. apply C38_euler_inner.
Qed.

(** Along a solution of the semi-discrete scheme the total entropy does not
    grow ([kappa] is one over the cell length). *)
Theorem C56_total_entropy_decreases_partial :
  forall n gamma m g nx ny nz k need (U : R -> cell -> euler_cvars n) t kappa,
  (1 <= n <= 2)%nat -> 1 < gamma -> (0 < nx)%Z -> (0 < ny)%Z -> (0 < nz)%Z -> 0 <= kappa ->
  (2 <= g)%Z -> (g <= nx)%Z -> (1 < Z.of_nat n -> g <= ny)%Z ->
  In (k, need) euler_entropy_fluxes -> (need <= g)%Z ->
  (forall c, in_volume (Z.of_nat n) g nx ny nz c -> U t c = U t (image periodic1 (Z.of_nat n) g nx ny nz c)) ->
  (forall c, interior (Z.of_nat n) g nx ny nz c -> admissible n gamma (U t c)) ->
  (forall c i, interior (Z.of_nat n) g nx ny nz c ->
     derivable_pt_lim (fun t => comp i (U t c)) t
       (comp i (vscal kappa (vadd (rhs (Z.of_nat n) (euler_numflux n gamma k) no_reconstruction (U t) c)
                                  (diffusion_term (euler_basis n) (euler_diffusion n gamma) m (Z.of_nat n) (U t) c))))) ->
  exists r, r <= 0 /\
  derivable_pt_lim (fun t => isum (Z.of_nat n) g (nvec nx ny nz) (fun c => math_entropy n gamma (to_prim n gamma (U t c)))) t r.
Proof.
  intros n gamma m g nx ny nz k need U t kappa Hn Hgm Hx Hy Hz Hka Hg Gx Gy Hk Hng Hp Hu HD.
  set (D := Z.of_nat n) in *. set (v := fun c => euler_entropy_vars n gamma (U t c)).
  set (F := fun c => rhs D (euler_numflux n gamma k) no_reconstruction (U t) c).
  set (T := fun c => diffusion_term (euler_basis n) (euler_diffusion n gamma) m D (U t) c).
  exists (isum D g (nvec nx ny nz) (fun c => kappa * (cdot n (v c) (F c) + inner (euler_basis n) (v c) (T c)))).
  split.
  - unfold isum. rewrite sum3_scal, sum3_plus.
    assert (E1 : isum D g (nvec nx ny nz) (fun c => cdot n (v c) (F c)) = 0).
    { apply (euler_rate_zero n gamma g nx ny nz k need (U t)); assumption. }
    assert (E2 : isum D g (nvec nx ny nz) (fun c => inner (euler_basis n) (v c) (T c)) <= 0).
    { apply (term_dissipates (euler_basis n) (euler_diffusion n gamma) m D g nx ny nz); auto; unfold D; lia. }
    unfold isum in E1, E2. rewrite E1. nra.
  - apply isum_deriv. intros c Hc. apply interior_iff in Hc; [|unfold D; lia].
    eapply dlim_eq; [apply (entropy_gradient n gamma (fun t => U t c))|].
    + exact Hgm.
    + now apply Hu.
    + intros i. apply HD. exact Hc.
    + fold (v c) (F c) (T c). rewrite (C38_euler_inner n). destruct (cdot_linear n (v c)) as (_ & A & B).
      rewrite B, A. reflexivity.
Qed.

(** Burgers, in any number of dimensions, for states in (0, 2), where the
    logarithmic entropy is defined. *)
Theorem C56_burgers_partial :
  forall m dims g nx ny nz n need u f s,
  (2 <= g)%Z -> In (n, need) entropy_fluxes -> (need <= g)%Z ->
  setting scalar_basis burgers_diffusion dims g nx ny nz u u s ->
  periodic_field dims g nx ny nz u ->
  ext_state dims g nx ny nz f ->
  (forall c, interior dims g nx ny nz c -> 0 < vget u c < 2) ->
  exists f' s' out',
    compute_flux dims g (the_flux Burgers n) no_reconstruction u (fun _ => 0%Z) (fun _ => 0%Z) f = Ok f' /\
    apply_diffusion scalar_basis burgers_diffusion m dims u s (f_out f') = Ok (s', out') /\
    isum dims g (nvec nx ny nz) (fun c => entropy_var (vget u c) * vget out' c) <= 0.
Proof.
  intros m dims g nx ny nz n need u f s Hg Hk Hng HS Hp Hf Ha.
  assert (HC : compatible (the_flux Burgers n) no_reconstruction g).
  { cbn in Hk. destruct Hk as [Hk|[Hk|[Hk|[]]]]; injection Hk as <- <-; (split; [simpl; lia|]); cbn.
    - exact Logic.I.
    - intros i Hi. repeat destruct Hi as [<-|Hi]; lia || destruct Hi.
    - intros i Hi. repeat destruct Hi as [<-|Hi]; lia || destruct Hi. }
  pose proof HS as (Hsq & Hd & Hx & Hy & Hz & Gx & Gy & Gz & Hu & _ & Hs).
  assert (IN : forall a b : R, inner scalar_basis a b = a * b).
  { intros a b. unfold inner. cbn. ring. }
  destruct (C56_stable_partial _ scalar_basis burgers_diffusion m dims g nx ny nz
    (the_flux Burgers n) u f s Hg HS Hp HC Hf) as (f' & s' & o & E1 & E2 & L & _).
  - rewrite <- (rate_zero dims g nx ny nz n need (vget u)) by assumption.
    apply isum_ext. intros c _. apply IN.
  - exists f', s', o. split; [exact E1|]. split; [exact E2|].
    rewrite (isum_ext dims g (nvec nx ny nz) _ (fun c => inner scalar_basis (dentropy burgers_diffusion (vget u c)) (vget o c))).
    + exact L.
    + intros c _. symmetry. apply IN.
Qed.

(** C38_nonvacuous with admissible states. *)
Example C56_nonvacuous : forall c, interior 2 2 3 2 1 c -> admissible 2 (7 / 5) (vget ex_u2 c).
Proof.
  intros [[x y] z] H. unfold interior, interior1 in H. cbn in H.
  assert (z = 0)%Z as -> by lia.
  assert (A : forall k, (0 <= k)%Z -> admissible 2 (7 / 5) (ex_state k)).
  { intros k Hk. apply IZR_le in Hk. split; cbn.
    - lra.
    - rewrite mult_IZR. set (q := IZR k) in *. clearbody q.
      match goal with |- 0 < ?e => replace e with ((7 / 5 - 1) * (10 + q * q - (q * q + 1) / (2 * (1 + q)))) end.
      + apply Rmult_lt_0_compat; [lra|].
        apply Rmult_lt_reg_r with (2 * (1 + q)); [lra|].
        replace ((10 + q * q - (q * q + 1) / (2 * (1 + q))) * (2 * (1 + q))) with ((10 + q * q) * (2 * (1 + q)) - (q * q + 1)) by (field; lra).
        nra.
      + field. lra. }
  assert (x = 2 \/ x = 3 \/ x = 4)%Z as [->|[->| ->]] by lia; assert (y = 2 \/ y = 3)%Z as [->| ->] by lia; apply A; vm_compute; discriminate.
Qed.

Print Assumptions C38_closed_form_partial.
Print Assumptions C38_sums_to_zero_partial.
Print Assumptions C38_dissipates_partial.
Print Assumptions C38_weights.
Print Assumptions C38_burgers_square.
Print Assumptions C38_euler_square.
Print Assumptions C38_euler_inner.
Print Assumptions C38_one_ghost_layer_refuted.
Print Assumptions C56_stable_partial.
Print Assumptions C56_euler_partial.
Print Assumptions C56_total_entropy_decreases_partial.
Print Assumptions C56_burgers_partial.
