(** C79, C80: data seen in a mirror, data rotated on a periodic grid. *)
From Coq Require Import ZArith Reals List Bool Lia Lra String.
From Verif Require Import M_Base M_Vec M_Boundary M_Flux M_Sim M_Combined M_Scalar M_Euler M_Recon M_Config.
From Verif Require Import S_Boundary S_Flux S_Sum S_Sim S_Symmetry S_Euler S_EulerSym.
From Verif Require Import L_Base L_Flux L_Symmetry L_Axes L_SymScheme L_EulerSym L_TecnoSym L_Forced L_Euler T_Symmetry.
Import ListNotations.
Open Scope Z_scope.

(** ** C79 *)
(** The opposite sign. *)
Definition neg (u : scalar_cvars) : scalar_cvars := Ropp u.
Lemma neg_add (a c : scalar_cvars) : neg (vadd a c) = vadd (neg a) (neg c).
Proof. unfold neg. cbn. match goal with |- @Logic.eq _ ?a ?b => change (@Logic.eq R a b) end. ring. Qed.
Lemma neg_scal k (a : scalar_cvars) : neg (vscal k a) = vscal k (neg a).
Proof. unfold neg. cbn. match goal with |- @Logic.eq _ ?a ?b => change (@Logic.eq R a b) end. ring. Qed.
Lemma neg_comp (a : scalar_cvars) : comp 0 (neg a) = (-1 * comp 0 a)%R.
Proof. unfold neg. cbn. ring. Qed.
Lemma neg_lift f : odd3 f -> forall a b c, lift3 scalar_lifting f (neg a) (neg b) (neg c) = neg (lift3 scalar_lifting f a b c).
Proof. intros H a b c. exact (H a b c). Qed.

Lemma max_neg a : Rmax (- a) 0 = (- Rmin a 0)%R.
Proof. unfold Rmax, Rmin. destruct (Rle_dec (- a) 0), (Rle_dec a 0); lra. Qed.
Lemma min_neg a : Rmin (- a) 0 = (- Rmax a 0)%R.
Proof. unfold Rmax, Rmin. destruct (Rle_dec (- a) 0), (Rle_dec a 0); lra. Qed.
Lemma burgers_even u : point_flux Burgers (- u) = point_flux Burgers u.
Proof. cbn. lra. Qed.
Lemma burgers_speed l r : flux_speed Burgers (- r) (- l) = flux_speed Burgers l r.
Proof. unfold flux_speed. cbn. rewrite !Rabs_Ropp. apply Rmax_comm. Qed.
Lemma burgers_value n l r : In n [Central; Rusanov; Godunov; BurgersRoe] ->
  flux_value Burgers n (- r) (- l) = flux_value Burgers n l r.
Proof.
  cbn [In]. intros [<-|[<-|[<-|[<-|[]]]]]; cbn [flux_value].
  - rewrite !burgers_even. ring.
  - rewrite !burgers_even. cbn [eigenvalue]. rewrite !Rabs_Ropp, Rmax_comm. ring.
  - rewrite max_neg, min_neg, !burgers_even. apply Rmax_comm.
  - rewrite max_neg, min_neg, !burgers_even. destruct (Rge_dec (- r) (- - l)), (Rge_dec l (- r)); try lra.
    assert (r = (- l)%R) as -> by lra. now rewrite min_neg, burgers_even.
Qed.
Lemma burgers_mirrors n d : In n [Central; Rusanov; Godunov; BurgersRoe] -> mirrors neg (Flux2 (scalar_flux Burgers n)) d.
Proof.
  intros Hn l r. unfold scalar_flux, neg. cbn [fst snd]. apply (f_equal2 pair); [|apply burgers_speed].
  rewrite burgers_value by exact Hn. cbn. match goal with |- @Logic.eq _ ?a ?b => change (@Logic.eq R a b) end. ring.
Qed.
Lemma burgers_all n d : In n [Two Central; Two Rusanov; Two Godunov; Two BurgersRoe; Combined4 Godunov; Combined6 Godunov] ->
  mirrors neg (the_flux Burgers n) d.
Proof.
  cbn [In]. intros [<-|[<-|[<-|[<-|[<-|[<-|[]]]]]]]; cbn [the_flux].
  1-4: apply burgers_mirrors; cbn [In]; tauto.
  - apply (mirrors4 _ neg_add neg_scal), burgers_mirrors. cbn [In]; tauto.
  - apply (mirrors6 _ neg_add neg_scal), burgers_mirrors. cbn [In]; tauto.
Qed.
Lemma scalar_recon_mirrors e gamma name rc : In name ["none"; "weno2"; "weno3"; "mc"; "mm"]%string ->
  find_recon (Scalar e) gamma name = Some rc -> carries_recon neg rc rc /\ mirrors_recon neg rc.
Proof.
  intros Hin. assert (S1 : (-1 = 1 \/ -1 = -1)%R) by (right; reflexivity).
  cbn [In] in Hin; repeat (destruct Hin as [<-|Hin]); try destruct Hin; intros [= <-]; split.
  - apply carries_none.
  - apply mirrors_none.
  - apply (carries_weno2 neg neg_add neg_scal _ _ (-1) S1 neg_comp).
  - apply (mirrors_weno2 neg neg_add neg_scal _ (-1) S1 neg_comp).
  - apply (carries_weno neg neg_add neg_scal _ _ (-1) S1 neg_comp).
  - apply (mirrors_weno3 neg neg_add neg_scal _ (-1) S1 neg_comp).
  - apply (carries_limiter neg _ _ neg_lift _ mc_odd).
  - apply (mirrors_limiter neg _ neg_lift _ mc_odd mc_turns).
  - apply (carries_limiter neg _ _ neg_lift _ mm_odd).
  - apply (mirrors_limiter neg _ neg_lift _ mm_odd mm_turns).
Qed.

(** Burgers' equation is the same for - u (- x): the data reflected along all axes with the
    opposite sign give the reflected solution with the opposite sign, at the same times.
    Missing: the ENO reconstructions (refuted below), the wide fluxes with a reconstruction
    (C77_mirror_refuted) and the fluxes from the log entropy, which is not symmetric. *)
Theorem C79_burgers_mirror_partial : forall n gamma name rc it b dims g nx ny nz p (ok : scalar_cvars -> bool) obeys obeys' u0 rest sc u0' rest' sc' adjs,
  In n [Two Central; Two Rusanov; Two Godunov; Two BurgersRoe; Combined4 Godunov; Combined6 Godunov] ->
  In name ["none"; "weno2"; "weno3"; "mc"; "mm"]%string -> find_recon (Scalar Burgers) gamma name = Some rc ->
  match n with Two _ => True | _ => name = "none"%string end ->
  1 <= dims <= 3 -> compatible (the_flux Burgers n) rc g -> fits_grid dims g nx ny nz ->
  (forall u, ok (neg u) = ok u) -> checks_all dims g nx ny nz ok obeys -> checks_all dims g nx ny nz ok obeys' ->
  volumes it dims g nx ny nz u0 rest sc -> volumes it dims g nx ny nz u0' rest' sc' ->
  let turned := reflect_cell g (nvec nx ny nz) (fun k => (0 <=? k) && (k <? dims)) in
  (forall x, interior dims g nx ny nz x -> vget u0' x = neg (vget u0 (turned x))) ->
  agree (fun u u' => forall x, interior dims g nx ny nz x -> u' x = neg (u (turned x)))
    (serial_run it b dims g (the_flux Burgers n) rc p obeys (u0 :: rest) sc adjs)
    (serial_run it b dims g (the_flux Burgers n) rc p obeys' (u0' :: rest') sc' adjs).
Proof.
  intros n gamma name rc it b dims g nx ny nz p ok obeys obeys' u0 rest sc u0' rest' sc' adjs Hn Hname Hr Hw Hd Hc Hf Hok O1 O2 V1 V2 turned H0.
  destruct (scalar_recon_mirrors _ _ _ _ Hname Hr) as [R1 R2].
  apply (reflect_runs (V := scalar_cvars) neg it b dims g (the_flux Burgers n) rc nx ny nz p ok obeys obeys'); auto.
  - exact neg_add.
  - exact neg_scal.
  - intros k E. apply andb_prop in E as [E1 E2]. lia.
  - intros d Hdd. replace ((0 <=? d) && (d <? dims)) with true by (symmetry; apply andb_true_intro; split; lia). now apply burgers_all.
  - destruct n; cbn [the_flux]; [exact I|..]; subst name; injection Hr as <-; intros us; cbn; destruct us as [|? [|]]; reflexivity.
Qed.
Print Assumptions C79_burgers_mirror_partial.

(** The Euler equations reflected along the axis [k]: the momentum along [k] changes its
    sign.  Missing: HLL and HLL3 (below), the ENO reconstructions and wenof2, the wide
    fluxes with a reconstruction. *)
Theorem C79_euler_mirror_partial : forall n gamma f name rc it b dims g nx ny nz p ok obeys obeys' k u0 rest sc u0' rest' sc' adjs,
  (1 <= n <= 3)%nat -> 1 <= dims <= Z.of_nat n -> 0 <= k < dims -> In f [ECentral; Tecno1; Tecno4; Tecno6] ->
  In name ["none"; "weno2"; "weno3"; "mc"; "mm"]%string -> find_recon (Euler n) gamma name = Some rc ->
  match f with Tecno4 | Tecno6 => name = "none"%string | _ => True end ->
  compatible (euler_numflux n gamma f) rc g -> fits_grid dims g nx ny nz ->
  (forall u, ok (flip_momentum n k u) = ok u) -> checks_all dims g nx ny nz ok obeys -> checks_all dims g nx ny nz ok obeys' ->
  volumes it dims g nx ny nz u0 rest sc -> volumes it dims g nx ny nz u0' rest' sc' ->
  let turned := reflect_cell g (nvec nx ny nz) (fun j => j =? k) in
  (forall x, interior dims g nx ny nz x -> vget u0' x = flip_momentum n k (vget u0 (turned x))) ->
  agree (fun u u' => forall x, interior dims g nx ny nz x -> u' x = flip_momentum n k (u (turned x)))
    (serial_run it b dims g (euler_numflux n gamma f) rc p obeys (u0 :: rest) sc adjs)
    (serial_run it b dims g (euler_numflux n gamma f) rc p obeys' (u0' :: rest') sc' adjs).
Proof.
  intros n gamma f name rc it b dims g nx ny nz p ok obeys obeys' k u0 rest sc u0' rest' sc' adjs Hn Hd Hk Hfl Hname Hr Hw Hc Hf Hok O1 O2 V1 V2 turned H0.
  assert (T : turn n (vflip n k) (Z.to_nat k) (Z.to_nat k) (if (k =? k)%Z then -1 else 1)%R) by (apply flip_turn; lia).
  apply (reflect_runs (flip_momentum n k) it b dims g (euler_numflux n gamma f) rc nx ny nz p ok obeys obeys'); auto; try lia.
  - apply (tau_add n _ _ _ _ T).
  - apply (tau_scal n _ _ _ _ T).
  - intros d Hdd. apply euler_flip_flux; try lia. cbn [In] in Hfl. now destruct f; intuition congruence.
  - apply (euler_recon_carries n gamma _ _ _ _ T) with name; [|exact Hr]. apply lift_flip; auto; lia.
  - apply (euler_recon_mirrors n gamma _ _ _ name rc T); auto. apply lift_flip; auto; lia.
  - destruct f; cbn [euler_numflux]; try exact I; subst name; injection Hr as <-; intros us; cbn; destruct us as [|? [|]]; reflexivity.
Qed.
Print Assumptions C79_euler_mirror_partial.

(** The HLL flux of one face: mirrored unless one of the two speeds is zero. *)
Theorem C79_hll_face_partial : forall n gamma k l r, (1 <= n <= 3)%nat -> 0 <= k < Z.of_nat n ->
  let d := Z.to_nat k in
  hll_left n gamma d l r <> 0%R -> hll_right n gamma d l r <> 0%R -> (hll_left n gamma d l r <= hll_right n gamma d l r)%R ->
  hll n gamma k (flip_momentum n k r) (flip_momentum n k l) =
    (vscal (-1) (flip_momentum n k (fst (hll n gamma k l r))), snd (hll n gamma k l r)).
Proof.
  intros n gamma k l r Hn Hk d H1 H2 H3. pose proof (flip_turn n k k Hn Hk Hk) as T. rewrite Z.eqb_refl in T.
  now apply (hll_minus n gamma _ k T).
Qed.
Print Assumptions C79_hll_face_partial.

(** Supersonic gas, 1 then 3 times the speed of sound, p = 1/2 and gamma = 2.  Left of the
    second cell the slowest wave has speed 0, and the HLL flux is then zero; in the mirror
    it is the fastest wave, and the flux is that of the slower gas. *)
Definition wind (v : R) : cons 1 := mkcons (n := 1) 1 (v, tt) (1 / 2 + v * v / 2).
Definition wind_u : vol (euler_cvars 1) := mkvol (A := euler_cvars 1) 4 1 1 (fun i => wind (if i =? 1 then 1 else 3)%R).
Definition wind_u' : vol (euler_cvars 1) := mkvol (A := euler_cvars 1) 4 1 1 (fun i => wind (if i =? 2 then -1 else -3)%R).
Ltac at_R := match goal with |- @Logic.eq _ ?a ?b => change (@Logic.eq R a b) end.
Lemma wind_p v : extra_p 2 (wind v) = (1 / 2)%R.
Proof. unfold extra_p. cbn. field. Qed.
Lemma wind_v v : vnth 1 0 (extra_u (wind v)) = v.
Proof. unfold extra_u. cbn. field. Qed.
Lemma wind_adm v : admissible 1 2 (wind v).
Proof. split; [cbn; lra|]. change (0 < extra_p 2 (wind v))%R. rewrite wind_p. lra. Qed.
Lemma wind_roe_u v w : vnth 1 0 (roe_u 1 (wind v) (wind w)) = ((v + w) / 2)%R.
Proof. unfold roe_u, extra_u. cbn. rewrite sqrt_1. field. Qed.
Lemma wind_roe_c v w : roe_cs 1 2 (wind v) (wind w) = 1%R.
Proof. unfold roe_cs, roe_p. rewrite !wind_p. cbn. rewrite sqrt_1. transitivity (sqrt 1); [f_equal; field|apply sqrt_1]. Qed.
Lemma wind_c v : sqrt (2 * extra_p 2 (wind v) / rho_ (wind v)) = 1%R.
Proof. rewrite wind_p. cbn. transitivity (sqrt 1); [f_equal; field|apply sqrt_1]. Qed.
Lemma wind_left v w : hll_left 1 2 0 (wind v) (wind w) = Rmin (v - 1) ((v + w) / 2 - 1).
Proof. unfold hll_left. now rewrite wind_v, wind_c, wind_roe_u, wind_roe_c. Qed.
Lemma wind_right v w : hll_right 1 2 0 (wind v) (wind w) = Rmax (w + 1) ((v + w) / 2 + 1).
Proof. unfold hll_right. now rewrite wind_v, wind_c, wind_roe_u, wind_roe_c. Qed.
Lemma wind_flux v : rho_ (n := 1) (euler_flux 1 2 0 (wind v)) = v.
Proof. reflexivity. Qed.
Lemma rho_add (u v : cons 1) : rho_ (@vadd (euler_cvars 1) u v) = (rho_ u + rho_ v)%R.
Proof. now destruct u, v. Qed.
Lemma rho_scal a (u : cons 1) : rho_ (@vscal (euler_cvars 1) a u) = (a * rho_ u)%R.
Proof. now destruct u. Qed.
Lemma wind_hll v w : rho_ (n := 1) (fst (hll 1 2 0 (wind v) (wind w))) =
  (let sl := Rmin (v - 1) ((v + w) / 2 - 1) in let sr := Rmax (w + 1) ((v + w) / 2 + 1) in
   if Req_EM_T sl 0 then 0 else if Rgt_dec sl 0 then v else if Rlt_dec sr 0 then w else / (sr - sl) * (sr * v - sl * w))%R.
Proof.
  unfold hll. cbn [fst]. change (Z.to_nat 0) with 0%nat. rewrite wind_left, wind_right. cbv zeta.
  destruct (Req_EM_T _ _); [reflexivity|]. destruct (Rgt_dec _ _); [apply wind_flux|]. destruct (Rlt_dec _ _); [apply wind_flux|].
  rewrite rho_scal, !rho_add, !rho_scal, rho_add, rho_scal, !wind_flux. f_equal. change (rho_ (wind v)) with 1%R. change (rho_ (wind w)) with 1%R. ring.
Qed.
Ltac mm := repeat match goal with
  | |- context [Rmin ?a ?b] => first [rewrite (Rmin_left a b) by lra|rewrite (Rmin_right a b) by lra]
  | |- context [Rmax ?a ?b] => first [rewrite (Rmax_left a b) by lra|rewrite (Rmax_right a b) by lra] end.
Lemma wind_13 : rho_ (n := 1) (fst (hll 1 2 0 (wind 1) (wind 3))) = 0%R.
Proof. rewrite wind_hll. cbv zeta. mm. destruct (Req_EM_T _ _); lra. Qed.
Lemma wind_33 : rho_ (n := 1) (fst (hll 1 2 0 (wind 3) (wind 3))) = 3%R.
Proof. rewrite wind_hll. cbv zeta. mm. destruct (Req_EM_T _ _); [lra|]. destruct (Rgt_dec _ _); lra. Qed.
Lemma wind_mm : rho_ (n := 1) (fst (hll 1 2 0 (wind (-3)) (wind (-3)))) = (-3)%R.
Proof. rewrite wind_hll. cbv zeta. mm. destruct (Req_EM_T _ _); [lra|]. destruct (Rgt_dec _ _); [lra|]. destruct (Rlt_dec _ _); lra. Qed.
Lemma wind_31 : rho_ (n := 1) (fst (hll 1 2 0 (wind (-3)) (wind (-1)))) = (-1)%R.
Proof. rewrite wind_hll. cbv zeta. mm. destruct (Req_EM_T _ _); [lra|]. destruct (Rgt_dec _ _); [lra|]. destruct (Rlt_dec _ _); [lra|].
  replace (-1 + 1)%R with 0%R by ring. field. Qed.
Lemma wind_speed v : (0 < snd (hll 1 2 0 (wind v) (wind v)))%R.
Proof.
  unfold hll. cbn [snd]. change (Z.to_nat 0) with 0%nat. rewrite wind_left, wind_right. mm.
  assert (H : (v - 1 < 0 \/ 0 < v + 1)%R) by lra. destruct H.
  - eapply Rlt_le_trans; [|apply Rmax_l]. rewrite Rabs_left; lra.
  - eapply Rlt_le_trans; [|apply Rmax_r]. rewrite Rabs_pos_eq; lra.
Qed.
Lemma line_cells g n x : interior 1 g n 1 1 x -> exists k, x = (k, 0, 0) /\ g <= k < g + n.
Proof.
  destruct x as [[x y] z]. unfold interior, interior1. cbn. intros (A & B & C). assert (y = 0) by lia. assert (z = 0) by lia. subst.
  exists x. split; [reflexivity|lia].
Qed.

Theorem C79_hll_refuted : exists u0 u0' : vol (euler_cvars 1),
  let fx := euler_numflux 1 2 HLL in
  let turned := reflect_cell 1 (nvec 2 1 1) (fun j => j =? 0) in
  compatible fx no_reconstruction 1 /\ fits_grid 1 1 2 1 1 /\
  volumes ForwardEuler 1 1 2 1 1 u0 [u0] (alone u0) /\ volumes ForwardEuler 1 1 2 1 1 u0' [u0'] (alone u0') /\
  (forall x, interior 1 1 2 1 1 x -> admissible 1 2 (vget u0 x)) /\
  (forall x, interior 1 1 2 1 1 x -> vget u0' x = flip_momentum 1 0 (vget u0 (turned x))) /\
  ~ agree (fun u u' => forall x, interior 1 1 2 1 1 x -> u' x = flip_momentum 1 0 (u (turned x)))
    (serial_run ForwardEuler Neumann 1 1 fx no_reconstruction unit_p (fun _ => true) [u0; u0] (alone u0) [fun _ => []])
    (serial_run ForwardEuler Neumann 1 1 fx no_reconstruction unit_p (fun _ => true) [u0'; u0'] (alone u0') [fun _ => []]).
Proof.
  exists wind_u, wind_u'. intros fx turned.
  assert (Hc : compatible fx no_reconstruction 1) by (split; [cbn; lia|exact I]).
  assert (Hf : fits_grid 1 1 2 1 1) by (unfold fits_grid; repeat split; try lia; reflexivity).
  assert (V1 : volumes ForwardEuler 1 1 2 1 1 wind_u [wind_u] (alone wind_u)) by alone_volumes.
  assert (V2 : volumes ForwardEuler 1 1 2 1 1 wind_u' [wind_u'] (alone wind_u')) by alone_volumes.
  split; [exact Hc|]. split; [exact Hf|]. split; [exact V1|]. split; [exact V2|].
  split; [intros [[x y] z] Hx; unfold vget, wind_u; cbn [vdat]; apply wind_adm|].
  split.
  { intros x Hx. destruct (line_cells 1 2 x Hx) as (k & -> & Hk). assert (k = 1 \/ k = 2) as [->| ->] by lia.
    - change (wind (-3) = flip_momentum 1 0 (wind 3)). unfold wind, flip_momentum, on_momentum. unfold mkcons. cbn. repeat apply (f_equal2 pair); try reflexivity; at_R; lra.
    - change (wind (-1) = flip_momentum 1 0 (wind 1)). unfold wind, flip_momentum, on_momentum. unfold mkcons. cbn. repeat apply (f_equal2 pair); try reflexivity; at_R; lra. }
  destruct (natural_step Neumann 1 1 fx no_reconstruction 2 1 1 unit_p wind_u [wind_u] (alone wind_u)) as (st & E & T & S); auto; try lia; [cbn; lra|intros d; cbn; lra| |].
  { exists 0, (2, 0, 0). split; [lia|]. split; [cbn; lra|]. split; [unfold interior, interior1; cbn; lia|].
    unfold fx. cbn [euler_numflux]. rewrite iface_two. apply (wind_speed 3). }
  destruct (natural_step Neumann 1 1 fx no_reconstruction 2 1 1 unit_p wind_u' [wind_u'] (alone wind_u')) as (st' & E' & T' & S'); auto; try lia; [cbn; lra|intros d; cbn; lra| |].
  { exists 0, (2, 0, 0). split; [lia|]. split; [cbn; lra|]. split; [unfold interior, interior1; cbn; lia|].
    unfold fx. cbn [euler_numflux]. rewrite iface_two. apply (wind_speed (-1)). }
  intros [(s & s' & A & A' & At & _ & Ax)|[A _]]; [|congruence].
  rewrite E in A. rewrite E' in A'. injection A as <-. injection A' as <-.
  specialize (Ax (1, 0, 0) ltac:(unfold interior, interior1; cbn; lia)).
  change (turned (1, 0, 0)) with (2, 0, 0) in Ax.
  apply (f_equal (fun u : cons 1 => rho_ u)) in Ax.
  change (rho_ (flip_momentum 1 0 (solution st (2, 0, 0)))) with (rho_ (n := 1) (solution st (2, 0, 0))) in Ax.
  rewrite S, S' in Ax by (unfold interior, interior1; cbn; lia). rewrite At in Ax.
  unfold fx in Ax. cbn [euler_numflux] in Ax. rewrite !semidiscrete_two in Ax. cbv zeta in Ax.
  change (zrange 0 1) with [0] in Ax. cbn [fold_left] in Ax.
  repeat match type of Ax with context [image ?a ?b ?c ?d ?e ?f ?x] =>
    let v := eval vm_compute in (image a b c d e f x) in change (image a b c d e f x) with v in Ax end.
  change (vget wind_u' (1, 0, 0)) with (wind (-3)) in Ax. change (vget wind_u' (2, 0, 0)) with (wind (-1)) in Ax.
  change (vget wind_u (1, 0, 0)) with (wind 1) in Ax. change (vget wind_u (2, 0, 0)) with (wind 3) in Ax.
  rewrite !rho_add, !rho_scal, !rho_add, !rho_scal, wind_13, wind_33, wind_mm, wind_31 in Ax.
  change (rho_ (n := 1) (@vzero (euler_cvars 1))) with 0%R in Ax.
  change (rho_ (wind (-3))) with 1%R in Ax. change (rho_ (wind 3)) with 1%R in Ax.
  change (p_len unit_p 0) with 1%R in Ax. clear - Ax T. lra.
Qed.
Print Assumptions C79_hll_refuted.

(** One cell of 1 between two of 0: the two differences are equal, and ENO takes the
    stencil to the right, in the mirror as well. *)
Definition hat_u : vol scalar_cvars := mkvol (A := scalar_cvars) 7 1 1 (fun i => if i =? 3 then 1 else 0)%R.
Definition hat_u' : vol scalar_cvars := mkvol (A := scalar_cvars) 7 1 1 (fun i => if i =? 3 then -1 else 0)%R.
Notation eno2 := (eno_recon (V := scalar_cvars) 2 (comp 0)).
Definition eno2_right (a b c : R) : R * R := ((3 / 2) * b + ((-1 / 2) * c + 0), (1 / 2) * b + ((1 / 2) * c + 0))%R.
Lemma eno2_tie (a b c : R) : ~ (Rabs (b - a) < Rabs (c - b))%R -> rec_fun eno2 [a; b; c] = eno2_right a b c.
Proof.
  intros H. cbn [rec_fun eno_recon]. unfold eno. cbn [Nat.sub eno_shift].
  destruct (Rlt_dec _ _) as [L|_]; [destruct (H L)|]. reflexivity.
Qed.
Lemma eno2_left (a b c : R) : (Rabs (b - a) < Rabs (c - b))%R ->
  rec_fun eno2 [a; b; c] = ((1 / 2) * a + ((1 / 2) * b + 0), (-1 / 2) * a + ((3 / 2) * b + 0))%R.
Proof.
  intros H. cbn [rec_fun eno_recon]. unfold eno. cbn [Nat.sub eno_shift].
  destruct (Rlt_dec _ _) as [_|L]; [|destruct (L H)]. reflexivity.
Qed.
Lemma hat_rec (s : R) (Hs : (s = 1 \/ s = -1)%R) :
  rec_fun eno2 [0; 0; s]%R = (0, 0)%R /\ rec_fun eno2 [0; s; 0]%R = (3 / 2 * s, 1 / 2 * s)%R /\ rec_fun eno2 [s; 0; 0]%R = (0, 0)%R.
Proof.
  assert (A : Rabs s = 1%R) by (destruct Hs as [->| ->]; [apply Rabs_R1|rewrite Rabs_left; lra]).
  rewrite (eno2_left 0 0 s), (eno2_tie 0 s 0), (eno2_tie s 0 0); unfold eno2_right.
  1: split; [|split]; apply (f_equal2 pair); at_R; lra.
  all: unfold Rminus; rewrite ?Ropp_0, ?Rplus_0_r, ?Rplus_0_l, ?Rabs_Ropp, ?Rabs_R0, ?A; lra.
Qed.

Theorem C79_eno_refuted : exists u0 u0' : vol scalar_cvars,
  let fx := the_flux Burgers (Two Central) in
  let turned := reflect_cell 2 (nvec 3 1 1) (fun k => (0 <=? k) && (k <? 1)) in
  find_recon (Scalar Burgers) 0 "eno2" = Some eno2 /\ compatible fx eno2 2 /\ fits_grid 1 2 3 1 1 /\
  volumes ForwardEuler 1 2 3 1 1 u0 [u0] (alone u0) /\ volumes ForwardEuler 1 2 3 1 1 u0' [u0'] (alone u0') /\
  (forall x, interior 1 2 3 1 1 x -> vget u0' x = neg (vget u0 (turned x))) /\
  ~ agree (fun u u' => forall x, interior 1 2 3 1 1 x -> u' x = neg (u (turned x)))
    (serial_run ForwardEuler Periodic 1 2 fx eno2 unit_p (fun _ => true) [u0; u0] (alone u0) [fun _ => []])
    (serial_run ForwardEuler Periodic 1 2 fx eno2 unit_p (fun _ => true) [u0'; u0'] (alone u0') [fun _ => []]).
Proof.
  exists hat_u, hat_u'. intros fx turned.
  assert (Hc : compatible fx eno2 2) by (split; [cbn; lia|exact I]).
  assert (Hf : fits_grid 1 2 3 1 1) by (unfold fits_grid; repeat split; try lia; reflexivity).
  assert (V1 : volumes ForwardEuler 1 2 3 1 1 hat_u [hat_u] (alone hat_u)) by alone_volumes.
  assert (V2 : volumes ForwardEuler 1 2 3 1 1 hat_u' [hat_u'] (alone hat_u')) by alone_volumes.
  split; [reflexivity|]. split; [exact Hc|]. split; [exact Hf|]. split; [exact V1|]. split; [exact V2|].
  split.
  { intros x Hx. destruct (line_cells 2 3 x Hx) as (k & -> & Hk). unfold neg. assert (k = 2 \/ k = 3 \/ k = 4) as [->|[->| ->]] by lia;
      [change (0 = - 0)%R|change (-1 = - 1)%R|change (0 = - 0)%R]; at_R; lra. }
  set (fill (u : vol scalar_cvars) := filled (V := scalar_cvars) Periodic 1 2 3 1 1 (vget u)).
  assert (L : forall u d x, rec_at eno2 d (fill u) x = rec_fun eno2 [fill u (move d (-1) x); fill u (move d 0 x); fill u (move d 1 x)]) by reflexivity.
  destruct (hat_rec 1 (or_introl eq_refl)) as (P1 & P2 & P3). destruct (hat_rec (-1) (or_intror eq_refl)) as (N1 & N2 & N3).
  assert (R2 : rec_at eno2 0 (fill hat_u) (2, 0, 0) = (0, 0)%R) by exact P1.
  assert (R3 : rec_at eno2 0 (fill hat_u) (3, 0, 0) = (3 / 2 * 1, 1 / 2 * 1)%R) by exact P2.
  assert (R4 : rec_at eno2 0 (fill hat_u) (4, 0, 0) = (0, 0)%R) by exact P3.
  assert (Q2 : rec_at eno2 0 (fill hat_u') (2, 0, 0) = (0, 0)%R) by exact N1.
  assert (Q3 : rec_at eno2 0 (fill hat_u') (3, 0, 0) = (3 / 2 * -1, 1 / 2 * -1)%R) by exact N2.
  assert (Q4 : rec_at eno2 0 (fill hat_u') (4, 0, 0) = (0, 0)%R) by exact N3.
  destruct (natural_step Periodic 1 2 fx eno2 3 1 1 unit_p hat_u [hat_u] (alone hat_u)) as (st & E & T & S); auto; try lia; [cbn; lra|intros d; cbn; lra| |].
  { exists 0, (2, 0, 0). split; [lia|]. split; [cbn; lra|]. split; [unfold interior, interior1; cbn; lia|].
    unfold fx. cbn [the_flux iface]. change (move 0 1 (2, 0, 0)) with (3, 0, 0). fold (fill hat_u). rewrite R2, R3.
    unfold scalar_flux, flux_speed. cbn [fst snd wave_speed]. eapply Rlt_le_trans; [|apply Rmax_r]. rewrite Rabs_pos_eq; lra. }
  destruct (natural_step Periodic 1 2 fx eno2 3 1 1 unit_p hat_u' [hat_u'] (alone hat_u')) as (st' & E' & T' & S'); auto; try lia; [cbn; lra|intros d; cbn; lra| |].
  { exists 0, (2, 0, 0). split; [lia|]. split; [cbn; lra|]. split; [unfold interior, interior1; cbn; lia|].
    unfold fx. cbn [the_flux iface]. change (move 0 1 (2, 0, 0)) with (3, 0, 0). fold (fill hat_u'). rewrite Q2, Q3.
    unfold scalar_flux, flux_speed. cbn [fst snd wave_speed]. eapply Rlt_le_trans; [|apply Rmax_r]. rewrite Rabs_left; lra. }
  intros [(s & s' & A & A' & At & _ & Ax)|[A _]]; [|congruence].
  rewrite E in A. rewrite E' in A'. injection A as <-. injection A' as <-.
  specialize (Ax (3, 0, 0) ltac:(unfold interior, interior1; cbn; lia)).
  change (turned (3, 0, 0)) with (3, 0, 0) in Ax.
  rewrite S, S' in Ax by (unfold interior, interior1; cbn; lia). rewrite At in Ax.
  unfold semidiscrete in Ax. fold (fill hat_u) in Ax. fold (fill hat_u') in Ax.
  unfold rhs in Ax. change (zrange 0 1) with [0] in Ax. cbn [fold_left] in Ax.
  unfold fx in Ax. cbn [the_flux iface] in Ax.
  change (move 0 (-1) (3, 0, 0)) with (2, 0, 0) in Ax. change (move 0 1 (2, 0, 0)) with (3, 0, 0) in Ax. change (move 0 1 (3, 0, 0)) with (4, 0, 0) in Ax.
  rewrite R2, R3, R4, Q2, Q3, Q4 in Ax. unfold scalar_flux, flux_value, point_flux, neg in Ax. cbn [fst snd] in Ax.
  change (vget hat_u' (3, 0, 0)) with (-1)%R in Ax. change (vget hat_u (3, 0, 0)) with 1%R in Ax.
  change (p_len unit_p 0) with 1%R in Ax. cbn [vadd vscal vzero scalar_cvars] in Ax.
  match type of Ax with @Logic.eq _ ?a ?b => assert (Bx : @Logic.eq R a b) by exact Ax end.
  clear - Bx T. lra.
Qed.
Print Assumptions C79_eno_refuted.

(** ** C80 *)

(** On a periodic grid the position of the first cell does not matter: the data rotated by
    [m] cells along an axis give the rotated solution, for every flux and reconstruction
    that fit together. *)
Theorem C80_rotation : forall (V : cvars) (fx : numflux V) rc it dims g nx ny nz p ok obeys obeys' k m u0 rest sc u0' rest' sc' adjs,
  1 <= dims <= 3 -> compatible fx rc g -> fits_grid dims g nx ny nz -> 0 <= k < dims ->
  checks_all dims g nx ny nz ok obeys -> checks_all dims g nx ny nz ok obeys' ->
  volumes it dims g nx ny nz u0 rest sc -> volumes it dims g nx ny nz u0' rest' sc' ->
  let rotated := rotate_cell g (nvec nx ny nz k) k m in
  (forall x, interior dims g nx ny nz x -> vget u0' x = vget u0 (rotated x)) ->
  agree (fun u u' => forall x, interior dims g nx ny nz x -> u' x = u (rotated x))
    (serial_run it Periodic dims g fx rc p obeys (u0 :: rest) sc adjs)
    (serial_run it Periodic dims g fx rc p obeys' (u0' :: rest') sc' adjs).
Proof.
  intros V fx rc it dims g nx ny nz p ok obeys obeys' k m u0 rest sc u0' rest' sc' adjs Hd Hc Hf Hk O1 O2 V1 V2 rotated H0.
  apply (rotate_runs (fun u => u) it Periodic dims g fx rc nx ny nz p ok obeys obeys'); auto.
  - intros d _. apply carries_id.
  - apply carries_recon_id.
Qed.
Print Assumptions C80_rotation.

(** Data that do not depend on the position along an axis: neither does the solution. *)
Theorem C80_invariant : forall (V : cvars) (fx : numflux V) rc it dims g nx ny nz p ok obeys k m u0 rest sc adjs st,
  1 <= dims <= 3 -> compatible fx rc g -> fits_grid dims g nx ny nz -> 0 <= k < dims ->
  checks_all dims g nx ny nz ok obeys -> volumes it dims g nx ny nz u0 rest sc ->
  let rotated := rotate_cell g (nvec nx ny nz k) k m in
  (forall x, interior dims g nx ny nz x -> vget u0 (rotated x) = vget u0 x) ->
  serial_run it Periodic dims g fx rc p obeys (u0 :: rest) sc adjs = Ok st ->
  forall x, interior dims g nx ny nz x -> solution st (rotated x) = solution st x.
Proof.
  intros V fx rc it dims g nx ny nz p ok obeys k m u0 rest sc adjs st Hd Hc Hf Hk O1 V1 rotated H0 E x Hx.
  destruct (C80_rotation V fx rc it dims g nx ny nz p ok obeys obeys k m u0 rest sc u0 rest sc adjs Hd Hc Hf Hk O1 O1 V1 V1)
    as [(s & s' & A & A' & _ & _ & Ax)|[A _]]; [intros y Hy; symmetry; now apply H0| |congruence].
  rewrite E in A, A'. injection A as <-. injection A' as <-. symmetry. now apply Ax.
Qed.
Print Assumptions C80_invariant.

(** Volumes that meet the hypotheses: two cells, 1 and 2, the same rotated by one cell, and
    their negatives in the mirror; one step with an admissible check. *)
Lemma always_checks {V : cvars} dims g nx ny nz : checks_all (V := V) dims g nx ny nz (fun _ => true) (fun _ => true).
Proof. intros v _. split; auto. Qed.
Definition pair_u (a b : R) : vol scalar_cvars := mkvol (A := scalar_cvars) 4 1 1 (fun i => if i =? 1 then a else b).
Lemma pair_volumes a b : volumes ForwardEuler 1 1 2 1 1 (pair_u a b) [pair_u a b] (alone (pair_u a b)).
Proof. alone_volumes. Qed.
Lemma pair_fits : fits_grid 1 1 2 1 1.
Proof. unfold fits_grid; repeat split; try lia; reflexivity. Qed.

Example C80_case : agree (fun u u' => forall x, interior 1 1 2 1 1 x -> u' x = u (rotate_cell 1 2 0 1 x))
    (serial_run ForwardEuler Periodic 1 1 (the_flux Burgers (Two Godunov)) no_reconstruction unit_p (fun _ => true)
      [pair_u 1 2; pair_u 1 2] (alone (pair_u 1 2)) [fun _ => []])
    (serial_run ForwardEuler Periodic 1 1 (the_flux Burgers (Two Godunov)) no_reconstruction unit_p (fun _ => true)
      [pair_u 2 1; pair_u 2 1] (alone (pair_u 2 1)) [fun _ => []]).
Proof.
  apply (C80_rotation scalar_cvars) with (ny := 1) (nz := 1) (ok := fun _ => true); try lia; try apply always_checks; try apply pair_volumes.
  - split; [cbn; lia|exact I].
  - apply pair_fits.
  - intros x Hx. destruct (line_cells 1 2 x Hx) as (k & -> & Hk). assert (k = 1 \/ k = 2) as [->| ->] by lia; reflexivity.
Qed.
Example C79_case : agree (fun u u' => forall x, interior 1 1 2 1 1 x ->
      u' x = neg (u (reflect_cell 1 (nvec 2 1 1) (fun k => (0 <=? k) && (k <? 1)) x)))
    (serial_run ForwardEuler Neumann 1 1 (the_flux Burgers (Two Godunov)) no_reconstruction unit_p (fun _ => true)
      [pair_u 1 2; pair_u 1 2] (alone (pair_u 1 2)) [fun _ => []])
    (serial_run ForwardEuler Neumann 1 1 (the_flux Burgers (Two Godunov)) no_reconstruction unit_p (fun _ => true)
      [pair_u (-2) (-1); pair_u (-2) (-1)] (alone (pair_u (-2) (-1))) [fun _ => []]).
Proof.
  apply C79_burgers_mirror_partial with (gamma := 0%R) (name := "none"%string) (ok := fun _ => true);
    try lia; try apply always_checks; try apply pair_volumes; try reflexivity; try (cbn [In]; tauto).
  - split; [cbn; lia|exact I].
  - apply pair_fits.
  - intros x Hx. destruct (line_cells 1 2 x Hx) as (k & -> & Hk). unfold neg.
    assert (k = 1 \/ k = 2) as [->| ->] by lia; [change ((-2) = - 2)%R|change ((-1) = - 1)%R]; at_R; lra.
Qed.
(** The step is taken: the run is not one that throws. *)
Example C79_case_runs : exists st,
  serial_run ForwardEuler Neumann 1 1 (the_flux Burgers (Two Godunov)) no_reconstruction unit_p (fun _ => true)
      [pair_u 1 2; pair_u 1 2] (alone (pair_u 1 2)) [fun _ => []] = Ok st /\ (0 < s_time st)%R.
Proof.
  destruct (natural_step Neumann 1 1 (the_flux Burgers (Two Godunov)) no_reconstruction 2 1 1 unit_p (pair_u 1 2) [pair_u 1 2] (alone (pair_u 1 2)))
    as (st & E & T & _); try lia; try reflexivity; try apply pair_fits; try apply pair_volumes; try (cbn; lra).
  - split; [cbn; lia|exact I].
  - intros d; cbn; lra.
  - exists 0, (1, 0, 0). split; [lia|]. split; [cbn; lra|]. split; [unfold interior, interior1; cbn; lia|].
    cbn [the_flux]. rewrite iface_two. change (0 < Rmax (Rabs 1) (Rabs 2))%R.
    eapply Rlt_le_trans; [|apply Rmax_r]. rewrite Rabs_pos_eq; lra.
  - exists st. split; [exact E|exact T].
Qed.
Lemma wind_volumes : volumes ForwardEuler 1 1 2 1 1 wind_u [wind_u] (alone wind_u).
Proof. alone_volumes. Qed.
Lemma wind_volumes' : volumes ForwardEuler 1 1 2 1 1 wind_u' [wind_u'] (alone wind_u').
Proof. alone_volumes. Qed.
(** The winds in the mirror with the central flux. *)
Example C79_case_euler : agree (fun u u' => forall x, interior 1 1 2 1 1 x ->
      u' x = flip_momentum 1 0 (u (reflect_cell 1 (nvec 2 1 1) (fun j => j =? 0) x)))
    (serial_run ForwardEuler Neumann 1 1 (euler_numflux 1 2 ECentral) no_reconstruction unit_p (fun _ => true)
      [wind_u; wind_u] (alone wind_u) [fun _ => []])
    (serial_run ForwardEuler Neumann 1 1 (euler_numflux 1 2 ECentral) no_reconstruction unit_p (fun _ => true)
      [wind_u'; wind_u'] (alone wind_u') [fun _ => []]).
Proof.
  apply C79_euler_mirror_partial with (name := "none"%string) (ok := fun _ => true);
    try lia; try apply always_checks; try reflexivity; try (cbn [In]; tauto); try apply pair_fits; try apply wind_volumes; try apply wind_volumes'.
  1: split; [cbn; lia|exact I].
  intros x Hx. destruct (line_cells 1 2 x Hx) as (k & -> & Hk). assert (k = 1 \/ k = 2) as [->| ->] by lia.
  - change (wind (-3) = flip_momentum 1 0 (wind 3)). unfold wind, flip_momentum, on_momentum, mkcons. cbn.
    repeat apply (f_equal2 pair); try reflexivity; at_R; lra.
  - change (wind (-1) = flip_momentum 1 0 (wind 1)). unfold wind, flip_momentum, on_momentum, mkcons. cbn.
    repeat apply (f_equal2 pair); try reflexivity; at_R; lra.
Qed.
(** A face for C79_hll_face_partial: from 0 to 1/2 times the speed of sound. *)
Example C79_case_hll : hll 1 2 0 (flip_momentum 1 0 (wind (1 / 2))) (flip_momentum 1 0 (wind 0)) =
  (vscal (-1) (flip_momentum 1 0 (fst (hll 1 2 0 (wind 0) (wind (1 / 2))))), snd (hll 1 2 0 (wind 0) (wind (1 / 2)))).
Proof. apply C79_hll_face_partial; try lia; change (Z.to_nat 0) with 0%nat; rewrite ?wind_left, ?wind_right; mm; lra. Qed.
