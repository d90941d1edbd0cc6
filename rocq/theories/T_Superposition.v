(** C90: superposition for the linear equation. *)
From Coq Require Import ZArith Reals List Bool Lia Lra String.
From Verif Require Import M_Base M_Vec M_Boundary M_Flux M_Sim M_Combined M_Scalar M_Recon M_Config.
From Verif Require Import S_Boundary S_Flux S_Sum S_Sim S_Symmetry S_Superposition.
From Verif Require Import L_Base L_Flux L_Symmetry L_SymScheme L_Forced L_Embed L_EulerSym T_Symmetry T_Mirror T_Embed.
Import ListNotations.
Open Scope Z_scope.

(** * Two runs as one run of a system of two equations *)

Definition both : cvars := pair_cvars scalar_cvars scalar_cvars.
Definition both_flux (n : flux2) : numflux both :=
  Flux2 (V := both) (fun d l r => ((fst (scalar_flux Linear n d (fst l) (fst r)), fst (scalar_flux Linear n d (snd l) (snd r))), 1%R)).
Definition mix (a c : R) (u : both) : scalar_cvars := (a * fst u + c * snd u)%R.

Lemma mix_add a c x y : mix a c (vadd x y) = vadd (mix a c x) (mix a c y).
Proof. destruct x as [x1 x2], y as [y1 y2]. unfold mix. cbn. at_R. ring. Qed.
Lemma mix_scal a c k x : mix a c (vscal k x) = vscal k (mix a c x).
Proof. destruct x as [x1 x2]. unfold mix. cbn. at_R. ring. Qed.

Definition linear_fluxes : list flux2 := [Central; Rusanov; Upwind].
Lemma speed_one l r : flux_speed Linear l r = 1%R.
Proof. unfold flux_speed; cbn [wave_speed]. apply Rmax_left; lra. Qed.
Lemma mix_carries a c n d : In n linear_fluxes -> carries (mix a c) (both_flux n) d (the_flux Linear (Two n)) d.
Proof.
  intros Hn. cbn [carries both_flux the_flux]. intros [l1 l2] [r1 r2]. unfold scalar_flux, mix. cbn [fst snd]. rewrite speed_one.
  apply (f_equal2 pair); [|reflexivity]. unfold flux_value.
  cbn [In linear_fluxes] in Hn. destruct Hn as [<-|[<-|[<-|[]]]]; cbn [point_flux eigenvalue]; at_R; ring.
Qed.
Lemma first_carries n d : carries (V := both) (W := scalar_cvars) fst (both_flux n) d (the_flux Linear (Two n)) d.
Proof. cbn [carries both_flux the_flux]. intros [l1 l2] [r1 r2]. unfold scalar_flux. cbn [fst snd]. now rewrite speed_one. Qed.
Lemma second_carries n d : carries (V := both) (W := scalar_cvars) snd (both_flux n) d (the_flux Linear (Two n)) d.
Proof. cbn [carries both_flux the_flux]. intros [l1 l2] [r1 r2]. unfold scalar_flux. cbn [fst snd]. now rewrite speed_one. Qed.

Section Two.
Variables (it : integrator) (b : bckind) (dims g : Z) (n : flux2) (nx ny nz : Z) (p : params)
  (obeys : vol scalar_cvars -> bool) (adjs : list (R -> list (R -> R))).
Notation fx := (the_flux Linear (Two n)).
Notation run_of u0 rest sc := (serial_run it b dims g fx no_reconstruction p obeys (u0 :: rest) sc adjs).
Hypothesis Hdims : 1 <= dims <= 3.
Hypothesis Hn : In n linear_fluxes.
Hypothesis Hcomp : compatible fx no_reconstruction g.
Hypothesis Hfit : fits_grid dims g nx ny nz.
Hypothesis Hob : checks_all dims g nx ny nz (fun _ => true) obeys.

Lemma both_compatible : compatible (both_flux n) no_reconstruction g.
Proof. destruct Hcomp as [A B]. split; [exact A|exact I]. Qed.

Let zip (u v : vol scalar_cvars) : vol both := mkvol (A := both) (vnx u) (vny u) (vnz u) (fun i => (vdat u i, vdat v i)).

Lemma two_runs (a c : R) (u0 : vol scalar_cvars) rest sc (v0 : vol scalar_cvars) rest' sc' (w0 : vol scalar_cvars) rest'' sc'' :
  volumes it dims g nx ny nz u0 rest sc -> volumes it dims g nx ny nz v0 rest' sc' -> volumes it dims g nx ny nz w0 rest'' sc'' ->
  (forall x, interior dims g nx ny nz x -> vget w0 x = (a * vget u0 x + c * vget v0 x)%R) ->
  superposed (interior dims g nx ny nz) [a; c] [run_of u0 rest sc; run_of v0 rest' sc'] (run_of w0 rest'' sc'').
Proof.
  intros V1 V2 V3 H0.
  set (restb := map (fun u => zip u u) rest).
  set (scb := let '(x, y, z) := sc in (zip x x, zip y y, zip z z)).
  assert (Eu : ext dims g nx ny nz u0) by (destruct V1 as (A & _); now inversion A).
  assert (Ev : ext dims g nx ny nz v0) by (destruct V2 as (A & _); now inversion A).
  assert (Vb : volumes it dims g nx ny nz (zip u0 v0) restb scb).
  { destruct V1 as (A & B & C). repeat split.
    - inversion A as [|? ? A1 A2]; subst. constructor; [exact A1|]. unfold restb. clear - A2.
      induction A2 as [|x l Q _ IH]; [constructor|]. constructor; [exact Q|exact IH].
    - unfold restb. now rewrite map_length.
    - unfold scb. destruct sc as [[x y] z]. exact C. }
  assert (Z0 : forall x, vget (zip u0 v0) x = (vget u0 x, vget v0 x)).
  { intros x. destruct Eu as (U1 & U2 & U3), Ev as (W1 & W2 & W3). destruct x as [[x y] z]. unfold vget. cbn [zip vdat vnx vny]. now rewrite U1, U2, W1, W2. }
  set (rb := serial_run it b dims g (both_flux n) no_reconstruction p (fun _ => true) (zip u0 v0 :: restb) scb adjs).
  assert (K : forall (tau : both -> scalar_cvars) w0 restw scw,
    (forall x y, tau (vadd x y) = vadd (tau x) (tau y)) -> (forall k x, tau (vscal k x) = vscal k (tau x)) ->
    (forall d, carries tau (both_flux n) d fx d) -> volumes it dims g nx ny nz w0 restw scw ->
    (forall x, interior dims g nx ny nz x -> vget w0 x = tau (vget (zip u0 v0) x)) ->
    agree (fun u u' => forall x, interior dims g nx ny nz x -> u' x = tau (u x)) rb (run_of w0 restw scw)).
  { intros tau w1 restw scw Ta Ts Hf Vw Hw.
    apply (relabel_runs (V := both) (W := scalar_cvars) tau it b dims g (both_flux n) no_reconstruction fx no_reconstruction nx ny nz p
      (fun _ => true) (fun _ => true) (fun _ => true) obeys); auto;
      first [exact both_compatible|apply always_checks|apply carries_none]. }
  assert (K1 := K fst u0 rest sc (fun x y => eq_refl) (fun k x => eq_refl) (first_carries n) V1 (fun x _ => eq_sym (f_equal fst (Z0 x)))).
  assert (K2 := K snd v0 rest' sc' (fun x y => eq_refl) (fun k x => eq_refl) (second_carries n) V2 (fun x _ => eq_sym (f_equal snd (Z0 x)))).
  assert (K3 := K (mix a c) w0 rest'' sc'' (mix_add a c) (mix_scal a c) (fun d => mix_carries a c n d Hn) V3
    (fun x Hx => eq_trans (H0 x Hx) (eq_sym (f_equal (mix a c) (Z0 x))))).
  destruct K1 as [(s & s1 & A & A1 & T1 & N1 & X1)|[A A1]].
  - destruct K2 as [(s' & s2 & A' & A2 & T2 & N2 & X2)|[A' _]]; [|congruence].
    destruct K3 as [(s'' & s3 & A'' & A3 & T3 & N3 & X3)|[A'' _]]; [|congruence].
    rewrite A in A', A''. injection A' as <-. injection A'' as <-.
    left. exists s3, [s1; s2]. split; [exact A3|]. split; [cbn [map]; now rewrite A1, A2|]. split.
    + repeat constructor; congruence.
    + intros x Hx. rewrite X3 by assumption. cbn [map combination]. rewrite X1, X2 by assumption. unfold mix. at_R. ring.
  - destruct K2 as [(s' & s2 & A' & _)|[_ A2]]; [congruence|].
    destruct K3 as [(s'' & s3 & A'' & _)|[_ A3]]; [congruence|].
    right. split; [exact A3|]. repeat constructor; congruence.
Qed.
End Two.

(** * C90 *)

Lemma split_off (w x y : R) : x = (w * y + 1 * (x - w * y))%R.
Proof. ring. Qed.
(** A sample: the volumes a run starts with. *)
Definition sample : Type := (vol scalar_cvars * list (vol scalar_cvars) * (vol scalar_cvars * vol scalar_cvars * vol scalar_cvars))%type.

(** The linear equation with flux central, rusanov or upwind and reconstruction none: the run
    from w1 u1 + w2 u2 + ... is w1 times the run from u1, and so on.  Any grid, boundary
    condition, integrator and adjustment of the time steps.  The check of the scalar
    equations looks for numbers that are not finite; there are none.  Missing in full: flux
    roe and the other reconstructions, refuted below. *)
Theorem C90_superposition_partial : forall it b dims g n nx ny nz p (obeys : vol scalar_cvars -> bool) adjs (ws : list R) (us : list sample) (w0 : vol scalar_cvars) rest sc,
  1 <= dims <= 3 -> In n [Central; Rusanov; Upwind] ->
  compatible (the_flux Linear (Two n)) no_reconstruction g -> fits_grid dims g nx ny nz ->
  checks_all dims g nx ny nz (fun _ => true) obeys ->
  List.length ws = List.length us ->
  Forall (fun u : sample => let '(u0, rest, sc) := u in volumes it dims g nx ny nz u0 rest sc) us ->
  volumes it dims g nx ny nz w0 rest sc ->
  (forall x, interior dims g nx ny nz x ->
     vget w0 x = combination ws (map (fun u : sample => let '(u0, _, _) := u in vget u0 x) us)) ->
  superposed (interior dims g nx ny nz) ws
    (map (fun u : sample => let '(u0, rest, sc) := u in
       serial_run it b dims g (the_flux Linear (Two n)) no_reconstruction p obeys (u0 :: rest) sc adjs) us)
    (serial_run it b dims g (the_flux Linear (Two n)) no_reconstruction p obeys (w0 :: rest) sc adjs).
Proof.
  intros it b dims g n nx ny nz p obeys adjs ws us w0 rest sc Hd Hn Hc Hf Ho.
  revert ws w0 rest sc. induction us as [|[[u0 ru] su] us IH]; intros [|w ws] w0 rest sc Hl HV V0 H0; try discriminate Hl.
  - cbn [map combination] in *.
    destruct (two_runs it b dims g n nx ny nz p obeys adjs Hd Hn Hc Hf Ho 0 0 w0 rest sc w0 rest sc w0 rest sc V0 V0 V0)
      as [(st & sts & A & B & C & D)|[A _]].
    + intros x Hx. rewrite H0 by assumption. cbn. at_R. ring.
    + left. exists st, []. split; [exact A|]. split; [reflexivity|]. split; [constructor|].
      intros x Hx. rewrite D by assumption. destruct sts as [|s1 [|s2 [|]]]; cbn [map] in B; try discriminate B. cbn [map combination]. at_R. ring.
    + right. split; [exact A|constructor].
  - inversion HV as [|? ? Vu Vs]; subst. injection Hl as Hl. cbn [map] in *.
    set (rest0 := mkvol (A := scalar_cvars) (vnx w0) (vny w0) (vnz w0) (fun i => (vdat w0 i - w * vdat u0 i)%R)).
    assert (Ew : ext dims g nx ny nz w0) by (destruct V0 as (A & _); now inversion A).
    assert (Eu : ext dims g nx ny nz u0) by (destruct Vu as (A & _); now inversion A).
    assert (G : forall x, vget rest0 x = (vget w0 x - w * vget u0 x)%R).
    { intros x. destruct Eu as (U1 & U2 & U3), Ew as (W1 & W2 & W3). destruct x as [[x y] z]. unfold vget. cbn [rest0 vdat vnx vny]. now rewrite U1, U2, W1, W2. }
    assert (V1 : volumes it dims g nx ny nz rest0 rest sc).
    { destruct V0 as (A & B & C). split; [|split; assumption]. inversion A; subst. constructor; [exact Ew|assumption]. }
    assert (P0 : forall x, interior dims g nx ny nz x ->
      vget rest0 x = combination ws (map (fun u : sample => let '(u0, _, _) := u in vget u0 x) us)).
    { intros x Hx. rewrite G, H0 by assumption. cbn [combination]. at_R. ring. }
    specialize (IH ws rest0 rest sc Hl Vs V1 P0).
    destruct (two_runs it b dims g n nx ny nz p obeys adjs Hd Hn Hc Hf Ho w 1 u0 ru su rest0 rest sc w0 rest sc Vu V1 V0)
      as [(st & sts & A & B & C & D)|[A B]].
    + intros x Hx. rewrite G. apply split_off.
    + destruct sts as [|s1 [|s2 [|]]]; cbn [map] in B; try discriminate B. 
      pose proof (f_equal (fun l => nth 0 l Throw) B) as B1. pose proof (f_equal (fun l => nth 1 l Throw) B) as B2. cbn [nth] in B1, B2.
      inversion C as [|? ? C1 C2]; subst. inversion C2 as [|? ? C3 _]; subst.
      destruct IH as [(st' & sts & A' & B' & C' & D')|[A' _]]; [|congruence].
      rewrite B2 in A'. injection A' as <-. left. exists st, (s1 :: sts). split; [exact A|]. split; [cbn [map]; now rewrite B1, B'|]. split.
      * constructor; [exact C1|]. eapply Forall_impl; [|exact C']. cbn beta. intros s [Q1 Q2]. destruct C3. split; congruence.
      * intros x Hx. rewrite D by assumption. cbn [map combination]. rewrite D' by assumption. at_R. ring.
    + pose proof (Forall_inv B) as B1. pose proof (Forall_inv (Forall_inv_tail B)) as B3.
      destruct IH as [(st' & sts & A' & _)|[_ B']]; [congruence|].
      right. split; [exact A|]. constructor; assumption.
Qed.
Print Assumptions C90_superposition_partial.

(** Flux roe takes the part of its left state that is not negative: of (-1, 0) nothing moves. *)
Definition cells2 (a b : R) : vol scalar_cvars := mkvol (A := scalar_cvars) 4 1 1 (fun i => if i =? 1 then a else if i =? 2 then b else 0%R).
Theorem C90_roe_refuted : exists (u0 w0 : vol scalar_cvars) (w : R),
  let fx := the_flux Linear (Two LinearRoe) in
  In (Two LinearRoe) (offered Linear) /\ compatible fx no_reconstruction 1 /\ fits_grid 1 1 2 1 1 /\
  volumes ForwardEuler 1 1 2 1 1 u0 [u0] (alone u0) /\ volumes ForwardEuler 1 1 2 1 1 w0 [w0] (alone w0) /\
  (forall x, interior 1 1 2 1 1 x -> vget w0 x = combination [w] [vget u0 x]) /\
  ~ superposed (interior 1 1 2 1 1) [w]
    [serial_run ForwardEuler Periodic 1 1 fx no_reconstruction unit_p (fun _ => true) [u0; u0] (alone u0) [fun _ => []]]
    (serial_run ForwardEuler Periodic 1 1 fx no_reconstruction unit_p (fun _ => true) [w0; w0] (alone w0) [fun _ => []]).
Proof.
  exists (cells2 1 0), (cells2 (- (1)) 0), (- (1))%R. intros fx.
  assert (Hc : compatible fx no_reconstruction 1) by (split; [cbn; lia|exact I]).
  assert (V : forall a b, volumes ForwardEuler 1 1 2 1 1 (cells2 a b) [cells2 a b] (alone (cells2 a b))) by (intros; alone_volumes).
  split; [cbn [offered In]; tauto|]. split; [exact Hc|]. split; [apply pair_fits|]. split; [apply V|]. split; [apply V|]. split.
  { intros x Hx. destruct (line_cells 1 2 x Hx) as (k & -> & Hk). assert (k = 1 \/ k = 2) as [->| ->] by lia;
      [change (- (1) = - (1) * 1 + 0)%R|change (0 = - (1) * 0 + 0)%R]; at_R; ring. }
  assert (St : forall a, exists st,
    serial_run ForwardEuler Periodic 1 1 fx no_reconstruction unit_p (fun _ => true) [cells2 a 0; cells2 a 0] (alone (cells2 a 0)) [fun _ => []] = Ok st /\
    (0 < s_time st)%R /\ @Logic.eq R (solution st (1, 0, 0)) (a - s_time st * Rmax a 0)%R).
  { intros a. destruct (natural_step Periodic 1 1 fx no_reconstruction 2 1 1 unit_p (cells2 a 0) [cells2 a 0] (alone (cells2 a 0)))
      as (st & E & T & S); auto; try lia; try apply pair_fits; try apply V; [cbn; lra|intros d; cbn; lra| |].
    - exists 0, (2, 0, 0). split; [lia|]. split; [cbn; lra|]. split; [unfold interior, interior1; cbn; lia|].
      unfold fx. cbn [the_flux iface]. unfold scalar_flux. cbn [fst snd]. rewrite speed_one; lra.
    - exists st. split; [exact E|]. split; [exact T|]. rewrite S by (unfold interior, interior1; cbn; lia).
      unfold semidiscrete. set (v := filled Periodic 1 1 2 1 1 (vget (cells2 a 0))).
      unfold rhs. change (zrange 0 1) with [0]. cbn [fold_left]. unfold fx. cbn [the_flux iface].
      change (move 0 (-1) (1, 0, 0)) with (0, 0, 0). change (move 0 1 (0, 0, 0)) with (1, 0, 0). change (move 0 1 (1, 0, 0)) with (2, 0, 0).
      change (rec_at no_reconstruction 0 v (0, 0, 0)) with (0, 0)%R.
      change (rec_at no_reconstruction 0 v (1, 0, 0)) with (a, a).
      unfold scalar_flux, flux_value, point_flux. cbn [fst snd].
      change (vget (cells2 a 0) (1, 0, 0)) with a. change (p_len unit_p 0) with 1%R. cbn [vadd vscal vzero scalar_cvars].
      rewrite (Rmax_left 0 0) by lra. at_R. field. }
  destruct (St 1%R) as (s1 & E1 & T1 & S1). destruct (St (- (1))%R) as (s2 & E2 & T2 & S2). fold fx. rewrite E1, E2.
  rewrite Rmax_left in S1 by lra. rewrite Rmax_right in S2 by lra.
  intros [(st & sts & A & B & C & D)|[A _]]; [|discriminate A].
  injection A as <-. destruct sts as [|s [|]]; try discriminate B. injection B as <-.
  specialize (D (1, 0, 0) ltac:(unfold interior, interior1; cbn; lia)). cbn [map combination] in D. rewrite S1 in D.
  assert (D' : (- (1) - s_time s2 * 0 = - (1) * (1 - s_time s1 * 1) + 0)%R) by (rewrite <- S2; exact D). lra.
Qed.
Print Assumptions C90_roe_refuted.

(** With a reconstruction: 0, 1, 2 is the sum of 0, 1, 0 and 0, 0, 2; the sum has a slope in
    the middle cell, the parts have none. *)
Definition cells3 (a b c : R) : vol scalar_cvars :=
  mkvol (A := scalar_cvars) 7 1 1 (fun i => if i =? 2 then a else if i =? 3 then b else if i =? 4 then c else 0)%R.
Lemma cells3_volumes a b c : volumes ForwardEuler 1 2 3 1 1 (cells3 a b c) [cells3 a b c] (alone (cells3 a b c)).
Proof. alone_volumes. Qed.
Notation upwind := (the_flux Linear (Two Upwind)).
Notation upwind_run rc a b c :=
  (serial_run ForwardEuler Periodic 1 2 upwind rc unit_p (fun _ => true) [cells3 a b c; cells3 a b c] (alone (cells3 a b c)) [fun _ => []]).
Definition right_of (rc : recon scalar_cvars) (a b c : R) : R := snd (rec_fun rc [a; b; c]).
Lemma upwind_step rc a b c : rec_ghosts rc = 2 -> compatible upwind rc 2 -> exists st,
  upwind_run rc a b c = Ok st /\ (0 < s_time st)%R /\
  @Logic.eq R (solution st (3, 0, 0)) (b + s_time st * (right_of rc c a b - right_of rc a b c))%R.
Proof.
  intros Hg Hc.
  assert (Hf : fits_grid 1 2 3 1 1) by (unfold fits_grid; repeat split; try lia; reflexivity).
  destruct (natural_step Periodic 1 2 upwind rc 3 1 1 unit_p (cells3 a b c) [cells3 a b c] (alone (cells3 a b c)))
    as (st & E & T & S); auto; try lia; try apply cells3_volumes; [cbn; lra|intros d; cbn; lra| |].
  - exists 0, (2, 0, 0). split; [lia|]. split; [cbn; lra|]. split; [unfold interior, interior1; cbn; lia|].
    cbn [the_flux iface]. unfold scalar_flux. cbn [fst snd]. rewrite speed_one; lra.
  - exists st. split; [exact E|]. split; [exact T|]. rewrite S by (unfold interior, interior1; cbn; lia).
    unfold semidiscrete. set (v := filled Periodic 1 2 3 1 1 (vget (cells3 a b c))).
    unfold rhs. change (zrange 0 1) with [0]. cbn [fold_left the_flux iface].
    change (move 0 (-1) (3, 0, 0)) with (2, 0, 0). change (move 0 1 (2, 0, 0)) with (3, 0, 0).
    assert (R2 : rec_at rc 0 v (2, 0, 0) = rec_fun rc [c; a; b]) by (unfold rec_at; rewrite Hg; reflexivity).
    assert (R3 : rec_at rc 0 v (3, 0, 0) = rec_fun rc [a; b; c]) by (unfold rec_at; rewrite Hg; reflexivity).
    rewrite R2, R3. unfold scalar_flux, flux_value, point_flux. cbn [fst snd]. fold (right_of rc c a b). fold (right_of rc a b c).
    change (vget (cells3 a b c) (3, 0, 0)) with b. change (p_len unit_p 0) with 1%R. cbn [vadd vscal vzero scalar_cvars].
    at_R. field.
Qed.
Lemma right_mm a b c : right_of (limiter_recon scalar_lifting mm_slope) a b c = (b + mm_slope a b c / 2)%R.
Proof. reflexivity. Qed.
Lemma right_mc a b c : right_of (limiter_recon scalar_lifting mc_slope) a b c = (b + mc_slope a b c / 2)%R.
Proof. reflexivity. Qed.

Definition differs (rc : recon scalar_cvars) : Prop :=
  (right_of rc 2 0 1 - right_of rc 0 1 2 <> (right_of rc 0 0 1 - right_of rc 0 1 0) + (right_of rc 2 0 0 - right_of rc 0 0 2))%R.
Lemma eno2_differs : differs eno2.
Proof.
  assert (B : forall x, (0 <= x)%R -> Rabs x = x) by (intros; now apply Rabs_right, Rle_ge).
  assert (N : forall x, (x <= 0)%R -> Rabs x = (- x)%R) by (intros; now apply Rabs_left1).
  unfold differs, right_of.
  rewrite (eno2_tie 2 0 1), (eno2_tie 0 1 2), (eno2_left 0 0 1), (eno2_tie 0 1 0), (eno2_tie 2 0 0), (eno2_left 0 0 2).
  1: unfold eno2_right; cbn [snd]; lra.
  all: repeat match goal with |- context [Rabs ?x] => first [rewrite (B x) by lra|rewrite (N x) by lra] end; lra.
Qed.
Lemma sign_cases x : (0 < x /\ sign x = 1 \/ x = 0 /\ sign x = 0 \/ x < 0 /\ sign x = -1)%R.
Proof. unfold sign. destruct (Rgt_dec x 0); [left; lra|]. destruct (Req_EM_T x 0); [right; left; lra|right; right; lra]. Qed.
Lemma minmod2_zero a b : (a * b <= 0)%R -> minmod2 a b = 0%R.
Proof.
  intros H. unfold minmod2. destruct (Req_EM_T _ _) as [E|]; [|reflexivity].
  destruct (sign_cases a) as [[A A']|[[A A']|[A A']]], (sign_cases b) as [[B B']|[[B B']|[B B']]]; rewrite A' in E |- *; rewrite B' in E; try lra; nra.
Qed.
Lemma minmod3_zero a b c : (a * b <= 0 \/ b * c <= 0)%R -> minmod3 a b c = 0%R.
Proof.
  intros H. unfold minmod3. destruct (Req_EM_T _ _) as [E|]; [|reflexivity]. destruct (Req_EM_T _ _) as [F|]; [|reflexivity].
  destruct (sign_cases a) as [[A A']|[[A A']|[A A']]], (sign_cases b) as [[B B']|[[B B']|[B B']]], (sign_cases c) as [[C C']|[[C C']|[C C']]];
    rewrite A' in E |- *; rewrite B' in E, F; rewrite C' in F; try lra; nra.
Qed.
Lemma sign_pos x : (0 < x)%R -> sign x = 1%R.
Proof. intros H. destruct (sign_cases x) as [[_ E]|[[A _]|[A _]]]; [exact E|lra|lra]. Qed.
Lemma mm_differs : differs (limiter_recon scalar_lifting mm_slope).
Proof.
  unfold differs. rewrite !right_mm. unfold mm_slope.
  rewrite (minmod2_zero (1 - 0) (0 - 2)), (minmod2_zero (1 - 0) (0 - 0)), (minmod2_zero (0 - 1) (1 - 0)), (minmod2_zero (0 - 0) (0 - 2)), (minmod2_zero (2 - 0) (0 - 0)) by lra.
  unfold minmod2. rewrite !sign_pos by lra. destruct (Req_EM_T 1 1) as [_|N]; [|lra]. rewrite !Rabs_right by lra. rewrite Rmin_left by lra. lra.
Qed.
Lemma mc_differs : differs (limiter_recon scalar_lifting mc_slope).
Proof.
  unfold differs. rewrite !right_mc. unfold mc_slope.
  rewrite (minmod3_zero (2 * (1 - 0)) ((1 - 2) / 2)), (minmod3_zero (2 * (1 - 0)) ((1 - 0) / 2) (2 * (0 - 0))),
    (minmod3_zero (2 * (0 - 1))), (minmod3_zero (2 * (0 - 0))), (minmod3_zero (2 * (2 - 0)) ((2 - 0) / 2)) by lra.
  unfold minmod3. rewrite !sign_pos by lra. destruct (Req_EM_T 1 1) as [_|N]; [|lra]. rewrite !Rabs_right by lra.
  rewrite (Rmin_left ((2 - 0) / 2)) by lra. rewrite Rmin_right by lra. lra.
Qed.

Theorem C90_reconstruction_refuted : forall name rc, In name ["eno2"; "mc"; "mm"]%string -> find_recon (Scalar Linear) 0 name = Some rc ->
  exists u0 v0 w0 : vol scalar_cvars,
  compatible upwind rc 2 /\ fits_grid 1 2 3 1 1 /\
  (forall u, In u [u0; v0; w0] -> volumes ForwardEuler 1 2 3 1 1 u [u] (alone u)) /\
  (forall x, interior 1 2 3 1 1 x -> vget w0 x = combination [1; 1]%R [vget u0 x; vget v0 x]) /\
  ~ superposed (interior 1 2 3 1 1) [1; 1]%R
    [serial_run ForwardEuler Periodic 1 2 upwind rc unit_p (fun _ => true) [u0; u0] (alone u0) [fun _ => []];
     serial_run ForwardEuler Periodic 1 2 upwind rc unit_p (fun _ => true) [v0; v0] (alone v0) [fun _ => []]]
    (serial_run ForwardEuler Periodic 1 2 upwind rc unit_p (fun _ => true) [w0; w0] (alone w0) [fun _ => []]).
Proof.
  intros name rc Hin Hr. exists (cells3 0 1 0), (cells3 0 0 2), (cells3 0 1 2).
  assert (Q : rec_ghosts rc = 2 /\ compatible upwind rc 2 /\
    (right_of rc 2 0 1 - right_of rc 0 1 2 <> (right_of rc 0 0 1 - right_of rc 0 1 0) + (right_of rc 2 0 0 - right_of rc 0 0 2))%R).
  { cbn [In] in Hin. destruct Hin as [<-|[<-|[<-|[]]]]; injection Hr as <-.
    - split; [reflexivity|]. split; [split; [cbn; lia|exact I]|exact eno2_differs].
    - split; [reflexivity|]. split; [split; [cbn; lia|exact I]|exact mc_differs].
    - split; [reflexivity|]. split; [split; [cbn; lia|exact I]|exact mm_differs]. }
  destruct Q as (Hg & Hc & Q).
  split; [exact Hc|]. split; [unfold fits_grid; repeat split; try lia; reflexivity|].
  split; [cbn [In]; intros u [<-|[<-|[<-|[]]]]; apply cells3_volumes|]. split.
  { intros x Hx. destruct (line_cells 2 3 x Hx) as (k & -> & Hk). assert (k = 2 \/ k = 3 \/ k = 4) as [->|[->| ->]] by lia;
      [change (0 = 1 * 0 + (1 * 0 + 0))%R|change (1 = 1 * 1 + (1 * 0 + 0))%R|change (2 = 1 * 0 + (1 * 2 + 0))%R]; at_R; ring. }
  destruct (upwind_step rc 0 1 0 Hg Hc) as (s1 & E1 & T1 & S1). destruct (upwind_step rc 0 0 2 Hg Hc) as (s2 & E2 & T2 & S2).
  destruct (upwind_step rc 0 1 2 Hg Hc) as (s3 & E3 & T3 & S3). rewrite E1, E2, E3.
  intros [(st & sts & A & B & C & D)|[A _]]; [|discriminate A].
  injection A as <-. destruct sts as [|q1 [|q2 [|]]]; try discriminate B. injection B as <- <-.
  inversion C as [|? ? [C1 _] C2]; subst. inversion C2 as [|? ? [C3 _] _]; subst.
  specialize (D (3, 0, 0) ltac:(unfold interior, interior1; cbn; lia)). cbn [map combination] in D. rewrite S1, S2, C1, C3 in D.
  assert (D' := eq_trans (eq_sym S3) D). apply Q. apply (Rmult_eq_reg_l (s_time s3)); [|lra].
  match type of D' with @Logic.eq _ ?a ?b => assert (D2 : @Logic.eq R a b) by exact D' end. lra.
Qed.
Print Assumptions C90_reconstruction_refuted.

(** WENO is not even homogeneous (C83): twice the data is not twice the run. *)
Theorem C90_weno_refuted : exists u0 w0 : vol scalar_cvars,
  find_recon (Scalar Linear) 0 "weno2" = Some weno2s /\ compatible upwind weno2s 2 /\ fits_grid 1 2 3 1 1 /\
  volumes ForwardEuler 1 2 3 1 1 u0 [u0] (alone u0) /\ volumes ForwardEuler 1 2 3 1 1 w0 [w0] (alone w0) /\
  exists k, (forall x, interior 1 2 3 1 1 x -> vget w0 x = combination [k] [vget u0 x]) /\
  ~ superposed (interior 1 2 3 1 1) [k]
    [serial_run ForwardEuler Periodic 1 2 upwind weno2s unit_p (fun _ => true) [u0; u0] (alone u0) [fun _ => []]]
    (serial_run ForwardEuler Periodic 1 2 upwind weno2s unit_p (fun _ => true) [w0; w0] (alone w0) [fun _ => []]).
Proof.
  destruct C83_weno_refuted as (u0 & w0 & k & Hk & A & B & C & D & E & F & G).
  exists u0, w0. split; [exact A|]. split; [exact B|]. split; [exact C|]. split; [exact D|]. split; [exact E|].
  exists k. split.
  - intros x Hx. rewrite F by assumption. unfold larger. cbn [combination]. at_R. ring.
  - intros [(st & sts & Q1 & Q2 & Q3 & Q4)|[Q1 Q2]]; apply G.
    + left. destruct sts as [|s [|]]; try discriminate Q2. pose proof (f_equal (fun l => nth 0 l Throw) Q2) as Q5. cbn [nth map] in Q5.
      inversion Q3 as [|? ? [Q6 Q7] _]; subst. exists s, st. split; [exact Q5|]. split; [exact Q1|]. split; [now symmetry|]. split; [now symmetry|].
      intros x Hx. rewrite Q4 by assumption. unfold larger. cbn [map combination]. at_R. ring.
    + right. split; [exact (eq_sym (Forall_inv Q2))|exact Q1].
Qed.
Print Assumptions C90_weno_refuted.

(** Two samples of the linear equation and their mean, two cells and two steps. *)
Example C90_case : superposed (interior 1 1 2 1 1) [1 / 2; 1 / 2]%R
    [serial_run ForwardEuler Periodic 1 1 upwind no_reconstruction unit_p (fun _ => true) [cells2 1 0; cells2 1 0] (alone (cells2 1 0)) [fun _ => []; fun _ => []];
     serial_run ForwardEuler Periodic 1 1 upwind no_reconstruction unit_p (fun _ => true) [cells2 3 4; cells2 3 4] (alone (cells2 3 4)) [fun _ => []; fun _ => []]]
    (serial_run ForwardEuler Periodic 1 1 upwind no_reconstruction unit_p (fun _ => true) [cells2 2 2; cells2 2 2] (alone (cells2 2 2)) [fun _ => []; fun _ => []]).
Proof.
  apply (C90_superposition_partial ForwardEuler Periodic 1 1 Upwind 2 1 1 unit_p (fun _ => true) [fun _ => []; fun _ => []] [1 / 2; 1 / 2]%R
    [(cells2 1 0, [cells2 1 0], alone (cells2 1 0)); (cells2 3 4, [cells2 3 4], alone (cells2 3 4))] (cells2 2 2) [cells2 2 2] (alone (cells2 2 2)));
    try lia; try apply always_checks; try apply pair_fits; try reflexivity; try (cbn [In]; tauto).
  - split; [cbn; lia|exact I].
  - repeat constructor.
  - alone_volumes.
  - intros x Hx. destruct (line_cells 1 2 x Hx) as (k & -> & Hk). assert (k = 1 \/ k = 2) as [->| ->] by lia;
      [change (2 = 1 / 2 * 1 + (1 / 2 * 3 + 0))%R|change (2 = 1 / 2 * 0 + (1 / 2 * 4 + 0))%R]; at_R; field.
Qed.
