(** A gas at rest, the same everywhere: one step changes nothing. *)
From Coq Require Import ZArith Reals List Bool Lia Lra.
From Verif Require Import M_Base M_Vec M_Boundary M_Flux M_Sim M_Storage M_Parallel S_Boundary S_Flux S_Sum S_Sim S_Parallel S_Symmetry S_Euler
  L_Base L_Loops L_Boundary L_Flux L_System L_FluxTop L_Sim L_SimTop L_Storage L_Related L_Forced L_Euler M_Euler.
Import ListNotations.
Open Scope Z_scope.

(** Density 1, pressure 1/2; with gamma = 2 the speed of sound is 1. *)
Definition calm (n : nat) : euler_cvars n := mkcons (n := n) 1%R vzero (1 / 2)%R.
Lemma vdot_zero n : vdot n vzero vzero = 0%R.
Proof. induction n as [|n IH]; [reflexivity|]. change (0 * 0 + vdot n vzero vzero = 0)%R. rewrite IH. ring. Qed.
Lemma vnth_zero n d : vnth n d (@vzero (vec_cvars n)) = 0%R.
Proof. revert d. induction n as [|n IH]; intros d; [reflexivity|]. destruct d; [reflexivity|]. apply (IH d). Qed.
Lemma calm_p n : extra_p 2 (calm n) = (1 / 2)%R.
Proof. unfold extra_p, calm. cbn [rho_ mom en mkcons fst snd]. rewrite vdot_zero. lra. Qed.
Lemma calm_u n d : vnth n d (extra_u (calm n)) = 0%R.
Proof. unfold extra_u, calm. cbn [rho_ mom mkcons fst snd]. rewrite vnth_scal, vnth_zero. ring. Qed.
Lemma calm_roe_u n d : vnth n d (roe_u n (calm n) (calm n)) = 0%R.
Proof. unfold roe_u. rewrite vnth_scal, vnth_add, !vnth_scal, calm_u. ring. Qed.
Lemma calm_c n : sqrt (2 * extra_p 2 (calm n) / rho_ (calm n)) = 1%R.
Proof. rewrite calm_p. transitivity (sqrt 1); [f_equal; cbn; field|apply sqrt_1]. Qed.
Lemma calm_roe_c n : roe_cs n 2 (calm n) (calm n) = 1%R.
Proof. unfold roe_cs, roe_p. rewrite !calm_p. cbn. rewrite sqrt_1. transitivity (sqrt 1); [f_equal; field|apply sqrt_1]. Qed.
Lemma calm_speed n d : snd (hll n 2 d (calm n) (calm n)) = 1%R.
Proof.
  unfold hll, hll_left, hll_right. cbn [snd]. rewrite calm_u, calm_roe_u, calm_c, calm_roe_c.
  rewrite (Rmin_left (0 - 1) (0 - 1)), (Rmax_left (0 + 1) (0 + 1)) by lra. replace (0 - 1)%R with (-1)%R by ring. replace (0 + 1)%R with 1%R by ring.
  rewrite (Rabs_left (-1)), (Rabs_pos_eq 1) by lra. rewrite Rmax_left; lra.
Qed.
Lemma calm_admissible n : admissible n 2 (calm n).
Proof. split; [cbn; lra|]. change (0 < extra_p 2 (calm n))%R. rewrite calm_p. lra. Qed.

Lemma euler_cancel n (a : euler_cvars n) : vadd a (vscal (-1) a) = vzero.
Proof.
  apply (proj1 (euler_record n)). intros i _. rewrite comp_add, comp_scal, comp_zero. ring.
Qed.
Lemma euler_zero_r n (a : euler_cvars n) : vadd a vzero = a.
Proof. apply (proj1 (euler_record n)). intros i _. rewrite comp_add, comp_zero. ring. Qed.
Lemma euler_scal_zero n s : vscal s (@vzero (euler_cvars n)) = vzero.
Proof. apply (proj1 (euler_record n)). intros i _. rewrite comp_scal, comp_zero. ring. Qed.

Section Calm.
Variables (n : nat) (b : bckind) (dims nx ny nz : Z) (ob : vol (euler_cvars n) -> bool) (ok : euler_cvars n -> bool).
Notation fx := (euler_numflux n 2 HLL).
Notation rc := (@no_reconstruction (euler_cvars n)).
Hypothesis Hd : 1 <= dims <= 3.
Hypothesis Hfit : fits_grid dims 1 nx ny nz.
Hypothesis Hok : ok (calm n) = true.
Hypothesis Hob : checks_all dims 1 nx ny nz ok ob.
Definition unit_prm : params := mkparams (fun _ => 1)%R 1 [].

Lemma calm_step u0 rest sc : volumes ForwardEuler dims 1 nx ny nz u0 rest sc ->
  (forall c, interior dims 1 nx ny nz c -> vget u0 c = calm n) ->
  exists st, serial_run ForwardEuler b dims 1 fx rc unit_prm ob (u0 :: rest) sc [fun _ => []] = Ok st /\
    s_time st = (/ IZR dims)%R /\ forall c, interior dims 1 nx ny nz c -> solution st c = calm n.
Proof.
  destruct Hfit as (H1 & H2 & H3 & H4 & H5 & H6 & H7). intros (V1 & V2 & V3) Hu.
  assert (Hc : compatible fx rc 1) by (split; [cbn; lia|exact I]).
  destruct (start_ready ForwardEuler b dims 1 fx rc nx ny nz Hd Hc H1 H2 H3 H4 H5 H6 (u0 :: rest) sc V1) as (st0 & E0 & R0 & T0 & W0);
    [cbn [length]; now rewrite V2|exact V3|].
  unfold serial_run. rewrite E0. cbn [bind].
  destruct (step_speeds ForwardEuler b dims 1 fx rc nx ny nz Hd Hc H1 H2 H3 H4 H5 H6 H7 unit_prm (fun _ => []) st0 R0)
    as (st1 & dt & ws & E1 & R1 & [S1 Z1] & D1 & T1 & N1 & W1).
  cbn [hd] in W0.
  assert (F0 : forall c, in_volume dims 1 nx ny nz c -> filled b dims 1 nx ny nz (solution st0) c = calm n).
  { intros c Hin. unfold filled. pose proof (im_interior b dims 1 fx rc nx ny nz Hc H1 H2 H3 H4 H5 H6 c Hin) as Hi.
    rewrite W0 by exact Hi. now apply Hu. }
  assert (Hst : forall c d s, interior dims 1 nx ny nz c -> 0 <= d < dims -> -1 <= s <= 1 -> in_volume dims 1 nx ny nz (move d s c))
    by (intros; now apply (stencil_in_volume dims 1 fx rc nx ny nz Hd Hc)).
  assert (Hface : forall d c, 0 <= d < dims -> interior dims 1 nx ny nz c \/ interior dims 1 nx ny nz (move d 1 c) ->
     iface fx rc d (filled b dims 1 nx ny nz (solution st0)) c = hll n 2 d (calm n) (calm n)).
  { intros d c Hdd Hi. unfold euler_numflux. cbv beta iota. rewrite iface_two.
    rewrite !F0; [reflexivity| |].
    - destruct Hi as [Hi|Hi]; [apply Hst; auto; lia|]. rewrite <- (move_0 d (move d 1 c)). apply Hst; auto; lia.
    - destruct Hi as [Hi|Hi]; [rewrite <- (move_0 d c); apply Hst; auto; lia|].
      replace c with (move d (-1) (move d 1 c)) by (rewrite move_move; change (1 + -1) with 0; apply move_0).
      apply Hst; auto; lia. }
  assert (Hws : forall d, 0 <= d < dims -> ws d = 1%R).
  { intros d Hdd. destruct (S1 d Hdd) as (_ & Q & P). cbv zeta in Q, P.
    assert (Hi : interior dims 1 nx ny nz (1, if 1 <? dims then 1 else 0, if 2 <? dims then 1 else 0)).
    { unfold interior, interior1. destruct (1 <? dims), (2 <? dims); lia. }
    specialize (Q _ (or_introl Hi)). rewrite (Hface d _ Hdd (or_introl Hi)), calm_speed in Q.
    destruct P as [P|(c & Hcc & P)]; [lra|]. now rewrite P, (Hface d c Hdd Hcc), calm_speed. }
  assert (Edt : dt = (/ IZR dims)%R).
  { rewrite D1. unfold compute_timestep, wave_total, unit_prm. cbn [p_wadj p_len p_cfl fold_left]. change (zrange 0 3) with [0; 1; 2].
    cbn [fold_left]. destruct (Req_EM_T 1 0); [lra|].
    assert (Ht : (0 + ws 0%Z / 1 + ws 1%Z / 1 + ws 2%Z / 1 = IZR dims)%R).
    { assert (dims = 1 \/ dims = 2 \/ dims = 3) as [->|[->| ->]] by lia.
      - rewrite (Hws 0), (Z1 1), (Z1 2) by lia. lra.
      - rewrite (Hws 0), (Hws 1), (Z1 2) by lia. lra.
      - rewrite (Hws 0), (Hws 1), (Hws 2) by lia. lra. }
    rewrite Ht. unfold Rdiv. ring. }
  assert (Sol : forall c, interior dims 1 nx ny nz c -> solution st1 c = calm n).
  { intros c Hin. rewrite W1 by exact Hin. cbn [textbook]. unfold euler, fplus, fmul. 
    assert (Ez : semidiscrete b dims 1 nx ny nz fx rc (solution st0) c = vzero).
    { unfold semidiscrete, rhs.
      assert (Hz0 : forall l, (forall d, In d l -> 0 <= d < dims) ->
        fold_left (fun a d => vadd a (vadd (fst (iface fx rc d (filled b dims 1 nx ny nz (solution st0)) (move d (-1) c)))
          (vscal (-1) (fst (iface fx rc d (filled b dims 1 nx ny nz (solution st0)) c))))) l (@vzero (euler_cvars n)) = vzero).
      { induction l as [|d l IH]; intros Hl; cbn [fold_left]; [reflexivity|].
        rewrite !Hface; try (apply Hl; now left); [|now left|right; rewrite move_move; change (-1 + 1) with 0; now rewrite move_0].
        rewrite euler_cancel, euler_zero_r. apply IH. intros; apply Hl; now right. }
      apply Hz0. intros d. apply zrange_In. }
    rewrite Ez, euler_scal_zero, euler_zero_r. rewrite W0 by exact Hin. now apply Hu. }
  assert (Fr : exists u1 l1, s_vols st1 = u1 :: l1 /\ ob u1 = true).
  { destruct R1 as (X1 & L1 & X3 & _). unfold solution in X3, Sol. destruct (s_vols st1) as [|u1 l1]; [discriminate|].
    exists u1, l1. split; [reflexivity|]. apply Hob; [now inversion X1|]. intros c Hin. cbn [hd] in *.
    rewrite X3 by exact Hin. rewrite Sol; [exact Hok|]. now apply (im_interior b dims 1 fx rc nx ny nz Hc H1 H2 H3 H4 H5 H6). }
  destruct Fr as (u1 & l1 & Ev & Eo).
  exists st1. split; [|split; [rewrite T1, T0, Edt; ring|exact Sol]].
  unfold run. cbn [fold_res]. unfold perform_step, checked_step. rewrite E1. cbn [bind]. rewrite Ev. cbn [vat nth_error bind].
  now rewrite Eo.
Qed.
End Calm.
