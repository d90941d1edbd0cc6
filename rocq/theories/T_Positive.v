(** C86: the first order HLL scheme keeps density and pressure positive. *)
From Coq Require Import ZArith Reals List Bool Lia Lra.
From Verif Require Import M_Base M_Vec M_Boundary M_Flux M_Sim M_Storage M_Parallel S_Boundary S_Flux S_Sum S_Sim S_Parallel S_Symmetry S_Euler
  S_Monotone S_Positive L_Base L_Loops L_Boundary L_Flux L_System L_FluxTop L_Sim L_SimTop L_Storage L_Related L_Forced L_Euler L_Positive T_ParallelCheck M_Euler.
Import ListNotations.
Open Scope Z_scope.

Section Run.
Variables (n : nat) (gamma : R) (b : bckind) (dims g nx ny nz : Z) (ob : vol (euler_cvars n) -> bool) (ok : euler_cvars n -> bool).
Variable prm : params.
Notation fx := (euler_numflux n gamma HLL).
Notation rc := (@no_reconstruction (euler_cvars n)).
Notation adm := (admissible n gamma).
Notation alladm := (all_admissible n gamma dims g nx ny nz).
Hypothesis Hgam : (1 < gamma)%R.
Hypothesis Hd : 1 <= dims <= 3.
Hypothesis Hgh : 1 <= g.
Hypothesis Hfit : fits_grid dims g nx ny nz.
Hypothesis Hok : forall u, adm u -> ok u = true.
Hypothesis Hob : checks_all dims g nx ny nz ok ob.
Hypothesis Hlen : longest_in_x dims (p_len prm).
Hypothesis Hw : Forall not_lowering (p_wadj prm).
Hypothesis Hcfl : (0 <= p_cfl prm < 1)%R.

Lemma fold_growing l x : Forall not_lowering l -> (x <= fold_left (fun w f => f w) l x)%R.
Proof.
  intros H. revert x. induction H as [|f l Hf _ IH]; intros x; cbn [fold_left]; [lra|].
  eapply Rle_trans; [apply Hf|apply IH].
Qed.
Lemma fold_short l x : Forall shortening l -> (0 <= x -> 0 <= fold_left (fun w f => f w) l x <= x)%R.
Proof.
  intros H. revert x. induction H as [|f l Hf _ IH]; intros x Hx; cbn [fold_left]; [lra|].
  specialize (Hf x Hx). specialize (IH (f x) ltac:(lra)). lra.
Qed.

Definition total (ws : Z -> R) : R := fold_left (fun a d => a + ws d)%R (zrange 0 dims) 0%R.
Lemma fits_dt ws adj : (forall d, 0 <= d < 3 -> (0 <= ws d)%R) -> (forall d, dims <= d -> ws d = 0%R) -> (0 < ws 0%Z)%R -> Forall shortening adj ->
  let k := (compute_timestep (p_wadj prm) adj ws (p_len prm) (p_cfl prm) / p_len prm 0)%R in
  (0 <= k /\ k * total ws < 1)%R.
Proof.
  intros H0 Hz Hp Ha. destruct Hlen as [L1 L2]. destruct (L1 0 ltac:(lia)) as [l0 _].
  set (T := wave_total (p_wadj prm) ws (p_len prm)).
  assert (HT : (total ws <= p_len prm 0 * T)%R).
  { assert (Term : forall d acc, 0 <= d < 3 ->
      (acc + (if d <? dims then ws d / p_len prm 0 else 0) <=
       if Req_EM_T (p_len prm d) 0 then acc else acc + fold_left (fun w f => f w) (p_wadj prm) (ws d) / p_len prm d)%R).
    { intros d acc H3. pose proof (fold_growing (p_wadj prm) (ws d) Hw) as G. specialize (H0 d H3).
      destruct (Z.ltb_spec d dims) as [A|A].
      - destruct (L1 d ltac:(lia)) as [P Q]. destruct (Req_EM_T (p_len prm d) 0); [lra|].
        apply Rplus_le_compat_l. unfold Rdiv. apply Rmult_le_compat; [exact H0| |exact G|].
        + apply Rlt_le, Rinv_0_lt_compat; lra.
        + apply Rinv_le_contravar; lra.
      - destruct (Req_EM_T (p_len prm d) 0) as [Q|Q]; [lra|]. specialize (L2 d ltac:(lia)).
        apply Rplus_le_compat_l. apply Rmult_le_pos; [lra|]. apply Rlt_le, Rinv_0_lt_compat. lra. }
    assert (Q : (total ws / p_len prm 0 <= T)%R).
    { unfold T, wave_total. change (zrange 0 3) with [0; 1; 2]. cbn [fold_left].
      pose proof (Term 0 0%R ltac:(lia)) as T0.
      match type of T0 with (_ <= ?x)%R => set (x0 := x) in * end.
      pose proof (Term 1 x0 ltac:(lia)) as T1.
      match type of T1 with (_ <= ?x)%R => set (x1 := x) in * end.
      pose proof (Term 2 x1 ltac:(lia)) as T2.
      match type of T2 with (_ <= ?x)%R => set (x2 := x) in * end. clearbody x0 x1 x2.
      assert (dims = 1 \/ dims = 2 \/ dims = 3) as [E|[E|E]] by lia; unfold total; rewrite E in *.
      - change (zrange 0 1) with [0]. cbn [fold_left]. change (0 <? 1) with true in T0. change (1 <? 1) with false in T1.
        change (2 <? 1) with false in T2. unfold Rdiv in *. cbv beta iota in *. lra.
      - change (zrange 0 2) with [0; 1]. cbn [fold_left]. change (0 <? 2) with true in T0. change (1 <? 2) with true in T1.
        change (2 <? 2) with false in T2. unfold Rdiv in *. cbv beta iota in *. lra.
      - change (zrange 0 3) with [0; 1; 2]. cbn [fold_left]. change (0 <? 3) with true in T0. change (1 <? 3) with true in T1.
        change (2 <? 3) with true in T2. unfold Rdiv in *. cbv beta iota in *. lra. }
    apply (Rmult_le_compat_l (p_len prm 0)) in Q; [|lra]. replace (p_len prm 0 * (total ws / p_len prm 0))%R with (total ws) in Q by (field; lra).
    exact Q. }
  assert (H1 : (0 < total ws)%R).
  { assert (N1 := H0 1 ltac:(lia)). assert (N2 := H0 2 ltac:(lia)).
    assert (dims = 1 \/ dims = 2 \/ dims = 3) as [E|[E|E]] by lia; unfold total; rewrite E.
    - change (zrange 0 1) with [0]. cbn [fold_left]. lra.
    - change (zrange 0 2) with [0; 1]. cbn [fold_left]. lra.
    - change (zrange 0 3) with [0; 1; 2]. cbn [fold_left]. lra. }
  assert (TP : (0 < T)%R).
  { apply (Rmult_lt_reg_l (p_len prm 0)); [exact l0|]. lra. }
  assert (D0 : (0 <= p_cfl prm / T)%R) by (apply Rmult_le_pos; [lra|apply Rlt_le, Rinv_0_lt_compat, TP]).
  pose proof (fold_short adj _ Ha D0) as [D1 D2].
  unfold compute_timestep. fold T. cbv zeta.
  set (dt := fold_left (fun dt f => f dt) adj (p_cfl prm / T)%R) in *.
  assert (I0 : (0 < / p_len prm 0)%R) by (apply Rinv_0_lt_compat; exact l0).
  split; [apply Rmult_le_pos; lra|].
  apply Rle_lt_trans with (p_cfl prm); [|lra].
  apply Rle_trans with (dt / p_len prm 0 * (p_len prm 0 * T))%R.
  - apply Rmult_le_compat_l; [apply Rmult_le_pos; lra|exact HT].
  - replace (dt / p_len prm 0 * (p_len prm 0 * T))%R with (dt * T)%R by (field; lra).
    apply (Rmult_le_compat_r T) in D2; [|lra]. replace (p_cfl prm / T * T)%R with (p_cfl prm) in D2 by (field; lra). exact D2.
Qed.

Lemma positive_step st adj : ready ForwardEuler b dims g nx ny nz st -> alladm (solution st) -> (forall t, Forall shortening (adj t)) ->
  exists st', perform_step ForwardEuler (flux_system dims g fx rc Ok) (apply_boundary (bc_apply b) dims g (fun _ => false)) prm adj ob st = Ok st' /\
    ready ForwardEuler b dims g nx ny nz st' /\ alladm (solution st') /\ s_steps st' = S (s_steps st).
Proof.
  destruct Hfit as (H1 & H2 & H3 & H4 & H5 & H6 & H7). intros R0 A0 Hadj.
  assert (Hc : compatible fx rc g) by (split; [cbn; lia|exact I]).
  destruct (step_speeds ForwardEuler b dims g fx rc nx ny nz Hd Hc H1 H2 H3 H4 H5 H6 H7 prm adj st R0)
    as (st1 & dt & ws & E1 & R1 & [S1 Z1] & D1 & T1 & N1 & W1).
  set (v := filled b dims g nx ny nz (solution st)) in *.
  assert (F0 : forall c, in_volume dims g nx ny nz c -> adm (v c)).
  { intros c Hin. apply A0. now apply (im_interior b dims g fx rc nx ny nz Hc H1 H2 H3 H4 H5 H6). }
  assert (Hst : forall c d s, interior dims g nx ny nz c -> 0 <= d < dims -> -1 <= s <= 1 -> in_volume dims g nx ny nz (move d s c)).
  { intros. apply (stencil_in_volume dims g fx rc nx ny nz Hd Hc); auto; lia. }
  assert (Hv0 : forall c, interior dims g nx ny nz c -> v c = solution st c).
  { intros c Hin. unfold v, filled. f_equal. now apply (im_id b dims g nx ny nz). }
  assert (Hi0 : interior dims g nx ny nz (g, if 1 <? dims then g else 0, if 2 <? dims then g else 0)).
  { unfold interior, interior1. destruct (1 <? dims), (2 <? dims); lia. }
  assert (Hface : forall d c, iface fx rc d v c = hll n gamma d (v c) (v (move d 1 c))) by (intros; apply iface_two).
  assert (Hback : forall d c, move d 1 (move d (-1) c) = c) by (intros; rewrite move_move; change (-1 + 1) with 0; apply move_0).
  assert (Wp : forall d c, 0 <= d < dims -> interior dims g nx ny nz c ->
     (snd (hll n gamma d (v (move d (-1) c)) (v c)) <= ws d /\ snd (hll n gamma d (v c) (v (move d 1 c))) <= ws d)%R).
  { intros d c Hdd Hin. destruct (S1 d Hdd) as (_ & Q & _). cbv zeta in Q. split.
    - specialize (Q (move d (-1) c)). rewrite Hface, Hback in Q. apply Q. now right.
    - specialize (Q c). rewrite Hface in Q. apply Q. now left. }
  assert (Wpos : forall d, 0 <= d < dims -> (0 < ws d)%R).
  { intros d Hdd. destruct (Wp d _ Hdd Hi0) as [Q1 Q2]. set (c0 := (g, if 1 <? dims then g else 0, if 2 <? dims then g else 0)) in *.
    assert (Ac : adm (v c0)) by (rewrite Hv0 by exact Hi0; now apply A0).
    pose proof (sound_pos n gamma (v c0) ltac:(lra) Ac) as Hc0.
    assert (X1 : (vnth n (Z.to_nat d) (extra_u (v c0)) + sound gamma (v c0) <= ws d)%R).
    { eapply Rle_trans; [|exact Q1]. unfold hll. cbn [snd]. eapply Rle_trans; [|apply Rmax_r]. eapply Rle_trans; [|apply Rle_abs]. apply Rmax_l. }
    assert (X2 : (- vnth n (Z.to_nat d) (extra_u (v c0)) + sound gamma (v c0) <= ws d)%R).
    { eapply Rle_trans; [|exact Q2]. unfold hll. cbn [snd]. eapply Rle_trans; [|apply Rmax_l]. rewrite <- Rabs_Ropp. eapply Rle_trans; [|apply Rle_abs].
      assert (X : (hll_left n gamma (Z.to_nat d) (v c0) (v (move d 1 c0)) <= vnth n (Z.to_nat d) (extra_u (v c0)) - sound gamma (v c0))%R) by apply Rmin_l. lra. }
    lra. }
  destruct (fits_dt ws (adj (s_time st))) as [K0 K1]; [|exact Z1|apply Wpos; lia|apply Hadj|].
  { intros d Hdd. destruct (Z_lt_le_dec d dims) as [L|L]; [apply Rlt_le, Wpos; lia|rewrite Z1 by lia; lra]. }
  rewrite <- D1 in K0, K1.
  set (k := (dt / p_len prm 0)%R) in *.
  assert (Sol : alladm (solution st1)).
  { intros c Hin. rewrite W1 by exact Hin. cbn [textbook]. unfold euler, fplus, fmul, semidiscrete, rhs. fold v.
    rewrite <- (Hv0 c Hin). assert (Ac : adm (v c)) by (rewrite Hv0 by exact Hin; now apply A0).
    assert (Main : forall l (t : R) (a : euler_cvars n), (forall d, In d l -> 0 <= d < dims) ->
       wadm n gamma (vadd (vscal t (v c)) a) ->
       wadm n gamma (vadd (vscal (fold_left (fun a d => a + ws d)%R l t) (v c))
         (fold_left (fun a d => vadd a (vadd (fst (iface fx rc d v (move d (-1) c))) (vscal (-1) (fst (iface fx rc d v c))))) l a))).
    { induction l as [|d l IH]; intros t a Hl Ha; cbn [fold_left]; [exact Ha|]. apply IH; [intros; apply Hl; now right|].
      assert (Hdd : 0 <= d < dims) by (apply Hl; now left). rewrite !Hface, Hback. destruct (Wp d c Hdd Hin) as [Q1 Q2].
      assert (Y : wadm n gamma (vadd (vscal (ws d) (v c)) (vadd (fst (hll n gamma d (v (move d (-1) c)) (v c))) (vscal (-1) (fst (hll n gamma d (v c) (v (move d 1 c)))))))).
      { apply hll_direction; auto; apply F0; apply Hst; auto; lia. }
      replace (vadd (vscal (t + ws d) (v c)) (vadd a (vadd (fst (hll n gamma d (v (move d (-1) c)) (v c))) (vscal (-1) (fst (hll n gamma d (v c) (v (move d 1 c))))))))
        with (vadd (vadd (vscal t (v c)) a) (vadd (vscal (ws d) (v c)) (vadd (fst (hll n gamma d (v (move d (-1) c)) (v c))) (vscal (-1) (fst (hll n gamma d (v c) (v (move d 1 c)))))))).
      { now apply wadm_add. }
      apply comp_ext. intros i. rewrite !comp_add, !comp_scal. ring. }
    specialize (Main (zrange 0 dims) 0%R vzero).
    assert (Y : wadm n gamma (vadd (vscal (total ws) (v c))
         (fold_left (fun a d => vadd a (vadd (fst (iface fx rc d v (move d (-1) c))) (vscal (-1) (fst (iface fx rc d v c))))) (zrange 0 dims) vzero))).
    { apply Main; [intros d; apply zrange_In|]. left. apply comp_ext. intros i. rewrite comp_add, comp_scal, comp_zero. ring. }
    set (L := fold_left _ (zrange 0 dims) vzero) in *. clearbody L.
    replace (vadd (v c) (vscal k L)) with (vadd (vscal (1 - k * total ws) (v c)) (vscal k (vadd (vscal (total ws) (v c)) L))).
    - apply adm_wadm; [exact Hgam|apply adm_scal; [lra|exact Ac]|apply wadm_scal; auto].
    - apply comp_ext. intros i. rewrite !comp_add, !comp_scal, comp_add, comp_scal. ring. }
  assert (Fr : exists u1 l1, s_vols st1 = u1 :: l1 /\ ob u1 = true).
  { destruct R1 as (X1 & L1 & X3 & _). unfold solution in X3, Sol. destruct (s_vols st1) as [|u1 l1]; [discriminate|].
    exists u1, l1. split; [reflexivity|]. apply Hob; [now inversion X1|]. intros c Hin.
    rewrite X3 by exact Hin. apply Hok, Sol. now apply (im_interior b dims g fx rc nx ny nz Hc H1 H2 H3 H4 H5 H6). }
  destruct Fr as (u1 & l1 & Ev & Eo).
  exists st1. split; [|split; [exact R1|split; [exact Sol|exact N1]]].
  unfold perform_step, checked_step. rewrite E1. cbn [bind]. rewrite Ev. cbn [vat nth_error bind].
  now rewrite Eo.
Qed.

Lemma positive_run adjs : (forall adj t, In adj adjs -> Forall shortening (adj t)) ->
  forall st, ready ForwardEuler b dims g nx ny nz st -> alladm (solution st) ->
  exists st', run ForwardEuler (flux_system dims g fx rc Ok) (apply_boundary (bc_apply b) dims g (fun _ => false)) prm ob adjs st = Ok st' /\
    alladm (solution st') /\ (s_steps st' = length adjs + s_steps st)%nat.
Proof.
  unfold run. induction adjs as [|adj adjs IH]; intros Ha st R0 A0; cbn [fold_res]; [exists st; auto|].
  destruct (positive_step st adj R0 A0) as (st1 & E1 & R1 & A1 & N1); [intros t; apply Ha; now left|].
  rewrite E1. cbn [bind]. destruct (IH (fun a t H => Ha a t (or_intror H)) st1 R1 A1) as (st2 & E2 & A2 & N2).
  exists st2. split; [exact E2|]. split; [exact A2|]. rewrite N2, N1. cbn [length]. lia.
Qed.
End Run.

Lemma start_steps {V : cvars} {W : Type} bc (vols : list (vol V)) (sc : W) st : start bc vols sc = Ok st -> s_steps st = 0%nat.
Proof.
  unfold start. destruct (vat vols 0) as [u| |]; cbn [bind]; try discriminate. destruct (bc u) as [u'| |]; cbn [bind]; try discriminate.
  intros H. now injection H as <-.
Qed.

(** C86: forward Euler, the HLL flux and no reconstruction, on cells that are nowhere
    longer than in x: for every Courant number below one (the automatic one is 0.9) a run
    from admissible data is never refused, and the solution has positive density and
    pressure after every step.  The other volumes may hold anything at the start. *)
Theorem C86_hll_positive_partial : forall n gamma b dims g nx ny nz prm ok ob u0 rest sc adjs,
  (1 < gamma)%R -> 1 <= dims <= 3 -> (Z.to_nat dims <= n)%nat -> 1 <= g -> fits_grid dims g nx ny nz ->
  volumes ForwardEuler dims g nx ny nz u0 rest sc ->
  (forall u, ok u = true <-> admissible n gamma u) -> checks_all dims g nx ny nz ok ob ->
  longest_in_x dims (p_len prm) -> Forall not_lowering (p_wadj prm) -> (0 <= p_cfl prm < 1)%R ->
  (forall adj t, In adj adjs -> Forall shortening (adj t)) ->
  all_admissible n gamma dims g nx ny nz (vget u0) ->
  exists st, serial_run ForwardEuler b dims g (euler_numflux n gamma HLL) no_reconstruction prm ob (u0 :: rest) sc adjs = Ok st /\
    all_admissible n gamma dims g nx ny nz (solution st) /\ s_steps st = length adjs.
Proof.
  intros n gamma b dims g nx ny nz prm ok ob u0 rest sc adjs Hg Hd _ Hgh Hfit (V1 & V2 & V3) Hok Hob Hlen Hw Hc Ha A0.
  assert (Hcomp : compatible (euler_numflux n gamma HLL) (@no_reconstruction (euler_cvars n)) g) by (split; [cbn; lia|exact I]).
  pose proof Hfit as (H1 & H2 & H3 & H4 & H5 & H6 & H7).
  destruct (start_ready ForwardEuler b dims g (euler_numflux n gamma HLL) no_reconstruction nx ny nz Hd Hcomp H1 H2 H3 H4 H5 H6 (u0 :: rest) sc V1)
    as (st0 & E0 & R0 & T0 & W0); [cbn [length]; now rewrite V2|exact V3|].
  unfold serial_run. rewrite E0. cbn [bind].
  destruct (positive_run n gamma b dims g nx ny nz ob ok prm Hg Hd Hgh Hfit (fun u => proj2 (Hok u)) Hob Hlen Hw Hc adjs Ha st0 R0)
    as (st & E & A & N).
  - intros c Hin. rewrite W0 by exact Hin. now apply A0.
  - exists st. split; [exact E|]. split; [exact A|]. rewrite N, (start_steps _ _ _ _ E0). lia.
Qed.

(** *** Cells longer in y than in x *)
Definition jet (rho : R) : euler_cvars 2 := mkcons (n := 2) rho (0, (10 * rho, tt))%R (1 / 2 * rho + 50 * rho)%R.
Lemma jet_p rho : (0 < rho)%R -> extra_p 2 (jet rho) = (rho / 2)%R.
Proof. intros H. unfold extra_p, jet. cbn. field. lra. Qed.
Lemma jet_adm rho : (0 < rho)%R -> admissible 2 2 (jet rho).
Proof. intros H. split; [exact H|]. change (0 < extra_p 2 (jet rho))%R. rewrite jet_p by exact H. lra. Qed.
Lemma jet_u0 rho : (0 < rho)%R -> vnth 2 0 (extra_u (jet rho)) = 0%R.
Proof. intros H. unfold extra_u, jet. cbn. field. lra. Qed.
Lemma jet_u1 rho : (0 < rho)%R -> vnth 2 1 (extra_u (jet rho)) = 10%R.
Proof. intros H. unfold extra_u, jet. cbn. field. lra. Qed.
Lemma jet_c rho : (0 < rho)%R -> sqrt (2 * extra_p 2 (jet rho) / rho_ (jet rho)) = 1%R.
Proof.
  intros H. rewrite jet_p by exact H. change (rho_ (jet rho)) with rho. replace (2 * (rho / 2) / rho)%R with 1%R by (field; lra). apply sqrt_1.
Qed.
Lemma jet_roe_u d r s v : (0 < r)%R -> (0 < s)%R -> vnth 2 d (extra_u (jet r)) = v -> vnth 2 d (extra_u (jet s)) = v ->
  vnth 2 d (roe_u 2 (jet r) (jet s)) = v.
Proof.
  intros Hr Hs Er Es. unfold roe_u. rewrite vnth_scal, vnth_add, !vnth_scal, Er, Es.
  pose proof (sqrt_lt_R0 (rho_ (jet r)) Hr). pose proof (sqrt_lt_R0 (rho_ (jet s)) Hs). field. lra.
Qed.
Lemma jet_roe_c r s : (1 <= r <= 4)%R -> (1 <= s <= 4)%R -> (0 <= roe_cs 2 2 (jet r) (jet s) <= 2)%R.
Proof.
  intros Hr Hs. split; [apply sqrt_pos|]. unfold roe_cs. apply Rle_trans with (sqrt (2 * 2)); [|rewrite sqrt_square; lra]. apply sqrt_le_1_alt.
  assert (P : (roe_p 2 2 (jet r) (jet s) <= 2)%R).
  { unfold roe_p. rewrite !jet_p by lra. change (rho_ (jet r)) with r. change (rho_ (jet s)) with s.
    pose proof (sqrt_lt_R0 r ltac:(lra)). pose proof (sqrt_lt_R0 s ltac:(lra)).
    apply (Rmult_le_reg_r (sqrt r + sqrt s)); [lra|]. unfold Rdiv at 1. rewrite Rmult_assoc, Rinv_l by lra. nra. }
  change (rho_ (jet r)) with r. change (rho_ (jet s)) with s.
  apply (Rmult_le_reg_r ((r + s) / 2)); [lra|]. unfold Rdiv at 1. rewrite Rmult_assoc, Rinv_l by lra. nra.
Qed.
Lemma jet_roe_cc r : (0 < r)%R -> roe_cs 2 2 (jet r) (jet r) = 1%R.
Proof.
  intros H. rewrite roe_cs_same by (now apply jet_adm). apply jet_c; exact H.
Qed.

Lemma jet_same r : (0 < r)%R -> snd (hll 2 2 0 (jet r) (jet r)) = 1%R.
Proof.
  intros H. unfold hll, hll_left, hll_right. change (Z.to_nat 0) with 0%nat. cbv zeta. cbn [snd].
  rewrite (jet_roe_u 0 r r 0), jet_u0, jet_c, jet_roe_cc by (assumption || now apply jet_u0).
  rewrite (Rmin_left (0 - 1) (0 - 1)), (Rmax_left (0 + 1) (0 + 1)) by lra. replace (0 - 1)%R with (-1)%R by ring. replace (0 + 1)%R with 1%R by ring.
  rewrite (Rabs_left (-1)), (Rabs_pos_eq 1) by lra. rewrite Rmax_left; lra.
Qed.
Lemma jet_up r s : (1 <= r <= 4)%R -> (1 <= s <= 4)%R ->
  fst (hll 2 2 1 (jet r) (jet s)) = euler_flux 2 2 1 (jet r) /\ (snd (hll 2 2 1 (jet r) (jet s)) <= 12)%R.
Proof.
  intros Hr Hs. pose proof (jet_roe_c r s Hr Hs) as C. unfold hll. change (Z.to_nat 1) with 1%nat. cbv zeta.
  assert (L : (8 <= hll_left 2 2 1 (jet r) (jet s) <= 10)%R).
  { unfold hll_left. rewrite jet_u1, jet_c, (jet_roe_u 1 r s 10) by (lra || (apply jet_u1; lra)). split.
    - apply Rmin_glb; lra.
    - eapply Rle_trans; [apply Rmin_l|lra]. }
  assert (Q : (10 <= hll_right 2 2 1 (jet r) (jet s) <= 12)%R).
  { unfold hll_right. rewrite jet_u1, jet_c, (jet_roe_u 1 r s 10) by (lra || (apply jet_u1; lra)). split.
    - eapply Rle_trans; [|apply Rmax_l]; lra.
    - apply Rmax_lub; lra. }
  cbn [fst snd]. destruct (Req_EM_T (hll_left 2 2 1 (jet r) (jet s)) 0); [lra|].
  destruct (Rgt_dec (hll_left 2 2 1 (jet r) (jet s)) 0); [|lra]. split; [reflexivity|].
  rewrite !Rabs_pos_eq by lra. apply Rmax_lub; lra.
Qed.

Definition jet_at (c : cell) : euler_cvars 2 := let '(x, y, z) := c in jet (if Z.odd y then 1 else 4)%R.
Definition long_prm : params := mkparams (fun d => if d =? 0 then 1%R else if d =? 1 then 100%R else 0%R) (9 / 10) [].
Lemma jet_range y : (1 <= (if Z.odd y then 1 else 4) <= 4)%R.
Proof. destruct (Z.odd y); lra. Qed.
Lemma jet_image c : in_volume 2 1 1 2 1 c -> jet_at (image (bc_image Periodic) 2 1 1 2 1 c) = jet_at c.
Proof.
  destruct c as [[x y] z]. unfold in_volume, image, jet_at. change (1 <? 2) with true. change (2 <? 2) with false. cbv beta iota.
  intros (_ & Hy & _). assert (y = 0 \/ y = 1 \/ y = 2 \/ y = 3) as [->|[->|[->| ->]]] by lia; reflexivity.
Qed.

(** With cells a hundred times as long in y as in x, a gas that flows in y is refused in
    the first step: all differences are divided by the length in x (compare C10, C35). *)
Lemma long_run (ok : euler_cvars 2 -> bool) ob u0 rest sc : (forall u, ok u = true -> admissible 2 2 u) -> checks_all 2 1 1 2 1 ok ob ->
  volumes ForwardEuler 2 1 1 2 1 u0 rest sc -> (forall c, interior 2 1 1 2 1 c -> vget u0 c = jet_at c) ->
  serial_run ForwardEuler Periodic 2 1 (euler_numflux 2 2 HLL) no_reconstruction long_prm ob (u0 :: rest) sc [fun _ => []] = Throw.
Proof.
  intros Hok Hob (V1 & V2 & V3) Hu.
  set (fx := euler_numflux 2 2 HLL). set (rc := @no_reconstruction (euler_cvars 2)).
  assert (Hd : 1 <= 2 <= 3) by lia.
  assert (Hc : compatible fx rc 1) by (split; [cbn; lia|exact I]).
  assert (Hfit : fits_grid 2 1 1 2 1) by (unfold fits_grid; repeat split; try lia; reflexivity).
  destruct Hfit as (H1 & H2 & H3 & H4 & H5 & H6 & H7).
  destruct (start_ready ForwardEuler Periodic 2 1 fx rc 1 2 1 Hd Hc H1 H2 H3 H4 H5 H6 (u0 :: rest) sc V1) as (st0 & E0 & R0 & T0 & W0);
    [cbn [length]; now rewrite V2|exact V3|].
  unfold serial_run. rewrite E0. cbn [bind].
  destruct (step_speeds ForwardEuler Periodic 2 1 fx rc 1 2 1 Hd Hc H1 H2 H3 H4 H5 H6 H7 long_prm (fun _ => []) st0 R0)
    as (st1 & dt & ws & E1 & R1 & [S1 Z1] & D1 & T1 & N1 & W1).
  cbn [hd] in W0. set (v := filled Periodic 2 1 1 2 1 (solution st0)) in *.
  assert (F0 : forall c, in_volume 2 1 1 2 1 c -> v c = jet_at c).
  { intros c Hin. unfold v, filled. pose proof (im_interior Periodic 2 1 fx rc 1 2 1 Hc H1 H2 H3 H4 H5 H6 c Hin) as Hi.
    rewrite W0, Hu by exact Hi. now apply jet_image. }
  assert (Hst : forall c d s, interior 2 1 1 2 1 c -> 0 <= d < 2 -> -1 <= s <= 1 -> in_volume 2 1 1 2 1 (move d s c))
    by (intros; now apply (stencil_in_volume 2 1 fx rc 1 2 1 Hd Hc)).
  assert (Hface : forall d c, 0 <= d < 2 -> interior 2 1 1 2 1 c \/ interior 2 1 1 2 1 (move d 1 c) ->
     iface fx rc d v c = hll 2 2 d (jet_at c) (jet_at (move d 1 c))).
  { intros d c Hdd Hi. unfold fx, rc, euler_numflux. cbv beta iota. rewrite iface_two.
    rewrite !F0; [reflexivity| |].
    - destruct Hi as [Hi|Hi]; [apply Hst; auto; lia|]. rewrite <- (move_0 d (move d 1 c)). apply Hst; auto; lia.
    - destruct Hi as [Hi|Hi]; [rewrite <- (move_0 d c); apply Hst; auto; lia|].
      replace c with (move d (-1) (move d 1 c)) by (rewrite move_move; change (1 + -1) with 0; apply move_0).
      apply Hst; auto; lia. }
  assert (Hx : forall c, jet_at (move 0 1 c) = jet_at c) by (intros [[x y] z]; reflexivity).
  assert (Hi : interior 2 1 1 2 1 (1, 2, 0)).
  { unfold interior, interior1. change (1 <? 2) with true. change (2 <? 2) with false. cbv beta iota. lia. }
  assert (W0x : ws 0 = 1%R).
  { destruct (S1 0 ltac:(lia)) as (_ & Q & P). cbv zeta in Q, P. specialize (Q _ (or_introl Hi)).
    rewrite Hface, Hx in Q by (lia || now left). change (jet_at (1, 2, 0)) with (jet 4) in Q. rewrite jet_same in Q by lra.
    destruct P as [P|([[x y] z] & Hcc & P)]; [lra|]. rewrite P, Hface, Hx by (lia || exact Hcc). apply jet_same. pose proof (jet_range y). lra. }
  assert (W1y : (0 <= ws 1%Z <= 12)%R).
  { destruct (S1 1 ltac:(lia)) as (N & _ & P). cbv zeta in P. split; [exact N|].
    destruct P as [P|([[x y] z] & Hcc & P)]; [lra|]. rewrite P, Hface by (lia || exact Hcc). apply jet_up; apply jet_range. }
  assert (Hdt : (8 / 10 <= dt)%R).
  { rewrite D1. unfold compute_timestep, wave_total, long_prm. cbn [p_wadj p_len p_cfl fold_left]. change (zrange 0 3) with [0; 1; 2].
    cbn [fold_left]. change (0 =? 0) with true. change (1 =? 0) with false. change (1 =? 1) with true. change (2 =? 0) with false.
    change (2 =? 1) with false. cbv beta iota. destruct (Req_EM_T 1 0); [lra|]. destruct (Req_EM_T 100 0); [lra|]. destruct (Req_EM_T 0 0); [|lra].
    rewrite W0x. apply (Rmult_le_reg_r (0 + 1 / 1 + ws 1%Z / 100)); [lra|]. 
    replace (9 / 10 / (0 + 1 / 1 + ws 1%Z / 100) * (0 + 1 / 1 + ws 1%Z / 100))%R with (9 / 10)%R by (field; lra). lra. }
  assert (Neg : (rho_ (solution st1 (1, 2, 0)%Z) < 0)%R).
  { rewrite W1 by exact Hi. cbn [textbook]. unfold euler, fplus, fmul, semidiscrete, rhs. fold v.
    change (zrange 0 2) with [0; 1]. cbn [fold_left].
    rewrite !Hface by (lia || (now left) || (right; rewrite move_move; change (-1 + 1) with 0; now rewrite move_0)).
    rewrite !move_move. change (-1 + 1) with 0. rewrite !move_0. rewrite W0, Hu by exact Hi.
    change (jet_at (1, 2, 0)) with (jet 4). change (jet_at (move 0 (-1) (1, 2, 0))) with (jet 4). change (jet_at (move 0 1 (1, 2, 0))) with (jet 4).
    change (jet_at (move 1 (-1) (1, 2, 0))) with (jet 1). change (jet_at (move 1 1 (1, 2, 0))) with (jet 1).
    rewrite (proj1 (jet_up 1 4 ltac:(lra) ltac:(lra))), (proj1 (jet_up 4 1 ltac:(lra) ltac:(lra))).
    set (h := fst (hll 2 2 0 (jet 4) (jet 4))). clearbody h. destruct h as [h0 h1]. change (p_len long_prm 0) with 1%R. clear -Hdt.
    match goal with |- (?x < 0)%R => change x with (4 + dt / 1 * (0 + (h0 + -1 * h0) + (10 * 1 + -1 * (10 * 4))))%R end.
    unfold Rdiv. rewrite Rinv_1. lra. }
  assert (Fr : exists u1 l1, s_vols st1 = u1 :: l1 /\ ob u1 = false).
  { destruct R1 as (X1 & L1 & X3 & _). unfold solution in Neg. destruct (s_vols st1) as [|u1 l1]; [discriminate|].
    exists u1, l1. split; [reflexivity|]. destruct (ob u1) eqn:Eo; [exfalso|reflexivity].
    assert (Ex : ext 2 1 1 2 1 u1) by now inversion X1.
    pose proof (proj1 (Hob u1 Ex) Eo (1, 2, 0)) as Q. specialize (Q ltac:(now apply (Hst (1, 2, 0) 0 0); [|lia|lia])).
    apply Hok in Q. destruct Q as [Q _]. lra. }
  destruct Fr as (u1 & l1 & Ev & Eo).
  unfold run. cbn [fold_res]. unfold perform_step, checked_step. rewrite E1. cbn [bind]. rewrite Ev. cbn [vat nth_error bind].
  now rewrite Eo.
Qed.

(** The volume of 3 x 4 x 1 cells with alternating rows. *)
Definition jets : vol (euler_cvars 2) := mkvol (A := euler_cvars 2) 3 4 1 (fun i => jet (if Z.odd (i / 3) then 1 else 4)%R).
Lemma jets_at c : in_volume 2 1 1 2 1 c -> vget jets c = jet_at c.
Proof.
  destruct c as [[x y] z]. unfold in_volume. change (1 <? 2) with true. change (2 <? 2) with false. cbv beta iota. intros (Hx & Hy & Hz).
  assert (Ez : z = 0) by lia. subst z. unfold vget, index, jet_at, jets. cbn [vdat vnx vny vnz].
  assert (E : (0 * 3 * 4 + y * 3 + x) / 3 = y) by (rewrite Z.add_comm, Z.add_0_l, Z.div_add, Z.div_small; lia).
  now rewrite E.
Qed.
Lemma jets_volumes : volumes ForwardEuler 2 1 1 2 1 jets [jets] (jets, jets, jets).
Proof. repeat split; repeat constructor. Qed.
Lemma jets_interior c : interior 2 1 1 2 1 c -> in_volume 2 1 1 2 1 c.
Proof.
  destruct c as [[x y] z]. unfold interior, interior1, in_volume. change (1 <? 2) with true. change (2 <? 2) with false. cbv beta iota. lia.
Qed.

Theorem C86_long_cells_refuted :
  exists prm u0 rest sc, fits_grid 2 1 1 2 1 /\ volumes ForwardEuler 2 1 1 2 1 u0 rest sc /\ (0 < p_cfl prm < 1)%R /\
    (forall d, 0 <= d < 2 -> (0 < p_len prm d)%R) /\ p_wadj prm = [] /\
    all_admissible 2 2 2 1 1 2 1 (vget u0) /\
    serial_run ForwardEuler Periodic 2 1 (euler_numflux 2 2 HLL) no_reconstruction prm (check_cells (gas_ok 2 2)) (u0 :: rest) sc
      [fun _ => []] = Throw.
Proof.
  exists long_prm, jets, [jets], (jets, jets, jets).
  split; [unfold fits_grid; repeat split; try lia; reflexivity|]. split; [exact jets_volumes|].
  split; [cbn; lra|]. split.
  { intros d Hd. assert (d = 0 \/ d = 1) as [->| ->] by lia; cbn; lra. }
  split; [reflexivity|]. split.
  { intros [[x y] z] Hc. rewrite jets_at by now apply jets_interior. apply jet_adm. pose proof (jet_range y). lra. }
  apply long_run with (ok := gas_ok 2 2); [intros u; apply gas_ok_iff|apply check_cells_all|exact jets_volumes|].
  intros c Hc. apply jets_at. now apply jets_interior.
Qed.

(** The same gas on square cells, with the automatic Courant number: any number of steps. *)
Definition square_prm : params := mkparams (fun d => if d <? 2 then 1%R else 0%R) (9 / 10) [].
Example C86_nonvacuous : forall k, exists st,
  serial_run ForwardEuler Periodic 2 1 (euler_numflux 2 2 HLL) no_reconstruction square_prm (check_cells (gas_ok 2 2)) [jets; jets]
    (jets, jets, jets) (repeat (fun _ => []) k) = Ok st /\
  all_admissible 2 2 2 1 1 2 1 (solution st) /\ s_steps st = k.
Proof.
  intros k. destruct (C86_hll_positive_partial 2 2 Periodic 2 1 1 2 1 square_prm (gas_ok 2 2) (check_cells (gas_ok 2 2)) jets [jets]
    (jets, jets, jets) (repeat (fun _ => []) k)) as (st & E & A & N).
  - lra.
  - lia.
  - cbn; lia.
  - lia.
  - unfold fits_grid; repeat split; try lia; reflexivity.
  - exact jets_volumes.
  - intros u. apply gas_ok_iff.
  - apply check_cells_all.
  - split.
    + intros d Hd. assert (d = 0 \/ d = 1) as [->| ->] by lia; cbn; lra.
    + intros d Hd. assert (d = 2) as -> by lia; cbn; lra.
  - constructor.
  - cbn; lra.
  - intros adj t H. apply repeat_spec in H. subst adj. constructor.
  - intros [[x y] z] Hc. rewrite jets_at by now apply jets_interior. apply jet_adm. pose proof (jet_range y). lra.
  - exists st. split; [exact E|]. split; [exact A|]. now rewrite N, repeat_length.
Qed.

Print Assumptions C86_hll_positive_partial.
Print Assumptions C86_long_cells_refuted.
