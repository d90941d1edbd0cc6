(** One forward Euler step: its length and its result. *)
From Coq Require Import ZArith Reals List Bool Lia Lra.
From Verif Require Import M_Base M_Vec M_Boundary M_Flux M_Sim S_Boundary S_Flux S_Sum S_Sim S_Symmetry L_Base L_Loops
  L_Boundary L_Flux L_System L_Sum L_Conserve L_FluxTop L_Sim L_SimTop L_SimProps L_Related.
Import ListNotations.
Open Scope Z_scope.

Lemma natural_step {V : cvars} b dims g (fx : numflux V) rc nx ny nz p u0 rest sc :
  1 <= dims <= 3 -> compatible fx rc g -> fits_grid dims g nx ny nz -> volumes ForwardEuler dims g nx ny nz u0 rest sc ->
  p_wadj p = [] -> (0 < p_cfl p)%R -> (forall d, 0 <= p_len p d)%R ->
  (exists d c, 0 <= d < dims /\ (0 < p_len p d)%R /\ interior dims g nx ny nz c /\
     (0 < snd (iface fx rc d (filled b dims g nx ny nz (vget u0)) c))%R) ->
  exists st, serial_run ForwardEuler b dims g fx rc p (fun _ => true) (u0 :: rest) sc [fun _ => []] = Ok st /\
    (0 < s_time st)%R /\
    forall c, interior dims g nx ny nz c ->
      solution st c = vadd (vget u0 c) (vscal (s_time st / p_len p 0) (semidiscrete b dims g nx ny nz fx rc (vget u0) c)).
Proof.
  intros Hd Hc (H1 & H2 & H3 & H4 & H5 & H6 & H7) (V1 & V2 & V3) Hw Hcfl Hlen (d0 & c0 & Hd0 & Hl0 & Hc0 & Hs0).
  destruct (start_ready ForwardEuler b dims g fx rc nx ny nz Hd Hc H1 H2 H3 H4 H5 H6 (u0 :: rest) sc V1) as (st0 & E0 & R0 & T0 & W0);
    [cbn [length]; now rewrite V2|exact V3|].
  unfold serial_run. rewrite E0. cbn [bind].
  destruct (step_speeds ForwardEuler b dims g fx rc nx ny nz Hd Hc H1 H2 H3 H4 H5 H6 H7 p (fun _ => []) st0 R0)
    as (st1 & dt & ws & E1 & R1 & [S1 Z1] & D1 & T1 & N1 & W1).
  unfold run. cbn [fold_res]. unfold perform_step, checked_step. rewrite E1. cbn [bind].
  destruct R1 as (_ & L1 & _).
  destruct (s_vols st1) as [|u1 l1] eqn:Ev; [discriminate|]. cbn [vat nth_error bind].
  cbn [hd] in W0.
  assert (X : forall c d s, interior dims g nx ny nz c -> 0 <= d < dims -> - g <= s <= g ->
    filled b dims g nx ny nz (solution st0) (move d s c) = filled b dims g nx ny nz (vget u0) (move d s c)).
  { intros c d s Hci Hdd Hss. unfold filled. apply W0. apply (im_interior b dims g fx rc nx ny nz); auto.
    now apply (stencil_in_volume dims g fx rc nx ny nz). }
  assert (Pw : forall e, 0 <= e < 3 -> (0 <= ws e)%R).
  { intros e He. destruct (Z_lt_ge_dec e dims) as [Hl|Hl]; [|rewrite Z1 by lia; lra]. destruct (S1 e ltac:(lia)) as (P & _). exact P. }
  assert (P0 : (0 < ws d0)%R).
  { destruct (S1 d0 Hd0) as (_ & Q & _). cbv zeta in Q. specialize (Q c0 (or_introl Hc0)).
    rewrite (iface_ext g fx rc Hc d0 _ (filled b dims g nx ny nz (vget u0)) c0 c0) in Q by (intros s Hs; apply X; auto; lia). lra. }
  assert (Pt : (0 < dt)%R).
  { rewrite D1. unfold compute_timestep. cbn [fold_left]. apply Rdiv_lt_0_compat; [exact Hcfl|].
    rewrite wave_total_eq, Hw. cbn [fold_left].
    assert (Q : forall d, 0 <= d < 3 -> (0 <= (if Req_EM_T (p_len p d) 0 then 0 else ws d / p_len p d))%R).
    { intros d Hdd. destruct (Req_EM_T (p_len p d) 0); [lra|]. apply Rmult_le_pos; [now apply Pw|].
      left. apply Rinv_0_lt_compat. specialize (Hlen d). lra. }
    assert (Q0 : (0 < (if Req_EM_T (p_len p d0) 0 then 0 else ws d0 / p_len p d0))%R).
    { destruct (Req_EM_T (p_len p d0) 0); [lra|]. now apply Rdiv_lt_0_compat. }
    change (zrange 0 3) with [0; 1; 2]. cbn [map fold_right].
    pose proof (Q 0 ltac:(lia)). pose proof (Q 1 ltac:(lia)). pose proof (Q 2 ltac:(lia)).
    assert (d0 = 0 \/ d0 = 1 \/ d0 = 2) as [->|[->| ->]] by lia; lra. }
  assert (Et : s_time st1 = dt) by (rewrite T1, T0; ring).
  exists st1. split; [reflexivity|]. rewrite Et. split; [exact Pt|]. intros c Hin. rewrite W1 by exact Hin.
  cbn [textbook]. unfold euler, fplus, fmul. rewrite W0 by exact Hin. f_equal. f_equal.
  apply (L_ext b dims g fx rc nx ny nz Hd Hc H1 H2 H3 H4 H5 H6); [|exact Hin]. intros c' Hc'. now apply W0.
Qed.

(** The right hand side of a two-point flux without reconstruction. *)
Lemma rec_none {V : cvars} d (u : cell -> V) c : rec_at no_reconstruction d u c = (u c, u c).
Proof. unfold rec_at. cbn [rec_ghosts no_reconstruction rec_fun]. change (zrange (- (1 - 1)) 1) with [0]. cbn [map]. now rewrite move_0. Qed.
Lemma iface_two {V : cvars} (f : Z -> V -> V -> V * R) d (u : cell -> V) c :
  iface (Flux2 f) no_reconstruction d u c = f d (u c) (u (move d 1 c)).
Proof. unfold iface. now rewrite !rec_none. Qed.
Lemma semidiscrete_two {V : cvars} b dims g nx ny nz (f : Z -> V -> V -> V * R) u c :
  semidiscrete b dims g nx ny nz (Flux2 f) no_reconstruction u c =
  let v o := u (image (bc_image b) dims g nx ny nz o) in
  fold_left (fun a d => vadd a (vadd (fst (f d (v (move d (-1) c)) (v c))) (vscal (-1) (fst (f d (v c) (v (move d 1 c)))))))
    (zrange 0 dims) vzero.
Proof.
  unfold semidiscrete, rhs, filled. cbv zeta. generalize (@vzero V) as a. induction (zrange 0 dims) as [|d l IH]; intros a; cbn [fold_left]; [reflexivity|].
  rewrite IH. f_equal. f_equal. rewrite !iface_two, move_move. cbn [Z.add Z.opp Pos.add]. change (-1 + 1) with 0. now rewrite move_0.
Qed.
