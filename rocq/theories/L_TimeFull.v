(** The times of a whole simulation are those of [drive]. *)
From Coq Require Import ZArith Reals List Bool Lia Lra.
From Verif Require Import M_Base M_Vec M_Boundary M_Flux M_Sim M_Time S_Boundary S_Flux S_Sum S_Sim S_Time
  L_Base L_Flux L_Sim L_SimTop L_SimProps L_Time.
Import ListNotations.
Open Scope Z_scope.

Section T.
Context {V : cvars}.
Variable it : integrator.
Variable b : bckind.
Variables dims g : Z.
Variable fx : numflux V.
Variable rc : recon V.
Variables nx ny nz : Z.
Hypothesis Hdims : 1 <= dims <= 3.
Hypothesis Hcomp : compatible fx rc g.
Hypotheses (Hx : 0 < nx) (Hy : 0 < ny) (Hz : 0 < nz).
Hypotheses (Gx : g <= nx) (Gy : 1 < dims -> g <= ny) (Gz : 2 < dims -> g <= nz).
Hypothesis Hcells : total_cells dims g nx ny nz < 2 ^ 31.

Let bc := apply_boundary (bc_apply (A := V) b) dims g (fun _ => false).
Let sys := flux_system dims g fx rc Ok.
Variable p : params.
Variable obeys : vol V -> bool.

(** A CFL timestep of some state. *)
Definition cfl_step (dt : R) : Prop :=
  exists u ws, is_wave_speed dims g nx ny nz fx rc u ws /\
    dt = compute_timestep (p_wadj p) [] ws (p_len p) (p_cfl p).

Lemma full_drive n : forall st ws st' lg,
  ready it b dims g nx ny nz st -> s_time st = 0%R ->
  full_run it sys bc p obeys n st ws = Ok (st', lg) ->
  ready it b dims g nx ny nz st' /\
  exists dts, length dts = n /\ Forall cfl_step dts /\ drive ws dts = (s_time st', lg).
Proof.
  unfold full_run, drive. intros st ws st' lg Hr H0. rewrite H0.
  set (l0 := call_writers 0 (map (fun w : tw => (w, [] : list R)) ws)). clearbody l0.
  assert (G : forall (k : list nat) st l, ready it b dims g nx ny nz st ->
    fold_res (fun _ => full_step it sys bc p obeys) k (st, l) = Ok (st', lg) ->
    ready it b dims g nx ny nz st' /\
    exists dts, length dts = length k /\ Forall cfl_step dts /\
      fold_left (fun s dt => time_step dt s) dts (s_time st, l) = (s_time st', lg)).
  { clear st l0 Hr H0. induction k as [|i k IH]; intros st l Hr E; cbn [fold_res] in E.
    - injection E as -> ->. split; [exact Hr|]. exists []. auto.
    - unfold full_step at 1 in E. unfold perform_step, checked_step in E.
      destruct (step_ready it b dims g fx rc nx ny nz Hdims Hcomp Hx Hy Hz Gx Gy Gz Hcells p
        (fun t => map (fun wl => tw_adjust t (fst wl)) l) st Hr) as (st1 & dt & w & E1 & R1 & W & D & T & _).
      fold bc in E1. fold sys in E1. rewrite E1 in E. cbn [bind] in E.
      destruct (vat (s_vols st1) 0) as [u| |]; cbn [bind] in E; try discriminate.
      destruct (obeys u); cbn [bind] in E; try discriminate.
      destruct (IH _ _ R1 E) as (R' & dts & L & F & Dr). split; [exact R'|].
      exists (compute_timestep (p_wadj p) [] w (p_len p) (p_cfl p) :: dts).
      split; [simpl; now rewrite L|]. split; [constructor; [now exists (filled b dims g nx ny nz (solution st)), w|exact F]|].
      cbn [fold_left]. rewrite <- Dr. f_equal. unfold time_step.
      assert (Et : (s_time st + shorten (s_time st) l (compute_timestep (p_wadj p) [] w (p_len p) (p_cfl p)))%R = s_time st1).
      { rewrite T, D. f_equal. unfold shorten, compute_timestep. cbn [fold_left].
        generalize (p_cfl p / wave_total (p_wadj p) w (p_len p))%R as d. generalize (s_time st) as t.
        clear. induction l as [|wl l IH]; intros t d; cbn [fold_left map]; auto. }
      now rewrite Et. }
  intros E. destruct (G _ _ _ Hr E) as (R' & dts & L & F & D). split; [exact R'|].
  exists dts. rewrite seq_length in L. rewrite H0 in D. auto.
Qed.

(** CFL timesteps are positive if the flux reports positive speeds. *)
Lemma cfl_step_pos : (0 < p_cfl p)%R -> p_wadj p = [] ->
  (forall d, 0 <= d < dims -> (0 < p_len p d)%R) -> (forall d, dims <= d < 3 -> p_len p d = 0%R) ->
  (forall e u c, 0 <= e < dims -> (0 < snd (iface fx rc e u c))%R) ->
  forall dt, cfl_step dt -> (0 < dt)%R.
Proof.
  intros Hc Hw Hl Hl0 Hp dt (u & ws & W & ->). rewrite Hw. unfold compute_timestep. cbn [fold_left].
  apply Rdiv_lt_0_compat; [exact Hc|]. rewrite wave_total_eq.
  change (zrange 0 3) with [0; 1; 2]. cbn [map fold_right].
  assert (Pos : forall d, 0 <= d < dims -> (0 < ws d)%R).
  { intros d Hd. destruct (W d Hd) as (W1 & W2 & _).
    assert (F : interior dims g nx ny nz
       (g, if 1 <? dims then g else 0, if 2 <? dims then g else 0)).
    { assert (0 <= g) by (destruct Hcomp; lia).
      unfold interior, interior1. destruct (1 <? dims), (2 <? dims); lia. }
    specialize (W2 _ (or_introl F)).
    specialize (Hp d u (g, if 1 <? dims then g else 0, if 2 <? dims then g else 0) Hd). lra. }
  assert (P : forall d, 0 <= d < dims -> (0 < if Req_EM_T (p_len p d) 0 then 0 else ws d / p_len p d)%R).
  { intros d Hd. specialize (Pos d Hd). specialize (Hl d Hd).
    destruct (Req_EM_T (p_len p d) 0); [lra|]. now apply Rdiv_lt_0_compat. }
  assert (N : forall d, 0 <= d < 3 -> (0 <= if Req_EM_T (p_len p d) 0 then 0 else ws d / p_len p d)%R).
  { intros d Hd. destruct (Z_lt_le_dec d dims).
    - specialize (P d ltac:(lia)). lra.
    - destruct (Req_EM_T (p_len p d) 0) as [|C]; [lra|]. contradict C. apply Hl0. lia. }
  pose proof (P 0 ltac:(lia)). pose proof (N 1 ltac:(lia)). pose proof (N 2 ltac:(lia)).
  cbn [fold_left]. lra.
Qed.

(** C12 and relatives for the whole simulator. *)
Theorem full_saves n st ws st' lg :
  (0 < p_cfl p)%R -> p_wadj p = [] ->
  (forall d, 0 <= d < dims -> (0 < p_len p d)%R) -> (forall d, dims <= d < 3 -> p_len p d = 0%R) ->
  (forall e u c, 0 <= e < dims -> (0 < snd (iface fx rc e u c))%R) ->
  Forall meetable ws -> ready it b dims g nx ny nz st -> s_time st = 0%R ->
  full_run it sys bc p obeys n st ws = Ok (st', lg) ->
  Forall2 (fun w wl => saved_up_to (save_time w) (s_time st') (snd wl)) ws lg.
Proof.
  intros H1 H2 H3 H4 H5 Hm Hr H0 E. destruct (full_drive n st ws st' lg Hr H0 E) as (_ & dts & L & F & D).
  pose proof (drive_saves ws dts Hm) as S. rewrite D in S. apply S.
  eapply Forall_impl; [|exact F]. now apply cfl_step_pos.
Qed.
End T.
