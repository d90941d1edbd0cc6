(** C12, C13, C14, C17, C32, C51: when results are saved. *)
From Coq Require Import ZArith Reals List Bool Sorted Lia Lra.
From Verif Require Import M_Base M_Vec M_Boundary M_Flux M_Sim M_Time S_Boundary S_Flux S_Sim S_Time
  L_Base L_Sim L_SimTop L_Time L_TimeInt L_TimeFull.
Import ListNotations.
Open Scope R_scope.

(** Sanity of the specification: the save times increase strictly. *)
Theorem C12_save_times_increase : forall w, meetable w ->
  forall i j, (i < j)%nat -> save_time w i < save_time w j.
Proof. exact save_time_mono. Qed.

(** C12.  Any number of interval writers and statistics together, any CFL
    timesteps: each has saved exactly at its save times up to now, in order, each
    once; the time increases strictly and no step is lengthened. *)
Theorem C12_saves_exact : forall ws dts,
  Forall meetable ws -> Forall (fun d => 0 < d) dts ->
  Forall2 (fun w wl => saved_up_to (save_time w) (fst (drive ws dts)) (snd wl)) ws (snd (drive ws dts)).
Proof. exact drive_saves. Qed.
Theorem C12_time_increases : forall ws dts dt,
  Forall meetable ws -> Forall (fun d => 0 < d) (dts ++ [dt]) ->
  fst (drive ws dts) < fst (drive ws (dts ++ [dt])) <= fst (drive ws dts) + dt.
Proof. exact drive_increases. Qed.
(** The case of one FixedIntervalWriter with start time 0, spelled out. *)
Theorem C12_multiples_of_interval : forall T wi dts,
  0 < T -> Forall (fun d => 0 < d) dts ->
  exists w' n, snd (drive [new_fixed T wi 0] dts) =
      [(w', map (fun k => INR k * T) (seq (if wi then 0 else 1)%nat n))] /\
    forall k, (k < (if wi then 0 else 1) + n)%nat <-> INR k * T <= fst (drive [new_fixed T wi 0] dts).
Proof.
  intros T wi dts HT Hd.
  assert (Hm : Forall meetable [new_fixed T wi 0]).
  { constructor; [|constructor]. split; [exact HT|]. destruct wi; [left|right]; split; auto; lra. }
  pose proof (drive_saves _ dts Hm Hd) as S.
  destruct (okall_drive _ dts Hm Hd) as [P _].
  set (r := drive [new_fixed T wi 0] dts) in *. destruct r as [t ls]. cbn [fst snd] in *.
  inversion S as [|w wl ? ? (m & E1 & E2 & E3) S']; subst. inversion S'; subst. destruct wl as [w' l]. cbn [snd] in E1. subst l.
  assert (Q : forall i, save_time (new_fixed T wi 0) i = INR ((if wi then 0 else 1) + i) * T).
  { intros i. cbn [save_time new_fixed]. unfold fixed_times. rewrite plus_INR, plus_IZR, <- INR_IZR_INZ.
    destruct wi; simpl; ring. }
  exists w', m. split.
  - f_equal. f_equal. clear - Q. revert Q. generalize (if wi then 0 else 1)%nat as s. intros s Q.
    rewrite (map_ext _ _ Q). transitivity (map (fun k => INR k * T) (map (Nat.add s) (seq 0 m))); [now rewrite map_map|].
    f_equal. clear. induction m as [|m IH]; [reflexivity|]. rewrite !seq_S, map_app, IH. reflexivity.
  - intros k. split.
    + intros Hk. destruct (Nat.le_gt_cases (if wi then 0 else 1)%nat k) as [L|L].
      * specialize (E2 (k - (if wi then 0 else 1))%nat ltac:(lia)). rewrite Q in E2.
        now replace ((if wi then 0 else 1) + (k - (if wi then 0 else 1)))%nat with k in E2 by lia.
      * destruct wi; [lia|]. replace k with 0%nat by lia. simpl. lra.
    + intros Hk. rewrite Q in E3. apply INR_lt. apply (Rmult_lt_reg_r T); lra.
Qed.
(** The whole simulator: the CFL timesteps come from the fluxes. *)
Theorem C12_whole_simulation :
  forall V it b dims g (fx : numflux V) rc nx ny nz p obeys n st ws st' lg,
  (1 <= dims <= 3)%Z -> compatible fx rc g ->
  (0 < nx)%Z -> (0 < ny)%Z -> (0 < nz)%Z ->
  (g <= nx)%Z -> (1 < dims -> g <= ny)%Z -> (2 < dims -> g <= nz)%Z ->
  (total_cells dims g nx ny nz < 2 ^ 31)%Z ->
  0 < p_cfl p -> p_wadj p = [] ->
  (forall d, (0 <= d < dims)%Z -> 0 < p_len p d) -> (forall d, (dims <= d < 3)%Z -> p_len p d = 0) ->
  (forall e u c, (0 <= e < dims)%Z -> 0 < snd (iface fx rc e u c)) ->
  Forall meetable ws -> ready it b dims g nx ny nz st -> s_time st = 0 ->
  full_run it (flux_system dims g fx rc Ok) (apply_boundary (bc_apply b) dims g (fun _ => false))
    p obeys n st ws = Ok (st', lg) ->
  Forall2 (fun w wl => saved_up_to (save_time w) (s_time st') (snd wl)) ws lg.
Proof.
  intros V it b dims g fx rc nx ny nz p obeys n st ws st' lg H1 H2 H3 H4 H5 H6 H7 H8 H9 A1 A2 A3 A4 A5 A6 A7 A8 A9.
  exact (full_saves it b dims g fx rc nx ny nz H1 H2 H3 H4 H5 H6 H7 H8 H9 p obeys n st ws st' lg
    A1 A2 A3 A4 A5 A6 A7 A8 A9).
Qed.

(** C13: without the initial save, the times s + T, s + 2 T, ... are met. *)
Theorem C13_start_time_partial : forall T s dts,
  0 < T -> 0 <= s -> Forall (fun d => 0 < d) dts ->
  exists w' l, snd (drive [new_fixed T false s] dts) = [(w', l)] /\
    saved_up_to (fun m => s + INR (S m) * T) (fst (drive [new_fixed T false s] dts)) l.
Proof.
  intros T s dts HT Hs Hd.
  assert (Hm : Forall meetable [new_fixed T false s]) by (constructor; [|constructor]; split; auto).
  pose proof (drive_saves _ dts Hm Hd) as S. inversion S as [|w wl ? ? H S' E1 E2]; subst. inversion S'; subst.
  destruct wl as [w' l]. exists w', l. split; [reflexivity|].
  assert (Q : forall m, s + INR (Datatypes.S m) * T = save_time (new_fixed T false s) m).
  { intros m. cbn [save_time new_fixed]. unfold fixed_times. rewrite S_INR, plus_IZR, <- INR_IZR_INZ. ring. }
  cbn [snd] in H. destruct H as (m & -> & A & B). exists m. split; [apply map_ext; intros; now rewrite Q|].
  split; [intros i Hi; rewrite Q; auto|rewrite Q; exact B].
Qed.
(** With the initial save the first snapshot is late and time can run backwards. *)
Theorem C13_start_time_refuted : exists T s dts,
  0 < T /\ 0 < s /\ Forall (fun d => 0 < d) dts /\
  (exists w', snd (drive [new_fixed T true s] dts) = [(w', [5])] /\ s < 5) /\
  exists dt, 0 < dt /\ fst (drive [new_fixed T true s] (dts ++ [dt])) < fst (drive [new_fixed T true s] dts).
Proof.
  exists (1 / 2), 1, [5]. split; [lra|]. split; [lra|]. split; [repeat constructor; lra|].
  assert (E : drive [new_fixed (1 / 2) true 1] [5] = (5, [(TFixed (1 / 2) 1 1, [5])])).
  { unfold drive, new_fixed. cbn [map call_writers fold_left]. unfold put_log at 1. cbn [fst snd tw_put].
    rewrite Rge_bool_false by lra. cbn [fst snd]. unfold time_step, shorten. cbn [fold_left fst tw_adjust].
    change (0 <? 0)%Z with false. cbv iota. cbn [call_writers map]. unfold put_log. cbn [fst snd tw_put].
    rewrite Rplus_0_l. rewrite Rge_bool_true by lra. reflexivity. }
  rewrite drive_snoc with (dt := 1) at 1 || idtac.
  split; [rewrite E; eexists; split; [reflexivity|lra]|].
  exists 1. split; [lra|]. rewrite drive_snoc, E. unfold time_step, shorten. cbn [fold_left fst tw_adjust].
  change (0 <? 1)%Z with true. cbv iota. rewrite Rmin_right by lra. lra.
Qed.

(** C14: exact if some observer has a save time there, as with numberOfSaves
    (SimulatorSetup.cpp lines 370-373: interval = endTime / numberOfSaves). *)
Theorem C14_ends_exactly_partial : forall tend ws dts w M,
  Forall meetable ws -> Forall (fun d => 0 < d) dts -> In w ws -> tend = save_time w M ->
  fst (drive_until tend ws dts) <= tend /\
  (tend <= fst (drive_until tend ws dts) -> fst (drive_until tend ws dts) = tend).
Proof.
  intros tend ws dts w M H1 H2 H3 H4. pose proof (until_exact tend ws dts w M H1 H2 H3 H4).
  split; [assumption|]. intros. now apply Rle_antisym.
Qed.
Theorem C14_number_of_saves_partial : forall tend N wi ws dts,
  0 < tend -> (0 < N)%nat -> Forall meetable ws -> Forall (fun d => 0 < d) dts ->
  let ws' := new_fixed (tend / INR N) wi 0 :: ws in
  tend <= fst (drive_until tend ws' dts) -> fst (drive_until tend ws' dts) = tend.
Proof.
  intros tend N wi ws dts Ht HN Hm Hd ws'.
  assert (PN : 0 < INR N) by now apply lt_0_INR.
  assert (PT : 0 < tend / INR N) by now apply Rdiv_lt_0_compat.
  apply (C14_ends_exactly_partial tend ws' dts (new_fixed (tend / INR N) wi 0) (N - (if wi then 0 else 1)))%nat.
  - constructor; [|exact Hm]. split; [exact PT|]. destruct wi; [left|right]; split; auto; lra.
  - exact Hd.
  - now left.
  - cbn [save_time new_fixed]. unfold fixed_times. rewrite <- INR_IZR_INZ || idtac.
    replace ((if wi then 0 else 1) + Z.of_nat (N - (if wi then 0 else 1)))%Z with (Z.of_nat N) by (destruct wi; lia).
    rewrite <- INR_IZR_INZ. field. lra.
Qed.
Theorem C14_ends_exactly_refuted : exists tend dts,
  0 < tend /\ Forall (fun d => 0 < d) dts /\ tend < fst (drive_until tend [] dts).
Proof.
  exists 1, [2]. split; [lra|]. split; [repeat constructor; lra|].
  unfold drive_until. cbn [fold_left fst map call_writers]. rewrite Rge_bool_false by lra.
  unfold time_step, shorten. cbn [fold_left fst]. lra.
Qed.

(** C17. *)
Definition window_integral (time radius : R) (steps : list (R * R)) : R := window_sum time radius 0 steps.
Theorem C17_writes_once_partial : forall time radius pre c post,
  0 < radius ->
  Forall (fun c => fst c < time + radius) pre -> time + radius <= fst c ->
  (exists s, tint_run time radius pre = Ok (s, [])) /\
  (Exists (in_window time radius) pre ->
     exists s, tint_run time radius (pre ++ c :: post) =
       Ok (s, [window_integral time radius pre / (2 * radius)])).
Proof.
  intros time radius pre c post H1 H2 H3. destruct (writes time radius pre c post H1 H2 H3) as (A & B & _). split; auto.
Qed.
(** If no step falls into the window, a null pointer is dereferenced. *)
Theorem C17_empty_window_refuted : exists time radius calls,
  0 < radius /\ StronglySorted Rlt (map fst calls) /\ tint_run time radius calls = UB.
Proof.
  exists 2, 1, [(1, 7); (3, 7)]. split; [lra|]. split.
  { repeat constructor; simpl; lra. }
  apply (writes 2 1 [(1, 7)] (3, 7) []); [lra|repeat constructor; simpl; lra|simpl; lra|].
  intros E. inversion E as [? ? H|? ? H]; subst; [|inversion H].
  unfold in_window in H. simpl in H. rewrite Rabs_left in H; lra.
Qed.
(** With a step at the start of the window a constant is never reproduced: the
    step that reaches the end of the window is left out. *)
Theorem C17_constant_refuted : forall time radius times tc post,
  0 < radius -> time + radius <= tc -> times <> [] ->
  Forall (fun t => Rabs (t - time) < radius) times -> StronglySorted Rlt times ->
  exists s v, tint_run time radius (map (fun t => (t, 1)) ((time - radius) :: times) ++ (tc, 1) :: post) = Ok (s, [v]) /\ v < 1.
Proof.
  intros time radius times tc post Hr Hc Hne Hin Hs.
  destruct (C17_writes_once_partial time radius (map (fun t => (t, 1)) ((time - radius) :: times)) (tc, 1) post Hr) as (_ & W).
  - cbn [map]. constructor; [simpl; lra|]. clear - Hin. induction Hin as [|t l H]; constructor; auto.
    simpl. apply Rabs_def2 in H. lra.
  - exact Hc.
  - destruct W as (s & E).
    + apply Exists_cons_tl. destruct times as [|t l]; [congruence|]. apply Exists_cons_hd. now inversion Hin.
    + exists s. eexists. split; [exact E|]. unfold window_integral. cbn [map window_sum].
      destruct (Rlt_dec (Rabs (time - radius - time)) radius) as [B|B].
      { replace (time - radius - time) with (- radius) in B by ring. rewrite Rabs_Ropp, Rabs_pos_eq in B; lra. }
      rewrite window_all by exact Hin.
      assert (L : List.last times (time - radius) < time + radius).
      { clear - Hne Hin. revert Hne. generalize (time - radius) as d. induction Hin as [|t l H Hin IH]; intros d Hne; [congruence|].
        rewrite last_cons. destruct l as [|t2 l].
        - simpl. apply Rabs_def2 in H. lra.
        - apply IH. discriminate. }
      apply (Rmult_lt_reg_r (2 * radius)); [lra|]. replace ((0 + (last times (time - radius) - (time - radius))) / (2 * radius) * (2 * radius))
        with (last times (time - radius) - (time - radius)) by (field; lra). lra.
Qed.
(** As configured with numberOfSnapshots (SimulatorSetup.cpp lines 396-413) the
    writer is only called from the first snapshot on, and the time before it
    counts as its step: the constant 1 comes out as 21 / 4. *)
Theorem C17_configured_refuted :
  let times := map (save_time (new_fixed (1 / 2) false (10 - 1))) (seq 0 4) in
  exists s, tint_run 10 1 (map (fun t => (t, 1)) times) = Ok (s, [21 / 4]).
Proof.
  assert (Q : map (save_time (new_fixed (1 / 2) false (10 - 1))) (seq 0 4) = [19 / 2; 10; 21 / 2; 11]).
  { cbn [seq map]. unfold save_time, new_fixed, fixed_times.
    change (1 + Z.of_nat 0)%Z with 1%Z. change (1 + Z.of_nat 1)%Z with 2%Z.
    change (1 + Z.of_nat 2)%Z with 3%Z. change (1 + Z.of_nat 3)%Z with 4%Z.
    apply f_equal2; [lra|]. apply f_equal2; [lra|]. apply f_equal2; [lra|]. apply f_equal2; [lra|reflexivity]. }
  cbv zeta. rewrite Q.
  destruct (C17_writes_once_partial 10 1 (map (fun t => (t, 1)) [19 / 2; 10; 21 / 2]) (11, 1) [] ltac:(lra)) as (_ & W).
  - repeat constructor; simpl; lra.
  - simpl; lra.
  - destruct W as (s & E).
    + apply Exists_cons_tl, Exists_cons_hd. unfold in_window. cbn [fst]. apply Rabs_def1; lra.
    + exists s. cbn [map app] in E |- *. rewrite E. do 3 f_equal. unfold window_integral.
      change [(19 / 2, 1); (10, 1); (21 / 2, 1)] with (map (fun t => (t, 1)) [19 / 2; 10; 21 / 2]).
      rewrite window_all; [simpl; lra|]. repeat constructor; apply Rabs_def1; lra.
Qed.

(** C32.  The statistics objects carry over from sample to sample; with the end
    time among the save times all samples record the same times. *)
Theorem C32_same_times : forall tend fresh stats samples,
  Forall meetable fresh -> Forall is_stat stats -> Forall (Forall (fun d => 0 < d)) samples ->
  (exists w M, In w (fresh ++ stats) /\ tend = save_time w M) ->
  Forall (fun r => tend <= fst r ->
      fst r = tend /\
      Forall2 (fun w wl => saved_up_to (save_time w) tend (snd wl)) (fresh ++ stats) (snd r))
    (drive_samples tend fresh stats samples).
Proof. intros. now apply samples_ok. Qed.
Theorem C32_times_determined : forall w t l1 l2, meetable w ->
  saved_up_to (save_time w) t l1 -> saved_up_to (save_time w) t l2 -> l1 = l2.
Proof. exact saved_unique. Qed.
(** If the end time is not a multiple of the interval, the last snapshot may be
    taken for some samples only. *)
Theorem C32_unaligned_end_refuted : exists T tend dts1 dts2 w1 l1 w2 l2,
  0 < T /\ Forall (fun d => 0 < d) dts1 /\ Forall (fun d => 0 < d) dts2 /\
  (tend <= fst (drive_until tend [new_stat T true] dts1)) /\
  (tend <= fst (drive_until tend [new_stat T true] dts2)) /\
  snd (drive_until tend [new_stat T true] dts1) = [(w1, l1)] /\
  snd (drive_until tend [new_stat T true] dts2) = [(w2, l2)] /\ length l1 <> length l2.
Proof.
  exists 2, 1, [1], [3].
  assert (E0 : call_writers 0 (map (fun w => (w, [])) [new_stat 2 true]) = [(TStat 2 true 1, [0])]).
  { cbn [map call_writers]. unfold put_log, new_stat. cbn [fst snd tw_put]. unfold Reqb.
    destruct (Req_EM_T 0 0); [|lra]. rewrite Rge_bool_true by lra. reflexivity. }
  unfold drive_until. rewrite E0. cbn [fold_left fst]. rewrite Rge_bool_false by lra.
  unfold time_step, shorten. cbn [fold_left fst tw_adjust]. change (0 <? 1)%Z with true. cbv iota.
  rewrite (Rmin_left 1) by lra. rewrite (Rmin_right 3) by lra.
  cbn [map call_writers]. unfold put_log. cbn [fst snd tw_put]. unfold Reqb.
  destruct (Req_EM_T (0 + 1) 0); [lra|]. destruct (Req_EM_T (0 + (1 * 2 - 0)) 0); [lra|].
  rewrite Rge_bool_false by lra. rewrite Rge_bool_true by lra. cbn [fst snd app].
  do 4 eexists. repeat split; try lra; try (repeat constructor; lra). simpl. discriminate.
Qed.

(** C51: windows that do not overlap. *)
Theorem C51_windows_partial : forall T n skips dx garbage dts,
  0 < T -> (0 <= n)%Z -> (0 <= skips)%Z -> 0 < dx ->
  IZR (2 * n) * (IZR (skips + 1) * dx) < T ->
  Forall (fun d => 0 < d) dts ->
  exists w' l, snd (drive [new_coarse T n skips dx garbage] dts) = [(w', l)] /\
    saved_up_to (coarse_times T (IZR (skips + 1) * dx) n) (fst (drive [new_coarse T n skips dx garbage] dts)) l.
Proof.
  intros T n skips dx garbage dts H1 H2 H3 H4 H5 Hd.
  assert (Hm : Forall meetable [new_coarse T n skips dx garbage]).
  { constructor; [|constructor]. simpl meetable. repeat split; auto. }
  pose proof (drive_saves _ dts Hm Hd) as S. inversion S as [|w wl ? ? H S' E1 E2]; subst. inversion S'; subst.
  destruct wl as [w' l]. exists w', l. split; [reflexivity|exact H].
Qed.
(** Overlapping windows: the proposed timestep is negative. *)
Theorem C51_overlap_refuted : exists T n skips dx garbage dts dt,
  0 < T /\ (0 <= n)%Z /\ (0 <= skips)%Z /\ 0 < dx /\ Forall (fun d => 0 < d) dts /\ 0 < dt /\
  fst (drive [new_coarse T n skips dx garbage] (dts ++ [dt])) < fst (drive [new_coarse T n skips dx garbage] dts).
Proof.
  exists 1, 1%Z, 0%Z, 2, 0, [], 1. repeat split; try lra; try lia; [constructor|].
  rewrite drive_snoc.
  assert (E : drive [new_coarse 1 1 0 2 0] [] = (0, [(TCoarse 1 1 0 2 2 1 (-1) false, [0])])).
  { unfold drive, new_coarse. cbn [fold_left]. apply f_equal. unfold call_writers. cbn [map].
    apply f_equal2; [|reflexivity]. unfold put_log. cbn [fst snd tw_put]. unfold coarse_time.
    rewrite Rge_bool_true by lra. reflexivity. }
  rewrite E. unfold time_step, shorten. cbn [fold_left fst tw_adjust].
  change (0 <? 1)%Z with true. cbv iota. unfold coarse_time. change (0 + 1)%Z with 1%Z.
  rewrite Rmin_right by lra. lra.
Qed.

(** Observers meeting the hypotheses. *)
Example C12_nonvacuous : Forall meetable
  [new_fixed (1 / 10) false 0; new_fixed (1 / 3) true 0; new_fixed 1 false 5; new_stat (1 / 7) true; new_coarse 1 2 0 (1 / 10) 99].
Proof.
  repeat (apply Forall_cons || apply Forall_nil); cbn [meetable new_fixed new_stat new_coarse].
  - split; [lra|]. right. split; [reflexivity|lra].
  - split; [lra|]. left. auto.
  - split; [lra|]. right. split; [reflexivity|lra].
  - lra.
  - change (2 * 2)%Z with 4%Z. change (0 + 1)%Z with 1%Z. repeat split; try lra; lia.
Qed.
Example C12_run : exists w, drive [new_fixed 1 true 0] [3 / 4; 3 / 4; 3 / 4] = (7 / 4, [(w, [0; 1])]).
Proof.
  exists (TFixed 1 0 2).
  assert (P : forall t k l, IZR k <= t -> call_writers t [(TFixed 1 0 k, l)] = [(TFixed 1 0 (k + 1), l ++ [t])]).
  { intros. unfold call_writers, put_log. cbn [map fst snd tw_put]. now rewrite Rge_bool_true by lra. }
  assert (N : forall t k l, t < IZR k -> call_writers t [(TFixed 1 0 k, l)] = [(TFixed 1 0 k, l)]).
  { intros. unfold call_writers, put_log. cbn [map fst snd tw_put]. now rewrite Rge_bool_false by lra. }
  assert (A : forall t k l dt, (0 < k)%Z -> shorten t [(TFixed 1 0 k, l)] dt = Rmin dt (IZR k - t)).
  { intros t k l dt H. unfold shorten. cbn [fold_left fst tw_adjust].
    replace (0 <? k)%Z with true by (symmetry; now apply Z.ltb_lt). f_equal. ring. }
  unfold drive, new_fixed. cbn [map]. rewrite P by lra. cbn [fold_left app]. change (0 + 1)%Z with 1%Z.
  unfold time_step at 3. rewrite A by lia. rewrite Rmin_left by lra. rewrite N by lra.
  unfold time_step at 2. rewrite A by lia. rewrite Rmin_right by lra. rewrite P by lra. change (1 + 1)%Z with 2%Z.
  unfold time_step. rewrite A by lia. rewrite Rmin_left by lra. rewrite N by lra.
  cbn [app]. f_equal; [lra|]. replace (0 + 3 / 4 + (1 - (0 + 3 / 4))) with 1 by lra. reflexivity.
Qed.

Print Assumptions C12_save_times_increase.
Print Assumptions C12_saves_exact.
Print Assumptions C12_time_increases.
Print Assumptions C12_multiples_of_interval.
Print Assumptions C12_whole_simulation.
Print Assumptions C13_start_time_partial.
Print Assumptions C13_start_time_refuted.
Print Assumptions C14_ends_exactly_partial.
Print Assumptions C14_number_of_saves_partial.
Print Assumptions C14_ends_exactly_refuted.
Print Assumptions C17_writes_once_partial.
Print Assumptions C17_empty_window_refuted.
Print Assumptions C17_constant_refuted.
Print Assumptions C17_configured_refuted.
Print Assumptions C32_same_times.
Print Assumptions C32_times_determined.
Print Assumptions C32_unaligned_end_refuted.
Print Assumptions C51_windows_partial.
Print Assumptions C51_overlap_refuted.
