(** Two simulations that differ in the units of length and time. *)
From Coq Require Import ZArith Reals List Bool Lia Lra Permutation.
From Verif Require Import M_Base M_Vec M_Boundary M_Flux M_Sim M_Time S_Boundary S_Flux S_Sum S_Sim S_Symmetry S_Units L_Base L_Loops
  L_Boundary L_Flux L_System L_Sum L_Conserve L_FluxTop L_Sim L_SimTop L_SimProps L_Related L_Symmetry L_SymScheme L_Axes.
Import ListNotations.
Open Scope R_scope.

(** * Observers *)
Section Writers.
Variables lambda theta : R.
Hypothesis Ht : 0 < theta.
Definition allowed (w : tw) : Prop := lambda = theta \/ no_coarse w.
Notation sw := (scaled_writer lambda theta).

Lemma ge_scaled a b : Rge_bool (theta * a) (theta * b) = Rge_bool a b.
Proof.
  unfold Rge_bool. destruct (Rle_dec (theta * b) (theta * a)) as [A|A], (Rle_dec b a) as [B|B]; try reflexivity; exfalso.
  - apply B. now apply Rmult_le_reg_l in A.
  - apply A. apply Rmult_le_compat_l; lra.
Qed.
Lemma zero_scaled a : Reqb (theta * a) 0 = Reqb a 0.
Proof.
  unfold Reqb. destruct (Req_EM_T (theta * a) 0) as [A|A], (Req_EM_T a 0) as [B|B]; try reflexivity; exfalso.
  - apply Rmult_integral in A. lra.
  - apply A. rewrite B. ring.
Qed.
Lemma min_scaled a b : Rmin (theta * a) (theta * b) = theta * Rmin a b.
Proof.
  unfold Rmin. destruct (Rle_dec (theta * a) (theta * b)) as [A|A], (Rle_dec a b) as [B|B]; try reflexivity; exfalso.
  - apply B. now apply Rmult_le_reg_l in A.
  - apply A. apply Rmult_le_compat_l; lra.
Qed.
Lemma coarse_scaled T s dx k j : lambda = theta -> coarse_time (theta * T) s (lambda * dx) k j = theta * coarse_time T s dx k j.
Proof. intros ->. unfold coarse_time. ring. Qed.

Lemma put_scaled t w : allowed w ->
  tw_put (theta * t) (sw w) = (sw (fst (tw_put t w)), snd (tw_put t w)).
Proof.
  intros A. destruct w as [T s k|T wi k|T n skips gdx dx k j first]; cbn [scaled_writer tw_put].
  - replace (IZR k * (theta * T) + theta * s) with (theta * (IZR k * T + s)) by ring. rewrite ge_scaled.
    destruct (Rge_bool t (IZR k * T + s)); reflexivity.
  - rewrite zero_scaled. set (q := if Reqb t 0 then _ else k).
    replace (IZR q * (theta * T)) with (theta * (IZR q * T)) by ring. rewrite ge_scaled.
    destruct (Rge_bool t (IZR q * T)); reflexivity.
  - destruct A as [A|[]]. rewrite coarse_scaled by exact A. rewrite ge_scaled.
    cbv zeta. destruct (Rge_bool t _); destruct ((if first then _ else _) =? n + 1)%Z; reflexivity.
Qed.
Lemma put_allowed t w : allowed w -> allowed (fst (tw_put t w)).
Proof.
  intros [A|A]; [now left|]. right. destruct w; cbn [tw_put] in *; try destruct A;
    repeat match goal with |- context [if ?q then _ else _] => destruct q end; exact I.
Qed.
Lemma adjust_scaled t w : allowed w -> scaled_fun theta (tw_adjust t w) (tw_adjust (theta * t) (sw w)).
Proof.
  intros A dt. destruct w as [T s k|T wi k|T n skips gdx dx k j first]; cbn [scaled_writer tw_adjust].
  - destruct (0 <? k)%Z; [|reflexivity]. rewrite <- min_scaled. f_equal. ring.
  - destruct (0 <? k)%Z; [|reflexivity]. rewrite <- min_scaled. f_equal. ring.
  - destruct A as [A|[]]. destruct (0 <? k)%Z; [|reflexivity]. rewrite coarse_scaled by exact A. rewrite <- min_scaled. f_equal. ring.
Qed.

(** Observers with their saved times. *)
Definition in_units (a a' : logged) : Prop :=
  allowed (fst a) /\ fst a' = sw (fst a) /\ snd a' = map (Rmult theta) (snd a).
Lemma put_log_scaled t a a' : in_units a a' -> in_units (put_log t a) (put_log (theta * t) a').
Proof.
  intros (A & E & L). unfold put_log. rewrite E, (put_scaled t (fst a) A).
  pose proof (put_allowed t (fst a) A) as A'. destruct (tw_put t (fst a)) as [w s]. cbn [fst snd] in *.
  unfold in_units. cbn [fst snd]. split; [exact A'|]. split; [reflexivity|]. destruct s; [|exact L].
  rewrite map_app, L. reflexivity.
Qed.
Lemma call_scaled t ws ws' : Forall2 in_units ws ws' -> Forall2 in_units (call_writers t ws) (call_writers (theta * t) ws').
Proof. intros H. unfold call_writers. induction H; cbn [map]; constructor; auto using put_log_scaled. Qed.
Lemma adjusters_scaled t ws ws' : Forall2 in_units ws ws' ->
  Forall2 (scaled_fun theta) (map (fun wl => tw_adjust t (fst wl)) ws) (map (fun wl => tw_adjust (theta * t) (fst wl)) ws').
Proof.
  intros H. induction H as [|a a' ws ws' (A & E & _) _ IH]; cbn [map]; constructor; [|exact IH].
  rewrite E. now apply adjust_scaled.
Qed.
Lemma first_scaled ws : Forall allowed ws ->
  Forall2 in_units (map (fun w => (w, [])) ws) (map (fun w => (w, [])) (map sw ws)).
Proof. intros H. induction H; cbn [map]; constructor; [|assumption]. unfold in_units. auto. Qed.
Lemma saved_scaled ws ws' : Forall2 in_units ws ws' -> map snd ws' = map (fun wl => map (Rmult theta) (snd wl)) ws.
Proof. intros H. induction H as [|a a' ws ws' (_ & _ & L) _ IH]; cbn [map]; [reflexivity|]. now rewrite L, IH. Qed.
End Writers.

Lemma fold_scaled k fs fs' x : Forall2 (scaled_fun k) fs fs' ->
  fold_left (fun w f => f w) fs' (k * x) = k * fold_left (fun (w : R) (f : R -> R) => f w) fs x.
Proof. intros H. revert x. induction H as [|f f' fs fs' E _ IH]; intros x; cbn [fold_left]; [reflexivity|]. now rewrite E, IH. Qed.

(** * Fluxes *)
Section Faster.
Context {V : cvars}.
Variables (k : R) (fx : numflux V) (rc : recon V) (dims g : Z).
Lemma faster_compatible : compatible fx rc g -> compatible (faster k fx) rc g.
Proof. intros [A B]. split; [exact A|]. destruct fx; exact B. Qed.
Lemma faster_iface d u c :
  iface (faster k fx) rc d u c = (vscal k (fst (iface fx rc d u c)), k * snd (iface fx rc d u c)).
Proof. destruct fx; reflexivity. Qed.
Lemma faster_rhs u c : rhs dims (faster k fx) rc u c = vscal k (rhs dims fx rc u c).
Proof.
  apply comp_ext. intros i. rewrite comp_scal, !comp_rhs. induction (zrange 0 dims) as [|d l IH]; cbn [map fold_right]; [ring|].
  rewrite IH, !faster_iface. cbn [fst]. rewrite !comp_scal. ring.
Qed.
Lemma faster_speeds b nx ny nz u ws : 0 < k -> speeds b dims g fx rc nx ny nz u ws ->
  speeds b dims g (faster k fx) rc nx ny nz u (fun e => k * ws e).
Proof.
  intros Hk [H H']. split.
  - intros e He. destruct (H e He) as (A & B & C). cbv zeta in *. split; [|split].
    + apply Rmult_le_pos; lra.
    + intros c Hc. rewrite faster_iface. cbn [snd]. apply Rmult_le_compat_l; [lra|]. now apply B.
    + destruct C as [->|(c & Hc & ->)]; [left; ring|]. right. exists c. split; [exact Hc|]. now rewrite faster_iface.
  - intros e He. rewrite H' by exact He. ring.
Qed.
End Faster.

(** * Runs *)
Section Units.
Context {V W : cvars}.
Variables (it : integrator) (b : bckind) (dims g : Z)
  (fx : numflux V) (rc : recon V) (fx' : numflux W) (rc' : recon W) (nx ny nz : Z)
  (tau : V -> W) (lambda kappa : R) (p p' : params)
  (ok : V -> bool) (ok' : W -> bool) (obeys : vol V -> bool) (obeys' : vol W -> bool).
Hypothesis Hdims : (1 <= dims <= 3)%Z.
Hypothesis Hcomp : compatible fx rc g.
Hypothesis Hcomp' : compatible fx' rc' g.
Hypothesis Hfit : fits_grid dims g nx ny nz.
Hypothesis tau_add : forall a c, tau (vadd a c) = vadd (tau a) (tau c).
Hypothesis tau_scal : forall k a, tau (vscal k a) = vscal k (tau a).
Hypothesis Hok : forall a, ok' (tau a) = ok a.
Hypothesis Hob : checks_all dims g nx ny nz ok obeys.
Hypothesis Hob' : checks_all dims g nx ny nz ok' obeys'.
Hypothesis (Hl : 0 < lambda) (Hk : 0 < kappa).
Hypothesis Hp : scaled_params lambda kappa p p'.
Hypothesis Hflux : forall d, (0 <= d < dims)%Z -> carries tau (faster kappa fx) d fx' d.
Hypothesis Hrec : carries_recon tau rc rc'.
Notation theta := (lambda / kappa).
Notation inside := (interior dims g nx ny nz).
Notation im := (image (bc_image b) dims g nx ny nz).
Notation L := (semidiscrete (V := V) b dims g nx ny nz fx rc).
Notation L1 := (semidiscrete (V := V) b dims g nx ny nz (faster kappa fx) rc).
Notation L' := (semidiscrete (V := W) b dims g nx ny nz fx' rc').
Notation sys := (flux_system dims g fx rc Ok).
Notation bcV := (apply_boundary (A := V) (bc_apply b) dims g (fun _ => false)).
Notation sys' := (flux_system dims g fx' rc' Ok).
Notation bcW := (apply_boundary (A := W) (bc_apply b) dims g (fun _ => false)).
Definition rl (u : field V) (u' : field W) : Prop := forall c, inside c -> u' c = tau (u c).

Lemma theta_pos : 0 < theta.
Proof. apply Rdiv_lt_0_compat; assumption. Qed.

Lemma L1_rel u u' : rl u u' -> rl (L1 u) (L' u').
Proof.
  intros H. apply (L_rel b b dims g (faster kappa fx) rc fx' rc' nx ny nz nx ny nz tau (fun c => c) (fun d => d) (fun d => false)); auto.
  - intros c d s. now apply (image_move_inside b dims g (faster kappa fx) rc Hdims (faster_compatible kappa fx rc g Hcomp)).
  - intros c d s Hc Hd Hs. unfold sgn. now rewrite Z.mul_1_l.
  - rewrite map_id. apply Permutation_refl.
  - intros d v v' c c' Hd Ed Hv.
    now apply (face_carry g (faster kappa fx) rc fx' rc' tau Hrec d d v v' c c' (faster_compatible kappa fx rc g Hcomp) (Hflux d Hd)).
  - discriminate.
Qed.
Lemma L_units u u' : rl u u' -> rl (fmul kappa (L u)) (L' u').
Proof.
  intros H c Hc. rewrite (L1_rel u u' H c Hc). f_equal. unfold fmul, semidiscrete. apply faster_rhs.
Qed.
Lemma ws_units u u' ws ws' d : rl u u' -> speeds b dims g fx rc nx ny nz u ws -> speeds b dims g fx' rc' nx ny nz u' ws' ->
  ws' d = kappa * ws d \/ (d < 0)%Z.
Proof.
  intros H S S'. destruct (Z_lt_dec d 0) as [A|A]; [now right|]. left.
  destruct (Z_lt_dec d dims) as [B|B].
  - assert (Hd : (0 <= d < dims)%Z) by lia.
    apply (speeds_rel b b dims g (faster kappa fx) rc fx' rc' nx ny nz nx ny nz tau (fun c => c) (fun d => d) (fun d => false))
      with (u := u) (u' := u') (ws := fun e => kappa * ws e); auto.
    + intros c Hc. now exists c.
    + intros c e s. now apply (image_move_inside b dims g (faster kappa fx) rc Hdims (faster_compatible kappa fx rc g Hcomp)).
    + intros c e s Hc He Hs. unfold sgn. now rewrite Z.mul_1_l.
    + rewrite map_id. apply Permutation_refl.
    + intros e v v' c c' He Ed Hv.
      now apply (face_carry g (faster kappa fx) rc fx' rc' tau Hrec e e v v' c c' (faster_compatible kappa fx rc g Hcomp) (Hflux e He)).
    + discriminate.
    + now apply faster_speeds.
  - destruct S as [_ S], S' as [_ S']. rewrite S, S' by lia. ring.
Qed.

Lemma dt_units u u' ws ws' adj adj' : rl u u' -> speeds b dims g fx rc nx ny nz u ws -> speeds b dims g fx' rc' nx ny nz u' ws' ->
  Forall2 (scaled_fun theta) adj adj' ->
  compute_timestep (p_wadj p') adj' ws' (p_len p') (p_cfl p') = theta * compute_timestep (p_wadj p) adj ws (p_len p) (p_cfl p).
Proof.
  intros H S S' Ha. destruct Hp as (Pl & Pc & Pw). unfold compute_timestep.
  rewrite <- (fold_scaled theta adj adj' _ Ha). f_equal. rewrite Pc.
  assert (E : wave_total (p_wadj p') ws' (p_len p') = / theta * wave_total (p_wadj p) ws (p_len p)).
  { rewrite !wave_total_eq. change (zrange 0 3) with [0; 1; 2]%Z. cbn [map fold_right].
    assert (Q : forall d, (0 <= d)%Z ->
      (if Req_EM_T (p_len p' d) 0 then 0 else fold_left (fun w f => f w) (p_wadj p') (ws' d) / p_len p' d)
      = / theta * (if Req_EM_T (p_len p d) 0 then 0 else fold_left (fun w f => f w) (p_wadj p) (ws d) / p_len p d)).
    { intros d Hd. destruct (ws_units u u' ws ws' d H S S') as [->|A]; [|lia]. rewrite (fold_scaled kappa _ _ _ Pw), Pl.
      destruct (Req_EM_T (lambda * p_len p d) 0) as [A|A], (Req_EM_T (p_len p d) 0) as [B|B].
      - ring.
      - apply Rmult_integral in A. lra.
      - exfalso. apply A. rewrite B. ring.
      - field. repeat split; lra. }
    rewrite !Q by lia. ring. }
  rewrite E. unfold Rdiv at 1. rewrite Rinv_mult, Rinv_inv. unfold Rdiv. ring.
Qed.

Lemma rl_plus u u' v v' : rl u u' -> rl v v' -> rl (fplus u v) (fplus u' v').
Proof. intros H K c Hc. unfold fplus. now rewrite H, K, tau_add by exact Hc. Qed.
Lemma rl_mul k u u' : rl u u' -> rl (fmul k u) (fmul k u').
Proof. intros H c Hc. unfold fmul. now rewrite H, tau_scal by exact Hc. Qed.
(** [h] times the increment of the first is [h] / [kappa] times the one of the second. *)
Definition rk (u : field V) (u' : field W) : Prop := rl (fmul kappa u) u'.
Lemma rk_L u u' : rl u u' -> rk (L u) (L' u').
Proof. apply L_units. Qed.
Lemma rk_plus u u' v v' : rk u u' -> rk v v' -> rk (fplus u v) (fplus u' v').
Proof.
  intros H K c Hc. unfold fplus. rewrite (H c Hc), (K c Hc), <- tau_add. f_equal. unfold fmul.
  apply comp_ext; intros i. rewrite !comp_scal, !comp_add, !comp_scal. ring.
Qed.
Lemma rk_mul k u u' : rk u u' -> rk (fmul k u) (fmul k u').
Proof.
  intros H c Hc. unfold fmul. rewrite (H c Hc), <- tau_scal. f_equal. unfold fmul.
  apply comp_ext; intros i. rewrite !comp_scal. ring.
Qed.
Lemma rk_step h h' u u' : h' * kappa = h -> rk u u' -> rl (fmul h u) (fmul h' u').
Proof.
  intros E H c Hc. unfold fmul. rewrite (H c Hc), <- tau_scal. f_equal. unfold fmul.
  apply comp_ext; intros i. rewrite !comp_scal, <- E. ring.
Qed.
Lemma textbook_units h h' u u' : h' * kappa = h -> rl u u' -> rl (textbook L it h u) (textbook L' it h' u').
Proof.
  intros E H.
  assert (E2 : h' / 2 * kappa = h / 2) by (rewrite <- E; field).
  assert (E6 : h' / 6 * kappa = h / 6) by (rewrite <- E; field).
  destruct it; unfold textbook, euler, heun, ssprk3, classic_rk4, euler;
    repeat first [exact H | exact E | exact E2 | exact E6 | apply rk_L | apply rk_plus | apply rk_mul | apply rl_plus
      | (apply rk_step; [first [exact E | exact E2 | exact E6]|]) | apply rl_mul].
Qed.

Lemma obeys_units v v' : good b dims g nx ny nz v -> good b dims g nx ny nz v' -> rl (vget v) (vget v') -> obeys v = obeys' v'.
Proof.
  intros Gv Gv' H. pose proof Hfit as (H1 & H2 & H3 & H4 & H5 & H6 & H7).
  assert (g0 : (0 <= g)%Z) by (destruct Hcomp; lia).
  assert (IV : forall c, interior dims g nx ny nz c -> in_volume dims g nx ny nz c).
  { intros [[x y] z]. unfold interior, in_volume, interior1. destruct (1 <? dims)%Z, (2 <? dims)%Z; lia. }
  apply (obeys_rel b b dims g nx ny nz nx ny nz tau (fun c => c)) with (ok := ok) (ok' := ok'); auto.
  - intros c Hc. now exists c.
  - now apply (im_interior b dims g fx rc nx ny nz).
  - now apply (im_interior b dims g fx rc nx ny nz).
Qed.

Lemma step_units st st' adj adj' :
  ready it b dims g nx ny nz st -> ready it b dims g nx ny nz st' -> rl (solution st) (solution st') ->
  s_time st' = theta * s_time st -> s_steps st' = s_steps st ->
  Forall2 (scaled_fun theta) (adj (s_time st)) (adj' (theta * s_time st)) ->
  (exists st1 st1', perform_step it sys bcV p adj obeys st = Ok st1 /\ perform_step it sys' bcW p' adj' obeys' st' = Ok st1' /\
     ready it b dims g nx ny nz st1 /\ ready it b dims g nx ny nz st1' /\ rl (solution st1) (solution st1') /\
     s_time st1' = theta * s_time st1 /\ s_steps st1' = s_steps st1) \/
  (perform_step it sys bcV p adj obeys st = Throw /\ perform_step it sys' bcW p' adj' obeys' st' = Throw).
Proof.
  intros Rd Rd' Q Tt Nn Ha. pose proof Hfit as (H1 & H2 & H3 & H4 & H5 & H6 & H7).
  destruct (step_speeds it b dims g fx rc nx ny nz Hdims Hcomp H1 H2 H3 H4 H5 H6 H7 p adj st Rd)
    as (s1 & dt & ws & E1 & R1 & W1 & D1 & T1 & N1 & U1).
  destruct (step_speeds it b dims g fx' rc' nx ny nz Hdims Hcomp' H1 H2 H3 H4 H5 H6 H7 p' adj' st' Rd')
    as (s1' & dt' & ws' & E1' & R1' & W1' & D1' & T1' & N1' & U1').
  assert (Edt : dt' = theta * dt).
  { rewrite D1, D1', Tt. now apply (dt_units (solution st) (solution st')). }
  assert (Q1 : rl (solution s1) (solution s1')).
  { intros c Hc. rewrite U1', U1 by auto. apply textbook_units; [|exact Q|exact Hc].
    rewrite Edt. destruct Hp as (Pl & _). rewrite Pl. unfold Rdiv. rewrite Rinv_mult.
    transitivity (dt * / p_len p 0%Z * (lambda * / lambda) * (/ kappa * kappa)); [ring|].
    rewrite Rinv_r, Rinv_l by lra. ring. }
  destruct (front_step V it b dims g nx ny nz sys bcV p adj obeys st s1 E1 R1) as (v & Ev & Gv & Ep).
  destruct (front_step W it b dims g nx ny nz sys' bcW p' adj' obeys' st' s1' E1' R1') as (v' & Ev' & Gv' & Ep').
  rewrite Ep, Ep'. rewrite (obeys_units v v' Gv Gv') by (now rewrite <- Ev, <- Ev').
  destruct (obeys' v').
  - left. exists s1, s1'. split; [reflexivity|]. split; [reflexivity|]. split; [exact R1|]. split; [exact R1'|]. split; [exact Q1|].
    split; [|congruence]. rewrite T1', T1, Tt, Edt. ring.
  - right. auto.
Qed.

Theorem runs_in_units u0 rest sc u0' rest' sc' n ws :
  volumes it dims g nx ny nz u0 rest sc -> volumes it dims g nx ny nz u0' rest' sc' ->
  (forall c, inside c -> vget u0' c = tau (vget u0 c)) ->
  Forall (allowed lambda theta) ws ->
  agree_in_units theta rl
    (observed_run it b dims g fx rc p obeys (u0 :: rest) sc n ws)
    (observed_run it b dims g fx' rc' p' obeys' (u0' :: rest') sc' n (map (scaled_writer lambda theta) ws)).
Proof.
  intros (V1 & V2 & V3) (V4 & V5 & V6) H0 Hw. pose proof Hfit as (H1 & H2 & H3 & H4 & H5 & H6 & H7).
  unfold observed_run, agree_in_units.
  destruct (start_ready it b dims g fx rc nx ny nz Hdims Hcomp H1 H2 H3 H4 H5 H6 (u0 :: rest) sc V1 (f_equal Datatypes.S V2) V3)
    as (st & E & Rd & T & S).
  destruct (start_ready it b dims g fx' rc' nx ny nz Hdims Hcomp' H1 H2 H3 H4 H5 H6 (u0' :: rest') sc' V4 (f_equal Datatypes.S V5) V6)
    as (st' & E' & Rd' & T' & S').
  assert (N : s_steps st = O /\ s_steps st' = O).
  { split; [clear E'|clear E; rename E' into E]; unfold start in E;
    match type of E with bind ?a _ = _ => destruct a; cbn [bind] in E; try discriminate end;
    match type of E with bind ?a _ = _ => destruct a; cbn [bind] in E; try discriminate end; injection E as <-; reflexivity. }
  rewrite E, E'. cbn [bind]. clear E E'.
  assert (Q : rl (solution st) (solution st')).
  { intros c Hc. rewrite S' by exact Hc. cbn [hd]. rewrite H0 by exact Hc. now rewrite S by exact Hc. }
  assert (Tt : s_time st' = theta * s_time st) by (rewrite T, T'; ring).
  assert (Nn : s_steps st' = s_steps st) by (destruct N; congruence).
  clear T T' S S' N. unfold full_run.
  assert (W0 : Forall2 (in_units lambda theta) (call_writers (s_time st) (map (fun w => (w, [])) ws))
    (call_writers (s_time st') (map (fun w => (w, [])) (map (scaled_writer lambda theta) ws)))).
  { rewrite Tt. apply call_scaled; [exact theta_pos|]. now apply first_scaled. }
  revert W0. generalize (call_writers (s_time st) (map (fun w => (w, [])) ws)).
  generalize (call_writers (s_time st') (map (fun w => (w, [])) (map (scaled_writer lambda theta) ws))). clear ws Hw.
  generalize (seq 0 n). intros ks. revert st st' Rd Rd' Q Tt Nn.
  induction ks as [|k ks IH]; intros st st' Rd Rd' Q Tt Nn ws' ws Hw; cbn [fold_res].
  - left. exists st, ws, st', ws'. repeat split; auto. now apply (saved_scaled lambda).
  - assert (F : full_step it sys bcV p obeys (st, ws) =
      bind (perform_step it sys bcV p (fun t => map (fun wl => tw_adjust t (fst wl)) ws) obeys st)
        (fun s1 => Ok (s1, call_writers (s_time s1) ws))) by reflexivity.
    assert (F' : full_step it sys' bcW p' obeys' (st', ws') =
      bind (perform_step it sys' bcW p' (fun t => map (fun wl => tw_adjust t (fst wl)) ws') obeys' st')
        (fun s1 => Ok (s1, call_writers (s_time s1) ws'))) by reflexivity.
    rewrite F, F'. clear F F'.
    destruct (step_units st st' (fun t => map (fun wl => tw_adjust t (fst wl)) ws) (fun t => map (fun wl => tw_adjust t (fst wl)) ws') Rd Rd' Q Tt Nn)
      as [(s1 & s1' & E1 & E1' & R1 & R1' & Q1 & T1 & N1)|[E1 E1']].
    + apply (adjusters_scaled lambda); [exact theta_pos|exact Hw].
    + rewrite E1, E1'. cbn [bind]. apply IH; auto. rewrite T1. apply call_scaled; [exact theta_pos|exact Hw].
    + rewrite E1, E1'. right. split; reflexivity.
Qed.
End Units.
