(** Two runs whose right hand sides are related by a linear map of the records and a map
    of the cells stay related. *)
From Coq Require Import ZArith Reals List Bool Lia Lra.
From Verif Require Import M_Base M_Vec M_Boundary M_Flux M_Sim S_Boundary S_Flux S_Sum S_Sim L_Base L_Loops
  L_Boundary L_Flux L_System L_Sum L_Conserve L_FluxTop L_Sim L_SimTop L_ParallelRun.
Import ListNotations.
Open Scope Z_scope.

(** ** A step, with wave speed zero in the directions that do not exist *)
Section Step.
Context {V : cvars}.
Variables (it : integrator) (b : bckind) (dims g : Z) (fx : numflux V) (rc : recon V) (nx ny nz : Z).
Hypothesis Hdims : 1 <= dims <= 3.
Hypothesis Hcomp : compatible fx rc g.
Hypothesis (Hx : 0 < nx) (Hy : 0 < ny) (Hz : 0 < nz).
Hypothesis (Gx : g <= nx) (Gy : 1 < dims -> g <= ny) (Gz : 2 < dims -> g <= nz).
Hypothesis Hcells : total_cells dims g nx ny nz < 2 ^ 31.
Notation sys := (flux_system dims g fx rc Ok).
Notation bc := (apply_boundary (bc_apply b) dims g (fun _ => false)).
Notation L := (semidiscrete (V := V) b dims g nx ny nz fx rc).

Definition speeds (u : field V) (ws : Z -> R) : Prop :=
  is_wave_speed dims g nx ny nz fx rc (filled b dims g nx ny nz u) ws /\
  forall e, dims <= e -> ws e = 0%R.

Lemma step_speeds p adj st :
  ready it b dims g nx ny nz st ->
  exists st' dt ws,
    increment_solution it sys bc p adj st = Ok st' /\ ready it b dims g nx ny nz st' /\
    speeds (solution st) ws /\
    dt = compute_timestep (p_wadj p) (adj (s_time st)) ws (p_len p) (p_cfl p) /\
    s_time st' = (s_time st + dt)%R /\ s_steps st' = S (s_steps st) /\
    forall c, interior dims g nx ny nz c -> solution st' c = textbook L it (dt / p_len p 0) (solution st) c.
Proof.
  intros Hi. apply ready_Inv in Hi.
  pose proof (ref_size dims g fx rc nx ny nz Hcomp Hx Hy Hz Hcells) as RS.
  pose proof (interior_ref dims g fx rc nx ny nz Hdims Hcomp) as IR.
  pose proof (same_ext (V := V) dims g nx ny nz) as SE.
  destruct (increment_ok (Sc := vol V * vol V * vol V) (ref dims g nx ny nz) RS (interior dims g nx ny nz) IR
    (good b dims g nx ny nz) (fun v H => proj2 (SE v) (proj1 H)) (scratch_ext dims g nx ny nz) L speeds sys bc)
    with (it := it) (p := p) (adj := adj) (st := st) as (st' & dt & ws & E & I' & S & D & T & N & W).
  - now apply (L_ext b dims g fx rc nx ny nz).
  - intros u out sc Hg Ho Hs.
    destruct (sys_ok b dims g fx rc nx ny nz Hdims Hcomp Hx Hy Hz Gx Gy Gz u out sc Hg Ho Hs)
      as (u' & out' & ws & sc' & E & G' & O' & S' & U & W & Sp).
    exists u', out', ws, sc'. split; [exact E|]. do 5 (split; [assumption|]). split; [exact Sp|].
    intros e He. unfold flux_system in E. destruct sc as [[l r] t].
    destruct (system_flux dims g fx rc Ok u (mkfstate l r t out (fun _ => 0%R))) as [[u1 s1]| |] eqn:Ef; try discriminate.
    cbn [bind] in E. injection E as _ _ <- _.
    eapply system_flat; [exact He| |exact Ef]. reflexivity.
  - intros v Hv. apply (bc_ok_serial b dims g fx rc nx ny nz Hdims Hcomp Hx Hy Hz Gx Gy Gz). now apply SE.
  - exact Hi.
  - exists st', dt, ws. rewrite (solution_cur it b dims g nx ny nz st), (solution_cur it b dims g nx ny nz st') by assumption.
    split; [exact E|]. split; [now apply ready_Inv|]. auto 10.
Qed.
End Step.

(** ** Two runs *)
Section Related.
Context {V W : cvars}.
Variables (it : integrator) (b b' : bckind) (dims dims' g g' : Z)
  (fx : numflux V) (rc : recon V) (fx' : numflux W) (rc' : recon W) (nx ny nz nx' ny' nz' : Z).
Hypothesis Hdims : 1 <= dims <= 3.
Hypothesis Hcomp : compatible fx rc g.
Hypothesis (Hx : 0 < nx) (Hy : 0 < ny) (Hz : 0 < nz).
Hypothesis (Gx : g <= nx) (Gy : 1 < dims -> g <= ny) (Gz : 2 < dims -> g <= nz).
Hypothesis Hcells : total_cells dims g nx ny nz < 2 ^ 31.
Hypothesis Hdims' : 1 <= dims' <= 3.
Hypothesis Hcomp' : compatible fx' rc' g'.
Hypothesis (Hx' : 0 < nx') (Hy' : 0 < ny') (Hz' : 0 < nz').
Hypothesis (Gx' : g' <= nx') (Gy' : 1 < dims' -> g' <= ny') (Gz' : 2 < dims' -> g' <= nz').
Hypothesis Hcells' : total_cells dims' g' nx' ny' nz' < 2 ^ 31.
Notation inside := (interior dims g nx ny nz).
Notation inside' := (interior dims' g' nx' ny' nz').
Notation L := (semidiscrete (V := V) b dims g nx ny nz fx rc).
Notation L' := (semidiscrete (V := W) b' dims' g' nx' ny' nz' fx' rc').
Notation sys := (flux_system dims g fx rc Ok).
Notation bc := (apply_boundary (bc_apply b) dims g (fun _ => false)).
Notation sys' := (flux_system dims' g' fx' rc' Ok).
Notation bc' := (apply_boundary (bc_apply b') dims' g' (fun _ => false)).

Variables (tau : V -> W) (sig : cell -> cell).
Hypothesis sig_inside : forall c, inside' c -> inside (sig c).
Hypothesis tau_add : forall a c, tau (vadd a c) = vadd (tau a) (tau c).
Hypothesis tau_scal : forall k a, tau (vscal k a) = vscal k (tau a).
Definition rel (u : field V) (u' : field W) : Prop := forall c, inside' c -> u' c = tau (u (sig c)).

Hypothesis HL : forall u u', rel u u' -> rel (L u) (L' u').

Lemma rel_plus u u' v v' : rel u u' -> rel v v' -> rel (fplus u v) (fplus u' v').
Proof. intros H K c Hc. unfold fplus. now rewrite H, K, tau_add by exact Hc. Qed.
Lemma rel_mul k u u' : rel u u' -> rel (fmul k u) (fmul k u').
Proof. intros H c Hc. unfold fmul. now rewrite H, tau_scal by exact Hc. Qed.

Lemma rel_textbook h u u' : rel u u' -> rel (textbook L it h u) (textbook L' it h u').
Proof.
  intros H. destruct it; unfold textbook, euler, heun, ssprk3, classic_rk4, euler;
    repeat first [exact H | apply rel_plus | apply rel_mul | apply HL].
Qed.

Variables (p p' : params) (obeys : vol V -> bool) (obeys' : vol W -> bool).
Hypothesis Hlen : p_len p 0 = p_len p' 0.
Hypothesis Hdt : forall u u' ws ws' adj, rel u u' ->
  speeds b dims g fx rc nx ny nz u ws -> speeds b' dims' g' fx' rc' nx' ny' nz' u' ws' ->
  compute_timestep (p_wadj p) adj ws (p_len p) (p_cfl p) = compute_timestep (p_wadj p') adj ws' (p_len p') (p_cfl p').
Hypothesis Hobeys : forall v v', good b dims g nx ny nz v -> good b' dims' g' nx' ny' nz' v' ->
  rel (vget v) (vget v') -> obeys v = obeys' v'.

Lemma front_step (X : cvars) (i : integrator) b0 d0 g0 a1 a2 a3 sy bcx pp adj ob (st st1 : sim X (vol X * vol X * vol X)) :
  increment_solution i sy bcx pp adj st = Ok st1 -> ready i b0 d0 g0 a1 a2 a3 st1 ->
  exists v, solution st1 = vget v /\ good b0 d0 g0 a1 a2 a3 v /\
    perform_step i sy bcx pp adj ob st = if ob v then Ok st1 else Throw.
Proof.
  intros E Hr. apply ready_Inv in Hr. pose proof Hr as (_ & Hl & Hg & _).
  unfold solution. destruct (s_vols st1) as [|v vs] eqn:Ev; [discriminate|]. exists v.
  split; [reflexivity|]. split; [exact Hg|].
  unfold perform_step, checked_step. rewrite E. cbn [bind]. rewrite Ev. reflexivity.
Qed.

Theorem runs_related vols vols' sc sc' adjs :
  Forall (ext dims g nx ny nz) vols -> length vols = S (substeps it) -> scratch_ext dims g nx ny nz sc ->
  Forall (ext dims' g' nx' ny' nz') vols' -> length vols' = S (substeps it) -> scratch_ext dims' g' nx' ny' nz' sc' ->
  rel (vget (hd (ref dims g nx ny nz) vols)) (vget (hd (ref dims' g' nx' ny' nz') vols')) ->
  let r := serial_run it b dims g fx rc p obeys vols sc adjs in
  let r' := serial_run it b' dims' g' fx' rc' p' obeys' vols' sc' adjs in
  (exists st st', r = Ok st /\ r' = Ok st' /\ s_time st' = s_time st /\ s_steps st' = s_steps st /\
     rel (solution st) (solution st')) \/
  (r = Throw /\ r' = Throw).
Proof.
  intros H1 H2 H3 H4 H5 H6 H0. cbv zeta. unfold serial_run.
  destruct (start_ready it b dims g fx rc nx ny nz Hdims Hcomp Hx Hy Hz Gx Gy Gz vols sc H1 H2 H3)
    as (st & E & Rd & T & S).
  destruct (start_ready it b' dims' g' fx' rc' nx' ny' nz' Hdims' Hcomp' Hx' Hy' Hz' Gx' Gy' Gz' vols' sc' H4 H5 H6)
    as (st' & E' & Rd' & T' & S').
  assert (N : s_steps st = O /\ s_steps st' = O).
  { split; [clear E'|clear E; rename E' into E]; unfold start in E;
    match type of E with bind ?a _ = _ => destruct a; cbn [bind] in E; try discriminate end;
    match type of E with bind ?a _ = _ => destruct a; cbn [bind] in E; try discriminate end; injection E as <-; reflexivity. }
  rewrite E, E'. cbn [bind]. clear E E'.
  assert (Q : rel (solution st) (solution st')).
  { intros c Hc. rewrite S' by exact Hc. rewrite H0 by exact Hc. now rewrite S by now apply sig_inside. }
  assert (Tt : s_time st' = s_time st) by now rewrite T, T'.
  assert (Nn : s_steps st' = s_steps st) by (destruct N; congruence).
  clear T T' S S' N. revert st st' Rd Rd' Q Tt Nn. unfold run.
  induction adjs as [|adj adjs IH]; intros st st' Rd Rd' Q Tt Nn; cbn [fold_res].
  - left. exists st, st'. auto.
  - destruct (step_speeds it b dims g fx rc nx ny nz Hdims Hcomp Hx Hy Hz Gx Gy Gz Hcells p adj st Rd)
      as (s1 & dt & ws & E1 & R1 & W1 & D1 & T1 & N1 & U1).
    destruct (step_speeds it b' dims' g' fx' rc' nx' ny' nz' Hdims' Hcomp' Hx' Hy' Hz' Gx' Gy' Gz' Hcells' p' adj st' Rd')
      as (s1' & dt' & ws' & E1' & R1' & W1' & D1' & T1' & N1' & U1').
    assert (Edt : dt' = dt).
    { rewrite D1, D1', Tt. symmetry. now apply (Hdt (solution st) (solution st')). }
    assert (Q1 : rel (solution s1) (solution s1')).
    { intros c Hc. rewrite U1', U1 by auto. rewrite Edt, <- Hlen. now apply rel_textbook. }
    destruct (front_step V it b dims g nx ny nz sys bc p adj obeys st s1 E1 R1) as (v & Ev & Gv & Ep).
    destruct (front_step W it b' dims' g' nx' ny' nz' sys' bc' p' adj obeys' st' s1' E1' R1') as (v' & Ev' & Gv' & Ep').
    rewrite Ep, Ep'. rewrite (Hobeys v v' Gv Gv') by (now rewrite <- Ev, <- Ev').
    destruct (obeys' v'); cbn [bind].
    + apply IH; auto; congruence.
    + right. split; reflexivity.
Qed.
End Related.
