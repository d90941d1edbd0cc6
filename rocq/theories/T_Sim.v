(** C05, C06, C09, C10, C11: the simulator and its integrators. *)
From Coq Require Import ZArith Reals List Bool Lia Lra.
From Verif Require Import M_Base M_Vec M_Boundary M_Flux M_Sim S_Boundary S_Flux S_Sum S_Sim L_Base L_Flux
  L_Sim L_SimTop L_SimProps L_SimScale.
Import ListNotations.
Open Scope Z_scope.

(** Common hypotheses: [u0] holds the initial data, [rest] are the other
    conserved volumes with arbitrary contents, [sc] the internal volumes of the
    numerical flux, [adjs] one function per step giving the timestep adjusters
    as a function of the time.  HostMemory loops over an int, hence the bound on
    the number of cells. *)

(** C05. *)
Theorem C05_run_conserves :
  forall V it dims g (fx : numflux V) rc nx ny nz p obeys u0 rest sc adjs,
  1 <= dims <= 3 -> compatible fx rc g ->
  0 < nx -> 0 < ny -> 0 < nz ->
  g <= nx -> (1 < dims -> g <= ny) -> (2 < dims -> g <= nz) ->
  total_cells dims g nx ny nz < 2 ^ 31 ->
  Forall (ext dims g nx ny nz) (u0 :: rest) -> length rest = substeps it ->
  scratch_ext dims g nx ny nz sc ->
  (exists st, serial_run it Periodic dims g fx rc p obeys (u0 :: rest) sc adjs = Ok st /\
     (forall i, isum dims g (nvec nx ny nz) (fun c => comp i (solution st c)) =
                isum dims g (nvec nx ny nz) (fun c => comp i (vget u0 c))) /\
     s_steps st = length adjs) \/
  (serial_run it Periodic dims g fx rc p obeys (u0 :: rest) sc adjs = Throw /\
   exists u, obeys u = false).
Proof.
  intros V it dims g fx rc nx ny nz p obeys u0 rest sc adjs H H0 H1 H2 H3 H4 H5 H6 H7 Hv Hl Hs.
  apply (run_conserves it Periodic dims g fx rc nx ny nz H H0 H1 H2 H3 H4 H5 H6 H7
           p obeys (u0 :: rest) sc adjs); auto. simpl. now rewrite Hl.
Qed.

(** C06. *)
Theorem C06_uniform_preserved :
  forall V it b dims g (fx : numflux V) rc nx ny nz p obeys u0 rest sc adjs a,
  1 <= dims <= 3 -> compatible fx rc g ->
  0 < nx -> 0 < ny -> 0 < nz ->
  g <= nx -> (1 < dims -> g <= ny) -> (2 < dims -> g <= nz) ->
  total_cells dims g nx ny nz < 2 ^ 31 ->
  Forall (ext dims g nx ny nz) (u0 :: rest) -> length rest = substeps it ->
  scratch_ext dims g nx ny nz sc ->
  (forall c, interior dims g nx ny nz c -> vget u0 c = a) ->
  (exists st, serial_run it b dims g fx rc p obeys (u0 :: rest) sc adjs = Ok st /\
     (forall c, interior dims g nx ny nz c -> solution st c = a) /\
     s_steps st = length adjs) \/
  (serial_run it b dims g fx rc p obeys (u0 :: rest) sc adjs = Throw /\
   exists u, obeys u = false).
Proof.
  intros V it b dims g fx rc nx ny nz p obeys u0 rest sc adjs a H H0 H1 H2 H3 H4 H5 H6 H7 Hv Hl Hs Hu.
  apply (run_uniform it b dims g fx rc nx ny nz H H0 H1 H2 H3 H4 H5 H6 H7
           p obeys (u0 :: rest) sc adjs a); auto. simpl. now rewrite Hl.
Qed.

(** C09, any right hand side: if the system computes [L] of the interior values
    (and may touch ghost cells of its input), and the boundary leaves interior
    cells alone, one step of the simulator is one step of the textbook scheme
    with one timestep dt for all stages, and the time advances by that dt. *)
Theorem C09_any_system :
  forall (V : cvars) Sc (ref : vol V) (inner : cell -> Prop) (good : vol V -> Prop) (okS : Sc -> Prop)
    (L : field V -> field V) speed_ok (sys : system V Sc) bc,
  0 <= vsize ref < 2 ^ 31 ->
  (forall c, inner c -> inr ref c) ->
  (forall v, good v -> same_dims ref v) ->
  (forall a b, (forall c, inner c -> a c = b c) -> forall c, inner c -> L a c = L b c) ->
  (forall u out sc, good u -> same_dims ref out -> okS sc ->
    exists u' out' ws sc', sys u out sc = Ok (u', out', ws, sc') /\
      good u' /\ same_dims ref out' /\ okS sc' /\
      (forall c, inner c -> vget u' c = vget u c) /\
      (forall c, inner c -> vget out' c = L (vget u) c) /\
      speed_ok (vget u) ws) ->
  (forall v, same_dims ref v ->
    exists v', bc v = Ok v' /\ good v' /\ forall c, inner c -> vget v' c = vget v c) ->
  forall it p adj st,
  inv ref good okS it st ->
  exists st' dt ws,
    increment_solution it sys bc p adj st = Ok st' /\ inv ref good okS it st' /\
    speed_ok (cur ref st) ws /\
    dt = compute_timestep (p_wadj p) (adj (s_time st)) ws (p_len p) (p_cfl p) /\
    s_time st' = (s_time st + dt)%R /\ s_steps st' = S (s_steps st) /\
    forall c, inner c -> cur ref st' c = textbook L it (dt / p_len p 0) (cur ref st) c.
Proof.
  intros V Sc ref inner good okS L speed_ok sys bc H1 H2 H3 H4 H5 H6.
  exact (increment_ok ref H1 inner H2 good H3 okS L speed_ok sys bc H4 H5 H6).
Qed.

(** C09 for the finite volume system: [semidiscrete] is flux in minus flux out
    of the field with filled ghost cells; the scheme is run with dt / dx. *)
Theorem C09_step_is_textbook :
  forall V it b dims g (fx : numflux V) rc nx ny nz p adj st,
  1 <= dims <= 3 -> compatible fx rc g ->
  0 < nx -> 0 < ny -> 0 < nz ->
  g <= nx -> (1 < dims -> g <= ny) -> (2 < dims -> g <= nz) ->
  total_cells dims g nx ny nz < 2 ^ 31 ->
  ready it b dims g nx ny nz st ->
  exists st' dt ws,
    increment_solution it (flux_system dims g fx rc Ok)
      (apply_boundary (bc_apply b) dims g (fun _ => false)) p adj st = Ok st' /\
    ready it b dims g nx ny nz st' /\
    is_wave_speed dims g nx ny nz fx rc (filled b dims g nx ny nz (solution st)) ws /\
    dt = compute_timestep (p_wadj p) (adj (s_time st)) ws (p_len p) (p_cfl p) /\
    s_time st' = (s_time st + dt)%R /\ s_steps st' = S (s_steps st) /\
    forall c, interior dims g nx ny nz c ->
      solution st' c =
      textbook (semidiscrete b dims g nx ny nz fx rc) it (dt / p_len p 0) (solution st) c.
Proof.
  intros V it b dims g fx rc nx ny nz p adj st H H0 H1 H2 H3 H4 H5 H6 H7.
  exact (step_ready it b dims g fx rc nx ny nz H H0 H1 H2 H3 H4 H5 H6 H7 p adj st).
Qed.

(** States satisfying [ready] arise from every initial datum. *)
Theorem C09_start_is_ready :
  forall V it b dims g (fx : numflux V) rc nx ny nz u0 rest sc,
  1 <= dims <= 3 -> compatible fx rc g ->
  0 < nx -> 0 < ny -> 0 < nz ->
  g <= nx -> (1 < dims -> g <= ny) -> (2 < dims -> g <= nz) ->
  Forall (ext dims g nx ny nz) (u0 :: rest) -> length rest = substeps it ->
  scratch_ext dims g nx ny nz sc ->
  exists st, start (apply_boundary (bc_apply b) dims g (fun _ => false)) (u0 :: rest) sc = Ok st /\
    ready it b dims g nx ny nz st /\ s_time st = 0%R /\
    forall c, interior dims g nx ny nz c -> solution (V := V) st c = vget u0 c.
Proof.
  intros V it b dims g fx rc nx ny nz u0 rest sc H H0 H1 H2 H3 H4 H5 H6 Hv Hl Hs.
  apply (start_ready it b dims g fx rc nx ny nz H H0 H1 H2 H3 H4 H5 H6 (u0 :: rest) sc); auto.
  simpl. now rewrite Hl.
Qed.

(** Orders 1, 2, 3, 4 on linear problems: the step is the Taylor polynomial of
    exp(h L) of that order. *)
Theorem C09_linear_order :
  forall V (L : field V -> field V), linear L ->
  forall it h u c, textbook L it h u c = taylor L (order it) h u c.
Proof. exact @textbook_taylor. Qed.

(** C10 on grids with equal cell lengths in the active directions: explicit
    Euler adds dt times the differences divided by their own cell length. *)
Theorem C10_equal_lengths_partial :
  forall V b dims g (fx : numflux V) rc nx ny nz p adj st,
  1 <= dims <= 3 -> compatible fx rc g ->
  0 < nx -> 0 < ny -> 0 < nz ->
  g <= nx -> (1 < dims -> g <= ny) -> (2 < dims -> g <= nz) ->
  total_cells dims g nx ny nz < 2 ^ 31 ->
  ready ForwardEuler b dims g nx ny nz st ->
  (forall d, 0 <= d < dims -> p_len p d = p_len p 0) ->
  exists st' dt,
    increment_solution ForwardEuler (flux_system dims g fx rc Ok)
      (apply_boundary (bc_apply b) dims g (fun _ => false)) p adj st = Ok st' /\
    s_time st' = (s_time st + dt)%R /\
    forall c, interior dims g nx ny nz c ->
      solution st' c = vadd (solution st c)
        (scaled_update dims fx rc (p_len p) dt (filled b dims g nx ny nz (solution st)) c).
Proof.
  intros V b dims g fx rc nx ny nz p adj st H H0 H1 H2 H3 H4 H5 H6 H7 Hr Hlen.
  destruct (step_ready ForwardEuler b dims g fx rc nx ny nz H H0 H1 H2 H3 H4 H5 H6 H7 p adj st Hr)
    as (st' & dt & ws & E & _ & _ & _ & T & _ & W).
  exists st', dt. split; [exact E|]. split; [exact T|]. intros c Hc. rewrite W by exact Hc.
  rewrite scaled_update_square by exact Hlen. reflexivity.
Qed.

(** C10 fails whenever dx and dy differ: on a periodic 1 x 2 grid with unit
    speeds the cell (1, 1) receives dt / dx where dt / dy is due. *)
Theorem C10_direction_scaling_refuted :
  forall lx ly, (0 < lx)%R -> (0 < ly)%R -> lx <> ly ->
  exists st dt, sc_run lx ly = Ok st /\ (0 < dt)%R /\ s_time st = dt /\
    solution st (1, 1, 0) <>
    vadd (vget sc_u (1, 1, 0))
      (scaled_update 2 sc_fx no_reconstruction (p_len (sc_p lx ly)) dt
        (filled Periodic 2 1 1 2 1 (vget sc_u)) (1, 1, 0)).
Proof.
  intros lx ly Px Py N. destruct (sc_step lx ly Px Py) as (st & dt & E & P & T & S & U).
  exists st, dt. split; [exact E|]. split; [exact P|]. split; [exact T|].
  rewrite S, U. intros X. apply N. apply Rplus_eq_reg_l in X.
  apply (Rmult_eq_compat_l (lx * ly / dt)) in X.
  replace (lx * ly / dt * (dt / lx))%R with ly in X by (field; lra).
  replace (lx * ly / dt * (dt / ly))%R with lx in X by (field; lra). congruence.
Qed.

(** C11.  A direction with cell length 0 is skipped.  Without wave speed
    adjusters (they are used with MPI only). *)
Theorem C11_cfl_condition :
  forall ws len cfl adj,
  (0 < cfl)%R -> (forall d, dir d -> 0 <= ws d)%R -> (forall d, dir d -> 0 <= len d)%R ->
  (exists d, dir d /\ 0 < ws d /\ 0 < len d)%R ->
  (forall f x, In f adj -> (f x <= x)%R) ->
  let speed := fold_right Rplus 0%R
    (map (fun d => if Req_EM_T (len d) 0 then 0%R else (ws d / len d)%R) [0; 1; 2]) in
  (0 < compute_timestep [] [] ws len cfl /\
   compute_timestep [] [] ws len cfl * speed = cfl /\
   compute_timestep [] adj ws len cfl <= compute_timestep [] [] ws len cfl /\
   compute_timestep [] adj ws len cfl * speed <= cfl)%R.
Proof. exact timestep_cfl. Qed.

(** Nontrivial instances. *)
Example C05_nonvacuous :
  exists st, sc_run 1 1 = Ok st /\ (solution st (1, 1, 0) <> vget sc_u (1, 1, 0)) /\
    compatible sc_fx no_reconstruction 1 /\ ext 2 1 1 2 1 sc_u.
Proof.
  destruct (sc_step 1 1) as (st & dt & E & P & _ & S & _); try lra.
  exists st. split; [exact E|]. split; [|split; [split; [simpl; lia|exact I]|repeat split]].
  rewrite S. change (vget sc_u (1, 1, 0)) with 1%R. intros X.
  apply (Rplus_eq_compat_l (-1)) in X. field_simplify in X. lra.
Qed.
Example C09_linear_nonvacuous :
  linear (V := scalar_cvars) (fun u c => vscal (3)%R (u c)).
Proof.
  split; [|split]; intros; cbn; unfold fplus, fmul; cbn; try ring. now rewrite H.
Qed.
Example C11_nonvacuous :
  (0 < compute_timestep [] [Rmin (1 / 10)] (fun _ => 2%R) (fun d => if d =? 2 then 0%R else 1%R) 1
   <= 1 / 10)%R.
Proof.
  unfold compute_timestep. rewrite wave_total_eq. change (zrange 0 3) with [0; 1; 2].
  cbn [map fold_right fold_left Z.eqb Pos.eqb].
  destruct (Req_EM_T 1 0); [lra|]. destruct (Req_EM_T 0 0); [|lra].
  split; [apply Rmin_glb_lt; lra|apply Rmin_l].
Qed.

Print Assumptions C05_run_conserves.
Print Assumptions C06_uniform_preserved.
Print Assumptions C09_any_system.
Print Assumptions C09_step_is_textbook.
Print Assumptions C09_start_is_ready.
Print Assumptions C09_linear_order.
Print Assumptions C10_equal_lengths_partial.
Print Assumptions C10_direction_scaling_refuted.
Print Assumptions C11_cfl_condition.
