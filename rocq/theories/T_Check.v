(** C50: no simulation continues from an inadmissible state. *)
From Coq Require Import ZArith Reals List Bool Lia Lra.
From Flocq Require Import Core BinarySingleNaN.
From Verif Require Import M_Base M_Vec M_Boundary M_Flux M_Foreach L_Base L_Foreach M_Sim M_TimeFloat M_Check S_Check L_Check.
Import ListNotations.
Open Scope Z_scope.

Definition sized {A} (v : vol A) : Prop :=
  1 <= vnx v /\ 1 <= vny v /\ 1 <= vnz v /\ vnx v * vny v * vnz v < two64.

(** The check decides admissibility of all cells, for every content including
    infinities and not-a-numbers. *)
Theorem C50_check_scalar : forall v, sized v -> all_cells (fun c => length c = 1%nat) v ->
  exists b, obeys_constraints fe_scalar v = Ok b /\ (b = true <-> all_cells scalar_admissible v).
Proof.
  intros v (H1 & H2 & H3 & H4) L. destruct (obeys_spec fe_scalar v H1 H2 H3 H4) as (b & E & Q).
  exists b. split; auto. rewrite Q. unfold all_cells in *. split; intros H x y z Hx Hy Hz; apply scalar_obeys; auto.
Qed.
Theorem C50_check_euler : forall gamma d v, sized v -> all_cells (fun c => length c = (d + 2)%nat) v ->
  exists b, obeys_constraints (fe_euler gamma) v = Ok b /\ (b = true <-> all_cells (euler_admissible gamma d) v).
Proof.
  intros gamma d v (H1 & H2 & H3 & H4) L. destruct (obeys_spec (fe_euler gamma) v H1 H2 H3 H4) as (b & E & Q).
  exists b. split; auto. rewrite Q. unfold all_cells in *.
  split; intros H x y z Hx Hy Hz; apply (euler_obeys gamma d); auto.
Qed.

(** Whatever the scheme computes: all volumes handed to the writers after any
    number of steps are admissible. *)
Theorem C50_snapshots_admissible : forall St (inc : St -> res St) front gamma d n st st' l,
  (forall s v, front s = Ok v -> sized v /\ all_cells (fun c => length c = (d + 2)%nat) v) ->
  logging_run inc front (fe_euler gamma) n st = Ok (st', l) ->
  length l = n /\ Forall (all_cells (euler_admissible gamma d)) l.
Proof.
  intros St inc front gamma d n st st' l Hf E. destruct (logging_run_log _ _ _ _ _ _ _ E) as (L & A & B).
  split; [exact L|]. apply Forall_forall. intros v Hv. pose proof (A v Hv) as O.
  destruct (In_nth_error _ _ Hv) as [k Hk]. destruct (B k v Hk) as (s & _ & Fs).
  destruct (Hf s v Fs) as [Sz Le]. destruct (C50_check_euler gamma d v Sz Le) as (b & Eb & Q).
  apply Q. unfold obeys_bool in O. now rewrite Eb in O.
Qed.
Theorem C50_snapshots_admissible_scalar : forall St (inc : St -> res St) front n st st' l,
  (forall s v, front s = Ok v -> sized v /\ all_cells (fun c => length c = 1%nat) v) ->
  logging_run inc front fe_scalar n st = Ok (st', l) ->
  length l = n /\ Forall (all_cells scalar_admissible) l.
Proof.
  intros St inc front n st st' l Hf E. destruct (logging_run_log _ _ _ _ _ _ _ E) as (L & A & B).
  split; [exact L|]. apply Forall_forall. intros v Hv. pose proof (A v Hv) as O.
  destruct (In_nth_error _ _ Hv) as [k Hk]. destruct (B k v Hk) as (s & _ & Fs).
  destruct (Hf s v Fs) as [Sz Le]. destruct (C50_check_scalar v Sz Le) as (b & Eb & Q).
  apply Q. unfold obeys_bool in O. now rewrite Eb in O.
Qed.
(** A step that produces an inadmissible state throws; an admissible one does not. *)
Theorem C50_step_throws : forall St (inc : St -> res St) front gamma d st st' u,
  inc st = Ok st' -> front st' = Ok u -> sized u -> all_cells (fun c => length c = (d + 2)%nat) u ->
  (all_cells (euler_admissible gamma d) u -> checked_step inc front (obeys_bool (fe_euler gamma)) st = Ok st') /\
  (~ all_cells (euler_admissible gamma d) u -> checked_step inc front (obeys_bool (fe_euler gamma)) st = Throw).
Proof.
  intros St inc front gamma d st st' u E1 E2 Sz Le. destruct (C50_check_euler gamma d u Sz Le) as (b & Eb & Q).
  unfold checked_step. rewrite E1. cbn [bind]. rewrite E2. cbn [bind]. unfold obeys_bool. rewrite Eb.
  destruct b; split; intros H; auto; exfalso.
  - apply H. now apply Q.
  - apply Q in H. discriminate.
Qed.
(** The simulator model of C05-C12 performs the same check. *)
Theorem C50_simulator_checks : forall (V : cvars) Sc it (sys : system V Sc) bc p obeys adjs st st',
  run it sys bc p obeys adjs st = Ok st' -> adjs <> [] ->
  exists u, vat (s_vols st') 0 = Ok u /\ obeys u = true.
Proof.
  intros V Sc it sys bc p obeys adjs st st' E Hne. destruct (exists_last Hne) as (l & a & ->).
  unfold run in E. rewrite fold_res_app in E. destruct (fold_res _ l st) as [s1| |]; cbn [bind fold_res] in E; try discriminate.
  unfold perform_step, checked_step in E. destruct (increment_solution _ _ _ _ _ s1) as [s2| |]; cbn [bind] in E; try discriminate.
  destruct (vat (s_vols s2) 0) as [u| |] eqn:E2; cbn [bind] in E; try discriminate.
  destruct (obeys u) eqn:O; cbn [bind] in E; try discriminate. injection E as <-. eauto.
Qed.

(** Two cells of gas at rest in one dimension, then one with a NaN, one with an
    infinite energy, one with negative pressure. *)
Definition c50_vol (E2 : f64) : vol (list f64) :=
  mkvol 2 1 1 (fun i => if i =? 0 then [fofZ 1; fofZ 0; fofZ 2] else [fofZ 1; fofZ 1; E2]).
Example C50_accepts : obeys_constraints (fe_euler (fofZ 2)) (c50_vol (fofZ 2)) = Ok true.
Proof. vm_compute. reflexivity. Qed.
Example C50_rejects :
  obeys_constraints (fe_euler (fofZ 2)) (c50_vol B754_nan) = Ok false /\
  obeys_constraints (fe_euler (fofZ 2)) (c50_vol (B754_infinity false)) = Ok false /\
  obeys_constraints (fe_euler (fofZ 2)) (c50_vol fzero) = Ok false.
Proof. repeat split; vm_compute; reflexivity. Qed.
(** Burgers' own test accepts minus infinity, the generic one does not. *)
Example C50_minus_infinity :
  fe_obeys fe_scalar [B754_infinity true] [] = true /\
  obeys_constraints fe_scalar (mkvol 1 1 1 (fun _ => [B754_infinity true])) = Ok false.
Proof. split; vm_compute; reflexivity. Qed.
Example C50_run :
  let v := c50_vol (fofZ 2) in
  logging_run (fun s => Ok s) (fun _ => Ok v) (fe_euler (fofZ 2)) 3 tt = Ok (tt, [v; v; v]).
Proof.
  intros v. assert (O : obeys_bool (fe_euler (fofZ 2)) v = true) by (unfold obeys_bool, v; now rewrite C50_accepts).
  unfold logging_run, logging_step, checked_step. cbn [seq fold_res fst snd bind app]. rewrite O.
  reflexivity.
Qed.

Print Assumptions C50_check_scalar.
Print Assumptions C50_check_euler.
Print Assumptions C50_snapshots_admissible.
Print Assumptions C50_snapshots_admissible_scalar.
Print Assumptions C50_step_throws.
Print Assumptions C50_simulator_checks.
