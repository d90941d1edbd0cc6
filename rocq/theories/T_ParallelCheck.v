(** C84: steps refused by a decomposed run and by the serial run. *)
From Coq Require Import ZArith Reals List Bool Lia Lra.
From Verif Require Import M_Base M_Vec M_Boundary M_Flux M_Sim M_Mpi M_Parallel M_ParallelCheck M_Storage S_Boundary
  S_Flux S_Sum S_Sim S_Mpi S_Parallel S_Symmetry S_ParallelCheck S_Euler L_Base L_Loops L_Boundary L_Flux L_System L_FluxTop
  L_Sim L_SimTop L_Decomp L_Match L_Parallel L_ParallelRun L_ParallelStep L_ParallelCheck L_Storage L_Related L_Forced
  L_Calm M_Euler.
Import ListNotations.
Open Scope Z_scope.

Lemma fold_nonneg (l : list (R -> R)) x : (forall f, In f l -> forall y, (0 <= y -> 0 <= f y)%R) -> (0 <= x)%R ->
  (0 <= fold_left (fun w f => f w) l x)%R.
Proof.
  revert x. induction l as [|f l IH]; intros x H Hx; cbn [fold_left]; [exact Hx|].
  apply IH; [intros; apply H; auto; now right|]. apply H; [now left|exact Hx].
Qed.
Lemma inv_nonneg x : (0 <= x -> 0 <= / x)%R.
Proof. intros [H| <-]; [left; now apply Rinv_0_lt_compat|]. rewrite Rinv_0. lra. Qed.
Lemma forward_steps prm adjs adj : forward prm adjs -> In adj adjs -> steps_forward prm adj.
Proof.
  intros (H1 & H2 & H3 & H4 & H5) Ha t ws Hws. unfold compute_timestep.
  apply fold_nonneg; [intros f Hf; now apply (H5 adj Ha t f Hf)|].
  unfold Rdiv. apply Rmult_le_pos; [exact H1|]. apply inv_nonneg. unfold wave_total.
  change (zrange 0 3) with [0; 1; 2].
  assert (K : forall d acc, 0 <= d < 3 -> (0 <= acc)%R ->
    (0 <= if Req_EM_T (p_len prm d) 0 then acc else acc + fold_left (fun w f => f w) (p_wadj prm) (ws d) / p_len prm d)%R).
  { intros d acc Hd Hacc. destruct (Req_EM_T (p_len prm d) 0); [exact Hacc|].
    apply Rplus_le_le_0_compat; [exact Hacc|]. apply Rmult_le_pos; [|apply inv_nonneg; now apply H3].
    apply fold_nonneg; [exact H4|now apply Hws]. }
  cbn [fold_left]. apply K; [lia|]. apply K; [lia|]. apply K; [lia|lra].
Qed.

Lemma serial_from {V : cvars} it b dims g (fx : numflux V) rc prm ob vols sc adjs s0 :
  M_Sim.start (apply_boundary (bc_apply b) dims g (fun _ => false)) vols sc = Ok s0 ->
  serial_run it b dims g fx rc prm ob vols sc adjs =
  run it (flux_system dims g fx rc Ok) (apply_boundary (bc_apply b) dims g (fun _ => false)) prm ob adjs s0.
Proof. intros E. unfold serial_run. now rewrite E. Qed.

Lemma start_spare {V : cvars} {W : Type} bc (v0 : vol V) rest (sc : W) s :
  M_Sim.start bc (v0 :: rest) sc = Ok s -> exists w, s_vols s = w :: rest.
Proof.
  unfold M_Sim.start. cbn [vat nth_error bind]. destruct (bc v0) as [w| |]; cbn [bind]; try discriminate.
  intros E. injection E as <-. now exists w.
Qed.

Lemma start_front {V : cvars} {W : Type} bc (v0 v' : vol V) rest (sc : W) s :
  bc v0 = Ok v' -> M_Sim.start bc (v0 :: rest) sc = Ok s -> s_time s = 0%R /\ s_vols s = v' :: rest.
Proof.
  intros E. unfold M_Sim.start. cbn [vat nth_error bind]. rewrite E. cbn [bind].
  intros H. injection H as <-. now split.
Qed.

Section Common.
Context {V : cvars} {St : storage V}.
Variables (it : integrator) (b : bckind) (p : cell) (gr : grid) (junk : Z -> Z -> Z) (dims g nvars : Z).
Variables (lgs : Z -> grid) (nbs : Z -> Z -> Z) (fx : numflux V) (rc : recon V).

(** A grid decomposed over the processes, a serial simulator and one simulator for every
    process, holding the same interior cells (as in C58). *)
Definition decomposed (vols : list (vol V)) (sc : scratch V) (lvols : Z -> list (vol V)) (lsc : Z -> scratch V)
    (d0 : vol V) : Prop :=
  S_Mpi.fits p (gr_cells gr) dims g /\ (forall i, gr_bc gr i = side_type b) /\
  record_of V nvars /\ compatible fx rc g /\
  (forall r, 0 <= r < processes p -> decompose p gr r (junk r) = Ok (lgs r, nbs r)) /\
  total_cells dims g (at3 (gr_cells gr) 0) (at3 (gr_cells gr) 1) (at3 (gr_cells gr) 2) < 2 ^ 31 /\
  Forall (ext3 dims g (gr_cells gr)) vols /\ length vols = S (substeps it) /\
  scratch_ext dims g (at3 (gr_cells gr) 0) (at3 (gr_cells gr) 1) (at3 (gr_cells gr) 2) sc /\
  (forall r, 0 <= r < processes p ->
     Forall (ext3 dims g (gr_cells (lgs r))) (lvols r) /\ length (lvols r) = S (substeps it) /\
     scratch_ext dims g (at3 (gr_cells (lgs r)) 0) (at3 (gr_cells (lgs r)) 1) (at3 (gr_cells (lgs r)) 2) (lsc r)) /\
  distributed dims g (processes p) lgs (vget (hd d0 vols)) (fun r => vget (hd d0 (lvols r))).

(** The processes after Simulator::setInitialValue. *)
Definition started (lvols : Z -> list (vol V)) (lsc : Z -> scratch V) (st0 : Z -> sim V (scratch V)) : Prop :=
  forall r, 0 <= r < processes p -> M_Sim.start (local_bc b g lgs r) (lvols r) (lsc r) = Ok (st0 r).

Lemma decomposed_start vols sc lvols lsc d0 st0 : decomposed vols sc lvols lsc d0 -> started lvols lsc st0 ->
  exists sst0, M_Sim.start (apply_boundary (bc_apply b) dims g (fun _ => false)) vols sc = Ok sst0 /\
    matches it b p gr dims g lgs sst0 st0.
Proof.
  intros (Hfit & Hbcs & Hrec & Hcomp & Hdec & Hcells & Hv & Hl & Hs & Hb & Hd) H0.
  destruct (start_matches it b p gr junk dims g lgs nbs fx rc Hfit Hbcs Hcomp Hdec vols sc lvols lsc Hv Hl Hs Hb)
    as (sst0 & st1 & E0 & E1 & M0).
  { intros r c Hr Hc. specialize (Hd r c Hr Hc). destruct (Hb r Hr) as (_ & L & _). cbv beta in *.
    destruct (lvols r); [discriminate|]. destruct vols; [discriminate|]. exact Hd. }
  exists sst0. split; [exact E0|]. destruct M0 as (M1 & M2). split; [exact M1|]. intros r Hr.
  assert (E : st0 r = st1 r) by (specialize (E1 r Hr); rewrite (H0 r Hr) in E1; now injection E1). rewrite E. now apply M2.
Qed.

Lemma decomposed_starts vols sc lvols lsc d0 : decomposed vols sc lvols lsc d0 -> exists st0, started lvols lsc st0.
Proof.
  intros (Hfit & Hbcs & Hrec & Hcomp & Hdec & Hcells & Hv & Hl & Hs & Hb & Hd).
  destruct (start_matches it b p gr junk dims g lgs nbs fx rc Hfit Hbcs Hcomp Hdec vols sc lvols lsc Hv Hl Hs Hb)
    as (sst0 & st1 & E0 & E1 & M0).
  { intros r c Hr Hc. specialize (Hd r c Hr Hc). destruct (Hb r Hr) as (_ & L & _). cbv beta in *.
    destruct (lvols r); [discriminate|]. destruct vols; [discriminate|]. exact Hd. }
  now exists st1.
Qed.
End Common.

(** The checks of the blocks, seen through the common size of the blocks. *)
Lemma blocks_size {V : cvars} {p gr junk dims g lgs nbs} {ok : V -> bool} {obeysn} :
  S_Mpi.fits p (gr_cells gr) dims g ->
  (forall r, 0 <= r < processes p -> decompose p gr r (junk r) = Ok (lgs r, nbs r)) ->
  blocks_check dims g (processes p) lgs ok obeysn ->
  forall r, 0 <= r < processes p ->
    checks_all dims g (at3 (per3 p (gr_cells gr)) 0) (at3 (per3 p (gr_cells gr)) 1) (at3 (per3 p (gr_cells gr)) 2) ok (obeysn r).
Proof.
  intros Hfit Hdec H r Hr. specialize (H r Hr). now rewrite (cells_at p gr junk dims g lgs nbs Hfit Hdec r Hr) in H.
Qed.

(** ** C84

    Every process checks its own volume after every step, the serial simulator its one
    volume.  A decomposed run that is never refused computes the serial run, which is then
    not refused either. *)
Theorem C84_accepted :
  forall (V : cvars) (St : storage V) it b p gr junk dims g nvars lgs nbs (fx : numflux V) (rc : recon V) prm adjs
    vols sc lvols lsc d0 ok obeysN obeysn st0 st,
  decomposed it b p gr junk dims g nvars lgs nbs fx rc vols sc lvols lsc d0 ->
  checks_all dims g (at3 (gr_cells gr) 0) (at3 (gr_cells gr) 1) (at3 (gr_cells gr) 2) ok obeysN ->
  blocks_check dims g (processes p) lgs ok obeysn ->
  started b p g lgs lvols lsc st0 ->
  world_checked it b p gr junk g nvars (processes p) lgs fx rc prm obeysn adjs st0 (Finished st) ->
  exists sst, serial_run it b dims g fx rc prm obeysN vols sc adjs = Ok sst /\
    distributed dims g (processes p) lgs (solution sst) (fun r => solution (st r)) /\
    forall r, 0 <= r < processes p -> s_time (st r) = s_time sst /\ s_steps (st r) = s_steps sst.
Proof.
  intros V St it b p gr junk dims g nvars lgs nbs fx rc prm adjs vols sc lvols lsc d0 ok obeysN obeysn st0 st HD HN Hb H0 Hrun.
  destruct (decomposed_start it b p gr junk dims g nvars lgs nbs fx rc vols sc lvols lsc d0 st0 HD H0) as (sst0 & E0 & M0).
  destruct HD as (Hfit & Hbcs & Hrec & Hcomp & Hdec & Hcells & _).
  destruct (checked_run it b p gr junk dims g nvars lgs nbs fx rc prm Hfit Hbcs Hrec Hcomp Hdec Hcells ok obeysN obeysn HN
    (blocks_size Hfit Hdec Hb) adjs sst0 st0 st M0 Hrun) as (sst & E & M).
  exists sst. split; [exact (eq_trans (serial_from it b dims g fx rc prm obeysN vols sc adjs sst0 E0) E)|].
  split; [now apply (matches_solution it b p gr junk dims g lgs nbs Hfit Hdec sst st M)|]. intros r Hr. now apply M.
Qed.

(** So what the serial simulator refuses, the processes refuse; they always come to an
    end, one way or the other. *)
Theorem C84_refused :
  forall (V : cvars) (St : storage V) it b p gr junk dims g nvars lgs nbs (fx : numflux V) (rc : recon V) prm adjs
    vols sc lvols lsc d0 ok obeysN obeysn st0,
  decomposed it b p gr junk dims g nvars lgs nbs fx rc vols sc lvols lsc d0 ->
  checks_all dims g (at3 (gr_cells gr) 0) (at3 (gr_cells gr) 1) (at3 (gr_cells gr) 2) ok obeysN ->
  blocks_check dims g (processes p) lgs ok obeysn ->
  started b p g lgs lvols lsc st0 ->
  (exists o, world_checked it b p gr junk g nvars (processes p) lgs fx rc prm obeysn adjs st0 o) /\
  (serial_run it b dims g fx rc prm obeysN vols sc adjs = Throw ->
   forall o, world_checked it b p gr junk g nvars (processes p) lgs fx rc prm obeysn adjs st0 o -> o = Refused).
Proof.
  intros V St it b p gr junk dims g nvars lgs nbs fx rc prm adjs vols sc lvols lsc d0 ok obeysN obeysn st0 HD HN Hb H0.
  destruct (decomposed_start it b p gr junk dims g nvars lgs nbs fx rc vols sc lvols lsc d0 st0 HD H0) as (sst0 & E0 & M0).
  split.
  - destruct HD as (Hfit & Hbcs & Hrec & Hcomp & Hdec & Hcells & _).
    apply (checked_possible it b p gr junk dims g nvars lgs nbs fx rc prm Hfit Hbcs Hrec Hcomp Hdec Hcells obeysn adjs sst0 st0 M0).
  - intros Ht o Ho. destruct o as [st|]; [|reflexivity].
    destruct (C84_accepted V St it b p gr junk dims g nvars lgs nbs fx rc prm adjs vols sc lvols lsc d0 ok obeysN obeysn st0 st
      HD HN Hb H0 Ho) as (sst & E & _). congruence.
Qed.

(** The converse holds on a line, with forward Euler and an admissible set that is a cone,
    when the initial values and whatever the spare volumes hold are admissible: then the
    processes refuse nothing that the serial simulator accepts.  It is false in general
    (C84_refuted), since the check also looks at ghost cells that nobody has filled. *)
Theorem C84_line_partial :
  forall (V : cvars) (St : storage V) b p gr junk g nvars lgs nbs (fx : numflux V) (rc : recon V) prm adjs
    vols sc lvols lsc d0 ok obeysN obeysn st0 sst,
  decomposed ForwardEuler b p gr junk 1 g nvars lgs nbs fx rc vols sc lvols lsc d0 ->
  checks_all 1 g (at3 (gr_cells gr) 0) (at3 (gr_cells gr) 1) (at3 (gr_cells gr) 2) ok obeysN ->
  blocks_check 1 g (processes p) lgs ok obeysn ->
  cone ok -> forward prm adjs ->
  (forall c, interior3 1 g (gr_cells gr) c -> ok (vget (hd d0 vols) c) = true) ->
  (forall r c, 0 <= r < processes p ->
     in_volume 1 g (at3 (gr_cells (lgs r)) 0) (at3 (gr_cells (lgs r)) 1) (at3 (gr_cells (lgs r)) 2) c ->
     ok (vget (nth 1 (lvols r) d0) c) = true) ->
  started b p g lgs lvols lsc st0 ->
  serial_run ForwardEuler b 1 g fx rc prm obeysN vols sc adjs = Ok sst ->
  forall o, world_checked ForwardEuler b p gr junk g nvars (processes p) lgs fx rc prm obeysn adjs st0 o ->
  exists st, o = Finished st.
Proof.
  intros V St b p gr junk g nvars lgs nbs fx rc prm adjs vols sc lvols lsc d0 ok obeysN obeysn st0 sst HD HN Hb Hc Hf Hi Hsp H0 Hrun o Ho.
  destruct (decomposed_start ForwardEuler b p gr junk 1 g nvars lgs nbs fx rc vols sc lvols lsc d0 st0 HD H0) as (sst0 & E0 & M0).
  pose proof HD as (Hfit & Hbcs & Hrec & Hcomp & Hdec & Hcells & Hv & Hl & _ & Hbl & _).
  pose proof (eq_trans (eq_sym (serial_from ForwardEuler b 1 g fx rc prm obeysN vols sc adjs sst0 E0)) Hrun) as Hrun'.
  refine (line_run ForwardEuler b p gr junk 1 g nvars lgs nbs fx rc prm Hfit Hbcs Hrec Hcomp Hdec Hcells ok obeysN obeysn HN
    (blocks_size Hfit Hdec Hb) eq_refl eq_refl Hc (proj1 (proj2 Hf)) adjs (fun adj Ha => forward_steps prm adjs adj Hf Ha)
    sst0 st0 sst o M0 _ _ Hrun' Ho).
  - intros c Hin. destruct M0 as ((_ & _ & _ & G) & _). rewrite (proj2 G c Hin).
    pose proof (imN_inner b p gr 1 g fx rc Hfit Hcomp c Hin) as Hi'.
    destruct (serial_bc_ok b p gr 1 g fx rc Hfit Hcomp (hd d0 vols)) as (v' & E & _ & K).
    { apply same_extN. destruct vols; [discriminate|]. now inversion Hv. }
    unfold M_Sim.start in E0. destruct vols as [|v0 vs]; [discriminate|]. cbn [vat nth_error bind hd] in *.
    rewrite E in E0. cbn [bind] in E0. injection E0 as <-. cbn [s_vols vset nth]. rewrite K by exact Hi'. apply Hi.
    apply interior3_inner; [lia|exact Hi'].
  - intros r c Hr Hin. specialize (H0 r Hr). destruct (Hbl r Hr) as (_ & L & _). specialize (Hsp r c Hr).
    rewrite (cells_at p gr junk 1 g lgs nbs Hfit Hdec r Hr) in Hsp. specialize (Hsp Hin).
    unfold M_Sim.start in H0. destruct (lvols r) as [|v0 [|v1 vs]]; try discriminate. cbn [vat nth_error bind] in H0.
    destruct (local_bc b g lgs r v0) as [v'| |]; cbn [bind] in H0; try discriminate. injection H0 as <-.
    cbn [s_vols vset nth] in *. exact Hsp.
Qed.

(** A check of all cells of a volume. *)
Definition cell_list (nx ny nz : Z) : list cell :=
  flat_map (fun x => flat_map (fun y => map (fun z => (x, y, z)) (zrange 0 nz)) (zrange 0 ny)) (zrange 0 nx).
Definition check_cells {V : cvars} (ok : V -> bool) (v : vol V) : bool :=
  forallb (fun c => ok (vget v c)) (cell_list (vnx v) (vny v) (vnz v)).
Lemma cell_list_In nx ny nz x y z : In (x, y, z) (cell_list nx ny nz) <-> 0 <= x < nx /\ 0 <= y < ny /\ 0 <= z < nz.
Proof.
  unfold cell_list. rewrite in_flat_map. split.
  - intros (a & Ha & H). apply in_flat_map in H. destruct H as (b' & Hb & H). apply in_map_iff in H.
    destruct H as (c & E & Hc). injection E as <- <- <-. rewrite !zrange_In in *. auto.
  - intros (A & B & C). exists x. split; [now apply zrange_In|]. apply in_flat_map. exists y. split; [now apply zrange_In|].
    apply in_map_iff. exists z. split; [reflexivity|now apply zrange_In].
Qed.
Lemma check_cells_all {V : cvars} dims g nx ny nz (ok : V -> bool) : checks_all dims g nx ny nz ok (check_cells ok).
Proof.
  intros v (E1 & E2 & E3). unfold check_cells. rewrite forallb_forall. split.
  - intros H [[x y] z] Hc. apply H. apply cell_list_In. unfold in_volume in Hc. rewrite E1, E2, E3.
    destruct (1 <? dims), (2 <? dims); lia.
  - intros H [[x y] z] Hc. apply cell_list_In in Hc. apply H. unfold in_volume. rewrite E1, E2, E3 in Hc.
    destruct (1 <? dims), (2 <? dims); lia.
Qed.

(** The check of the Euler equations, in exact arithmetic (C50 has the binary64 one). *)
Definition gas_ok (n : nat) (gamma : R) (u : euler_cvars n) : bool :=
  if Rlt_dec 0 (rho_ u) then if Rlt_dec 0 (extra_p gamma u) then true else false else false.
Lemma gas_ok_iff n gamma u : gas_ok n gamma u = true <-> admissible n gamma u.
Proof.
  unfold gas_ok, admissible. change (p_p (to_prim n gamma u)) with (extra_p gamma u).
  destruct (Rlt_dec 0 (rho_ u)); [|intuition congruence]. destruct (Rlt_dec 0 (extra_p gamma u)); intuition congruence.
Qed.

(** The admissible states of a gas form a cone. *)
Lemma square_mean s a b x y : (0 <= s -> 0 < a -> 0 < b ->
  (s * x + y) * (s * x + y) / (s * a + b) <= s * (x * x / a) + y * y / b)%R.
Proof.
  intros Hs Ha Hb. assert (Hc : (0 < s * a + b)%R) by nra.
  apply (Rmult_le_reg_r (s * a + b)); [exact Hc|]. unfold Rdiv at 1. rewrite Rmult_assoc, Rinv_l, Rmult_1_r by lra.
  assert (E : ((s * (x * x / a) + y * y / b) * (s * a + b) - (s * x + y) * (s * x + y) = s * (a * b) * ((x / a - y / b) * (x / a - y / b)))%R)
    by (field; lra).
  assert (0 <= s * (a * b) * ((x / a - y / b) * (x / a - y / b)))%R.
  { apply Rmult_le_pos; [apply Rmult_le_pos; [exact Hs|nra]|apply Rle_0_sqr]. }
  lra.
Qed.
Lemma dot_mean n s a b (x y : rvec n) : (0 <= s -> 0 < a -> 0 < b ->
  vdot n (vadd (vscal s x) y) (vadd (vscal s x) y) / (s * a + b) <= s * (vdot n x x / a) + vdot n y y / b)%R.
Proof.
  intros Hs Ha Hb. induction n as [|n IH].
  - cbn [vdot]. unfold Rdiv. lra.
  - destruct x as [x0 x], y as [y0 y]. specialize (IH x y). pose proof (square_mean s a b x0 y0 Hs Ha Hb) as Q.
    match goal with |- (?l / _ <= s * (?p / a) + ?q / b)%R =>
      change l with ((s * x0 + y0) * (s * x0 + y0) + vdot n (vadd (vscal s x) y) (vadd (vscal s x) y))%R;
      change p with (x0 * x0 + vdot n x x)%R; change q with (y0 * y0 + vdot n y y)%R end.
    generalize dependent (vdot n (vadd (vscal s x) y) (vadd (vscal s x) y)). intros u IH.
    unfold Rdiv in *. rewrite !Rmult_plus_distr_r. rewrite Rmult_plus_distr_l. lra.
Qed.
Theorem C84_gas_cone : forall n gamma, (1 < gamma)%R -> cone (V := euler_cvars n) (gas_ok n gamma).
Proof.
  intros n gamma Hg s x y Hs Hx Hy. rewrite gas_ok_iff in *. destruct Hx as (X1 & X2), Hy as (Y1 & Y2).
  destruct x as [a [m E]], y as [b [k F]].
  change (0 < a)%R in X1. change (0 < b)%R in Y1.
  change (0 < (gamma - 1) * (E - 1 / 2 * vdot n m m / a))%R in X2. change (0 < (gamma - 1) * (F - 1 / 2 * vdot n k k / b))%R in Y2.
  split.
  - change (0 < s * a + b)%R. nra.
  - change (0 < (gamma - 1) * (s * E + F - 1 / 2 * vdot n (vadd (vscal s m) k) (vadd (vscal s m) k) / (s * a + b)))%R.
    pose proof (dot_mean n s a b m k Hs X1 Y1) as Q.
    generalize dependent (vdot n (vadd (vscal s m) k) (vadd (vscal s m) k)). intros z Q.
    generalize dependent (vdot n m m). intros mm X2 Q. generalize dependent (vdot n k k). intros kk Y2 Q.
    assert (A1 : (0 < E - 1 / 2 * mm / a)%R) by (apply (Rmult_lt_reg_l (gamma - 1)); lra).
    assert (A2 : (0 < F - 1 / 2 * kk / b)%R) by (apply (Rmult_lt_reg_l (gamma - 1)); lra).
    apply Rmult_lt_0_compat; [lra|]. unfold Rdiv in *.
    assert (s * (1 / 2 * mm * / a) <= s * E)%R by (apply Rmult_le_compat_l; lra). lra.
Qed.

(** *** Gas at rest on a periodic grid of 4 x ny x nz cells, two processes *)
Definition grid4 (ny nz : Z) : grid :=
  mkgrid (4, ny, nz) (fun _ => PERIODIC) (0, 0, 0) (4, ny, nz) (fun _ => 0%R) (fun _ => 1%R) (fun _ => 1%R).
Definition half_grid (ny nz r : Z) : grid :=
  match decompose (2, 1, 1) (grid4 ny nz) r (fun _ => 0) with Ok (lg, _) => lg | _ => grid4 ny nz end.
Definition half_nb (ny nz r : Z) : Z -> Z :=
  match decompose (2, 1, 1) (grid4 ny nz) r (fun _ => 0) with Ok (_, nb) => nb | _ => fun _ => 0 end.

(** HostMemory.cpp lines 36-37: new memory is filled with 42. *)
Definition forty_two (n : nat) : euler_cvars n :=
  mkcons (n := n) 42 ((fix all (k : nat) : rvec k := match k with O => tt | S k => (42%R, all k) end) n) 42.
Definition flat {n : nat} (x y z : Z) (v : euler_cvars n) : vol (euler_cvars n) := mkvol x y z (fun _ => v).

Lemma flat_get {n} x y z (v : euler_cvars n) c : vget (flat x y z v) c = v.
Proof. destruct c as [[a b] d]. reflexivity. Qed.
Lemma first_rank : 0 <= 0 < processes (2, 1, 1).
Proof. change (processes (2, 1, 1)) with 2. lia. Qed.
Lemma two_ranks r : 0 <= r < processes (2, 1, 1) -> r = 0 \/ r = 1.
Proof. change (processes (2, 1, 1)) with 2. lia. Qed.
Ltac k3 := intros k Hk; assert (k = 0 \/ k = 1 \/ k = 2) as [->|[->| ->]] by lia.

(** One dimension. *)
Lemma line_decomposed :
  decomposed ForwardEuler Periodic (2, 1, 1) (grid4 1 1) (fun _ _ => 0) 1 1 3 (half_grid 1 1) (half_nb 1 1)
    (euler_numflux 1 2 HLL) no_reconstruction
    [flat 6 1 1 (calm 1); flat 6 1 1 (forty_two 1)] (flat 6 1 1 (forty_two 1), flat 6 1 1 (forty_two 1), flat 6 1 1 (forty_two 1))
    (fun _ => [flat 4 1 1 (calm 1); flat 4 1 1 (forty_two 1)])
    (fun _ => (flat 4 1 1 (forty_two 1), flat 4 1 1 (forty_two 1), flat 4 1 1 (forty_two 1))) (flat 6 1 1 (calm 1)).
Proof.
  split.
  { split; [lia|]. split; [lia|]. split; [|split].
    - k3; cbn; lia.
    - k3; cbn; [exists 2|exists 1|exists 1]; reflexivity.
    - k3; vm_compute; intuition congruence. }
  split; [reflexivity|]. split; [exact (euler_record 1)|]. split; [split; [cbn; lia|exact I]|].
  split; [intros r Hr; destruct (two_ranks r Hr) as [->| ->]; reflexivity|].
  split; [vm_compute; reflexivity|]. split; [repeat constructor|]. split; [reflexivity|]. split; [repeat split|].
  split; [|intros r c Hr Hc; cbn [hd]; now rewrite !flat_get].
  intros r Hr. destruct (two_ranks r Hr) as [->| ->]; (split; [repeat constructor|split; [reflexivity|repeat split]]).
Qed.

(** Three dimensions. *)
Lemma box_decomposed :
  decomposed ForwardEuler Periodic (2, 1, 1) (grid4 2 2) (fun _ _ => 0) 3 1 5 (half_grid 2 2) (half_nb 2 2)
    (euler_numflux 3 2 HLL) no_reconstruction
    [flat 6 4 4 (calm 3); flat 6 4 4 (forty_two 3)] (flat 6 4 4 (forty_two 3), flat 6 4 4 (forty_two 3), flat 6 4 4 (forty_two 3))
    (fun _ => [flat 4 4 4 (calm 3); flat 4 4 4 (forty_two 3)])
    (fun _ => (flat 4 4 4 (forty_two 3), flat 4 4 4 (forty_two 3), flat 4 4 4 (forty_two 3))) (flat 6 4 4 (calm 3)).
Proof.
  split.
  { split; [lia|]. split; [lia|]. split; [|split].
    - k3; cbn; lia.
    - k3; cbn; [exists 2|exists 2|exists 2]; reflexivity.
    - k3; vm_compute; intuition congruence. }
  split; [reflexivity|]. split; [exact (euler_record 3)|]. split; [split; [cbn; lia|exact I]|].
  split; [intros r Hr; destruct (two_ranks r Hr) as [->| ->]; reflexivity|].
  split; [vm_compute; reflexivity|]. split; [repeat constructor|]. split; [reflexivity|]. split; [repeat split|].
  split; [|intros r c Hr Hc; cbn [hd]; now rewrite !flat_get].
  intros r Hr. destruct (two_ranks r Hr) as [->| ->]; (split; [repeat constructor|split; [reflexivity|repeat split]]).
Qed.

Lemma calm_ok n : gas_ok n 2 (calm n) = true.
Proof. apply gas_ok_iff. apply calm_admissible. Qed.
Lemma blocks_check_cells {V : cvars} dims g np lgs (ok : V -> bool) : blocks_check dims g np lgs ok (fun _ => check_cells ok).
Proof. intros r _. apply check_cells_all. Qed.

(** One dimension: the theorems apply to a step of the gas, with spare volumes full of 42;
    the serial simulator accepts the step, and so do the processes. *)
Example C84_line_example :
  exists lgs nbs vols sc lvols lsc d0 st0 sst,
  decomposed ForwardEuler Periodic (2, 1, 1) (grid4 1 1) (fun _ _ => 0) 1 1 3 lgs nbs
    (euler_numflux 1 2 HLL) no_reconstruction vols sc lvols lsc d0 /\
  started Periodic (2, 1, 1) 1 lgs lvols lsc st0 /\
  serial_run ForwardEuler Periodic 1 1 (euler_numflux 1 2 HLL) no_reconstruction unit_prm (check_cells (gas_ok 1 2)) vols sc
    [fun _ => []] = Ok sst /\ s_time sst = 1%R /\
  (exists o, world_checked ForwardEuler Periodic (2, 1, 1) (grid4 1 1) (fun _ _ => 0) 1 3 (processes (2, 1, 1)) lgs
    (euler_numflux 1 2 HLL) no_reconstruction unit_prm (fun _ => check_cells (gas_ok 1 2)) [fun _ => []] st0 o) /\
  forall o, world_checked ForwardEuler Periodic (2, 1, 1) (grid4 1 1) (fun _ _ => 0) 1 3 (processes (2, 1, 1)) lgs
    (euler_numflux 1 2 HLL) no_reconstruction unit_prm (fun _ => check_cells (gas_ok 1 2)) [fun _ => []] st0 o ->
  exists st, o = Finished st.
Proof.
  pose proof line_decomposed as HD. destruct (decomposed_starts _ _ _ _ _ _ _ _ _ _ _ _ _ _ _ _ _ HD) as (st0 & H0).
  destruct (calm_step 1 Periodic 1 4 1 1 (check_cells (gas_ok 1 2)) (gas_ok 1 2) ltac:(lia)
    ltac:(unfold fits_grid; repeat split; try lia; reflexivity) (calm_ok 1) (check_cells_all 1 1 4 1 1 (gas_ok 1 2))
    (flat 6 1 1 (calm 1)) [flat 6 1 1 (forty_two 1)]
    (flat 6 1 1 (forty_two 1), flat 6 1 1 (forty_two 1), flat 6 1 1 (forty_two 1))) as (sst & E & Ht & _).
  { repeat split; repeat constructor. }
  { intros c _. apply flat_get. }
  do 7 eexists. exists st0, sst. split; [exact HD|]. split; [exact H0|]. split; [exact E|].
  split; [rewrite Ht; field|].
  split.
  - exact (proj1 (C84_refused _ _ _ _ _ _ _ _ _ _ _ _ _ _ unit_prm [fun _ => []] _ _ _ _ _ (gas_ok 1 2) (check_cells (gas_ok 1 2)) _ st0 HD
      (check_cells_all _ _ _ _ _ _) (blocks_check_cells _ _ _ _ _) H0)).
  - refine (C84_line_partial _ _ _ _ _ _ _ _ _ _ _ _ unit_prm [fun _ => []] _ _ _ _ _ (gas_ok 1 2) (check_cells (gas_ok 1 2)) _ st0 sst HD
      (check_cells_all _ _ _ _ _ _) (blocks_check_cells _ _ _ _ _) (C84_gas_cone 1 2 ltac:(lra)) _ _ _ H0 E).
    + split; [exact Rle_0_1|]. split; [exact Rlt_0_1|]. split; [intros; exact Rle_0_1|]. split; [intros f []|].
      intros adj [<-|[]] t f [].
    + intros c _. cbn [hd]. rewrite flat_get. apply calm_ok.
    + intros r c _ _. cbn [nth]. rewrite flat_get. apply gas_ok_iff. split; cbn; lra.
Qed.

Lemma corner_inner : inner 3 1 (per3 (2, 1, 1) (gr_cells (grid4 2 2))) (1, 1, 1).
Proof. k3; vm_compute; intuition congruence. Qed.
Lemma corner_outer : ~ inner 3 1 (per3 (2, 1, 1) (gr_cells (grid4 2 2))) (0, 1, 1).
Proof. intros H. specialize (H 0 ltac:(lia)). change (1 <= 0 < 3) in H. lia. Qed.
Lemma corner_in : in_volume 3 1 (at3 (per3 (2, 1, 1) (gr_cells (grid4 2 2))) 0) (at3 (per3 (2, 1, 1) (gr_cells (grid4 2 2))) 1)
  (at3 (per3 (2, 1, 1) (gr_cells (grid4 2 2))) 2) (0, 1, 1).
Proof. vm_compute. intuition congruence. Qed.
Lemma corner_alone : image_masked (mpi_sides (half_grid 2 2 0)) (bc_image Periodic) 3 1
  (at3 (per3 (2, 1, 1) (gr_cells (grid4 2 2))) 0) (at3 (per3 (2, 1, 1) (gr_cells (grid4 2 2))) 1)
  (at3 (per3 (2, 1, 1) (gr_cells (grid4 2 2))) 2) (0, 1, 1) = (0, 1, 1).
Proof. vm_compute. reflexivity. Qed.
Lemma corner_global : in_volume 3 1 4 2 2 (move 0 (-1) (shifted (gr_start (half_grid 2 2 0)) (1, 1, 1))).
Proof. vm_compute. intuition congruence. Qed.
Lemma bad_state : gas_ok 3 2 (vadd (vscal (/ 3 / p_len unit_prm 0) (forty_two 3)) (calm 3)) = true -> False.
Proof.
  intros H. apply gas_ok_iff in H. destruct H as (_ & Hp). cbn in Hp.
  match type of Hp with (0 < ?x)%R => assert (Hx : (x = - (51 / 10))%R) by field end. rewrite Hx in Hp. lra.
Qed.

(** In three dimensions the same gas, at rest and admissible everywhere, is refused by
    the first of the two processes after the first step, which the serial simulator
    accepts: 42 in all five variables has negative pressure, and a third of it, added
    to the gas, has too. *)
Theorem C84_refuted :
  exists lgs nbs vols sc lvols lsc d0 st0 sst,
  decomposed ForwardEuler Periodic (2, 1, 1) (grid4 2 2) (fun _ _ => 0) 3 1 5 lgs nbs
    (euler_numflux 3 2 HLL) no_reconstruction vols sc lvols lsc d0 /\
  (forall c, interior3 3 1 (gr_cells (grid4 2 2)) c -> gas_ok 3 2 (vget (hd d0 vols) c) = true) /\
  started Periodic (2, 1, 1) 1 lgs lvols lsc st0 /\
  serial_run ForwardEuler Periodic 3 1 (euler_numflux 3 2 HLL) no_reconstruction unit_prm (check_cells (gas_ok 3 2)) vols sc
    [fun _ => []] = Ok sst /\
  (exists o, world_checked ForwardEuler Periodic (2, 1, 1) (grid4 2 2) (fun _ _ => 0) 1 5 (processes (2, 1, 1)) lgs
    (euler_numflux 3 2 HLL) no_reconstruction unit_prm (fun _ => check_cells (gas_ok 3 2)) [fun _ => []] st0 o) /\
  forall o, world_checked ForwardEuler Periodic (2, 1, 1) (grid4 2 2) (fun _ _ => 0) 1 5 (processes (2, 1, 1)) lgs
    (euler_numflux 3 2 HLL) no_reconstruction unit_prm (fun _ => check_cells (gas_ok 3 2)) [fun _ => []] st0 o ->
  o = Refused.
Proof.
  pose proof box_decomposed as HD. destruct (decomposed_starts _ _ _ _ _ _ _ _ _ _ _ _ _ _ _ _ _ HD) as (st0 & H0).
  destruct (calm_step 3 Periodic 3 4 2 2 (check_cells (gas_ok 3 2)) (gas_ok 3 2) ltac:(lia)
    ltac:(unfold fits_grid; repeat split; try lia; reflexivity) (calm_ok 3) (check_cells_all 3 1 4 2 2 (gas_ok 3 2))
    (flat 6 4 4 (calm 3)) [flat 6 4 4 (forty_two 3)]
    (flat 6 4 4 (forty_two 3), flat 6 4 4 (forty_two 3), flat 6 4 4 (forty_two 3))) as (sst & E & Ht & _).
  { repeat split; repeat constructor. }
  { intros c _. apply flat_get. }
  do 7 eexists. exists st0, sst. split; [exact HD|].
  split; [intros c _; cbn [hd]; rewrite flat_get; apply calm_ok|]. split; [exact H0|]. split; [exact E|].
  split.
  { exact (proj1 (C84_refused _ _ _ _ _ _ _ _ _ _ _ _ _ _ unit_prm [fun _ => []] _ _ _ _ _ (gas_ok 3 2) (check_cells (gas_ok 3 2)) _ st0 HD
      (check_cells_all _ _ _ _ _ _) (blocks_check_cells _ _ _ _ _) H0)). }
  intros o Ho.
  destruct (decomposed_start _ _ _ _ _ _ _ _ _ _ _ _ _ _ _ _ _ _ HD H0) as (sst0 & E0 & M0).
  pose proof HD as (Hfit & Hbcs & Hrec & Hcomp & Hdec & Hcells & Hv & Hl & _ & Hbl & _).
  pose proof (eq_trans (eq_sym (serial_from _ _ _ _ _ _ _ (check_cells (gas_ok 3 2)) _ _ [fun _ => []] sst0 E0)) E) as Hrun.
  inversion Ho as [|adj adjs st st1 r Hstep Hr Hrf|adj adjs st st1 o' Hstep Hacc Hgo]; [reflexivity|]. exfalso. subst.
  (* the step of the serial simulator *)
  destruct (proj2 (step_matches _ _ _ _ _ _ _ _ _ _ _ _ _ Hfit Hbcs Hrec Hcomp Hdec Hcells (fun _ => []) sst0 st0 M0) st1 Hstep)
    as (s1 & E1 & M1).
  destruct (fronts _ _ _ _ _ _ _ s1 st1 M1) as ((v & Ev & _ & _) & F).
  assert (Hts : s_time s1 = (/ IZR 3)%R).
  { unfold run in Hrun. cbn [fold_res] in Hrun. unfold perform_step in Hrun.
    destruct (check_cells (gas_ok 3 2) v) eqn:Ob.
    - rewrite (checked_accepts _ _ _ _ _ _ E1 Ev Ob) in Hrun. cbn [bind] in Hrun. injection Hrun as Es. rewrite Es. exact Ht.
    - rewrite (checked_rejects _ _ _ _ _ _ E1 Ev Ob) in Hrun. discriminate. }
  destruct (fe_step _ _ _ _ _ _ _ _ _ _ _ _ _ Hfit Hbcs Hrec Hcomp Hdec Hcells eq_refl (fun _ => []) sst0 st0 st1 s1 M0 Hstep M1)
    as (l2 & dt & Hdt & _ & Hl2 & Hnew).
  destruct (Hnew 0 first_rank) as (o1 & Eo & K).
  (* the ghost cell on the left of the first block *)
  assert (Hcalm : s_time sst0 = 0%R /\ exists v', s_vols sst0 = [v'; flat 6 4 4 (forty_two 3)] /\ forall c, in_volume 3 1 4 2 2 c -> vget v' c = calm 3).
  { destruct (serial_bc_ok Periodic (2, 1, 1) (grid4 2 2) 3 1 _ _ Hfit Hcomp (flat 6 4 4 (calm 3))) as (v' & E' & G & K').
    { apply same_extN. repeat split. }
    destruct (start_front _ _ _ _ _ _ E' E0) as (T & Ev'). split; [exact T|]. exists v'. split; [exact Ev'|].
    intros c Hin. rewrite (proj2 G c Hin).
    rewrite K' by exact (imN_inner Periodic (2, 1, 1) (grid4 2 2) 3 1 _ _ Hfit Hcomp c Hin). apply flat_get. }
  destruct Hcalm as (T0 & v' & Es0 & Hcalm).
  assert (Hsp : exists w', s_vols (st0 0) = [w'; flat 4 4 4 (forty_two 3)]).
  { exact (start_spare _ _ _ _ _ (H0 0 first_rank)). }
  destruct Hsp as (w' & Esp).
  specialize (Hl2 0 (1, 1, 1) 0 (-1) first_rank corner_inner ltac:(lia) ltac:(lia)).
  rewrite Es0 in Hl2. cbn [nth] in Hl2. pose proof (eq_trans Hl2 (Hcalm _ corner_global)) as Hl3.
  specialize (K (0, 1, 1) corner_in corner_alone corner_outer).
  rewrite Esp in K. cbn [nth] in K. rewrite flat_get in K. change (move 0 (-1) (1, 1, 1)) with (0, 1, 1) in Hl3. rewrite Hl3 in K.
  assert (Hd : dt = (/ 3)%R).
  { assert (G : forall x y, (x = / 3 -> y = 0 -> x = y + dt -> dt = / 3)%R) by (intros; lra). exact (G _ _ Hts T0 Hdt). }
  destruct (Hacc 0 first_rank) as (w & Ew & Ow). rewrite Eo in Ew. cbn [vat nth_error] in Ew. injection Ew as <-.
  destruct (F 0 first_rank) as (w2 & Ew2 & _ & Xw & _). rewrite Eo in Ew2. cbn [vat nth_error] in Ew2. injection Ew2 as <-.
  pose proof (proj1 (check_cells_all 3 1 (at3 (per3 (2, 1, 1) (gr_cells (grid4 2 2))) 0)
    (at3 (per3 (2, 1, 1) (gr_cells (grid4 2 2))) 1) (at3 (per3 (2, 1, 1) (gr_cells (grid4 2 2))) 2) (gas_ok 3 2) o1 Xw) Ow (0, 1, 1) corner_in) as Hbad.
  rewrite K, Hd in Hbad. exact (bad_state Hbad).
Qed.

Print Assumptions C84_accepted.
Print Assumptions C84_refused.
Print Assumptions C84_line_partial.
Print Assumptions C84_gas_cone.
Print Assumptions C84_refuted.
