(** Scaling of the flux differences by the cell lengths. *)
From Coq Require Import ZArith Reals List Bool Lia Lra.
From Verif Require Import M_Base M_Vec M_Boundary M_Flux M_Sim S_Boundary S_Flux S_Sum S_Sim L_Base L_Loops
  L_Boundary L_Flux L_System L_Sum L_Conserve L_FluxTop L_Sim L_SimTop L_SimProps.
Import ListNotations.
Open Scope Z_scope.

Lemma scaled_update_square {V : cvars} dims (fx : numflux V) rc len dt u c :
  (forall d, 0 <= d < dims -> len d = len 0) ->
  scaled_update dims fx rc len dt u c = vscal (dt / len 0) (rhs dims fx rc u c).
Proof.
  intros H. unfold scaled_update, rhs. apply comp_ext. intros i. rewrite comp_scal.
  assert (G : forall l a b, (forall d, In d l -> 0 <= d < dims) -> comp i a = (dt / len 0%Z * comp i b)%R ->
    comp i (fold_left (fun a d => vadd a (vscal (dt / len d) (flux_diff fx rc d u c))) l a) =
    (dt / len 0%Z * comp i (fold_left (fun a d => vadd a (flux_diff fx rc d u c)) l b))%R).
  { induction l as [|d l IH]; intros a b Hl Hab; cbn [fold_left]; [exact Hab|].
    apply IH; [intros; apply Hl; now right|]. rewrite !comp_add, comp_scal, Hab.
    rewrite (H d) by (apply Hl; now left). ring. }
  apply (G (zrange 0 dims) vzero vzero).
  - intros d Hd. now apply zrange_In.
  - rewrite comp_zero. ring.
Qed.

(** A one by two grid, upwind flux with unit speeds, periodic. *)
Definition sc_fx : numflux scalar_cvars := Flux2 (V := scalar_cvars) (fun _ l _ => (l, 1%R)).
Definition sc_vol (f : Z -> R) : vol scalar_cvars := mkvol (A := scalar_cvars) 3 4 1 f.
Definition sc_u : vol scalar_cvars := sc_vol (fun i => IZR (i / 3)).
Definition sc_p (lx ly : R) : params :=
  mkparams (fun d => if d =? 0 then lx else if d =? 1 then ly else 0%R) 1 [].
Definition sc_run (lx ly : R) :=
  serial_run (V := scalar_cvars) ForwardEuler Periodic 2 1 sc_fx no_reconstruction (sc_p lx ly) (fun _ => true)
    [sc_u; sc_u] (sc_u, sc_u, sc_u) [fun _ => []].

Lemma sc_step lx ly : (0 < lx)%R -> (0 < ly)%R ->
  exists st dt, sc_run lx ly = Ok st /\ (0 < dt)%R /\ s_time st = dt /\
    solution st (1, 1, 0) = (1 + dt / lx)%R /\
    vadd (vget sc_u (1, 1, 0)) (scaled_update 2 sc_fx no_reconstruction (p_len (sc_p lx ly)) dt
      (filled Periodic 2 1 1 2 1 (vget sc_u)) (1, 1, 0)) = (1 + dt / ly)%R.
Proof.
  intros Px Py.
  assert (Hc : compatible sc_fx no_reconstruction 1) by (split; [simpl; lia|exact I]).
  assert (He : ext 2 1 1 2 1 sc_u) by (repeat split).
  assert (Hcell : total_cells 2 1 1 2 1 < 2 ^ 31) by reflexivity.
  unfold sc_run, serial_run.
  destruct (start_ready (V := scalar_cvars) ForwardEuler Periodic 2 1 sc_fx no_reconstruction 1 2 1
     ltac:(lia) Hc ltac:(lia) ltac:(lia) ltac:(lia) ltac:(lia) ltac:(lia) ltac:(lia) 
     [sc_u; sc_u] (sc_u, sc_u, sc_u)) as (st0 & E0 & R0 & T0 & W0).
  { repeat constructor; exact He. }
  { reflexivity. }
  { repeat split. }
  rewrite E0. cbn [bind].
  destruct (step_ready (V := scalar_cvars) ForwardEuler Periodic 2 1 sc_fx no_reconstruction 1 2 1
     ltac:(lia) Hc ltac:(lia) ltac:(lia) ltac:(lia) ltac:(lia) ltac:(lia) ltac:(lia) Hcell
     (sc_p lx ly) (fun _ => []) st0 R0) as (st1 & dt & ws & E1 & R1 & S1 & D1 & T1 & N1 & W1).
  unfold run. cbn [fold_res]. unfold perform_step, checked_step. rewrite E1. cbn [bind].
  destruct R1 as (_ & L1 & _).
  destruct (s_vols st1) as [|u1 l1] eqn:Ev; [discriminate|]. cbn [vat nth_error bind].
  assert (Ws : forall e, 0 <= e < 2 -> ws e = 1%R).
  { intros e He'. specialize (S1 e He'). cbv zeta in S1. destruct S1 as (P & Q & A).
    assert (H1 : (1 <= ws e)%R).
    { apply (Q (1, 1, 0)). left. unfold interior, interior1. simpl. lia. }
    destruct A as [A|(c & _ & A)]; [lra|exact A]. }
  assert (Dt : dt = (1 / (1 / lx + 1 / ly))%R).
  { rewrite D1. unfold compute_timestep. cbn [fold_left]. rewrite wave_total_eq.
    change (zrange 0 3) with [0; 1; 2]. cbn [map fold_right sc_p p_wadj p_len fold_left p_cfl Z.eqb Pos.eqb].
    rewrite !Ws by lia.
    destruct (Req_EM_T lx 0); [lra|]. destruct (Req_EM_T ly 0); [lra|].
    destruct (Req_EM_T 0 0); [|lra]. f_equal. ring. }
  assert (Pdt : (0 < dt)%R).
  { rewrite Dt. apply Rdiv_lt_0_compat; [lra|].
    pose proof (Rdiv_lt_0_compat 1 lx). pose proof (Rdiv_lt_0_compat 1 ly). lra. }
  exists st1, dt. split; [reflexivity|]. split; [exact Pdt|]. split; [rewrite T1, T0; ring|].
  assert (In1 : interior 2 1 1 2 1 (1, 1, 0)) by (unfold interior, interior1; simpl; lia).
  assert (In2 : interior 2 1 1 2 1 (1, 2, 0)) by (unfold interior, interior1; simpl; lia).
  assert (V1 : solution st0 (1, 1, 0) = 1%R) by (rewrite W0 by exact In1; reflexivity).
  assert (V2 : solution st0 (1, 2, 0) = 2%R) by (rewrite W0 by exact In2; reflexivity).
  split.
  - rewrite W1 by exact In1. cbn [textbook]. unfold euler, fplus, fmul, semidiscrete, rhs.
    change (zrange 0 2) with [0; 1]. cbn [fold_left].
    unfold iface, rec_at, no_reconstruction, sc_fx, filled. 
    cbn [rec_ghosts rec_fun].
    change (zrange (- (1 - 1)) 1) with [0]. cbn [map snd fst].
    change (image (bc_image Periodic) 2 1 1 2 1 (move 0 0 (move 0 (-1) (1, 1, 0)))) with (1, 1, 0).
    change (image (bc_image Periodic) 2 1 1 2 1 (move 0 0 (1, 1, 0))) with (1, 1, 0).
    change (image (bc_image Periodic) 2 1 1 2 1 (move 1 0 (move 1 (-1) (1, 1, 0)))) with (1, 2, 0).
    change (image (bc_image Periodic) 2 1 1 2 1 (move 1 0 (1, 1, 0))) with (1, 1, 0).
    rewrite V1, V2. cbn [vadd vscal vzero scalar_cvars sc_p p_len Z.eqb Pos.eqb].
    match goal with |- @eq _ ?a ?b => change (@eq R a b) end. field. lra.
  - unfold scaled_update, flux_diff.
    change (zrange 0 2) with [0; 1]. cbn [fold_left].
    unfold iface, rec_at, no_reconstruction, sc_fx, filled. 
    cbn [rec_ghosts rec_fun].
    change (zrange (- (1 - 1)) 1) with [0]. cbn [map snd fst].
    change (image (bc_image Periodic) 2 1 1 2 1 (move 0 0 (move 0 (-1) (1, 1, 0)))) with (1, 1, 0).
    change (image (bc_image Periodic) 2 1 1 2 1 (move 0 0 (1, 1, 0))) with (1, 1, 0).
    change (image (bc_image Periodic) 2 1 1 2 1 (move 1 0 (move 1 (-1) (1, 1, 0)))) with (1, 2, 0).
    change (image (bc_image Periodic) 2 1 1 2 1 (move 1 0 (1, 1, 0))) with (1, 1, 0).
    change (vget sc_u (1, 1, 0)) with 1%R. change (vget sc_u (1, 2, 0)) with 2%R.
    cbn [vadd vscal vzero scalar_cvars sc_p p_len Z.eqb Pos.eqb].
    match goal with |- @eq _ ?a ?b => change (@eq R a b) end. field. split; lra.
Qed.
