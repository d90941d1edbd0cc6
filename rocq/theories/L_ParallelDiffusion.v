(** Steps and runs of all processes with a diffusion operator against the serial
    simulator.  As L_ParallelStep, with another system. *)
From Coq Require Import ZArith Reals List Bool Lia Lra.
From Verif Require Import M_Base M_Vec M_Boundary M_Flux M_Sim M_Mpi M_Parallel M_ParallelDiffusion S_Boundary S_Flux S_Sim
  S_Mpi S_Sum S_Parallel S_ParallelDiffusion L_Base L_Loops L_Boundary L_Flux L_System L_Sum L_Conserve L_FluxTop L_Sim L_SimTop
  L_Decomp L_Exchange L_Match L_Parallel L_ParallelRun L_ParallelStep.
Import ListNotations.
Open Scope Z_scope.

Section Body.
Context {V : cvars} {Sc : Type}.
Variable ref : vol V.
Hypothesis Hsize : 0 <= vsize ref < 2 ^ 31.
Notation same := (same_dims ref).
Variable I : cell -> Prop.
Hypothesis HI : forall c, I c -> inr ref c.
Variable good : vol V -> Prop.
Variable bc : vol V -> res (vol V).
Hypothesis Hgood : forall v, good v -> same v.
Hypothesis Hbc : forall v, same v ->
  exists v', bc v = Ok v' /\ good v' /\ forall c, I c -> vget v' c = vget v c.

Lemma body_of it (sys : system V Sc) prm adj k vols dt (sc : Sc) u' out' ws sc' :
  Forall same vols -> length vols = S (substeps it) -> (k < substeps it)%nat ->
  let i := input_index it k in
  sys (nth i vols ref) (nth (S k) vols ref) sc = Ok (u', out', ws, sc') -> same u' -> same out' ->
  let dt' := if sets_dt it k then compute_timestep (p_wadj prm) adj ws (p_len prm) (p_cfl prm) else dt in
  exists vols', substep_of it sys bc prm adj k (vols, dt, sc) = Ok (vols', dt', sc') /\
    Forall same vols' /\ length vols' = S (substeps it) /\ good (nth (S k) vols' ref) /\
    (forall j, j <> S k -> nth j vols' ref = if Nat.eqb j i then u' else nth j vols ref) /\
    (forall c, I c -> vget (nth (S k) vols' ref) c =
       comb it k (dt' / p_len prm 0) (fun j => vget (if Nat.eqb j i then u' else nth j vols ref) c) (vget out' c)).
Proof.
  intros Hv Hl Hk i E Su So dt'.
  assert (Hi : (i <= k)%nat) by (unfold i; destruct it; simpl; lia).
  unfold substep_of, perform_substep. fold i.
  rewrite (vat_nth vols i ref) by lia. rewrite (vat_nth vols (S k) ref) by lia. cbn [bind].
  rewrite E. cbn [bind]. fold dt'.
  set (vols' := vset vols i u').
  assert (Sv' : Forall same vols') by (apply vset_Forall; auto).
  assert (Lv' : length vols' = S (substeps it)) by (unfold vols'; rewrite vset_length; exact Hl).
  assert (Nv' : forall j, nth j vols' ref = if Nat.eqb j i then u' else nth j vols ref)
    by (intros j; unfold vols'; apply nth_vset; lia).
  destruct (combine_ok ref (proj2 Hsize) it k (dt' / p_len prm 0) vols' out') as (o & Eo & Do & Wo);
    auto; [lia|].
  rewrite Eo. cbn [bind].
  rewrite (vat_nth (vset vols' (S k) o) (S k) ref) by (rewrite vset_length; lia).
  cbn [bind]. rewrite nth_vset by lia. rewrite Nat.eqb_refl.
  destruct (Hbc o Do) as (o' & Eb & Gb & Wb). rewrite Eb. cbn [bind].
  eexists. split; [reflexivity|].
  assert (Nth : forall j, nth j (vset (vset vols' (S k) o) (S k) o') ref =
     if Nat.eqb j (S k) then o' else nth j vols' ref).
  { intros j. rewrite nth_vset by (rewrite vset_length; lia). destruct (Nat.eqb j (S k)) eqn:Ej; [reflexivity|].
    rewrite nth_vset by lia. now rewrite Ej. }
  split; [apply vset_Forall; [apply vset_Forall; auto|auto]|].
  split; [now rewrite !vset_length|].
  split; [rewrite Nth, Nat.eqb_refl; exact Gb|]. split.
  - intros j Hj. rewrite Nth, Nv'. destruct (Nat.eqb_spec j (S k)); [contradiction|reflexivity].
  - intros c Hc. rewrite Nth, Nat.eqb_refl. rewrite Wb by exact Hc. rewrite Wo by auto.
    unfold comb. destruct it; try rewrite !Nv'; try reflexivity;
      destruct k as [|[|[|[|k]]]]; rewrite ?Nv'; reflexivity.
Qed.
End Body.

Section R.
Context {V : cvars} {St : storage V} {D : Type}.
Variables (it : integrator) (b : bckind) (p : cell) (gr : grid) (junk : Z -> Z -> Z) (dims g nvars : Z).
Variables (lgs : Z -> grid) (nbs : Z -> Z -> Z) (fx : numflux V) (rc : recon V) (prm : params).
Variables (op : diff_op V D) (ok : Z -> Z -> Z -> D -> Prop) (term : field V -> cell -> V).
Hypothesis Hop : adds_term dims g op ok term.
Hypothesis Hterm : on_star dims g term.
Hypothesis Hfit : S_Mpi.fits p (gr_cells gr) dims g.
Hypothesis Hbcs : forall s, gr_bc gr s = side_type b.
Hypothesis Hrec : record_of V nvars.
Hypothesis Hcomp : compatible fx rc g.
Notation np := (processes p).
Notation N := (gr_cells gr).
Notation n := (per3 p (gr_cells gr)).
Hypothesis Hdec : forall r, 0 <= r < np -> decompose p gr r (junk r) = Ok (lgs r, nbs r).
Hypothesis Hcells : total_cells dims g (at3 N 0) (at3 N 1) (at3 N 2) < 2 ^ 31.
Let Hdims : 1 <= dims <= 3 := proj1 Hfit.
Let Hdet : determined V nvars := proj1 Hrec.
Notation imN := (image (bc_image b) dims g (at3 N 0) (at3 N 1) (at3 N 2)).
Notation inN := (in_volume dims g (at3 N 0) (at3 N 1) (at3 N 2)).
Notation start r := (gr_start (lgs r)).
Notation refN := (L_SimTop.ref (V := V) dims g (at3 N 0) (at3 N 1) (at3 N 2)).
Notation refn := (L_SimTop.ref (V := V) dims g (at3 n 0) (at3 n 1) (at3 n 2)).
Notation goodN := (L_SimTop.good (V := V) b dims g (at3 N 0) (at3 N 1) (at3 N 2)).
Notation filled_block := (filled_block (V := V) b p gr dims g lgs).
Notation Sc := (scratch V * D)%type.
Notation okN := (fun s : Sc => scratch_ext (V := V) dims g (at3 N 0) (at3 N 1) (at3 N 2) (fst s) /\ ok (at3 N 0) (at3 N 1) (at3 N 2) (snd s)).
Notation okn := (fun s : Sc => scratch_ext (V := V) dims g (at3 n 0) (at3 n 1) (at3 n 2) (fst s) /\ ok (at3 n 0) (at3 n 1) (at3 n 2) (snd s)).
Notation bcN := (apply_boundary (A := V) (bc_apply b) dims g (fun _ => false)).
Notation sysN := (with_diffusion dims op (flux_system dims g fx rc Ok)).
Notation lsys := (diffusive_sys g lgs fx rc op).
Definition RHS (u : field V) (c : cell) : V := vadd (rhs dims fx rc u c) (term u c).
Notation same_block := (same_block (V := V) p gr dims g lgs).
Let local_dims_eq := local_dims_eq p gr junk dims g lgs nbs Hfit Hdec.
Let same_extN : forall v : vol V, same_dims refN v <-> ext3 dims g N v := fun v => L_SimTop.same_ext dims g _ _ _ v.
Let same_extn : forall v : vol V, same_dims refn v <-> ext3 dims g n v := fun v => L_SimTop.same_ext dims g _ _ _ v.
Let refN_size := refN_size (V := V) p gr dims g fx rc Hfit Hcomp Hcells.
Let refn_size := refn_size (V := V) p gr dims g fx rc Hfit Hcomp Hcells.
Let exchange_exists := exchange_exists (V := V) b p gr junk dims g nvars Hfit Hbcs Hrec.
Let input_is := input_is it.
Let inner_inr := inner_inr (V := V) p gr dims g fx rc Hfit Hcomp.
Let serial_bc_ok := serial_bc_ok (V := V) b p gr dims g fx rc Hfit Hcomp.
Let block_bc_ok := block_bc_ok (V := V) b p gr junk dims g lgs nbs fx rc Hfit Hbcs Hcomp Hdec.


(** Before substep [k]. *)
Definition serial_at (k : nat) (S0 : list (vol V) * R * Sc) : Prop :=
  let '(VS, _, SC) := S0 in
  Forall (same_dims refN) VS /\ length VS = S (substeps it) /\ okN SC /\ goodN (nth k VS refN).
Definition block_at (k : nat) (S0 : list (vol V) * R * Sc) (r : Z) (s : list (vol V) * R * Sc) : Prop :=
  let '(VS, DT, SC) := S0 in
  let '(vs, dt, sc) := s in
  Forall (same_dims refn) vs /\ length vs = S (substeps it) /\ okn sc /\ filled_block r (nth k vs refn) /\
  dt = DT /\ forall j, (j <= k)%nat -> same_block r (nth j vs refn) (nth j VS refN).

Section Sub.
Variables (k : nat) (adj : list (R -> R)) (VS : list (vol V)) (DT : R) (SC : Sc) (w : Z -> list (vol V) * R * Sc).
Hypothesis Hk : (k < substeps it)%nat.
Hypothesis HS : serial_at k (VS, DT, SC).
Hypothesis HB : forall r, 0 <= r < np -> block_at k (VS, DT, SC) r (w r).
Notation U := (nth k VS refN).

Section Us.
Variable us : Z -> vol V.
Hypothesis Hus : forall r, 0 <= r < np -> us r = nth k (fst (fst (w r))) refn.

Lemma sub_dist : distributed dims g np lgs (vget U) (fun r => vget (us r)).
Proof.
  intros r c Hr Hc. specialize (HB r Hr). cbv beta. rewrite (Hus r Hr). unfold block_at in HB. destruct (w r) as [[vs dt] sc].
  destruct HB as (_ & _ & _ & _ & _ & H). apply (H k (le_n k)).
  rewrite (cells_at p gr junk dims g lgs nbs Hfit Hdec r Hr) in Hc. now apply interior3_inner in Hc.
Qed.
Lemma sub_filled r : 0 <= r < np -> filled_block r (us r).
Proof.
  intros Hr. specialize (HB r Hr). rewrite (Hus r Hr). unfold block_at in HB. destruct (w r) as [[vs dt] sc]. apply HB.
Qed.

Lemma sub_local l2 r : exchange_volumes p gr junk g nvars np us l2 -> 0 <= r < np -> exists out' ws sc',
  lsys r (l2 r) (us r) (nth (S k) (fst (fst (w r))) refn) (snd (w r)) = Ok (l2 r, out', ws, sc') /\
  same_dims refn (l2 r) /\ same_dims refn out' /\ okn sc' /\
  (forall c, inner dims g n c -> vget (l2 r) c = vget (us r) c) /\
  (forall c, inner dims g n c -> vget out' c = RHS (vget U) (shifted (start r) c)) /\
  is_wave_speed dims g (at3 n 0) (at3 n 1) (at3 n 2) fx rc (vget (l2 r)) ws /\
  (forall e, dims <= e -> ws e = 0%R).
Proof.
  intros Hex Hr. unfold diffusive_sys, local_sys. rewrite (local_dims_eq r Hr).
  destruct HS as (_ & _ & _ & HG & HU). pose proof sub_dist as Hd. pose proof sub_filled as Hf.
  pose proof (block_system b p gr junk dims g nvars lgs nbs fx rc Hfit Hbcs Hdet Hcomp Hdec U us l2 HU Hf Hd Hex r) as Bs.
  destruct (exchanged_block b p gr junk dims g nvars lgs Hfit Hbcs Hdet us l2 Hf Hex r Hr) as (X1 & X2).
  specialize (HB r Hr). unfold block_at in HB. destruct (w r) as [[vs dt] sc].
  cbn [fst snd] in *. destruct HB as (B1 & B2 & (B3 & B3') & B4 & B5 & B6). destruct sc as [[[a1 a2] a3] ds].
  cbn [fst snd] in *.
  destruct (Bs (mkfstate a1 a2 a3 (nth (S k) vs refn) (fun _ => 0%R)) Hr) as (s' & E & Dx & W & Sp).
  { destruct B3 as (A1 & A2 & A3). split; [exact A1|]. split; [exact A2|]. split; [exact A3|].
    apply same_extn. now apply Forall_nth_same. }
  pose proof (proj2 (proj2 (proj2 Dx))) as Do.
  destruct (Hop (at3 n 0) (at3 n 1) (at3 n 2) (l2 r) ds (f_out s')) as (ds' & out' & Eo & Y1 & Y2 & Y3); auto.
  { pose proof (n_pos p gr dims g Hfit 0 ltac:(lia)). lia. }
  { pose proof (n_pos p gr dims g Hfit 1 ltac:(lia)). lia. }
  { pose proof (n_pos p gr dims g Hfit 2 ltac:(lia)). lia. }
  exists out', (f_speed s'), ((f_left s', f_right s', f_temp s'), ds').
  unfold with_diffusion, flux_system. cbn [fst snd]. rewrite E. cbn [bind]. rewrite Eo. cbn [bind fst snd]. destruct Dx as (D1 & D2 & D3 & D4).
  split; [reflexivity|]. split; [now apply same_extn|]. split; [now apply same_extn|].
  split; [split; [split; [|split]; assumption|exact Y1]|]. split; [exact X2|]. split.
  { intros c Hc. rewrite Y3 by now apply interior3_inner. rewrite W by exact Hc. unfold RHS. f_equal.
    apply Hterm. intros e j He Hj.
    now apply (star b p gr junk dims g nvars lgs nbs Hfit Hbcs Hdet Hdec U us l2 HU Hf Hd Hex r c e j). }
  split; [exact Sp|].
  intros e He. apply (system_flat dims g fx rc _ _ _ _ _ e He) in E; [exact E|reflexivity].
Qed.

(** The reduced wave speeds are the serial ones. *)
Lemma sub_speeds l2 ws wmax W : exchange_volumes p gr junk g nvars np us l2 ->
  (forall r, 0 <= r < np ->
    is_wave_speed dims g (at3 n 0) (at3 n 1) (at3 n 2) fx rc (vget (l2 r)) (ws r) /\ (forall e, dims <= e -> ws r e = 0%R)) ->
  (forall d, 0 <= d < 3 -> is_max_over np (fun r => ws r d) (wmax d)) ->
  is_wave_speed dims g (at3 N 0) (at3 N 1) (at3 N 2) fx rc (vget U) W -> (forall e, dims <= e -> W e = 0%R) ->
  forall d, 0 <= d < 3 -> wmax d = W d.
Proof.
  intros Hex Hws Hmax HW W0 d Hd. destruct HS as (_ & _ & _ & HG & HU).
  destruct (Z.lt_ge_cases d dims) as [Hlt|Hge].
  - eapply (speeds_agree b p gr junk dims g nvars lgs nbs fx rc Hfit Hbcs Hdet Hcomp Hdec U us l2 HU sub_filled sub_dist Hex W ws);
      [lia|exact HW|intros r Hr; now apply Hws|now apply Hmax].
  - rewrite (W0 d Hge). destruct (Hmax d Hd) as (_ & r & Hr & ->). now apply Hws.
Qed.
End Us.

Lemma sub_serial : exists out' W SC',
  sysN U (nth (S k) VS refN) SC = Ok (U, out', W, SC') /\ same_dims refN out' /\ okN SC' /\
  (forall c, inner dims g N c -> vget out' c = RHS (vget U) c) /\
  is_wave_speed dims g (at3 N 0) (at3 N 1) (at3 N 2) fx rc (vget U) W /\
  (forall e, dims <= e -> W e = 0%R).
Proof.
  destruct HS as (H1 & H2 & (H3 & H3') & H4). destruct SC as [[[a1 a2] a3] ds]. cbn [fst snd] in *.
  destruct (global_system p gr dims g nvars fx rc Hfit Hdet Hcomp U (proj1 H4)
    (mkfstate a1 a2 a3 (nth (S k) VS refN) (fun _ => 0%R))) as (s' & E & Dx & W & Sp).
  { destruct H3 as (A1 & A2 & A3). split; [exact A1|]. split; [exact A2|]. split; [exact A3|].
    apply same_extN. now apply Forall_nth_same. }
  pose proof (proj2 (proj2 (proj2 Dx))) as Do.
  destruct (Hop (at3 N 0) (at3 N 1) (at3 N 2) U ds (f_out s')) as (ds' & out' & Eo & Y1 & Y2 & Y3); auto.
  { pose proof (N_pos p gr dims g Hfit 0 ltac:(lia)). lia. }
  { pose proof (N_pos p gr dims g Hfit 1 ltac:(lia)). lia. }
  { pose proof (N_pos p gr dims g Hfit 2 ltac:(lia)). lia. }
  { apply (proj1 H4). }
  exists out', (f_speed s'), ((f_left s', f_right s', f_temp s'), ds').
  unfold with_diffusion, flux_system. cbn [fst snd]. rewrite E. cbn [bind]. rewrite Eo. cbn [bind fst snd]. destruct Dx as (D1 & D2 & D3 & D4).
  split; [reflexivity|]. split; [now apply same_extN|]. split; [split; [split; [|split]; assumption|exact Y1]|].
  split; [intros c Hc; rewrite Y3 by (now apply interior3_inner); rewrite W by exact Hc; reflexivity|]. split; [exact Sp|].
  intros e He. apply (system_flat dims g fx rc _ _ _ _ _ e He) in E; [exact E|reflexivity].
Qed.

Notation substepN := (substep_of it sysN bcN prm adj k (VS, DT, SC)).
Notation world_sub := (worlds_substep it p gr junk g nvars np lsys (local_bc b g lgs) prm adj k w).

Lemma shifted_inner' r c : 0 <= r < np -> inner dims g n c -> inner dims g N (shifted (start r) c).
Proof. apply (shifted_inner p gr junk dims g lgs nbs Hfit Hdec). Qed.

(** The local substep with any wave speeds that are the serial ones. *)
Lemma block_substep us l2 r wmax : 0 <= r < np ->
  (forall r, 0 <= r < np -> us r = nth k (fst (fst (w r))) refn) ->
  exchange_volumes p gr junk g nvars np us l2 ->
  exists s', substep_of it (with_speeds wmax (lsys r (l2 r))) (local_bc b g lgs r) prm adj k (w r) = Ok s' /\
    ((exists out' W SC', sysN U (nth (S k) VS refN) SC = Ok (U, out', W, SC') /\ forall d, 0 <= d < 3 -> wmax d = W d) ->
     forall S', substepN = Ok S' -> block_at (S k) S' r s').
Proof.
  intros Hr Hus Hex. destruct (sub_local us Hus l2 r Hex Hr) as (out' & ws & sc' & E & X1 & X2 & X3 & X4 & X5 & _).
  pose proof (HB r Hr) as Bk. rewrite (Hus r Hr) in *. unfold block_at in Bk |- *.
  destruct (w r) as [[vs dt] sc]. cbn [fst snd] in *. destruct Bk as (B1 & B2 & B3 & B4 & B5 & B6).
  assert (EW : with_speeds wmax (lsys r (l2 r)) (nth (input_index it k) vs refn) (nth (S k) vs refn) sc
     = Ok (l2 r, out', wmax, sc')) by (rewrite (input_is k Hk); unfold with_speeds; rewrite E; reflexivity).
  destruct (body_of refn refn_size (inner dims g n) (inner_inr n) (filled_block r) (local_bc b g lgs r)
    (fun v H => proj2 (same_extn v) (proj1 H)) (fun v => block_bc_ok r v Hr) it _ prm adj k vs dt sc (l2 r) out' wmax sc'
    B1 B2 Hk EW X1 X2) as (vs' & Es & F & L & G & K1 & K2).
  eexists. split; [exact Es|]. intros (OUT & W & SC' & ES & HW) S' HS'.
  destruct HS as (S1 & S2 & S3 & S4).
  pose proof sub_serial as (OUT1 & W1 & SC1 & ES1 & O1 & O2 & O3 & _). rewrite ES in ES1. injection ES1 as <- <- <-.
  assert (EN : sysN (nth (input_index it k) VS refN) (nth (S k) VS refN) SC = Ok (U, OUT, W, SC'))
    by (rewrite (input_is k Hk); exact ES).
  destruct (body_of refN refN_size (inner dims g N) (inner_inr N) goodN bcN
    (fun v H => proj2 (same_extN v) (proj1 H)) serial_bc_ok it _ prm adj k VS DT SC U OUT W SC'
    S1 S2 Hk EN (proj2 (same_extN _) (proj1 S4)) O1) as (VS' & EsN & FN & LN & GN & KN1 & KN2).
  assert (HS2 := eq_trans (eq_sym HS') EsN). injection HS2 as ->. split; [exact F|]. split; [exact L|]. split; [exact X3|].
  split; [exact G|]. 
  assert (Edt : (if sets_dt it k then compute_timestep (p_wadj prm) adj wmax (p_len prm) (p_cfl prm) else dt) =
                (if sets_dt it k then compute_timestep (p_wadj prm) adj W (p_len prm) (p_cfl prm) else DT)).
  { rewrite B5. destruct (sets_dt it k); [|reflexivity]. now apply timestep_same. }
  split; [exact Edt|]. rewrite Edt in K2. rewrite (input_is k Hk) in *.
  assert (Old : forall j c, (j <= k)%nat -> inner dims g n c ->
     vget (if Nat.eqb j k then l2 r else nth j vs refn) c =
     vget (if Nat.eqb j k then U else nth j VS refN) (shifted (start r) c)).
  { intros j c Hj Hc. destruct (Nat.eqb_spec j k) as [->|Hne].
    - rewrite X4 by exact Hc. now apply B6.
    - now apply B6. }
  intros j Hj c Hc. destruct (Nat.eq_dec j (S k)) as [->|Hne].
  - rewrite K2 by exact Hc. rewrite KN2 by now apply shifted_inner'. 
    rewrite X5, O3 by (auto; now apply shifted_inner'). apply comb_same; [exact Hk|]. intros j' Hj'. now apply Old.
  - rewrite K1, KN1 by exact Hne. apply Old; [lia|exact Hc].
Qed.

Lemma serial_substep : exists S', substepN = Ok S' /\ serial_at (S k) S'.
Proof.
  destruct HS as (S1 & S2 & S3 & S4). pose proof sub_serial as (OUT & W & SC' & ES & O1 & O2 & O3 & _).
  assert (EN : sysN (nth (input_index it k) VS refN) (nth (S k) VS refN) SC = Ok (U, OUT, W, SC'))
    by (rewrite (input_is k Hk); exact ES).
  destruct (body_of refN refN_size (inner dims g N) (inner_inr N) goodN bcN
    (fun v H => proj2 (same_extN v) (proj1 H)) serial_bc_ok it _ prm adj k VS DT SC U OUT W SC'
    S1 S2 Hk EN (proj2 (same_extN _) (proj1 S4)) O1) as (VS' & EsN & FN & LN & GN & KN1 & KN2).
  eexists. split; [exact EsN|]. split; [exact FN|]. split; [exact LN|]. split; [exact O2|exact GN].
Qed.

Lemma sub_step w' : world_sub w' ->
  exists S', substepN = Ok S' /\ serial_at (S k) S' /\ forall r, 0 <= r < np -> block_at (S k) S' r (w' r).
Proof.
  intros (us & outs & l2 & ws & wmax & Hv & Hex & Hsys & Hmax & Hone).
  destruct serial_substep as (S' & E & HS'). exists S'. split; [exact E|]. split; [exact HS'|].
  assert (Hus : forall r, 0 <= r < np -> us r = nth k (fst (fst (w r))) refn /\ outs r = nth (S k) (fst (fst (w r))) refn).
  { intros r Hr. destruct (Hv r Hr) as (V1 & V2). pose proof (HB r Hr) as Bk. unfold block_at in Bk.
    destruct (w r) as [[vs dt] sc]. cbn [fst] in *. destruct Bk as (_ & B2 & _).
    rewrite (input_is k Hk) in V1. rewrite (vat_nth vs k refn) in V1 by lia. rewrite (vat_nth vs (S k) refn) in V2 by lia.
    split; congruence. }
  assert (Hus1 : forall r, 0 <= r < np -> us r = nth k (fst (fst (w r))) refn) by (intros; now apply Hus).
  pose proof sub_serial as (OUT & W & SC' & ES & _ & _ & _ & SW & ZW).
  intros r Hr. destruct (block_substep us l2 r wmax Hr Hus1 Hex) as (s' & Es & Hs).
  rewrite (Hone r Hr) in Es. injection Es as ->. apply Hs; [|exact E].
  exists OUT, W, SC'. split; [exact ES|].
  apply (sub_speeds us Hus1 l2 ws wmax W Hex); auto. intros q Hq.
  destruct (Hsys q Hq) as (u' & out' & sc' & Eq). destruct (sub_local us Hus1 l2 q Hex Hq) as (o & ws' & sc2 & E2 & _ & _ & _ & _ & _ & Y1 & Y2).
  rewrite (proj2 (Hus q Hq)) in Eq. rewrite E2 in Eq. injection Eq as _ _ <- _. auto.
Qed.

Lemma sub_possible : exists w', world_sub w'.
Proof.
  set (us := fun r => nth k (fst (fst (w r))) refn).
  assert (Hus : forall r, 0 <= r < np -> us r = nth k (fst (fst (w r))) refn) by reflexivity.
  destruct (exchange_exists us) as (l2 & Hex).
  set (ws := fun r => match lsys r (l2 r) (us r) (nth (S k) (fst (fst (w r))) refn) (snd (w r)) with
                      | Ok (_, _, x, _) => x | _ => fun _ => 0%R end).
  assert (Hm : forall d, exists x, is_max_over np (fun r => ws r d) x).
  { intros d. apply max_exists. apply (np_pos p gr dims g Hfit). }
  assert (HW : exists wmax : Z -> R, forall d, 0 <= d < 3 -> is_max_over np (fun r => ws r d) (wmax d)).
  { destruct (Hm 0) as (x0 & M0). destruct (Hm 1) as (x1 & M1). destruct (Hm 2) as (x2 & M2).
    exists (fun d => if d =? 0 then x0 else if d =? 1 then x1 else x2). intros d Hd.
    assert (d = 0 \/ d = 1 \/ d = 2) as [->|[->| ->]] by lia; assumption. }
  destruct HW as (wmax & HW).
  set (w' := fun r => match substep_of it (with_speeds wmax (lsys r (l2 r))) (local_bc b g lgs r) prm adj k (w r)
                      with Ok s' => s' | _ => w r end).
  exists w', us, (fun r => nth (S k) (fst (fst (w r))) refn), l2, ws, wmax.
  split; [|split; [exact Hex|split; [|split; [exact HW|]]]].
  - intros r Hr. pose proof (HB r Hr) as Bk. unfold us, block_at in *. destruct (w r) as [[vs dt] sc].
    destruct Bk as (_ & B2 & _). cbn [fst]. rewrite (input_is k Hk). split; apply vat_nth; lia.
  - intros r Hr. destruct (sub_local us Hus l2 r Hex Hr) as (o & x & sc2 & E2 & _).
    exists (l2 r), o, sc2. unfold ws. rewrite E2. reflexivity.
  - intros r Hr. destruct (block_substep us l2 r wmax Hr Hus Hex) as (s' & Es & _). unfold w'. rewrite Es. reflexivity.
Qed.
End Sub.

(** All substeps. *)
Lemma substeps_ok adj : forall m k S0 w, (k + m = substeps it)%nat -> serial_at k S0 ->
  (forall r, 0 <= r < np -> block_at k S0 r (w r)) ->
  (exists w', worlds_substeps it p gr junk g nvars np lsys (local_bc b g lgs) prm adj (seq k m) w w') /\
  forall w', worlds_substeps it p gr junk g nvars np lsys (local_bc b g lgs) prm adj (seq k m) w w' ->
    exists S', fold_res (substep_of it sysN bcN prm adj) (seq k m) S0 = Ok S' /\ serial_at (substeps it) S' /\
      forall r, 0 <= r < np -> block_at (substeps it) S' r (w' r).
Proof.
  induction m as [|m IH]; intros k [[VS DT] SC] w Hm HS HB.
  - rewrite Nat.add_0_r in Hm. subst k. cbn [seq fold_res]. split; [exists w; constructor|].
    intros w' Hw. inversion Hw; subst. eauto.
  - cbn [seq fold_res]. assert (Hk : (k < substeps it)%nat) by lia. split.
    + destruct (sub_possible k adj VS DT SC w Hk HS HB) as (w1 & H1).
      destruct (sub_step k adj VS DT SC w Hk HS HB w1 H1) as (S1 & _ & HS1 & HB1).
      destruct (IH (S k) S1 w1 ltac:(lia) HS1 HB1) as ((w' & H2) & _). exists w'. now apply wss_cons with w1.
    + intros w' Hw. inversion Hw as [|? ? ? w1 ? H1 H2]; subst.
      destruct (sub_step k adj VS DT SC w Hk HS HB w1 H1) as (S1 & E1 & HS1 & HB1). rewrite E1. cbn [bind].
      now apply (IH (S k) S1 w1 ltac:(lia) HS1 HB1).
Qed.

(** The serial simulator and the processes hold the same solution. *)
Definition matches (sst : sim V (Sc)) (st : Z -> sim V (Sc)) : Prop :=
  serial_at 0 (s_vols sst, 0%R, s_sys sst) /\
  forall r, 0 <= r < np ->
    block_at 0 (s_vols sst, 0%R, s_sys sst) r (s_vols (st r), 0%R, s_sys (st r)) /\
    s_time (st r) = s_time sst /\ s_steps (st r) = s_steps sst.

Lemma step_matches adj sst st : matches sst st ->
  (exists st', worlds_step it p gr junk g nvars np lsys (local_bc b g lgs) prm adj st st') /\
  forall st', worlds_step it p gr junk g nvars np lsys (local_bc b g lgs) prm adj st st' ->
    exists sst', increment_solution it sysN bcN prm adj sst = Ok sst' /\ matches sst' st'.
Proof.
  intros (HS & HB).
  assert (HB0 : forall r, 0 <= r < np -> block_at 0 (s_vols sst, 0%R, s_sys sst) r (s_vols (st r), 0%R, s_sys (st r)))
    by (intros; now apply HB).
  destruct (substeps_ok (adj (s_time sst)) (substeps it) 0 (s_vols sst, 0%R, s_sys sst)
    (fun r => (s_vols (st r), 0%R, s_sys (st r))) eq_refl HS HB0) as (P1 & P2).
  assert (Hn : exists q, substeps it = S q) by (destruct it; simpl; eauto). destruct Hn as (q & Hq).
  split.
  - destruct P1 as (w' & Hw). destruct (P2 w' Hw) as (S' & _ & HS' & HB').
    exists (fun r => mksim (match swap_ends (fst (fst (w' r))) with Ok v => v | _ => [] end)
                       (s_time (st r) + snd (fst (w' r)))%R (S (s_steps (st r))) (snd (w' r))).
    exists (s_time sst), w'. split; [intros r Hr; now apply HB|]. split; [exact Hw|].
    intros r Hr. specialize (HB' r Hr). destruct S' as [[VS DT] SC]. unfold block_at in HB'. destruct (w' r) as [[vs dt] sc].
    destruct HB' as (B1 & B2 & _). rewrite Hq in B2. cbn [fst snd].
    destruct (swap_ok refn (refn_size) vs q B2) as (vs' & E & _). exists vs'. rewrite E. auto.
  - intros st' (t & w' & Ht & Hw & Hst).
    assert (Et : t = s_time sst).
    { pose proof (np_pos p gr dims g Hfit). rewrite <- (Ht 0) by lia. apply HB. lia. }
    subst t. destruct (P2 w' Hw) as (S' & E & HS' & HB'). destruct S' as [[VS DT] SC].
    change (increment_solution it sysN bcN prm adj sst) with
      (r <- fold_res (substep_of it sysN bcN prm (adj (s_time sst))) (seq 0 (substeps it)) (s_vols sst, 0%R, s_sys sst);;
       let '(vols, dt, sc) := r in
       vols' <- swap_ends vols;; Ok (mksim vols' (s_time sst + dt)%R (S (s_steps sst)) sc)).
    rewrite E. cbn [bind]. destruct HS' as (S1 & S2 & S3 & S4).
    rewrite Hq in *.
    destruct (swap_ok refN (refN_size) VS q S2) as (VS' & EV & LV & FV & NV). rewrite EV. cbn [bind].
    eexists. split; [reflexivity|]. unfold matches. cbn [s_vols s_sys s_time s_steps serial_at].
    split; [split; [now apply FV|]; split; [lia|]; split; [exact S3|]; now rewrite NV|].
    intros r Hr. specialize (HB' r Hr). destruct (Hst r Hr) as (vs' & Ev & ->). unfold block_at in *.
    destruct (w' r) as [[vs dt] sc]. cbn [fst snd] in *. destruct HB' as (B1 & B2 & B3 & B4 & B5 & B6).
    rewrite Hq in B2.
    destruct (swap_ok refn (refn_size) vs q B2) as (vs2 & E2 & L2 & F2 & N2). rewrite E2 in Ev. injection Ev as <-.
    cbn [s_vols s_sys s_time s_steps]. destruct (HB r Hr) as (_ & T1 & T2). rewrite T1, T2, B5.
    split; [|split; reflexivity]. split; [now apply F2|]. split; [lia|]. split; [exact B3|]. split; [now rewrite N2|].
    split; [reflexivity|]. intros j Hj. assert (j = 0)%nat as -> by lia. rewrite N2, NV. apply B6. lia.
Qed.

Lemma start_matches (vols : list (vol V)) (sc : Sc) (lvols : Z -> list (vol V)) (lsc : Z -> Sc) :
  Forall (ext3 dims g N) vols -> length vols = S (substeps it) -> okN sc ->
  (forall r, 0 <= r < np ->
     Forall (ext3 dims g (gr_cells (lgs r))) (lvols r) /\ length (lvols r) = S (substeps it) /\
     (scratch_ext dims g (at3 (gr_cells (lgs r)) 0) (at3 (gr_cells (lgs r)) 1) (at3 (gr_cells (lgs r)) 2) (fst (lsc r)) /\
      ok (at3 (gr_cells (lgs r)) 0) (at3 (gr_cells (lgs r)) 1) (at3 (gr_cells (lgs r)) 2) (snd (lsc r)))) ->
  distributed dims g np lgs (vget (nth 0 vols refN)) (fun r => vget (nth 0 (lvols r) refn)) ->
  exists sst st, M_Sim.start bcN vols sc = Ok sst /\
    (forall r, 0 <= r < np -> M_Sim.start (local_bc b g lgs r) (lvols r) (lsc r) = Ok (st r)) /\ matches sst st.
Proof.
  intros Hv Hl Hs Hb Hd.
  assert (Sv : Forall (same_dims refN) vols) by (eapply Forall_impl; [|exact Hv]; intros; now apply same_extN).
  destruct (serial_bc_ok (nth 0 vols refN)) as (u' & E & G & K); [now apply Forall_nth_same|].
  exists (mksim (vset vols 0 u') 0%R 0%nat sc).
  exists (fun r => match M_Sim.start (local_bc b g lgs r) (lvols r) (lsc r) with Ok s => s | _ => mksim [] 0%R 0%nat sc end).
  split; [unfold M_Sim.start; rewrite (vat_nth vols 0 refN) by lia; cbn [bind]; rewrite E; reflexivity|].
  assert (B : forall r, 0 <= r < np -> exists v', M_Sim.start (local_bc b g lgs r) (lvols r) (lsc r) = Ok (mksim (vset (lvols r) 0 v') 0%R 0%nat (lsc r))
    /\ filled_block r v' /\ (forall c, inner dims g n c -> vget v' c = vget (nth 0 (lvols r) refn) c) /\
       Forall (same_dims refn) (lvols r) /\ length (lvols r) = S (substeps it) /\ okn (lsc r)).
  { intros r Hr. destruct (Hb r Hr) as (B1 & B2 & B3). rewrite (cells_at p gr junk dims g lgs nbs Hfit Hdec r Hr) in *.
    assert (Sl : Forall (same_dims refn) (lvols r)) by (eapply Forall_impl; [|exact B1]; intros; now apply same_extn).
    destruct (block_bc_ok r (nth 0 (lvols r) refn) Hr) as (v' & Ev & Gv & Kv); [now apply Forall_nth_same|].
    exists v'. unfold M_Sim.start. rewrite (vat_nth (lvols r) 0 refn) by lia. cbn [bind]. rewrite Ev. auto 8. }
  split; [intros r Hr; destruct (B r Hr) as (v' & Ev & _); now rewrite Ev|].
  unfold matches. cbn [s_vols s_sys s_time s_steps serial_at]. split.
  - split; [apply vset_Forall; [exact Sv|apply same_extN; apply G]|]. split; [now rewrite vset_length|]. split; [exact Hs|].
    rewrite nth_vset by lia. exact G.
  - intros r Hr. destruct (B r Hr) as (v' & Ev & Gv & Kv & B1 & B2 & B3). rewrite Ev. cbn [s_vols s_sys s_time s_steps block_at].
    split; [|split; reflexivity]. split; [apply vset_Forall; [exact B1|apply same_extn; apply Gv]|].
    split; [now rewrite vset_length|]. split; [exact B3|]. split; [rewrite nth_vset by lia; exact Gv|]. split; [reflexivity|].
    intros j Hj c Hc. assert (j = 0)%nat as -> by lia. rewrite !nth_vset by lia. cbn [Nat.eqb].
    rewrite Kv, K by (auto; now apply shifted_inner'). apply (Hd r c Hr).
    rewrite (cells_at p gr junk dims g lgs nbs Hfit Hdec r Hr). now apply interior3_inner.
Qed.

Lemma run_matches adjs : forall sst st, matches sst st ->
  (exists st', worlds_run it p gr junk g nvars np lsys (local_bc b g lgs) prm adjs st st') /\
  forall st', worlds_run it p gr junk g nvars np lsys (local_bc b g lgs) prm adjs st st' ->
    exists sst', fold_res (fun adj => increment_solution it sysN bcN prm adj) adjs sst = Ok sst' /\ matches sst' st'.
Proof.
  induction adjs as [|adj adjs IH]; intros sst st M.
  - split; [exists st; constructor|]. intros st' H. inversion H; subst. exists sst. split; [reflexivity|exact M].
  - destruct (step_matches adj sst st M) as ((st1 & H1) & Hall). split.
    + destruct (Hall st1 H1) as (s1 & _ & M1). destruct (IH s1 st1 M1) as ((st' & H2) & _).
      exists st'. now apply wsr_cons with st1.
    + intros st' H. inversion H as [|? ? ? st2 ? R1 R2]; subst. destruct (Hall st2 R1) as (s1 & E1 & M1).
      destruct (IH s1 st2 M1) as (_ & H3). destruct (H3 st' R2) as (sst' & E & M'). exists sst'.
      cbn [fold_res]. rewrite E1. cbn [bind]. auto.
Qed.

Lemma matches_solution sst st : matches sst st ->
  distributed dims g np lgs (solution sst) (fun r => solution (st r)).
Proof.
  intros (HS & HB) r c Hr Hc. rewrite (cells_at p gr junk dims g lgs nbs Hfit Hdec r Hr) in Hc.
  apply interior3_inner in Hc; [|exact Hdims]. destruct (HB r Hr) as ((B1 & B2 & _ & _ & _ & B6) & _).
  destruct HS as (S1 & S2 & _). specialize (B6 0%nat (le_n 0) c Hc). unfold solution.
  destruct (s_vols (st r)) as [|v l]; [discriminate|]. destruct (s_vols sst) as [|v2 l2]; [discriminate|]. exact B6.
Qed.
End R.
