(** Checks after the steps of several processes, against the check of the serial
    simulator. *)
From Coq Require Import ZArith Reals List Bool Lia Lra.
From Verif Require Import M_Base M_Vec M_Boundary M_Flux M_Sim M_Mpi M_Parallel M_ParallelCheck S_Boundary S_Flux
  S_Sim S_Mpi S_Sum S_Parallel S_Symmetry L_Base L_Loops L_Boundary L_Flux L_System L_Sum L_Conserve L_FluxTop
  L_Sim L_SimTop L_Decomp L_Exchange L_Match L_Parallel L_ParallelRun L_ParallelStep.
Import ListNotations.
Open Scope Z_scope.

Lemma checked_accepts {St A} (inc : St -> res St) (front : St -> res A) obeys s s' v :
  inc s = Ok s' -> front s' = Ok v -> obeys v = true -> checked_step inc front obeys s = Ok s'.
Proof. intros E F O. unfold checked_step. rewrite E. cbn [bind]. rewrite F. cbn [bind]. now rewrite O. Qed.

Lemma checked_rejects {St A} (inc : St -> res St) (front : St -> res A) obeys s s' v :
  inc s = Ok s' -> front s' = Ok v -> obeys v = false -> checked_step inc front obeys s = Throw.
Proof. intros E F O. unfold checked_step. rewrite E. cbn [bind]. rewrite F. cbn [bind]. now rewrite O. Qed.

Lemma ws_one {V : cvars} {St : storage V} it b p gr junk g nvars np lgs (fx : numflux V) (rc : recon V) prm adj k w w' :
  world_substeps it b p gr junk g nvars np lgs fx rc prm adj [k] w w' ->
  world_substep it b p gr junk g nvars np lgs fx rc prm adj k w w'.
Proof. intros H. inversion H as [|? ? ? w1 ? H1 H2]; subst. inversion H2; subst. exact H1. Qed.

Section C.
Context {V : cvars} {St : storage V}.
Variables (it : integrator) (b : bckind) (p : cell) (gr : grid) (junk : Z -> Z -> Z) (dims g nvars : Z).
Variables (lgs : Z -> grid) (nbs : Z -> Z -> Z) (fx : numflux V) (rc : recon V) (prm : params).
Hypothesis Hfit : S_Mpi.fits p (gr_cells gr) dims g.
Hypothesis Hbcs : forall s, gr_bc gr s = side_type b.
Hypothesis Hrec : record_of V nvars.
Hypothesis Hcomp : compatible fx rc g.
Notation np := (processes p).
Notation N := (gr_cells gr).
Notation n := (per3 p (gr_cells gr)).
Hypothesis Hdec : forall r, 0 <= r < np -> decompose p gr r (junk r) = Ok (lgs r, nbs r).
Hypothesis Hcells : total_cells dims g (at3 N 0) (at3 N 1) (at3 N 2) < 2 ^ 31.
Let Hdims : 1 <= dims <= 3 := proj1 Hfit.
Notation imN := (image (bc_image b) dims g (at3 N 0) (at3 N 1) (at3 N 2)).
Notation inN := (in_volume dims g (at3 N 0) (at3 N 1) (at3 N 2)).
Notation inn := (in_volume dims g (at3 n 0) (at3 n 1) (at3 n 2)).
Notation start r := (gr_start (lgs r)).
Notation refN := (L_SimTop.ref (V := V) dims g (at3 N 0) (at3 N 1) (at3 N 2)).
Notation refn := (L_SimTop.ref (V := V) dims g (at3 n 0) (at3 n 1) (at3 n 2)).
Notation goodN := (L_SimTop.good (V := V) b dims g (at3 N 0) (at3 N 1) (at3 N 2)).
Notation bcN := (apply_boundary (A := V) (bc_apply b) dims g (fun _ => false)).
Notation sysN := (flux_system dims g fx rc Ok).
Notation matches := (matches it b p gr dims g lgs).
Variables (ok : V -> bool) (obeysN : vol V -> bool) (obeysn : Z -> vol V -> bool).
Hypothesis HN : checks_all dims g (at3 N 0) (at3 N 1) (at3 N 2) ok obeysN.
Hypothesis Hn : forall r, 0 <= r < np -> checks_all dims g (at3 n 0) (at3 n 1) (at3 n 2) ok (obeysn r).

Lemma imN_inner c : inN c -> inner dims g N (imN c).
Proof.
  intros Hc. apply interior3_inner; [exact Hdims|].
  apply (im_interior b dims g fx rc (at3 N 0) (at3 N 1) (at3 N 2)); auto;
    first [pose proof (N_pos p gr dims g Hfit 0 ltac:(lia)); lia
          |pose proof (N_pos p gr dims g Hfit 1 ltac:(lia)); lia
          |pose proof (N_pos p gr dims g Hfit 2 ltac:(lia)); lia
          |intros; apply (N_ghost p gr dims g Hfit); lia
          |apply (N_ghost p gr dims g Hfit); lia].
Qed.
Lemma inner_inn c : inner dims g n c -> inn c.
Proof.
  intros Hc. apply in_volume3; [exact Hdims|]. intros k Hk. specialize (Hc k Hk).
  pose proof (g_pos1 g fx rc Hcomp). destruct (k <? dims); lia.
Qed.

(** The front volumes. *)
Lemma fronts sst st : matches sst st ->
  (exists v, vat (s_vols sst) 0 = Ok v /\ v = nth 0 (s_vols sst) refN /\ goodN v) /\
  forall r, 0 <= r < np -> exists w, vat (s_vols (st r)) 0 = Ok w /\ w = nth 0 (s_vols (st r)) refn /\
    ext3 dims g n w /\ same_block p gr dims g lgs r w (nth 0 (s_vols sst) refN).
Proof.
  intros ((S1 & S2 & _ & S4) & HB). split.
  - exists (nth 0 (s_vols sst) refN). split; [apply vat_nth; lia|]. split; [reflexivity|exact S4].
  - intros r Hr. destruct (HB r Hr) as ((B1 & B2 & _ & B4 & _ & B6) & _).
    exists (nth 0 (s_vols (st r)) refn). split; [apply vat_nth; lia|]. split; [reflexivity|].
    split; [apply B4|]. apply B6. lia.
Qed.

(** If every process accepts, the serial simulator accepts. *)
Lemma accepted_step sst st : matches sst st -> (forall r, 0 <= r < np -> accepts obeysn st r) ->
  exists v, vat (s_vols sst) 0 = Ok v /\ obeysN v = true.
Proof.
  intros M Ha. destruct (fronts sst st M) as ((v & E & Ev & G) & F). exists v. split; [exact E|].
  apply HN; [apply G|]. intros c Hc. rewrite (proj2 G c Hc).
  destruct (covered p gr junk dims g lgs nbs Hfit Hdec (imN c) (imN_inner c Hc)) as (r & d & Hr & Hd & ->).
  destruct (F r Hr) as (w & Ew & _ & Xw & Sw). rewrite Ev, <- (Sw d Hd).
  destruct (Ha r Hr) as (w' & Ew' & Ob). rewrite Ew in Ew'. injection Ew' as <-.
  apply (proj1 (Hn r Hr w Xw) Ob). now apply inner_inn.
Qed.

Lemma accept_dec sst st : matches sst st ->
  (forall r, 0 <= r < np -> accepts obeysn st r) \/ exists r, 0 <= r < np /\ refuses obeysn st r.
Proof.
  intros M. destruct (fronts sst st M) as (_ & F).
  destruct (forallb (fun r => obeysn r (nth 0 (s_vols (st r)) refn)) (zrange 0 np)) eqn:E.
  - left. intros r Hr. destruct (F r Hr) as (w & Ew & -> & _). exists (nth 0 (s_vols (st r)) refn). split; [exact Ew|].
    rewrite forallb_forall in E. apply E. now apply zrange_In.
  - right. apply Bool.not_true_iff_false in E.
    assert (H : exists r, In r (zrange 0 np) /\ obeysn r (nth 0 (s_vols (st r)) refn) = false).
    { revert E. generalize (zrange 0 np). clear. intros l. induction l as [|a l IH]; cbn [forallb]; [intros H; now destruct H|].
      intros H. destruct (obeysn a _) eqn:Ea.
      - cbn [andb] in H. destruct (IH H) as (r & R1 & R2). exists r. split; [now right|exact R2].
      - exists a. split; [now left|exact Ea]. }
    destruct H as (r & Hr & Hf). apply zrange_In in Hr. exists r. split; [exact Hr|].
    destruct (F r Hr) as (w & Ew & -> & _). exists (nth 0 (s_vols (st r)) refn). auto.
Qed.

Notation runs := (world_checked it b p gr junk g nvars np lgs fx rc prm obeysn).

Lemma checked_possible adjs : forall sst st, matches sst st -> exists o, runs adjs st o.
Proof.
  induction adjs as [|adj adjs IH]; intros sst st M; [exists (Finished st); constructor|].
  destruct (step_matches it b p gr junk dims g nvars lgs nbs fx rc prm Hfit Hbcs Hrec Hcomp Hdec Hcells adj sst st M)
    as ((st1 & H1) & Hall). destruct (Hall st1 H1) as (s1 & _ & M1).
  destruct (accept_dec s1 st1 M1) as [A|(r & Hr & A)].
  - destruct (IH s1 st1 M1) as (o & Ho). exists o. now apply wc_go with st1.
  - exists Refused. now apply wc_refuse with st1 r.
Qed.

Lemma checked_run adjs : forall sst st st', matches sst st -> runs adjs st (Finished st') ->
  exists sst', run it sysN bcN prm obeysN adjs sst = Ok sst' /\ matches sst' st'.
Proof.
  induction adjs as [|adj adjs IH]; intros sst st st' M H.
  - inversion H; subst. exists sst. split; [reflexivity|exact M].
  - inversion H as [| |? ? ? st1 ? H1 A H2]; subst.
    destruct (step_matches it b p gr junk dims g nvars lgs nbs fx rc prm Hfit Hbcs Hrec Hcomp Hdec Hcells adj sst st M)
      as (_ & Hall). destruct (Hall st1 H1) as (s1 & E1 & M1).
    destruct (accepted_step s1 st1 M1 A) as (v & Ev & Ob).
    destruct (IH s1 st1 st' M1 H2) as (sst' & E & M'). exists sst'. split; [|exact M'].
    assert (Es : perform_step it sysN bcN prm adj obeysN sst = Ok s1).
    { exact (checked_accepts _ _ _ _ _ _ E1 Ev Ob). }
    unfold run in *. cbn [fold_res]. rewrite Es. cbn [bind]. exact E.
Qed.

(** ** Forward Euler *)
Section Euler.
Hypothesis Hfe : it = ForwardEuler.
Definition steps_forward (adj : R -> list (R -> R)) : Prop :=
  forall t ws, (forall d, 0 <= d < 3 -> (0 <= ws d)%R) ->
    (0 <= compute_timestep (p_wadj prm) (adj t) ws (p_len prm) (p_cfl prm))%R.
Notation imn r := (image_masked (mpi_sides (lgs r)) (bc_image b) dims g (at3 n 0) (at3 n 1) (at3 n 2)).

(** The fluxes do not touch the ghost cells of the output volume. *)
Lemma block_frame r u u1 out sc u' out' ws sc' : 0 <= r < np -> ext3 dims g n u -> ext3 dims g n u1 ->
  ext3 dims g n out -> scratch_ext dims g (at3 n 0) (at3 n 1) (at3 n 2) sc ->
  (forall c, inner dims g n c -> vget u1 c = vget u c) ->
  local_sys g lgs fx rc r u1 u out sc = Ok (u', out', ws, sc') ->
  forall c, inn c -> ~ inner dims g n c -> vget out' c = vget out c.
Proof.
  intros Hr Hu Hu1 Ho Hs Hk E. unfold local_sys in E. rewrite (local_dims_eq p gr junk dims g lgs nbs Hfit Hdec r Hr) in E.
  destruct sc as [[a1 a2] a3]. destruct Hs as (A1 & A2 & A3). unfold flux_system in E.
  destruct (system_top dims g fx rc (at3 n 0) (at3 n 1) (at3 n 2) Hdims Hcomp) with
    (exchange := fun _ : vol V => Ok u1) (u := u) (u' := u1) (s := mkfstate a1 a2 a3 out (fun _ => 0%R)) as (s' & A & B & C & D & W); auto.
  - pose proof (n_pos p gr dims g Hfit 0 ltac:(lia)). lia.
  - pose proof (n_pos p gr dims g Hfit 1 ltac:(lia)). lia.
  - pose proof (n_pos p gr dims g Hfit 2 ltac:(lia)). lia.
  - apply (n_ghost p gr dims g Hfit); lia.
  - intros. apply (n_ghost p gr dims g Hfit); lia.
  - intros. apply (n_ghost p gr dims g Hfit); lia.
  - split; [exact A1|split; [exact A2|split; [exact A3|exact Ho]]].
  - intros c Hc. apply Hk. now apply interior3_inner.
  - rewrite A in E. cbn [bind] in E. injection E as <- <- <- <-. intros c Hc Hi. rewrite D; [reflexivity|exact Hc|].
    intros H. apply Hi. now apply interior3_inner.
Qed.

(** What a step does to the ghost cells that the boundary conditions leave alone: the
    first volume of a block gets the values received from the neighbours, plus those the
    second volume happened to hold, times dt / dx. *)
Lemma fe_step adj sst st st1 s1 : matches sst st ->
  world_step it b p gr junk g nvars np lgs fx rc prm adj st st1 -> matches s1 st1 ->
  exists (l2 : Z -> vol V) (dt : R), s_time s1 = (s_time sst + dt)%R /\ (steps_forward adj -> (0 <= dt)%R) /\
    (forall r c e j, 0 <= r < np -> inner dims g n c -> 0 <= e < dims -> - g <= j <= g ->
       vget (l2 r) (move e j c) = vget (nth 0 (s_vols sst) refN) (move e j (shifted (start r) c))) /\
    forall r, 0 <= r < np -> exists o', s_vols (st1 r) = [o'; l2 r] /\
    forall c, inn c -> imn r c = c -> ~ inner dims g n c ->
        vget o' c = vadd (vscal (dt / p_len prm 0) (vget (nth 1 (s_vols (st r)) refn) c)) (vget (l2 r) c).
Proof.
  intros M (t & w' & Ht & Hw & Hst) M1. pose proof M as ((S1 & S2 & S3 & S4) & HB).
  rewrite Hfe in Hw. cbn [substeps seq] in Hw. rewrite <- Hfe in Hw.
  apply ws_one in Hw. rename Hw into Hsub.
  destruct Hsub as (us & outs & l2 & ws & wmax & Hv & Hex & Hsys & Hmax & Hone). cbv beta in Hv.
  assert (Hus : forall r, 0 <= r < np -> us r = nth 0 (s_vols (st r)) refn /\ outs r = nth 1 (s_vols (st r)) refn).
  { intros r Hr. destruct (Hv r Hr) as (V1 & V2). destruct (HB r Hr) as ((B1 & B2 & _) & _). cbn [fst input_index substeps] in *.
    rewrite Hfe in V1, B2. cbn [input_index substeps] in V1, B2.
    rewrite (vat_nth _ 0 refn) in V1 by lia. rewrite (vat_nth _ 1 refn) in V2 by lia. split; congruence. }
  assert (Hfill : forall r, 0 <= r < np -> filled_block b p gr dims g lgs r (us r)).
  { intros r Hr. rewrite (proj1 (Hus r Hr)). apply (HB r Hr). }
  assert (Hdist : distributed dims g np lgs (vget (nth 0 (s_vols sst) refN)) (fun r => vget (us r))).
  { intros r c Hr Hc. cbv beta. rewrite (proj1 (Hus r Hr)). destruct (HB r Hr) as ((_ & _ & _ & _ & _ & B6) & _).
    apply (B6 0%nat (le_n 0)). rewrite (cells_at p gr junk dims g lgs nbs Hfit Hdec r Hr) in Hc. now apply interior3_inner in Hc. }
  assert (Hblk : forall r, 0 <= r < np -> exists out' sc',
     local_sys g lgs fx rc r (l2 r) (us r) (nth 1 (s_vols (st r)) refn) (s_sys (st r)) = Ok (l2 r, out', ws r, sc') /\
     same_dims refn (l2 r) /\ same_dims refn out' /\
     (forall c, inn c -> ~ inner dims g n c -> vget out' c = vget (nth 1 (s_vols (st r)) refn) c) /\
     (forall d, 0 <= d < 3 -> (0 <= ws r d)%R)).
  { intros r Hr. destruct (Hsys r Hr) as (u' & out' & sc' & E). cbn [snd] in E. rewrite (proj2 (Hus r Hr)) in E.
    destruct (sub_local it b p gr junk dims g nvars lgs nbs fx rc Hfit Hbcs Hrec Hcomp Hdec 0 (s_vols sst) 0%R (s_sys sst)
      (fun r => (s_vols (st r), 0%R, s_sys (st r))) (conj S1 (conj S2 (conj S3 S4)))
      (fun q Hq => proj1 (HB q Hq)) us (fun q Hq => proj1 (Hus q Hq)) l2 r Hex Hr)
      as (o2 & ws2 & sc2 & E2 & X1 & X2 & X3 & X4 & _ & X5 & X6).
    cbn [fst snd] in E2. pose proof E2 as E3. rewrite E in E3. injection E3 as -> -> -> ->.
    exists o2, sc2. split; [exact E2|]. split; [exact X1|]. split; [exact X2|]. split.
    - destruct (HB r Hr) as ((B1 & B2 & B3 & _) & _).
      apply (block_frame r (us r) (l2 r) (nth 1 (s_vols (st r)) refn) (s_sys (st r)) (l2 r) o2 (ws r) sc2 Hr); auto.
      + apply (Hfill r Hr).
      + now apply same_extn.
      + apply same_extn. now apply Forall_nth_same.
    - intros d Hd. destruct (Z.lt_ge_cases d dims) as [L|L]; [apply (X5 d); lia|]. rewrite X6 by lia. lra. }
  assert (Hwm : forall d, 0 <= d < 3 -> (0 <= wmax d)%R).
  { intros d Hd. destruct (Hmax d Hd) as (_ & r & Hr & ->). destruct (Hblk r Hr) as (_ & _ & _ & _ & _ & _ & H). now apply H. }
  set (dt := compute_timestep (p_wadj prm) (adj t) wmax (p_len prm) (p_cfl prm)).
  assert (Hnew : forall r, 0 <= r < np -> exists o', (s_vols (st1 r) = [o'; l2 r] /\ s_time (st1 r) = (s_time (st r) + dt)%R) /\
     forall c, inn c -> imn r c = c -> ~ inner dims g n c ->
       vget o' c = vadd (vscal (dt / p_len prm 0) (vget (nth 1 (s_vols (st r)) refn) c)) (vget (l2 r) c)).
  { intros r Hr. destruct (Hblk r Hr) as (out' & sc' & E & X1 & X2 & X3 & _).
    destruct (HB r Hr) as ((B1 & B2 & B3 & B4 & B5 & B6) & _).
    assert (Hb : forall v : vol V, same_dims refn v -> exists v', local_bc b g lgs r v = Ok v' /\ ext3 dims g n v' /\
       forall c, inn c /\ imn r c = c -> vget v' c = vget v c).
    { intros v Hv'. destruct (local_bc_all b p gr junk dims g lgs nbs Hfit Hbcs Hdec r v Hr) as (v' & E1 & E2 & E3).
      - now apply same_extn.
      - exists v'. split; [exact E1|]. split; [exact E2|]. intros c (H1 & H2). rewrite E3 by exact H1. now rewrite H2. }
    assert (HI : forall c, inn c /\ imn r c = c -> inr refn c).
    { intros c (H1 & _). apply (in_volume_iff refn dims g (at3 n 0) (at3 n 1) (at3 n 2)); [lia|apply ref_ext|exact H1]. }
    destruct (body_at refn (refn_size p gr dims g fx rc Hfit Hcomp Hcells) (fun c => inn c /\ imn r c = c) HI (ext3 dims g n)
      (local_bc b g lgs r) (fun v H => proj2 (same_extn p gr dims g v) H) Hb it
      (with_speeds wmax (local_sys g lgs fx rc r (l2 r))) prm (adj t) 0 (s_vols (st r)) 0%R (s_sys (st r)) (l2 r) out' wmax sc' B1 B2)
      as (vs' & Es & F & L & G & K1 & K2); auto.
    - rewrite Hfe. cbn. lia.
    - rewrite Hfe. cbn [input_index]. unfold with_speeds. rewrite <- (proj1 (Hus r Hr)), E. reflexivity.
    - rewrite (Hone r Hr) in Es. destruct (Hst r Hr) as (vols' & Ev & ->). cbn [s_vols].
      injection Es as Es. rewrite Es in Ev. cbn [fst] in Ev. rewrite Hfe in *. cbn [substeps] in L.
      destruct vs' as [|a [|o [|]]]; cbn in L; try discriminate. cbn in Ev. injection Ev as <-.
      assert (Ea : a = l2 r) by (apply (K1 0%nat); lia). subst a.
      exists o. split; [split; [reflexivity|]|].
      + cbn [s_time]. rewrite Es. reflexivity.
      + intros c Hc Hm Hi. cbn [nth] in K2. rewrite K2 by auto. cbn [comb input_index sets_dt Nat.eqb]. fold dt.
        now rewrite X3. }
  exists l2, dt. split; [|split; [intros Hadj; now apply Hadj|split]].
  - assert (R0 : 0 <= 0 < np) by (pose proof (np_pos p gr dims g Hfit); lia).
    destruct (Hnew 0 R0) as (o' & (_ & T) & _). destruct (proj2 M1 0 R0) as (_ & T1 & _).
    destruct (HB 0 R0) as (_ & T2 & _). congruence.
  - intros r c e j Hr Hc He Hj.
    exact (star b p gr junk dims g nvars lgs nbs Hfit Hbcs (proj1 Hrec) Hdec _ us l2 (proj2 S4) Hfill Hdist Hex r c e j Hr Hc He Hj).
  - intros r Hr. destruct (Hnew r Hr) as (o' & (E & _) & K). exists o'. auto.
Qed.

(** ** One dimension *)
Section Line.
Hypothesis Hline : dims = 1.
Hypothesis cone : forall s x y, (0 <= s)%R -> ok x = true -> ok y = true -> ok (vadd (vscal s x) y) = true.
Hypothesis Hlen : (0 < p_len prm 0)%R.

(** Every cell of a block is close to an interior cell. *)
Lemma near c : inn c -> exists c0 j, inner dims g n c0 /\ - g <= j <= g /\ c = move 0 j c0.
Proof.
  intros Hc. pose proof (n_pos p gr dims g Hfit 0 ltac:(lia)) as P0. pose proof (g_pos1 g fx rc Hcomp) as Pg.
  destruct c as [[x y] z]. unfold in_volume in Hc. rewrite Hline in *. cbn [Z.ltb Z.compare Pos.compare Pos.compare_cont] in Hc.
  set (x0 := if x <? g then g else if g + at3 n 0 <=? x then g + at3 n 0 - 1 else x).
  assert (Hx0 : g <= x0 < g + at3 n 0 /\ - g <= x - x0 <= g).
  { unfold x0. destruct (Z.ltb_spec x g); [lia|]. destruct (Z.leb_spec (g + at3 n 0) x); lia. }
  exists (x0, y, z), (x - x0). split; [|split; [lia|]].
  - intros k Hk. assert (k = 0 \/ k = 1 \/ k = 2) as [->|[->| ->]] by lia; cbn [at3 Z.eqb Pos.eqb Z.ltb Z.compare Pos.compare Pos.compare_cont]; unfold at3 in *; cbn in *; lia.
  - unfold move. cbn [Z.eqb Pos.eqb]. replace (x0 + (x - x0)) with x by lia. reflexivity.
Qed.

Definition ok_serial (sst : sim V (scratch V)) : Prop :=
  forall c, inN c -> ok (vget (nth 0 (s_vols sst) refN) c) = true.
Definition ok_spare (st : Z -> sim V (scratch V)) : Prop :=
  forall r c, 0 <= r < np -> inn c -> ok (vget (nth 1 (s_vols (st r)) refn) c) = true.

Lemma inner_dec (m c : cell) : inner dims g m c \/ ~ inner dims g m c.
Proof.
  unfold inner.
  set (P := fun k => if k <? dims then g <= at3 c k < g + at3 m k else 0 <= at3 c k < at3 m k).
  assert (D : forall k, P k \/ ~ P k) by (intros k; unfold P; destruct (k <? dims); lia).
  destruct (D 0) as [D0|D0]; [|right; intros H; apply D0; apply (H 0); lia].
  destruct (D 1) as [D1|D1]; [|right; intros H; apply D1; apply (H 1); lia].
  destruct (D 2) as [D2|D2]; [|right; intros H; apply D2; apply (H 2); lia].
  left. intros k Hk. assert (k = 0 \/ k = 1 \/ k = 2) as [->|[->| ->]] by lia; assumption.
Qed.
Lemma inner_inN c : inner dims g N c -> inN c.
Proof.
  intros Hc. apply in_volume3; [exact Hdims|]. intros k Hk. specialize (Hc k Hk).
  pose proof (g_pos1 g fx rc Hcomp). destruct (k <? dims); lia.
Qed.

Lemma line_step adj sst st st1 s1 : steps_forward adj -> matches sst st -> ok_serial sst -> ok_spare st ->
  world_step it b p gr junk g nvars np lgs fx rc prm adj st st1 -> matches s1 st1 -> ok_serial s1 ->
  ok_spare st1 /\ forall r, 0 <= r < np -> accepts obeysn st1 r.
Proof.
  intros Hadj M Hok Hsp Hw M1 Hok1. pose proof M as ((S1 & S2 & S3 & S4) & HB).
  destruct (fe_step adj sst st st1 s1 M Hw M1) as (l2 & dt & _ & Hdt & Hst & Hnew). specialize (Hdt Hadj).
  assert (Hh : (0 <= dt / p_len prm 0)%R).
  { unfold Rdiv. apply Rmult_le_pos; [exact Hdt|]. left. now apply Rinv_0_lt_compat. }
  assert (Hl2 : forall r c, 0 <= r < np -> inn c -> ok (vget (l2 r) c) = true).
  { intros r c Hr Hc. destruct (near c Hc) as (c0 & j & Hc0 & Hj & ->). rewrite Hst by (auto; lia).
    apply Hok. apply (stencil_in_volume dims g fx rc (at3 N 0) (at3 N 1) (at3 N 2) Hdims Hcomp); try lia.
    apply interior3_inner; [exact Hdims|]. now apply (shifted_inner p gr junk dims g lgs nbs Hfit Hdec). }
  assert (Hspare : ok_spare st1).
  { intros r c Hr Hc. destruct (Hnew r Hr) as (o' & E & _). rewrite E. cbn [nth]. now apply Hl2. }
  split; [exact Hspare|]. intros r Hr. destruct (fronts s1 st1 M1) as (_ & F).
  destruct (F r Hr) as (w & Ew & Eqw & Xw & Sw). exists w. split; [exact Ew|]. apply (Hn r Hr w Xw).
  assert (Fw : forall c, inn c -> vget w c = vget w (imn r c)) by (rewrite Eqw; apply (proj2 M1 r Hr)).
  intros c Hc. rewrite (Fw c Hc). destruct (imn_facts b p gr dims g lgs Hfit Hbcs r c Hc) as (F1 & F2 & _).
  destruct (inner_dec n (imn r c)) as [Hi|Hi].
  - rewrite (Sw _ Hi). apply Hok1. apply inner_inN. now apply (shifted_inner p gr junk dims g lgs nbs Hfit Hdec).
  - destruct (Hnew r Hr) as (o' & E & K). rewrite Eqw, E. cbn [nth]. rewrite K by assumption.
    apply cone; [exact Hh|now apply Hsp|now apply Hl2].
Qed.

Lemma ok_serial_dec sst st : matches sst st -> forall v, vat (s_vols sst) 0 = Ok v -> obeysN v = true -> ok_serial sst.
Proof.
  intros M v E O. destruct (fronts sst st M) as ((v' & E' & -> & G) & _). rewrite E in E'. injection E' as ->.
  intros c Hc. now apply (proj1 (HN _ (proj1 G)) O).
Qed.

Lemma line_run adjs : (forall adj, In adj adjs -> steps_forward adj) ->
  forall sst st sst' o, matches sst st -> ok_serial sst -> ok_spare st ->
  run it sysN bcN prm obeysN adjs sst = Ok sst' -> runs adjs st o -> exists st', o = Finished st'.
Proof.
  induction adjs as [|adj adjs IH]; intros Hadj sst st sst' o M Hs Hp Hrun Ho.
  - inversion Ho; subst. eauto.
  - assert (K : forall st1, world_step it b p gr junk g nvars np lgs fx rc prm adj st st1 ->
      exists s1, run it sysN bcN prm obeysN adjs s1 = Ok sst' /\ matches s1 st1 /\ ok_serial s1 /\ ok_spare st1 /\
        forall r, 0 <= r < np -> accepts obeysn st1 r).
    { intros st1 H1.
      destruct (step_matches it b p gr junk dims g nvars lgs nbs fx rc prm Hfit Hbcs Hrec Hcomp Hdec Hcells adj sst st M)
        as (_ & Hall). destruct (Hall st1 H1) as (s1 & E1 & M1). exists s1.
      destruct (fronts s1 st1 M1) as ((v & Ev & _ & _) & _).
      assert (Hob : obeysN v = true /\ run it sysN bcN prm obeysN adjs s1 = Ok sst').
      { unfold run in Hrun |- *. cbn [fold_res] in Hrun. unfold perform_step in Hrun at 1. 
        destruct (obeysN v) eqn:Ob.
        - rewrite (checked_accepts _ _ _ _ _ _ E1 Ev Ob) in Hrun. auto.
        - rewrite (checked_rejects _ _ _ _ _ _ E1 Ev Ob) in Hrun. discriminate. }
      destruct Hob as (Ob & Hr1). pose proof (ok_serial_dec s1 st1 M1 v Ev Ob) as Hs1.
      destruct (line_step adj sst st st1 s1 (Hadj adj (or_introl eq_refl)) M Hs Hp H1 M1 Hs1) as (P1 & P2). auto 6. }
    inversion Ho as [|? ? ? st1 r H1 Hr Hf|? ? ? st1 ? H1 A H2]; subst.
    + destruct (K st1 H1) as (s1 & _ & _ & _ & _ & A). destruct (A r Hr) as (v & Ev & Ob).
      destruct Hf as (v' & Ev' & Ob'). rewrite Ev in Ev'. injection Ev' as <-. congruence.
    + destruct (K st1 H1) as (s1 & R1 & M1 & Hs1 & Hp1 & _).
      apply (IH (fun a Ha => Hadj a (or_intror Ha)) s1 st1 sst' o M1 Hs1 Hp1 R1 H2).
Qed.
End Line.
End Euler.
End C.
