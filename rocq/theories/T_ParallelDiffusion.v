(** C87: decomposed runs with a diffusion operator.
    Full statement: with the entropy diffusion operator (tecno schemes) the processes
    compute the serial solution.
    Proved: for every operator that adds a term depending on the cells along the axes up
    to the number of ghost cells (C87_runs_agree); the operator without reconstruction
    with two ghost layers, any number of dimensions (C87_plain_partial); with ENO
    reconstruction, order + 1 layers, in one dimension (C87_eno_partial).
    False with the one ghost layer the operator without reconstruction asks for
    (C87_one_layer_refuted).  Missing: ENO reconstruction in more dimensions, where the
    operator mixes directions (C65_y_direction_refuted). *)
From Coq Require Import ZArith Reals List Bool Lia Lra.
From Verif Require Import M_Base M_Vec M_Boundary M_Flux M_Sim M_Mpi M_Euler M_EulerEigen M_Scalar M_Recon M_Eno M_Diffusion M_TecnoEno M_Parallel
  M_ParallelDiffusion S_Boundary S_Flux S_Sim S_Mpi S_Parallel S_Diffusion S_TecnoEno S_ParallelDiffusion
  L_Base L_Loops L_Boundary L_Flux L_System L_FluxTop L_Sim L_SimTop L_Decomp L_Match L_Parallel L_ParallelRun L_ParallelStep L_Recon L_Diffusion
  L_TecnoEno L_TecnoEno2 L_ParallelDiffusion L_Storage T_Diffusion T_TecnoEno T_Parallel.
Import ListNotations.
Open Scope Z_scope.

(** Hypotheses of the theorems on runs: as C58_runs_agree. *)
Definition decomposed_setting {V : cvars} {St : storage V} {Sc : Type} (it : integrator) b p gr junk dims g nvars lgs nbs
    (fx : numflux V) (rc : recon V) (ok : Z -> Z -> Z -> Sc -> Prop)
    (vols : list (vol V)) (sc : scratch V * Sc) (lvols : Z -> list (vol V)) (lsc : Z -> scratch V * Sc) : Prop :=
  S_Mpi.fits p (gr_cells gr) dims g /\ (forall i, gr_bc gr i = side_type b) /\
  record_of V nvars /\ compatible fx rc g /\
  (forall r, 0 <= r < processes p -> decompose p gr r (junk r) = Ok (lgs r, nbs r)) /\
  total_cells dims g (at3 (gr_cells gr) 0) (at3 (gr_cells gr) 1) (at3 (gr_cells gr) 2) < 2 ^ 31 /\
  Forall (ext3 dims g (gr_cells gr)) vols /\ length vols = S (substeps it) /\
  (scratch_ext dims g (at3 (gr_cells gr) 0) (at3 (gr_cells gr) 1) (at3 (gr_cells gr) 2) (fst sc) /\
   ok (at3 (gr_cells gr) 0) (at3 (gr_cells gr) 1) (at3 (gr_cells gr) 2) (snd sc)) /\
  (forall r, 0 <= r < processes p ->
     Forall (ext3 dims g (gr_cells (lgs r))) (lvols r) /\ length (lvols r) = S (substeps it) /\
     (scratch_ext dims g (at3 (gr_cells (lgs r)) 0) (at3 (gr_cells (lgs r)) 1) (at3 (gr_cells (lgs r)) 2) (fst (lsc r)) /\
      ok (at3 (gr_cells (lgs r)) 0) (at3 (gr_cells (lgs r)) 1) (at3 (gr_cells (lgs r)) 2) (snd (lsc r)))) /\
  forall d0, distributed dims g (processes p) lgs (vget (hd d0 vols)) (fun r => vget (hd d0 (lvols r))).

(** Conclusion: the runs start, the processes never get stuck, and however the messages
    arrive, they hold the parts of the serial solution after every number of steps. *)
Definition runs_agree {V : cvars} {St : storage V} {D : Type} (it : integrator) b p gr junk dims g nvars lgs
    (fx : numflux V) (rc : recon V) (op : diff_op V D) prm adjs
    (vols : list (vol V)) (sc : scratch V * D) (lvols : Z -> list (vol V)) (lsc : Z -> scratch V * D) : Prop :=
  let bc := apply_boundary (bc_apply b) dims g (fun _ => false) in
  let lsys := diffusive_sys g lgs fx rc op in
  exists sst0 st0, start bc vols sc = Ok sst0 /\
    (forall r, 0 <= r < processes p -> start (local_bc b g lgs r) (lvols r) (lsc r) = Ok (st0 r)) /\
    (exists st, worlds_run it p gr junk g nvars (processes p) lsys (local_bc b g lgs) prm adjs st0 st) /\
    forall st, worlds_run it p gr junk g nvars (processes p) lsys (local_bc b g lgs) prm adjs st0 st ->
    exists sst, fold_res (fun adj => increment_solution it (with_diffusion dims op (flux_system dims g fx rc Ok)) bc prm adj) adjs sst0 = Ok sst /\
      distributed dims g (processes p) lgs (solution sst) (fun r => solution (st r)) /\
      forall r, 0 <= r < processes p -> s_time (st r) = s_time sst /\ s_steps (st r) = s_steps sst.

Theorem C87_runs_agree :
  forall (V : cvars) (St : storage V) (D : Type) it b p gr junk dims g nvars lgs nbs (fx : numflux V) (rc : recon V)
    (op : diff_op V D) ok term prm adjs vols sc lvols lsc,
  adds_term dims g op ok term -> on_star dims g term ->
  decomposed_setting it b p gr junk dims g nvars lgs nbs fx rc ok vols sc lvols lsc ->
  runs_agree it b p gr junk dims g nvars lgs fx rc op prm adjs vols sc lvols lsc.
Proof.
  unfold runs_agree. intros V St D it b p gr junk dims g nvars lgs nbs fx rc op ok term prm adjs vols sc lvols lsc Hop Hterm
    (Hfit & Hbcs & Hrec & Hcomp & Hdec & Hcells & Hv & Hl & Hs & Hb & Hd).
  destruct (L_ParallelDiffusion.start_matches it b p gr junk dims g lgs nbs fx rc ok Hfit Hbcs Hcomp Hdec vols sc lvols lsc Hv Hl Hs Hb)
    as (sst0 & st0 & E0 & E1 & M0).
  { intros r c Hr Hc. specialize (Hd (L_SimTop.ref dims g 1 1 1) r c Hr Hc). destruct (Hb r Hr) as (_ & L & _). cbv beta in *.
    destruct (lvols r); [discriminate|]. destruct vols; [discriminate|]. exact Hd. }
  exists sst0, st0. split; [exact E0|]. split; [exact E1|].
  destruct (L_ParallelDiffusion.run_matches it b p gr junk dims g nvars lgs nbs fx rc prm op ok term Hop Hterm Hfit Hbcs Hrec Hcomp Hdec Hcells adjs sst0 st0 M0) as (P1 & P2).
  split; [exact P1|]. intros st Hr. destruct (P2 st Hr) as (sst & E & M). exists sst. split; [exact E|].
  split; [now apply (L_ParallelDiffusion.matches_solution it b p gr junk dims g lgs nbs ok Hfit Hdec sst st M)|].
  intros r Hr'. now apply M.
Qed.

(** *** The operators *)
Lemma plain_adds {V : cvars} (bs : basis V) eq m dims g : square bs eq -> 1 <= dims <= 3 -> 2 <= g ->
  adds_term dims g (apply_diffusion bs eq m) (ext_dstate dims g) (diffusion_term bs eq m dims).
Proof.
  intros Hsq Hd Hg nx ny nz u ds out _ _ _ Hu Ho Hs.
  exact (apply_diffusion_spec bs eq m Hsq dims g nx ny nz Hd Hg u out ds Hu Hs Ho).
Qed.
Lemma fold_same {A B} (f h : A -> B -> A) l a : (forall x b, In b l -> f x b = h x b) -> fold_left f l a = fold_left h l a.
Proof.
  revert a. induction l as [|b l IH]; intros a H; cbn [fold_left]; [reflexivity|].
  rewrite (H a b) by now left. apply IH. intros; apply H. now right.
Qed.
Lemma plain_star {V : cvars} (bs : basis V) eq m dims g : 1 <= g -> on_star dims g (diffusion_term bs eq m dims).
Proof.
  intros Hg u v c c' H. unfold diffusion_term. apply fold_same. intros a d Hd. apply zrange_In in Hd.
  pose proof (H d 0 Hd ltac:(lia)) as H0. rewrite !move_0 in H0.
  now rewrite H0, (H d 1 Hd), (H d (-1) Hd) by lia.
Qed.

(** Memory of the operator with ENO reconstruction of order [k]. *)
Definition eno_memory {V : cvars} (k : nat) (dims g nx ny nz : Z) (s : dstate (V := V) * list (vol R)) : Prop :=
  ext_dstate dims g nx ny nz (fst s) /\ scratch_fits k (d_el (fst s)) (snd s).

Lemma scratch_moves {V : cvars} (k : nat) (u v : vol V) s : same_dims u v -> scratch_fits k u s -> scratch_fits k v s.
Proof.
  intros (A & B & C) (H1 & H2). split; [exact H1|]. destruct H2 as [H2|H2]; [left|right]; (eapply Forall_impl; [|exact H2]); intros w.
  - unfold same_dims. rewrite A, B, C. auto.
  - unfold size3. rewrite A, B, C. auto.
Qed.

Lemma eno_adds {V : cvars} (bs : basis V) eq m k g : square bs eq -> (2 <= k <= 4)%nat -> Z.of_nat k + 1 <= g ->
  adds_term 1 g (apply_eno_diffusion bs eq m k) (eno_memory k 1 g) (rec_diffusion_term bs eq m k 1).
Proof.
  intros Hsq Hk Hg nx ny nz u [ds ar] out Hx Hy Hz Hu Ho (Hs & Ha). cbn [fst snd] in *.
  assert (Hd : 1 <= 1 <= 3) by lia.
  assert (Su : same_dims (d_el ds) u) by (destruct Hs as (Hs & _); exact (ext_same 1 g nx ny nz _ _ Hs Hu)).
  destruct (apply_eno_spec bs eq m Hsq 1 g nx ny nz k Hd Hk Hg Hx Hy Hz u out ds ar Hu Hs Ho (scratch_moves k _ _ _ Su Ha))
    as (s' & sc' & o & E & X1 & X2 & X3 & W).
  exists (s', sc'), o. split; [exact E|]. split.
  { split; [exact X1|]. cbn [fst snd]. apply (scratch_moves k u); [|exact X2].
    destruct X1 as (X1 & _). exact (ext_same 1 g nx ny nz _ _ Hu X1). }
  split; [exact X3|]. intros c Hc. rewrite W by exact Hc. f_equal.
  unfold rec_diffusion_term, face_term. change (zrange 0 1) with [0%Z]. cbn [fold_left].
  now rewrite !face_rec.
Qed.

Lemma tecno_rec_ext {V : cvars} (bs : basis V) eq k d (f f' : Z -> V) j i : (2 <= k <= 4)%nat ->
  (forall o, j - Z.of_nat k < o < j + Z.of_nat k -> f o = f' o) -> tecno_rec bs eq k d f j i = tecno_rec bs eq k d f' j i.
Proof.
  intros Hk H.
  assert (EL : forall o, j - Z.of_nat k + 1 < o < j + Z.of_nat k -> scaled_left bs eq d f o i = scaled_left bs eq d f' o i).
  { intros o Ho. unfold scaled_left, face_cols. now rewrite !H by lia. }
  assert (ER : forall o, j - Z.of_nat k < o < j + Z.of_nat k - 1 -> scaled_right bs eq d f o i = scaled_right bs eq d f' o i).
  { intros o Ho. unfold scaled_right, face_cols. now rewrite !H by lia. }
  unfold tecno_rec, eno. cbv zeta.
  rewrite (EL j), (ER j) by lia.
  set (a := scaled_left bs eq d f' j i).
  set (W := walk a _). set (W' := walk a (fun o => face_jump bs eq d f' (j + o) i)).
  assert (EW : forall o, - Z.of_nat k < o < Z.of_nat k -> W o = W' o).
  { intros o Ho. apply (walk_ext _ _ _ o (1 - Z.of_nat k) (Z.of_nat k - 1)); try lia. intros q Hq. unfold face_jump.
    now rewrite EL, ER by lia. }
  rewrite (eno_shift_ext (k - 1) (fun o => W o) W') by (intros; apply EW; lia).
  pose proof (eno_shift_le (k - 1) W').
  destruct (stencil_ext (V := scalar_cvars) W W' k (eno_shift (k - 1) W')) as [-> ->]; [lia|lia|exact EW|]. reflexivity.
Qed.

Lemma rec_dissipation_ext {V : cvars} (bs : basis V) eq m k d (f f' : Z -> V) : (2 <= k <= 4)%nat ->
  (forall o, - Z.of_nat k < o < Z.of_nat k + 1 -> f o = f' o) -> rec_dissipation bs eq m k d f = rec_dissipation bs eq m k d f'.
Proof.
  intros Hk H. unfold rec_dissipation, face_cols. change (0 + 1) with 1. rewrite (H 1), (H 0) by lia. f_equal.
  apply col_sum_ext. intros i Hi. unfold rec_jump.
  rewrite (tecno_rec_ext bs eq k d f f' 1 i), (tecno_rec_ext bs eq k d f f' 0 i); auto; intros; apply H; lia.
Qed.

Lemma eno_star {V : cvars} (bs : basis V) eq m k dims g : (2 <= k <= 4)%nat -> Z.of_nat k <= g ->
  on_star dims g (rec_diffusion_term bs eq m k dims).
Proof.
  intros Hk Hg u v c c' H. unfold rec_diffusion_term, face_term. apply fold_same. intros a d Hd. apply zrange_In in Hd.
  rewrite (rec_dissipation_ext bs eq m k d (along d u c) (along d v c') Hk) by (intros o Ho; apply H; lia).
  now rewrite (rec_dissipation_ext bs eq m k d (along d u (move d (-1) c)) (along d v (move d (-1) c')) Hk)
    by (intros o Ho; unfold along; rewrite !move_move; apply H; lia).
Qed.

(** Without reconstruction, two ghost layers, any number of dimensions. *)
Theorem C87_plain_partial :
  forall (V : cvars) (St : storage V) (bs : basis V) eq m it b p gr junk dims g nvars lgs nbs (fx : numflux V) (rc : recon V)
    prm adjs vols sc lvols lsc,
  square bs eq -> 2 <= g ->
  decomposed_setting it b p gr junk dims g nvars lgs nbs fx rc (ext_dstate dims g) vols sc lvols lsc ->
  runs_agree it b p gr junk dims g nvars lgs fx rc (apply_diffusion bs eq m) prm adjs vols sc lvols lsc.
Proof.
  intros V St bs eq m it b p gr junk dims g nvars lgs nbs fx rc prm adjs vols sc lvols lsc Hsq Hg H.
  apply (C87_runs_agree V St _ it b p gr junk dims g nvars lgs nbs fx rc _ (ext_dstate dims g) (diffusion_term bs eq m dims)); [|apply plain_star; lia|exact H].
  apply plain_adds; auto. exact (proj1 (proj1 H)).
Qed.

(** With ENO reconstruction, one layer more than its order, in one dimension. *)
Theorem C87_eno_partial :
  forall (V : cvars) (St : storage V) (bs : basis V) eq m k it b p gr junk g nvars lgs nbs (fx : numflux V) (rc : recon V)
    prm adjs vols sc lvols lsc,
  square bs eq -> (2 <= k <= 4)%nat -> Z.of_nat k + 1 <= g ->
  decomposed_setting it b p gr junk 1 g nvars lgs nbs fx rc (eno_memory k 1 g) vols sc lvols lsc ->
  runs_agree it b p gr junk 1 g nvars lgs fx rc (apply_eno_diffusion bs eq m k) prm adjs vols sc lvols lsc.
Proof.
  intros V St bs eq m k it b p gr junk g nvars lgs nbs fx rc prm adjs vols sc lvols lsc Hsq Hk Hg H.
  apply (C87_runs_agree V St _ it b p gr junk 1 g nvars lgs nbs fx rc _ (eno_memory k 1 g) (rec_diffusion_term bs eq m k 1)); [|apply eno_star; auto; lia|exact H].
  apply eno_adds; auto.
Qed.

(** *** One ghost layer

    The operator without reconstruction asks for one ghost layer
    (C38_one_ghost_layer_refuted).  With one layer every process computes the
    dissipation at the last interface of its block from memory that was never written (two
    times the value 42, so that there is none), the serial computation only that at the
    last interface of the grid.  Here four periodic cells are distributed over two
    processes; whatever the order of the messages, the right hand sides in the second cell
    differ. *)
Definition waves (i : Z) : R := (if Z.even i then 2 / 5 else 1 / 2)%R.
Definition wave_vol (n : Z) : vol scalar_cvars := mkvol n 1 1 waves.
Definition zero_vols (n : Z) : vol scalar_cvars := mkvol n 1 1 (fun _ => 0)%R.
Definition halved : grid :=
  mkgrid (4, 1, 1) (fun _ => PERIODIC) (0, 0, 0) (4, 1, 1) (fun _ => 0%R) (fun _ => 1%R) (fun _ => 1%R).
Definition fresh_plain (n : Z) : scratch scalar_cvars * dstate (V := scalar_cvars) :=
  ((zero_vols n, zero_vols n, zero_vols n), fresh_dstate (V := scalar_cvars) 42%R (zero_vols n)).

Lemma block_last (f o : Z -> R) : f 1 = (1 / 2)%R -> f 2 = (2 / 5)%R -> f 3 = (1 / 2)%R ->
  exists s' out', apply_diffusion scalar_basis burgers_diffusion Roe 1 (mkvol 4 1 1 f : vol scalar_cvars)
    (snd (fresh_plain 4)) (mkvol 4 1 1 o : vol scalar_cvars) = Ok (s', out') /\
  vget out' (2, 0, 0) = (o 2%Z + 39 / 320)%R :> R.
Proof.
  intros F1 F2 F3. eexists. eexists. split.
  { lazy -[Rplus Rmult Rmax Ropp Rinv Rdiv Rminus R0 R1 IZR Rabs entropy_var]. reflexivity. }
  assert (E1 : entropy_var (2 / 5) = (- (15 / 8))%R) by (unfold entropy_var; field).
  assert (E2 : entropy_var (1 / 2) = (- (4 / 3))%R) by (unfold entropy_var; field).
  lazy -[Rplus Rmult Rmax Ropp Rinv Rdiv Rminus R0 R1 IZR Rabs entropy_var].
  rewrite ?F1, ?F2, ?F3, ?E1, ?E2.
  rewrite ?(Rabs_pos_eq (1 / 2 * (2 / 5 + 1 / 2))), ?(Rabs_pos_eq (1 / 2 * (1 / 2 + 2 / 5))) by lra. lra.
Qed.
Lemma grid_inside (o : Z -> R) :
  exists s' out', apply_diffusion scalar_basis burgers_diffusion Roe 1 (wave_vol 6)
    (snd (fresh_plain 6)) (mkvol 6 1 1 o : vol scalar_cvars) = Ok (s', out') /\
  vget out' (2, 0, 0) = (o 2%Z + 39 / 160)%R :> R.
Proof.
  eexists. eexists. split.
  { lazy -[Rplus Rmult Rmax Ropp Rinv Rdiv Rminus R0 R1 IZR Rabs entropy_var]. reflexivity. }
  assert (E1 : entropy_var (2 / 5) = (- (15 / 8))%R) by (unfold entropy_var; field).
  assert (E2 : entropy_var (1 / 2) = (- (4 / 3))%R) by (unfold entropy_var; field).
  lazy -[Rplus Rmult Rmax Ropp Rinv Rdiv Rminus R0 R1 IZR Rabs entropy_var].
  rewrite ?E1, ?E2.
  rewrite ?(Rabs_pos_eq (1 / 2 * (2 / 5 + 1 / 2))), ?(Rabs_pos_eq (1 / 2 * (1 / 2 + 2 / 5))) by lra. lra.
Qed.

Lemma bind_ok {A B} (x : res A) (k : A -> res B) a : x = Ok a -> bind x k = k a.
Proof. now intros ->. Qed.

Theorem C87_one_layer_refuted :
  exists p lgs nbs (fx : numflux scalar_cvars) (rc : recon scalar_cvars) (U : vol scalar_cvars) (l : Z -> vol scalar_cvars),
    let op := apply_diffusion scalar_basis burgers_diffusion Roe in
    S_Mpi.fits p (gr_cells halved) 1 1 /\ compatible fx rc 1 /\ processes p = 2 /\
    (forall r, 0 <= r < processes p -> decompose p halved r (fun _ => 0) = Ok (lgs r, nbs r)) /\
    ext3 1 1 (gr_cells halved) U /\
    (forall c, in_volume 1 1 4 1 1 c -> vget U c = vget U (image periodic1 1 1 4 1 1 c)) /\
    (forall r, 0 <= r < processes p -> ext3 1 1 (gr_cells (lgs r)) (l r) /\ local_filled 1 1 Periodic (lgs r) (vget (l r))) /\
    distributed 1 1 (processes p) lgs (vget U) (fun r => vget (l r)) /\
    (exists l2, exchange_volumes p halved (fun _ _ => 0) 1 1 (processes p) l l2) /\
    forall l2, exchange_volumes p halved (fun _ _ => 0) 1 1 (processes p) l l2 ->
    exists out ws sc lout lws lsc,
      with_diffusion 1 op (flux_system 1 1 fx rc Ok) U (zero_vols 6) (fresh_plain 6) = Ok (U, out, ws, sc) /\
      diffusive_sys 1 lgs fx rc op 0 (l2 0) (l 0) (zero_vols 4) (fresh_plain 4) = Ok (l2 0, lout, lws, lsc) /\
      interior3 1 1 (gr_cells (lgs 0)) (2, 0, 0) /\
      vget lout (2, 0, 0) <> vget out (shifted (gr_start (lgs 0)) (2, 0, 0)).
Proof.
  set (p := (2, 1, 1) : cell). set (gr := halved).
  set (lgs := fun r => match decompose p gr r (fun _ => 0) with Ok (lg, _) => lg | _ => gr end).
  set (nbs := fun r => match decompose p gr r (fun _ => 0) with Ok (_, nb) => nb | _ => fun _ => 0 end).
  set (rc := no_reconstruction (V := scalar_cvars)). set (fx := ex_upwind).
  set (U := wave_vol 6). set (l := fun _ : Z => wave_vol 4).
  assert (Hfit : S_Mpi.fits p (gr_cells gr) 1 1).
  { split; [lia|]. split; [lia|]. split; [|split].
    - intros k Hk; assert (k = 0 \/ k = 1 \/ k = 2) as [->|[->| ->]] by lia; cbn; lia.
    - intros k Hk; assert (k = 0 \/ k = 1 \/ k = 2) as [->|[->| ->]] by lia; cbn; [exists 2|exists 1|exists 1]; reflexivity.
    - intros k Hk; assert (k = 0 \/ k = 1 \/ k = 2) as [->|[->| ->]] by lia; vm_compute; intuition congruence. }
  assert (Hcomp : compatible fx rc 1) by (split; [cbn; lia|exact I]).
  assert (Hbcs : forall s, gr_bc gr s = side_type Periodic) by reflexivity.
  assert (Hr2 : forall r, 0 <= r < processes p -> r = 0 \/ r = 1) by (intros r Hr; change (processes p) with 2 in Hr; lia).
  assert (Hdec : forall r, 0 <= r < processes p -> decompose p gr r (fun _ => 0) = Ok (lgs r, nbs r))
    by (intros r Hr; destruct (Hr2 r Hr) as [->| ->]; reflexivity).
  assert (Hx : forall m c, S_Mpi.inner 1 1 (m, 1, 1) c -> exists x, c = (x, 0, 0) /\ 1 <= x < m + 1).
  { intros m [[x y] z] H. pose proof (H 0 ltac:(lia)) as A0. pose proof (H 1 ltac:(lia)) as A1. pose proof (H 2 ltac:(lia)) as A2.
    cbn in A0, A1, A2. exists x. split; [|lia]. assert (y = 0) as -> by lia. now assert (z = 0) as -> by lia. }
  assert (HU : forall c, in_volume 1 1 4 1 1 c -> vget U c = vget U (image periodic1 1 1 4 1 1 c)).
  { intros [[x y] z] H. unfold in_volume in H. cbn in H. assert (y = 0 /\ z = 0) as [-> ->] by lia.
    assert (x = 0 \/ x = 1 \/ x = 2 \/ x = 3 \/ x = 4 \/ x = 5) as [->|[->|[->|[->|[->| ->]]]]] by lia; reflexivity. }
  assert (Hc : forall r, 0 <= r < processes p -> gr_cells (lgs r) = per3 p (gr_cells gr))
    by (intros r Hr; destruct (Hr2 r Hr) as [->| ->]; reflexivity).
  assert (Hf : forall r, 0 <= r < processes p -> filled_block Periodic p halved 1 1 lgs r (l r)).
  { intros r Hr. split; [repeat split|]. intros [[x y] z] H. unfold in_volume in H. cbn in H. change (4 / 2) with 2 in H.
    assert (y = 0 /\ z = 0) as [-> ->] by lia. assert (x = 0 \/ x = 1 \/ x = 2 \/ x = 3) as X by lia.
    destruct (Hr2 r Hr) as [->| ->]; destruct X as [->|[->|[->| ->]]]; reflexivity. }
  assert (Hd : distributed 1 1 (processes p) lgs (vget U) (fun r => vget (l r))).
  { intros r c Hr Hi. rewrite (Hc r Hr) in Hi. apply interior3_inner in Hi; [|lia]. destruct (Hx 2 c Hi) as (x & -> & Hx2).
    assert (x = 1 \/ x = 2) as X by lia. destruct (Hr2 r Hr) as [->| ->]; destruct X as [->| ->]; reflexivity. }
  exists p, lgs, nbs, fx, rc, U, l. cbv zeta.
  split; [exact Hfit|]. split; [exact Hcomp|]. split; [reflexivity|]. split; [exact Hdec|]. split; [repeat split|].
  split; [exact HU|]. split.
  { intros r Hr. destruct (Hf r Hr) as (F1 & F2). rewrite (Hc r Hr). split; [exact F1|]. unfold local_filled. rewrite (Hc r Hr). exact F2. }
  split; [exact Hd|].
  split; [exact (exchange_exists (V := scalar_cvars) Periodic p gr (fun _ _ => 0) 1 1 1 Hfit Hbcs scalar_record l)|].
  intros l2 Hex. pose proof (proj1 scalar_record) as Hdet.
  pose proof (star (V := scalar_cvars) Periodic p gr (fun _ _ => 0) 1 1 1 lgs nbs Hfit Hbcs Hdet Hdec U l l2 HU Hf Hd Hex 0) as Hst.
  destruct (global_system (V := scalar_cvars) p gr 1 1 1 fx rc Hfit Hdet Hcomp U (conj eq_refl (conj eq_refl eq_refl))
    (mkfstate (zero_vols 6) (zero_vols 6) (zero_vols 6) (zero_vols 6) (fun _ => 0%R))) as (s' & E & Dx & W & _); [repeat split|].
  destruct (block_system (V := scalar_cvars) Periodic p gr (fun _ _ => 0) 1 1 1 lgs nbs fx rc Hfit Hbcs Hdet Hcomp Hdec U l l2 HU Hf Hd Hex 0
    (mkfstate (zero_vols 4) (zero_vols 4) (zero_vols 4) (zero_vols 4) (fun _ => 0%R))) as (ls' & El & Dl & Wl & _);
    [change (processes p) with 2; lia|repeat split|].
  destruct (exchanged_block Periodic p gr (fun _ _ => 0) 1 1 1 lgs Hfit Hbcs Hdet l l2 Hf Hex 0) as (X1 & _);
    [change (processes p) with 2; lia|].
  assert (I2 : S_Mpi.inner 1 1 (per3 p (gr_cells gr)) (2, 0, 0)).
  { intros k Hk; assert (k = 0 \/ k = 1 \/ k = 2) as [->|[->| ->]] by lia; vm_compute; intuition congruence. }
  assert (J2 : S_Mpi.inner 1 1 (gr_cells gr) (2, 0, 0)).
  { intros k Hk; assert (k = 0 \/ k = 1 \/ k = 2) as [->|[->| ->]] by lia; vm_compute; intuition congruence. }
  pose proof (Wl _ I2) as Wl2. pose proof (W _ J2) as W2.
  assert (Q : forall j, -1 <= j <= 1 -> vget (l2 0) (move 0 j (2, 0, 0)) = waves (2 + j)).
  { intros j Hj. rewrite Hst; [|change (processes p) with 2; lia|exact I2|lia|exact Hj].
    assert (j = -1 \/ j = 0 \/ j = 1) as [->|[->| ->]] by lia; reflexivity. }
  pose proof (Q (-1) ltac:(lia)) as Q1. pose proof (Q 0 ltac:(lia)) as Q2. pose proof (Q 1 ltac:(lia)) as Q3. clear Q Hst.
  destruct Dx as (_ & _ & _ & Dx). destruct Dl as (_ & _ & _ & Dl).
  unfold diffusive_sys, with_diffusion, local_sys, flux_system. cbn [fst fresh_plain].
  change (local_dims lgs 0) with 1. rewrite E, El. cbn [bind].
  destruct (f_out s') as [a b c o] eqn:Eo. destruct (f_out ls') as [la lb lc lo] eqn:Elo.
  destruct (l2 0) as [ua ub uc uo] eqn:Eu.
  destruct Dx as (D1 & D2 & D3). destruct Dl as (L1 & L2 & L3). destruct X1 as (Y1 & Y2 & Y3).
  cbn [vnx vny vnz] in *. cbn in D1, D2, D3. change (at3 (per3 p (gr_cells gr)) 0) with 2 in *. cbn in L1, L2, L3, Y1, Y2, Y3.
  subst a b c la lb lc ua ub uc.
  change (uo 1 = waves 1) in Q1. change (uo 2 = waves 2) in Q2. change (uo 3 = waves 3) in Q3.
  destruct (grid_inside o) as (s1 & o1 & E1 & V1). destruct (block_last uo lo Q1 Q2 Q3) as (s2 & o2 & E2 & V2).
  change (snd (zero_vols 6, zero_vols 6, zero_vols 6, fresh_dstate (V := scalar_cvars) 42%R (zero_vols 6))) with (snd (fresh_plain 6)).
  change (snd (zero_vols 4, zero_vols 4, zero_vols 4, fresh_dstate (V := scalar_cvars) 42%R (zero_vols 4))) with (snd (fresh_plain 4)).
  exists o1, (f_speed s'), ((f_left s', f_right s', f_temp s'), s1), o2, (f_speed ls'), ((f_left ls', f_right ls', f_temp ls'), s2).
  split; [exact (bind_ok _ _ _ E1)|]. split; [exact (bind_ok _ _ _ E2)|].
  split; [apply interior3_inner; [lia|exact I2]|]. cbn [snd].
  change (shifted (gr_start (lgs 0)) (2, 0, 0)) with (2, 0, 0).
  change (lo 2 = rhs 1 fx rc (vget U) (2, 0, 0)) in Wl2. change (o 2 = rhs 1 fx rc (vget U) (2, 0, 0)) in W2.
  rewrite <- W2 in Wl2. intros H. apply (eq_trans (eq_sym V2)) in H. rewrite V1 in H.
  assert (lo 2 = o 2 :> R) as Z2 by exact Wl2. rewrite Z2 in H. lra.
Qed.

(** The hypotheses hold for the grid of C58_nonvacuous with arbitrary initial values. *)
Example C87_nonvacuous : forall f : cell -> scalar_cvars,
  square scalar_basis burgers_diffusion /\
  exists lgs nbs (vols : list (vol scalar_cvars)) sc (lvols : Z -> list (vol scalar_cvars)) lsc,
  decomposed_setting ForwardEuler Periodic (2, 3, 1) ex_parallel_grid (fun _ _ => 0) 2 2 1 lgs nbs ex_upwind
    (no_reconstruction (V := scalar_cvars)) (ext_dstate (V := scalar_cvars) 2 2) vols sc lvols lsc /\
  forall c, interior3 2 2 (gr_cells ex_parallel_grid) c -> vget (hd (vol_of 0 0 0 f) vols) c = f c.
Proof.
  intros f. split; [exact C38_burgers_square|].
  destruct (C58_nonvacuous f) as (lgs & nbs & vols & lvols & H1 & H2 & H3 & H4 & H5 & H6 & H7 & H8 & H9 & H10 & H11).
  set (z := fun nx ny : Z => vol_of nx ny 1 (fun _ => 0%R) : vol scalar_cvars).
  set (zs := fun nx ny => ((z nx ny, z nx ny, z nx ny), fresh_dstate (V := scalar_cvars) 42%R (z nx ny))).
  exists lgs, nbs, vols, (zs 12 10), lvols, (fun _ => zs 8 6). split; [|exact H11].
  assert (Ec : forall r, 0 <= r < processes (2, 3, 1) -> gr_cells (lgs r) = (4, 2, 1)).
  { intros r Hr. exact (cells_at (2, 3, 1) ex_parallel_grid (fun _ _ => 0) 2 2 lgs nbs H1 H6 r Hr). }
  split; [exact H1|]. split; [exact H2|]. split; [exact H3|]. split; [exact H4|]. split; [exact H6|].
  split; [vm_compute; reflexivity|]. split; [exact H7|]. split; [exact H8|]. split; [repeat split|]. split.
  - intros r Hr. destruct (H9 r Hr) as (A & B). split; [exact A|]. split; [exact B|]. rewrite (Ec r Hr). repeat split.
  - intros d0 r c Hr Hc. specialize (H10 r c Hr Hc). destruct (H9 r Hr) as (_ & L). cbv beta in *.
    destruct vols; [discriminate|]. destruct (lvols r); [discriminate|]. exact H10.
Qed.

Print Assumptions C87_runs_agree.
Print Assumptions C87_plain_partial.
Print Assumptions C87_eno_partial.
Print Assumptions C87_one_layer_refuted.
