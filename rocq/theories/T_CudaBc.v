(** C71: boundary conditions on a GPU. *)
From Coq Require Import ZArith List Bool Lia.
From Verif Require Import M_Base L_Base M_Boundary S_Boundary L_Boundary M_Flux M_Omp L_Omp M_Cuda L_Cuda M_CudaBc S_Cuda L_CudaBc.
Import ListNotations.
Open Scope Z_scope.

Definition cpu_bc {A} (kind : bc_kind) : bc_fun A :=
  match kind with CudaNeumann => neumann_apply | CudaPeriodic => periodic_apply end.
Lemma cpu_bc_ok {A} kind : bc_ok (@cpu_bc A kind) (im_of kind).
Proof. destruct kind; [exact neumann_ok|exact periodic_ok]. Qed.

Section Area.
Context {A : Type}.
Variables (kind : bc_kind) (dims g nx ny nz : Z) (mpi : Z -> bool) (size : Z -> Z) (a : Z).
Hypothesis Hdims : 1 <= dims <= 3.
Hypothesis Hg : 1 <= g.
Hypothesis Hx : 0 < nx.
Hypothesis Hy : 0 < ny.
Hypothesis Hz : 0 < nz.
Hypothesis Gx : g <= nx.
Hypothesis Gy : 1 < dims -> g <= ny.
Hypothesis Gz : 2 < dims -> g <= nz.
Hypothesis Ny : dims < 2 -> ny = 1.
Hypothesis Nz : dims < 3 -> nz = 1.
Let E := extents dims g nx ny nz.
Hypothesis Hsize : size a = E 0 * E 1 * E 2.

Let ncells d := if d =? 0 then nx else if d =? 1 then ny else nz.
Lemma E_pos : 0 < E 0 /\ 0 < E 1 /\ 0 < E 2.
Proof. unfold E, extents. cbn [Z.eqb Pos.eqb]. destruct (1 <? dims), (2 <? dims); lia. Qed.
Lemma E_dir d : 0 <= d < dims -> E d = ncells d + 2 * g /\ g <= ncells d /\ 0 < ncells d /\ (d = 0 \/ d = 1 \/ d = 2).
Proof.
  intros Hd. assert (d = 0 \/ d = 1 \/ d = 2) as D by lia. unfold E, extents, ncells.
  destruct D as [->|[->| ->]]; cbn [Z.eqb Pos.eqb].
  - lia.
  - rewrite (proj2 (Z.ltb_lt 1 dims)) by lia. specialize (Gy ltac:(lia)). lia.
  - rewrite (proj2 (Z.ltb_lt 2 dims)) by lia. specialize (Gz ltac:(lia)). lia.
Qed.

Definition has_dims (v : vol A) : Prop := vnx v = E 0 /\ vny v = E 1 /\ vnz v = E 2.
Definition holds (m0 : shared A) (v : vol A) (m : shared A) : Prop :=
  (forall b j, b <> a -> m b j = m0 b j) /\ forall c, incell E c -> m a (place E c) = vget v c.

Lemma side_ok d i m0 v m : 0 <= d < dims -> i = 0 \/ i = 1 -> has_dims v -> holds m0 v m ->
  exists v', (if mpi (2 * d + i) then Ok v else bc_sweep (cpu_bc kind) g d i v) = Ok v' /\ has_dims v' /\
    all_ok size (if mpi (2 * d + i) then [] else [bc_launch g E kind a d i]) m (holds m0 v').
Proof.
  intros Hd Hi Dv Hm. destruct (E_dir d Hd) as (HE & Gn & Pn & Dd). destruct E_pos as (P0 & P1 & P2).
  destruct (mpi (2 * d + i)); [exists v; auto|].
  destruct (bc_sweep_spec (cpu_bc kind) (im_of kind) v g (ncells d) d i) as (v' & Ev & Dv' & Wv); auto.
  - apply cpu_bc_ok.
  - lia.
  - rewrite <- HE. destruct Dv as (D0 & D1 & D2). unfold extd. destruct Dd as [->|[->| ->]]; cbn [Z.eqb Pos.eqb]; auto.
  - intros t Ht. apply (im_range kind g E d i (ncells d)); auto; lia.
  - exists v'. split; [exact Ev|]. split.
    { destruct Dv as (? & ? & ?), Dv' as (? & ? & ?). unfold has_dims. repeat split; congruence. }
    destruct (launch_outcomes (A := A) kind g E a d i (ncells d) Dd Hi ltac:(lia) Pn HE P0 P1 P2 size Hsize m) as (X1 & X2).
    cbn [all_ok]. split; [exact X1|]. intros r Hr. destruct (X2 r Hr) as (m' & -> & U & W). exists m'. split; [reflexivity|].
    destruct Hm as (M1 & M2). split; [intros b j Hb; rewrite U by exact Hb; auto|].
    intros c Hc. rewrite W by exact Hc.
    assert (inr v c) as Hv by (destruct c as [[x y] z], Dv as (D0 & D1 & D2); unfold inr; rewrite D0, D1, D2; exact Hc).
    rewrite Wv by exact Hv. destruct (onside g (ncells d) i (getd d c)).
    + apply M2. apply (source_in kind g E d i (ncells d)); auto; lia.
    + apply M2. exact Hc.
Qed.

Lemma direction_ok d m0 v m : 0 <= d < dims -> has_dims v -> holds m0 v m ->
  exists v', for_ 0 2 (fun i v => if mpi (2 * d + i) then Ok v else bc_sweep (cpu_bc kind) g d i v) v = Ok v' /\ has_dims v' /\
    all_ok size (flat_map (fun i => if mpi (2 * d + i) then [] else [bc_launch g E kind a d i]) [0; 1]) m (holds m0 v').
Proof.
  intros Hd Dv Hm. unfold for_. change (zrange 0 2) with [0; 1]. cbn [fold_res flat_map]. rewrite app_nil_r.
  destruct (side_ok d 0 m0 v m Hd ltac:(auto) Dv Hm) as (v1 & E1 & D1 & O1). rewrite E1. cbn [bind].
  assert (exists v2, (if mpi (2 * d + 1) then Ok v1 else bc_sweep (cpu_bc kind) g d 1 v1) = Ok v2 /\ has_dims v2 /\
    forall m1, holds m0 v1 m1 -> all_ok size (if mpi (2 * d + 1) then [] else [bc_launch g E kind a d 1]) m1 (holds m0 v2))
    as (v2 & E2 & D2 & O2).
  { pose (m1 := fun b j => if b =? a then vdat v1 j else m0 b j).
    assert (holds m0 v1 m1) as H1.
    { unfold m1. split; [intros b j Hb; apply Z.eqb_neq in Hb; rewrite Hb; reflexivity|].
      intros [[x y] z] Hc. rewrite Z.eqb_refl. destruct D1 as (X0 & X1 & _). unfold vget, place, index. rewrite X0, X1. f_equal. lia. }
    destruct (side_ok d 1 m0 v1 m1 Hd ltac:(auto) D1 H1) as (v2 & E2 & D2 & _).
    exists v2. split; [exact E2|]. split; [exact D2|]. intros m2 H2.
    destruct (side_ok d 1 m0 v1 m2 Hd ltac:(auto) D1 H2) as (v2' & E2' & _ & O2). rewrite E2 in E2'. injection E2' as <-. exact O2. }
  rewrite E2. cbn [bind]. exists v2. split; [reflexivity|]. split; [exact D2|].
  apply (all_ok_app size _ _ (holds m0 v1)); assumption.
Qed.

Lemma directions_ok ds m0 : (forall d, In d ds -> 0 <= d < dims) -> forall v m, has_dims v -> holds m0 v m ->
  exists v', fold_res (fun d => for_ 0 2 (fun i v => if mpi (2 * d + i) then Ok v else bc_sweep (cpu_bc kind) g d i v)) ds v = Ok v' /\
    has_dims v' /\
    all_ok size (flat_map (fun d => flat_map (fun i => if mpi (2 * d + i) then [] else [bc_launch g E kind a d i]) [0; 1]) ds) m (holds m0 v').
Proof.
  induction ds as [|d ds IH]; intros Hds v m Dv Hm; [exists v; auto|]. cbn [fold_res].
  change (flat_map ?f (d :: ds)) with (f d ++ flat_map f ds) at 1.
  destruct (direction_ok d m0 v m (Hds d (or_introl eq_refl)) Dv Hm) as (v1 & E1 & D1 & O1). rewrite E1. cbn [bind].
  assert (forall e, In e ds -> 0 <= e < dims) as Hds' by (intros; apply Hds; cbn; auto).
  pose (m1 := fun b j => if b =? a then vdat v1 j else m0 b j).
  assert (holds m0 v1 m1) as H1.
  { unfold m1. split; [intros b j Hb; apply Z.eqb_neq in Hb; rewrite Hb; reflexivity|].
    intros [[x y] z] Hc. rewrite Z.eqb_refl. destruct D1 as (X0 & X1 & _). unfold vget, place, index. rewrite X0, X1. f_equal. lia. }
  destruct (IH Hds' v1 m1 D1 H1) as (v2 & E2 & D2 & _). exists v2. split; [exact E2|]. split; [exact D2|].
  eapply all_ok_app; [|exact O1]. intros m2 H2. destruct (IH Hds' v1 m2 D1 H2) as (v2' & E2' & _ & O2).
  rewrite E2 in E2'. injection E2' as <-. exact O2.
Qed.

Lemma bc_area_dims : bc_area (A := A) g E kind mpi a =
  flat_map (fun d => flat_map (fun i => if mpi (2 * d + i) then [] else [bc_launch g E kind a d i]) [0; 1]) (zrange 0 dims).
Proof.
  unfold bc_area.
  assert (dims = 1 \/ dims = 2 \/ dims = 3) as D by lia.
  assert (C : forall d, 0 < d < dims -> (1 <? E d) = true) by (intros d Hd; apply Z.ltb_lt; destruct (E_dir d ltac:(lia)) as (-> & ? & ? & _); lia).
  destruct D as [D|[D|D]].
  - assert (E1 : (1 <? E 1) = false).
    { unfold E, extents. cbn [Z.eqb Pos.eqb]. rewrite D, Ny by lia. reflexivity. }
    assert (E2 : (1 <? E 2) = false).
    { unfold E, extents. cbn [Z.eqb Pos.eqb]. rewrite D, Nz by lia. reflexivity. }
    rewrite D. change (zrange 0 1) with [0]. unfold flat_map at 1. cbn [Z.eqb orb]. rewrite E1, E2. reflexivity.
  - assert (E2 : (1 <? E 2) = false).
    { unfold E, extents. cbn [Z.eqb Pos.eqb]. rewrite D, Nz by lia. reflexivity. }
    pose proof (C 1 ltac:(lia)) as E1.
    rewrite D. change (zrange 0 2) with [0; 1]. unfold flat_map at 1. cbn [Z.eqb orb]. rewrite E1, E2. reflexivity.
  - pose proof (C 1 ltac:(lia)) as E1. pose proof (C 2 ltac:(lia)) as E2.
    rewrite D. change (zrange 0 3) with [0; 1; 2]. unfold flat_map at 1. cbn [Z.eqb orb]. rewrite E1, E2. reflexivity.
Qed.

Lemma volume_incell c : in_volume dims g nx ny nz c -> incell E c.
Proof.
  destruct c as [[x y] z]. unfold in_volume, incell, E, extents. cbn [Z.eqb Pos.eqb].
  destruct (1 <? dims), (2 <? dims); tauto.
Qed.
Lemma area_ok m : all_ok size (bc_area (A := A) g E kind mpi a) m (fun m' =>
  (forall b j, b <> a -> m' b j = m b j) /\
  forall c, in_volume dims g nx ny nz c -> m' a (place E c) = m a (place E (image_masked mpi (im_of kind) dims g nx ny nz c))).
Proof.
  rewrite bc_area_dims. pose (v := mkvol (E 0) (E 1) (E 2) (m a)).
  assert (V : forall c, vget v c = m a (place E c)) by (intros [[x y] z]; unfold vget, place, index; cbn; f_equal; lia).
  assert (holds m v m) as Hm by (split; [reflexivity|intros c _; symmetry; apply V]).
  destruct (directions_ok (zrange 0 dims) m) with (v := v) (m := m) as (v' & Ev & Dv & O); auto.
  { intros d Hd. apply zrange_In in Hd. lia. }
  { repeat split. }
  destruct (apply_boundary_spec (cpu_bc kind) (im_of kind) mpi v dims g nx ny nz) as (v2 & E2 & D2 & W); auto.
  - apply cpu_bc_ok.
  - intros g' n t Hn Hg' Ht. destruct kind; [apply mirror1_range; lia|apply periodic1_range; lia].
  - intros g' n t Ht. destruct kind; [apply mirror1_mid; lia|apply periodic1_mid; lia].
  - lia.
  - repeat split.
  - unfold apply_boundary in E2. destruct (_ || _); [discriminate|]. unfold for_ at 1 in E2. rewrite Ev in E2. injection E2 as <-.
    assert (Q : forall m', holds m v' m' -> (forall b j, b <> a -> m' b j = m b j) /\
      forall c, in_volume dims g nx ny nz c -> m' a (place E c) = m a (place E (image_masked mpi (im_of kind) dims g nx ny nz c))).
    { intros m' (H1 & H2). split; [exact H1|]. intros c Hc. rewrite H2, W, V; [reflexivity| |]; destruct c as [[x y] z]; exact (volume_incell (x, y, z) Hc). }
    rewrite <- (app_nil_r (flat_map _ _)). eapply all_ok_app; [|exact O]. cbn [all_ok]. exact Q.
Qed.
End Area.

(** The boundary conditions of all variables on a GPU, whatever the order of the
    threads: ghost cells hold the images required by C02 and C03, ghost cells of
    MPI sides and interior cells keep their values.  Two threads about to store the
    same value are tolerated here. *)
Theorem C71_boundary (A : Type) kind dims g nx ny nz (mpi : Z -> bool) vars (m : shared A) :
  1 <= dims <= 3 -> 1 <= g -> 0 < nx -> 0 < ny -> 0 < nz ->
  g <= nx -> (1 < dims -> g <= ny) -> (2 < dims -> g <= nz) -> (dims < 2 -> ny = 1) -> (dims < 3 -> nz = 1) ->
  let E := extents dims g nx ny nz in
  let size _ := E 0 * E 1 * E 2 in
  (exists m', lenients size (cuda_boundary g E kind mpi vars) m (Ok (m', []))) /\
  forall r, lenients size (cuda_boundary g E kind mpi vars) m r -> exists m', r = Ok (m', []) /\
    forall a c, in_volume dims g nx ny nz c ->
      m' a (place E c) =
      m a (place E (if (0 <=? a) && (a <? vars) then
                      image_masked mpi (match kind with CudaNeumann => mirror1 | CudaPeriodic => periodic1 end) dims g nx ny nz c
                    else c)).
Proof.
  intros Hdims Hg Hx Hy Hz Gx Gy Gz Ny Nz E size. apply all_ok_lenients.
  assert (G : forall l, NoDup l -> forall m : shared A, all_ok size (flat_map (bc_area g E kind mpi) l) m (fun m' =>
    forall a c, in_volume dims g nx ny nz c -> m' a (place E c) =
      m a (place E (if in_dec Z.eq_dec a l then image_masked mpi (im_of kind) dims g nx ny nz c else c)))).
  { induction l as [|b l IH]; intros ND m1; [intros a c Hc; reflexivity|]. inversion ND as [|? ? Hb Hl]; subst. cbn [flat_map].
    eapply all_ok_app; [|apply (area_ok kind dims g nx ny nz mpi size b); auto]. cbv beta. intros m2 (U & W).
    rewrite <- (app_nil_r (flat_map _ _)). eapply all_ok_app; [|apply (IH Hl m2)]. cbn [all_ok]. intros m3 H a c Hc.
    rewrite H by exact Hc. destruct (in_dec Z.eq_dec a (b :: l)) as [I|I], (in_dec Z.eq_dec a l) as [I'|I'].
    - destruct (Z.eq_dec a b) as [->|Ne]; [contradiction|]. apply U. exact Ne.
    - destruct I as [->|I]; [|contradiction]. apply W. exact Hc.
    - exfalso. apply I. cbn; auto.
    - apply U. intros ->. apply I. cbn; auto. }
  unfold cuda_boundary. rewrite <- (app_nil_r (flat_map _ _)). eapply all_ok_app; [|apply (G (zrange 0 vars) (zrange_NoDup 0 vars))].
  cbn [all_ok]. intros m1 H a c Hc. rewrite H by exact Hc. f_equal. f_equal. change (match kind with CudaNeumann => mirror1 | CudaPeriodic => periodic1 end) with (im_of kind).
  destruct (in_dec Z.eq_dec a (zrange 0 vars)) as [I|I]; rewrite zrange_In in I.
  - rewrite (proj2 (Z.leb_le 0 a)), (proj2 (Z.ltb_lt a vars)) by lia. reflexivity.
  - destruct (Z.leb_spec 0 a), (Z.ltb_spec a vars); try reflexivity. lia.
Qed.

(** Without MPI: interior cells keep their values, every ghost cell gets its image. *)
Theorem C71_boundary_serial (A : Type) kind dims g nx ny nz vars (m : shared A) r :
  1 <= dims <= 3 -> 1 <= g -> 0 < nx -> 0 < ny -> 0 < nz ->
  g <= nx -> (1 < dims -> g <= ny) -> (2 < dims -> g <= nz) -> (dims < 2 -> ny = 1) -> (dims < 3 -> nz = 1) ->
  let E := extents dims g nx ny nz in
  lenients (fun _ => E 0 * E 1 * E 2) (cuda_boundary g E kind (fun _ => false) vars) m r ->
  exists m', r = Ok (m', []) /\
    forall a c, 0 <= a < vars ->
      (interior dims g nx ny nz c -> m' a (place E c) = m a (place E c)) /\
      (in_volume dims g nx ny nz c -> m' a (place E c) =
         m a (place E (image (match kind with CudaNeumann => mirror1 | CudaPeriodic => periodic1 end) dims g nx ny nz c))).
Proof.
  intros Hdims Hg Hx Hy Hz Gx Gy Gz Ny Nz E Hr.
  destruct (C71_boundary A kind dims g nx ny nz (fun _ => false) vars m) as (_ & G); auto.
  destruct (G r Hr) as (m' & -> & W). exists m'. split; [reflexivity|]. intros a c Ha.
  assert (T : (0 <=? a) && (a <? vars) = true) by (apply andb_true_intro; split; [apply Z.leb_le|apply Z.ltb_lt]; lia).
  assert (V : in_volume dims g nx ny nz c -> m' a (place E c) =
         m a (place E (image (match kind with CudaNeumann => mirror1 | CudaPeriodic => periodic1 end) dims g nx ny nz c))).
  { intros Hc. specialize (W a c Hc). rewrite T in W. unfold E. rewrite W, image_none. reflexivity. }
  split; [|exact V]. intros Hc. rewrite V.
  - f_equal. f_equal. apply image_interior; [|exact Hc]. intros g' n t Ht. destruct kind; [apply mirror1_mid|apply periodic1_mid]; exact Ht.
  - destruct c as [[x y] z]. unfold interior, in_volume, interior1 in *. destruct (1 <? dims), (2 <? dims); lia.
Qed.

(** * The property: no data race *)
Definition no_race : Prop :=
  forall (A : Type) kind dims g nx ny nz vars (m : shared A),
  1 <= dims <= 3 -> 1 <= g -> 0 < nx -> 0 < ny -> 0 < nz ->
  g <= nx -> (1 < dims -> g <= ny) -> (2 < dims -> g <= nz) -> (dims < 2 -> ny = 1) -> (dims < 3 -> nz = 1) ->
  let E := extents dims g nx ny nz in
  ~ outcomes (fun _ => E 0 * E 1 * E 2) (cuda_boundary g E kind (fun _ => false) vars) m UB.

(** Every one-dimensional run has one: the thread after the last one (line 35 of
    BoundaryCUDA.cu tests > instead of >=) stores into the same element. *)
Theorem C71_race (A : Type) kind g nx (m : shared A) :
  1 <= g -> g <= nx ->
  let E := extents 1 g nx 1 1 in
  outcomes (fun _ => E 0 * E 1 * E 2) (cuda_boundary g E kind (fun _ => false) 1) m UB.
Proof.
  intros Hg Hx E. set (size := fun _ : Z => E 0 * E 1 * E 2).
  unfold cuda_boundary. change (zrange 0 1) with [0]. cbn [flat_map]. rewrite app_nil_r.
  rewrite (bc_area_dims (A := A) kind 1 g nx 1 1) by lia. change (zrange 0 1) with [0]. cbn [flat_map app].
  constructor. fold E.
  set (t0 := bc_thread (A := A) g E kind 0 false true false false).
  assert (exists rest, bc_launch (A := A) g E kind 0 0 0 = t0 0 :: t0 1 :: rest) as (rest & ->).
  { exists (map t0 (zrange 2 1024)). unfold bc_launch. cbn [Z.eqb Pos.eqb].
    replace (threads 1024 (1 * E 1 * E 2)) with 1024 by reflexivity.
    rewrite (zrange_cons 0), (zrange_cons (0 + 1)) by lia. reflexivity. }
  assert (T : forall t, 0 <= t -> t0 t = copies 0 (pairs kind g E 0 0 nx t)).
  { intros t Ht. apply (thread_copies (A := A) kind g E 0 0 0 nx); auto; unfold E, extents; cbn; lia. }
  assert (P : forall t, t = 0 \/ t = 1 -> exists l, pairs kind g E 0 0 nx t =
    pair_of kind g E 0 0 nx (g, 0, 0) 1 :: l).
  { intros t Ht. unfold pairs. change (nx) with nx. destruct (Z.ltb_spec ((if 0 =? 0 then 1 else E 0) * (if 0 =? 1 then 1 else E 1) * (if 0 =? 2 then 1 else E 2)) t) as [L|L].
    { unfold E, extents in L. cbn in L. lia. }
    assert (B : base g E 0 0 t = (g, 0, 0)).
    { unfold base. cbn [Z.eqb b2z]. replace (E 1) with 1 by reflexivity. replace (E 2) with 1 by reflexivity.
      rewrite Z.mod_1_r. destruct Ht as [->| ->]; cbn; apply f_equal2; [apply f_equal2; lia|reflexivity|apply f_equal2; lia|reflexivity]. }
    rewrite B, zrange_cons by lia. cbn [map]. eauto. }
  destruct (P 0) as (l0 & P0); [auto|]. destruct (P 1) as (l1 & P1); [auto|].
  rewrite (T 0), (T 1), P0, P1 by lia.
  set (p := pair_of kind g E 0 0 nx (g, 0, 0) 1) in *.
  assert (I : inside size 0 (snd p) = true).
  { assert (0 <= place E (source kind g 0 nx (g - 1, 0, 0)) < E 0 * E 1 * E 2) as B.
    { apply place_inside. apply (source_in kind g E 0 0 nx); auto; unfold E, incell, extents; cbn; lia. }
    unfold inside, size. replace (snd p) with (place E (source kind g 0 nx (g - 1, 0, 0))).
    - apply andb_true_intro. split; [apply Z.leb_le|apply Z.ltb_lt]; lia.
    - unfold p, pair_of, source. cbn [snd Z.eqb setd getd]. replace (g - 1 * 1) with (g - 1) by lia. reflexivity. }
  destruct p as [dst src]. cbn [snd copies] in *.
  eapply (outcome_ub _ _ _ 2).
  - eapply psteps_S; [apply (step_load size m [] 0 src _ (_ :: rest)); exact I|].
    eapply psteps_S; [apply (step_load size m [_] 0 src _ rest); exact I|]. apply psteps_0.
  - cbn [app]. apply (undefined_race size m [] _ [] _ rest true true 0 dst); reflexivity.
Qed.
Theorem C71_no_race_refuted : ~ no_race.
Proof.
  intros H. apply (H Z CudaPeriodic 1 1 1 1 1 1 (fun _ i => i)); try lia. apply C71_race; lia.
Qed.

(** The theorem at work: three cells in one dimension, two ghost cells, periodic;
    and a two-dimensional setting meeting the hypotheses. *)
Example C71_nonvacuous : exists m' : shared Z,
  lenients (fun _ => 7) (cuda_boundary 2 (extents 1 2 3 1 1) CudaPeriodic (fun _ => false) 1) (fun _ i => i * i) (Ok (m', [])) /\
  map (m' 0) [0; 1; 2; 3; 4; 5; 6] = [9; 16; 4; 9; 16; 4; 9].
Proof.
  destruct (C71_boundary Z CudaPeriodic 1 2 3 1 1 (fun _ => false) 1 (fun _ i => i * i)) as ((m' & O) & G); try lia.
  exists m'. split; [exact O|]. destruct (G _ O) as (m2 & E & W). injection E as <-.
  assert (V : forall i, 0 <= i < 7 -> m' 0 i = (2 + (i - 2) mod 3) * (2 + (i - 2) mod 3)).
  { intros i Hi. specialize (W 0 (i, 0, 0)). replace (place (extents 1 2 3 1 1) (i, 0, 0)) with i in W by reflexivity.
    rewrite W by (unfold in_volume; cbn; lia). reflexivity. }
  cbn [map]. rewrite !V by lia. reflexivity.
Qed.
Example C71_nonvacuous_2d (m : shared Z) : exists m',
  lenients (fun _ => 42) (cuda_boundary 2 (extents 2 2 3 2 1) CudaNeumann (fun i => i =? 3) 4) m (Ok (m', [])).
Proof.
  apply (C71_boundary Z CudaNeumann 2 2 3 2 1 (fun i => i =? 3) 4 m); lia.
Qed.

Print Assumptions C71_boundary.
Print Assumptions C71_boundary_serial.
Print Assumptions C71_race.
Print Assumptions C71_no_race_refuted.
