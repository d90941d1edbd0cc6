(** Property C30: functionals as statistics. *)
From Coq Require Import ZArith Reals List Bool Lia Lra Permutation.
From Verif Require Import M_Base L_Base L_Loops M_Sim L_Sim M_Memory S_Memory L_Memory S_Sum L_Sum
  L_Flux M_Stats S_Stats L_Stats L_StatsRun L_Adds M_Foreach L_Foreach M_Structure S_Structure L_Structure
  T_Memory T_Variation T_Stats T_Structure M_Functional S_Functional L_Functional T_Functional.
Import ListNotations.
Open Scope Z_scope.

(** What the statistic should be: at every time, the mean over all samples of the
    value [f] of the functional, whose size is [d]. *)
Definition averages (s : statistic) (d : cell) (P : vol R -> Prop) (f : vol R -> Z -> R) : Prop :=
  forall u ts assign M red,
  0 < M -> distribution_of M assign -> NoDup ts ->
  (forall l, l <> [] -> reduction l (red l)) ->
  (forall n t, 0 <= n < M -> In t ts -> P (u n t)) ->
  exists st, run_statistics s red (IZR M) (map (calls_of u ts) assign) = Ok st /\
    forall t, In t ts -> exists v, lookup (t, 0) st = Some v /\ has_dims d v /\
      forall i, 0 <= i < dsize d -> vdat v i = sample_mean M (fun n => f (u n t) i).

(** Any functional that keeps the contract of Functional.hpp is averaged. *)
Theorem C30_contract : forall F f size d P,
  adds_weighted d P F f -> (forall u, P u -> size u = d) -> 0 <= dsize d < 2 ^ 31 ->
  averages (functional_statistic size F) d P f.
Proof.
  intros F f size d P HF Hs Hd u ts assign M red HM Hdis Nts Hred HP.
  destruct (average_spec (functional_statistic size F) P (fun _ => d) (fun _ => f))
    with (u := u) (ts := ts) (assign := assign) (M := M) (red := red) as (st & E & _ & _ & W); auto.
  - intros it [<-|[]]. apply additive_of; [exact Hd|exact Hs|].
    intros w Hw o Ho. destruct (HF o w 1%R Ho Hw) as (o' & E & D & W). exists o'. split; [exact E|].
    split; [exact D|]. intros i Hi. rewrite W by exact Hi. lra.
  - cbn. repeat constructor. intros [].
  - exists st. split; [exact E|]. intros t Ht. apply (W t _ Ht (or_introl eq_refl)).
Qed.

Lemma size_of_cells n : dsize n = cells_of n.
Proof. destruct n as [[nx ny] nz]. reflexivity. Qed.
Lemma cells_nonneg n : positive_cells n -> 0 <= cells_of n.
Proof. destruct n as [[nx ny] nz]. cbn. intros (? & ? & ?). apply Z.mul_nonneg_nonneg; [apply Z.mul_nonneg_nonneg|]; lia. Qed.

Theorem C30_identity : forall g n, positive_cells n -> nonneg_cells g -> cells_of n < 2 ^ 31 ->
  averages (functional_statistic (inner g) (identity_functional g)) n (has_cells g n)
    (fun u i => interior_value g u (nth_cell n i)).
Proof.
  intros g n Hn Hg Hc. apply C30_contract.
  - now apply C61_identity.
  - intros u. apply has_cells_inner.
  - rewrite size_of_cells. pose proof (cells_nonneg n Hn). lia.
Qed.

Theorem C30_legendre_pointwise : forall P lo hi g n len,
  (len 2%Z <= 1)%R -> len 1%Z <> 1%R -> positive_cells n -> nonneg_cells g -> cells_of n < 2 ^ 31 ->
  averages (functional_statistic (inner g) (legendre_pointwise_functional P lo hi g len)) n (has_cells g n)
    (fun u i => P ((interior_value g u (nth_cell n i) - lo) / (hi - lo))%R).
Proof.
  intros P lo hi g n len H2 H1 Hn Hg Hc. apply C30_contract.
  - now apply C61_legendre_pointwise.
  - intros u. apply has_cells_inner.
  - rewrite size_of_cells. pose proof (cells_nonneg n Hn). lia.
Qed.

Definition one_element (u : vol R) : cell := (1, 1, 1).

Theorem C30_legendre : forall Pk Pn Pm lo hi g n origin top len,
  (len 2%Z <= 1)%R -> len 1%Z <> 1%R -> positive_cells n -> nonneg_cells g ->
  top 0%Z <> origin 0%Z -> top 1%Z <> origin 1%Z ->
  averages (functional_statistic one_element (legendre_functional Pk Pn Pm lo hi g origin top len)) (1, 1, 1)
    (fun u => has_cells g n u /\ vsize u < two64)
    (fun u _ => midpoint_rule n len (fun c =>
       Pk (to_unit (origin 0%Z) (top 0%Z) (cell_centre origin len c 0)) *
       Pn (to_unit (origin 1%Z) (top 1%Z) (cell_centre origin len c 1)) *
       Pm ((interior_value g u c - lo) / (hi - lo)))%R).
Proof. intros. apply C30_contract; [now apply C61_legendre|reflexivity|cbn; lia]. Qed.

Theorem C30_bv_line : forall nx g p lz, (lz <= 1)%R -> 0 <= g -> nx < 2 ^ 31 ->
  averages (functional_statistic one_element (bv_functional (Z.of_nat p) (g, 0, 0) lz)) (1, 1, 1) (has_dims (nx, 1, 1))
    (fun u _ => pair_sum p 0 (comp (g, 0, 0)) (comp (nx - g, 1, 1)) (vget u)).
Proof. intros. apply C30_contract; [now apply C61_bv_line|reflexivity|cbn; lia]. Qed.

Theorem C30_bv_plane : forall nx ny g p lz, (lz <= 1)%R -> 0 <= g -> 1 < ny -> nx * ny < 2 ^ 31 ->
  averages (functional_statistic one_element (bv_functional (Z.of_nat p) (g, g, 0) lz)) (1, 1, 1) (has_dims (nx, ny, 1))
    (fun u _ => gradient_sum p (comp (g, g, 0)) (comp (nx - g, ny - g, 1)) (vget u)).
Proof. intros. apply C30_contract; [now apply C61_bv_plane|reflexivity|cbn; lia]. Qed.

(** moment, without ghost cells.  Full statement: with any ghost cells, of which
    every simulation has some; refuted below. *)
Theorem C30_moment_partial : forall n p, 0 <= cells_of n < 2 ^ 31 ->
  averages (functional_statistic (inner (0, 0, 0)) (moment_functional (Z.of_nat p))) n (has_dims n)
    (fun u i => vdat u i ^ p)%R.
Proof.
  intros n p Hn. apply C30_contract.
  - apply C61_moment.
  - intros u Hu. apply has_cells_inner. destruct n as [[nx ny] nz]. destruct Hu as (? & ? & ?). cbn. lia.
  - now rewrite size_of_cells.
Qed.

(** With ghost cells the snapshot has the size of the interior, and addPower
    refuses areas of different sizes: the first sample ends the run. *)
Theorem C30_moment_with_ghost_cells_throws : forall nx g p red M n t u ids assign ts,
  0 < nx < 2 ^ 31 -> 0 < g ->
  has_cells (g, 0, 0) (nx, 1, 1) (u n t) ->
  run_statistics (functional_statistic (inner (g, 0, 0)) (moment_functional p)) red M
    (map (calls_of u (t :: ts)) ((n :: ids) :: assign)) = Throw.
Proof.
  intros nx g p red M n t u ids assign ts Hn Hg Hu. unfold run_statistics. cbn [map mapM calls_of flat_map app].
  unfold process. cbn [fold_res]. unfold compute_statistics at 1. unfold functional_statistic.
  cbn [fold_res]. unfold find_or_create. cbn [it_name lookup].
  rewrite (has_cells_inner _ _ _ Hu : it_dims (mkitem 0 (inner (g, 0, 0)) _) (u n t) = _).
  cbn [new_area]. unfold mem_zero.
  destruct (ew_all (int_bound (mkvol nx 1 1 (fun _ => 42%R))) (fun _ _ => Ok 0%R) (fun _ => 0%R) (mkvol nx 1 1 (fun _ => 42%R)))
    as (z & Ez & A & B & C & _).
  { apply int_bound_small. unfold elements. cbn [vnx vny vnz]. lia. }
  { auto. }
  rewrite Ez. cbn [bind insert]. unfold update_item. cbn [it_name lookup it_update]. rewrite key_eqb_refl.
  unfold moment_functional, mem_addpow.
  assert (S : same_size z (u n t) = false).
  { unfold same_size, vsize. cbn [has_cells] in Hu. destruct Hu as (Ux & Uy & Uz). rewrite A, B, C, Ux, Uy, Uz.
    cbn [vnx vny vnz]. apply Z.eqb_neq. lia. }
  rewrite S. reflexivity.
Qed.

Lemma two_samples : distribution_of 2 [[0; 1]].
Proof. split; [discriminate|]. split; [apply Permutation_refl|]. repeat constructor. discriminate. Qed.

Theorem C30_moment_refuted : exists g n, positive_cells n /\
  forall p f d, ~ averages (functional_statistic (inner g) (moment_functional p)) d (has_cells g n) f.
Proof.
  exists (1, 0, 0), (2, 1, 1). split; [cbn; lia|]. intros p f d A.
  destruct (A (fun _ _ => mkvol 4 1 1 (fun _ => 0%R)) [0] [[0]] 1 (suml (fun a => a))) as (st & E & _);
    auto using one_sample, nodup1, sum_is_reduction; try lia.
  - intros. repeat split.
  - rewrite (C30_moment_with_ghost_cells_throws 2 1 p (suml (fun a => a)) 1 0 0) in E; [discriminate|lia|lia|repeat split].
Qed.

(** structure_cube: of the samples of each process only the last counts. *)
Theorem C30_structure_cube_computed : forall bc b dims numberOfH p g n u ts assign M red,
  (forall side, 0 <= side < 2 * dims -> bc side = b) -> b <> OtherBC ->
  positive_cells n -> nonneg_cells g -> cells_of n < 2 ^ 31 -> grid_of_dimension dims n ->
  0 < numberOfH < 2 ^ 31 ->
  0 < M -> distribution_of M assign -> NoDup ts ->
  (forall l, l <> [] -> reduction l (red l)) ->
  (forall m t, 0 <= m < M -> In t ts -> has_cells g n (u m t)) ->
  exists st, run_statistics (functional_statistic (fun _ => (numberOfH, 1, 1))
      (structure_cube_functional bc dims numberOfH (Z.of_nat p) g)) red (IZR M) (map (calls_of u ts) assign) = Ok st /\
    forall t, In t ts -> exists v, lookup (t, 0) st = Some v /\
      forall h, 1 <= h < numberOfH ->
        vdat v h = (suml (fun ids => structure_cube_value b dims p g n (u (last ids 0%Z) t) h) assign / IZR M)%R.
Proof.
  intros bc b dims numberOfH p g n u ts assign M red Hbc Hb Hn Hg Hc Hdim HH HM Hd Nts Hred Hu.
  destruct (combined_spec (functional_statistic (fun _ => (numberOfH, 1, 1))
      (structure_cube_functional bc dims numberOfH (Z.of_nat p) g)) (has_cells g n) (fun _ => (numberOfH, 1, 1))
      (fun _ w i a => if 1 <=? i then structure_cube_value b dims p g n w i else 0%R))
    with (u := u) (ts := ts) (assign := assign) (M := M) (red := red) as (st & E & _ & _ & W); auto.
  - intros it [<-|[]]. split; [cbn; lia|]. intros w Hw. cbn [it_dims it_update]. split; [reflexivity|].
    intros v Hv. unfold structure_cube_functional, mem_zero. pose proof (has_dims_size _ _ Hv) as So. cbn in So.
    destruct (ew_all (int_bound v) (fun _ _ => Ok 0%R) (fun _ => 0%R) v) as (z & Ez & A & B & C & W).
    { apply int_bound_small. change (elements v) with (vsize v). lia. }
    { auto. }
    rewrite Ez. cbn [bind]. destruct Hv as (O1 & O2 & O3).
    destruct (checked_cube_adds bc b dims numberOfH p g n w Hbc Hb Hn Hg Hw Hc Hdim z) as (o' & E & D & W').
    { repeat split; congruence. }
    exists o'. split; [exact E|]. split; [exact D|]. intros h Hh. cbn in Hh. rewrite W' by (cbn; lia).
    rewrite W by (change (elements v) with (vsize v); lia). lra.
  - cbn. repeat constructor. intros [].
  - exists st. split; [exact E|]. intros t Ht.
    destruct (W t _ Ht (or_introl eq_refl)) as (v & Lv & _ & Wv). exists v. split; [exact Lv|].
    intros h Hh. rewrite Wv by (cbn; lia). f_equal. apply suml_ext. intros ids Hids.
    unfold collected. rewrite (proj2 (Z.leb_le 1 h)) by lia.
    destruct Hd as (_ & _ & Hne). rewrite Forall_forall in Hne. pose proof (Hne ids Hids) as Hn'.
    destruct (exists_last Hn') as (l & x & ->). rewrite last_last.
    rewrite fold_left_app. reflexivity.
Qed.

(** Two samples on one process, with structure functions 2 and 0: 0 is given
    instead of 1. *)
Definition cube_sample (m t : Z) : vol R :=
  mkvol 2 1 1 (fun i => if i =? 0 then 0%R else if m =? 0 then 1%R else 0%R).

Theorem C30_structure_cube_refuted : exists st v,
  (forall m t, has_cells (0, 0, 0) (2, 1, 1) (cube_sample m t)) /\
  run_statistics (functional_statistic (fun _ => (2, 1, 1))
    (structure_cube_functional (fun _ => Periodic) 1 2 1 (0, 0, 0))) (suml (fun a => a)) 2
    (map (calls_of cube_sample [0]) [[0; 1]]) = Ok st /\
  lookup (0, 0) st = Some v /\
  sample_mean 2 (fun m => structure_cube_value Periodic 1 1 (0, 0, 0) (2, 1, 1) (cube_sample m 0) 1) = 1%R /\
  vdat v 1 = 0%R.
Proof.
  destruct (C30_structure_cube_computed (fun _ => Periodic) Periodic 1 2 1 (0, 0, 0) (2, 1, 1) cube_sample [0] [[0; 1]] 2
    (suml (fun a => a))) as (st & E & W); auto using two_samples, nodup1, sum_is_reduction; try (cbn; lia);
    try match goal with |- _ <> OtherBC => discriminate end.
  destruct (W 0 (or_introl eq_refl)) as (v & Lv & Wv). exists st, v.
  split; [intros; repeat split|]. split; [exact E|]. split; [exact Lv|]. split.
  - unfold sample_mean, structure_cube_value, interior_mean, shell_sum, sum3, sumz, cube_sample.
    lazy -[Rplus Rmult Rdiv IZR Rinv Rabs Rminus].
    rewrite (Rabs_left (0 - 1)), (Rabs_right (1 - 0)), (Rabs_right (0 - 0)) by lra. lra.
  - rewrite Wv by lia. unfold suml, structure_cube_value, interior_mean, shell_sum, sum3, sumz, cube_sample.
    lazy -[Rplus Rmult Rdiv IZR Rinv Rabs Rminus]. rewrite (Rabs_right (0 - 0)) by lra. lra.
Qed.

(** structure_base: averaged, but over the cells less the ghost cells once more.
    Full statement: over all interior cells; refuted below. *)
Theorem C30_structure_base_computed : forall numberOfH p d g n,
  nonneg_cells g -> positive_cells (shrink g n) -> cells_of (shrink g n) < 2 ^ 31 -> 0 < numberOfH < 2 ^ 31 ->
  averages (functional_statistic (fun _ => (numberOfH, 1, 1)) (structure_base_functional numberOfH (Z.of_nat p) d g))
    (numberOfH, 1, 1) (has_cells g n) (fun u h => structure_value Periodic p d g (shrink g n) u h).
Proof.
  intros numberOfH p d g n Hg Hn Hc HH u ts assign M red HM Hdis Nts Hred HP.
  destruct (average_spec (functional_statistic (fun _ => (numberOfH, 1, 1)) (structure_base_functional numberOfH (Z.of_nat p) d g))
     (has_cells g n) (fun _ => (numberOfH, 1, 1)) (fun _ u h => structure_value Periodic p d g (shrink g n) u h))
    with (u := u) (ts := ts) (assign := assign) (M := M) (red := red) as (st & E & _ & _ & W); auto.
  - intros it [<-|[]]. apply additive_of; [cbn; lia|reflexivity|].
    intros w Hw. now apply base_adds.
  - cbn. repeat constructor. intros [].
  - exists st. split; [exact E|]. intros t Ht. apply (W t _ Ht (or_introl eq_refl)).
Qed.

Theorem C30_structure_base_partial : forall numberOfH p d n,
  positive_cells n -> cells_of n < 2 ^ 31 -> 0 < numberOfH < 2 ^ 31 ->
  averages (functional_statistic (fun _ => (numberOfH, 1, 1)) (structure_base_functional numberOfH (Z.of_nat p) d (0, 0, 0)))
    (numberOfH, 1, 1) (has_cells (0, 0, 0) n) (fun u h => structure_value Periodic p d (0, 0, 0) n u h).
Proof.
  intros numberOfH p d n Hn Hc HH.
  assert (Es : shrink (0, 0, 0) n = n) by (destruct n as [[nx ny] nz]; cbn; repeat apply f_equal2; lia).
  pose proof (C30_structure_base_computed numberOfH p d (0, 0, 0) n) as H. rewrite Es in H. apply H; auto. cbn. lia.
Qed.

(** Four cells 0, 1, 1, 1 with one ghost cell on either side, periodic: the
    structure function at distance 1 is 1/2; only the first two cells are looked
    at, which gives 1. *)
Definition base_sample (m t : Z) : vol R := mkvol 6 1 1 (fun i => if 2 <=? i then 1%R else 0%R).

Theorem C30_structure_base_refuted : exists st v,
  run_statistics (functional_statistic (fun _ => (2, 1, 1)) (structure_base_functional 2 1 0 (1, 0, 0)))
    (suml (fun a => a)) 1 (map (calls_of base_sample [0]) [[0]]) = Ok st /\
  lookup (0, 0) st = Some v /\
  sample_mean 1 (fun m => structure_value Periodic 1 0 (1, 0, 0) (4, 1, 1) (base_sample m 0) 1) = (1 / 2)%R /\
  vdat v 1 = 1%R.
Proof.
  destruct (C30_structure_base_computed 2 1 0 (1, 0, 0) (4, 1, 1)) with (u := base_sample) (ts := [0]) (assign := [[0]])
    (M := 1) (red := suml (fun a : R => a)) as (st & E & W); auto using one_sample, nodup1, sum_is_reduction; try (cbn; lia).
  destruct (W 0 (or_introl eq_refl)) as (v & Lv & _ & Wv). exists st, v.
  split; [exact E|]. split; [exact Lv|]. split.
  - unfold sample_mean, structure_value, interior_mean, sum3, sumz, base_sample.
    lazy -[Rplus Rmult Rdiv IZR Rinv Rabs Rminus].
    rewrite (Rabs_left (0 - 1)), (Rabs_right (1 - 0)), (Rabs_right (1 - 1)) by lra. lra.
  - rewrite Wv by (cbn; lia). unfold sample_mean, structure_value, interior_mean, sum3, sumz, base_sample.
    lazy -[Rplus Rmult Rdiv IZR Rinv Rabs Rminus].
    rewrite (Rabs_left (0 - 1)), (Rabs_right (1 - 0)) by lra. lra.
Qed.

Print Assumptions C30_contract.
Print Assumptions C30_identity.
Print Assumptions C30_legendre_pointwise.
Print Assumptions C30_legendre.
Print Assumptions C30_bv_line.
Print Assumptions C30_bv_plane.
Print Assumptions C30_moment_partial.
Print Assumptions C30_moment_with_ghost_cells_throws.
Print Assumptions C30_moment_refuted.
Print Assumptions C30_structure_cube_computed.
Print Assumptions C30_structure_cube_refuted.
Print Assumptions C30_structure_base_computed.
Print Assumptions C30_structure_base_partial.
Print Assumptions C30_structure_base_refuted.

(** Two samples (1, 2) and (3, 6) of two cells with a ghost cell on either side:
    the identity gives (2, 4). *)
Example C30_example : exists st v,
  run_statistics (functional_statistic (inner (1, 0, 0)) (identity_functional (1, 0, 0))) (suml (fun a => a)) 2
    (map (calls_of (fun m t => mkvol 4 1 1 (fun i => (IZR i * (1 + 2 * IZR m))%R)) [0]) [[0; 1]]) = Ok st /\
  lookup (0, 0) st = Some v /\ vdat v 0 = 2%R /\ vdat v 1 = 4%R.
Proof.
  destruct (C30_identity (1, 0, 0) (2, 1, 1)) with
    (u := fun m t : Z => mkvol 4 1 1 (fun i => (IZR i * (1 + 2 * IZR m))%R)) (ts := [0]) (assign := [[0; 1]])
    (M := 2) (red := suml (fun a : R => a)) as (st & E & W);
    auto using two_samples, nodup1, sum_is_reduction; try (cbn; lia).
  destruct (W 0 (or_introl eq_refl)) as (v & Lv & _ & Wv). exists st, v.
    split; [exact E|]. split; [exact Lv|]. rewrite !Wv by (cbn; lia).
    unfold sample_mean, sumz. lazy -[Rplus Rmult Rdiv IZR Rinv]. split; lra.
Qed.
