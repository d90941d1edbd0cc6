(** Properties C31 (the cube loops), C52 (structure functions along directions)
    and C60 (the structure_cube statistic). *)
From Coq Require Import ZArith Reals List Bool Lia Lra Permutation.
From Verif Require Import M_Base L_Base L_Loops M_Sim L_Sim M_Memory S_Memory L_Memory S_Sum L_Sum
  L_Flux M_Stats S_Stats L_Stats L_StatsRun L_Adds M_Structure S_Structure L_Structure T_Stats.
Import ListNotations.
Open Scope Z_scope.

(** * C31 *)

(** Whatever the loop body does, it is run once for each position at distance
    exactly [h] in maximum norm, and for no other position. *)
Theorem C31_each_offset_once : forall dims i j k h,
  dims = 1 \/ dims = 2 \/ dims = 3 -> 1 <= h -> along dims (i, j, k) ->
  exists l : list cell,
    (forall (S : Type) (body : cell -> S -> res S) s,
       cube_for_each body dims i j k h s = fold_res body l s) /\
    NoDup l /\
    (forall c, In c l <-> exists o, along dims o /\ max_norm o = h /\ c = plus (i, j, k) o) /\
    Z.of_nat (length l) = (2 * h + 1) ^ dims - (2 * h - 1) ^ dims.
Proof.
  intros dims i j k h Hd Hh (Hj & Hk). exists (shell dims i j k h).
  split; [intros; now apply cube_for_each_list|]. split; [now apply shell_NoDup|].
  split; [|now apply shell_length].
  intros [[x y] z]. rewrite shell_In by auto. split.
  - intros (A & E). exists (x - i, y - j, z - k). split; [exact A|]. split; [exact E|].
    cbn. repeat apply f_equal2; lia.
  - intros (((a, b), c) & A & E & X). cbn in X. injection X as -> -> ->.
    replace (i + a - i) with a by lia. replace (j + b - j) with b by lia. replace (k + c - k) with c by lia. auto.
Qed.

(** The two cells at distance 2 on a line and the 98 of a cell in space. *)
Example C31_example_line : forall s, cube_for_each (fun c s => Ok (s ++ [c])) 1 5 0 0 2 s =
  Ok (s ++ [(3, 0, 0); (7, 0, 0)]).
Proof.
  intros s. rewrite cube_for_each_list by auto.
  change (shell 1 5 0 0 2) with [(3, 0, 0); (7, 0, 0)]. cbn [fold_res bind].
  rewrite <- app_assoc. reflexivity.
Qed.
Example C31_example_count : exists l, cube_for_each (fun c s => Ok (s ++ [c])) 3 4 5 6 2 [] = Ok l /\
  length l = 98%nat.
Proof. eexists. split; [vm_compute; reflexivity|]. reflexivity. Qed.

(** * C60 *)

(** The structure_cube statistic: the mean over all samples of the structure
    function, for every distribution of the samples and every order of
    reduction, with periodic and with Neumann boundaries. *)
Theorem C60_structure_cube : forall u ts assign M red bc b dims numberOfH p g n,
  0 < M -> distribution_of M assign -> NoDup ts ->
  (forall l, l <> [] -> reduction l (red l)) ->
  (forall side, 0 <= side < 2 * dims -> bc side = b) -> b <> OtherBC ->
  positive_cells n -> nonneg_cells g -> cells_of n < 2 ^ 31 -> grid_of_dimension dims n ->
  0 < numberOfH < 2 ^ 31 ->
  (forall m t, 0 <= m < M -> In t ts -> has_cells g n (u m t)) ->
  exists st,
    run_statistics (structure_cube_statistic bc dims numberOfH (Z.of_nat p) g) red (IZR M)
      (map (calls_of u ts) assign) = Ok st /\
    forall t, In t ts -> exists v, lookup (t, 0) st = Some v /\
      forall h, 1 <= h < numberOfH ->
        vdat v h = sample_mean M (fun m => structure_cube_value b dims p g n (u m t) h).
Proof.
  intros u ts assign M red bc b dims numberOfH p g n HM Hd Nts Hred Hbc Hb Hn Hg Hc Hdim HH Hu.
  destruct (average_spec (structure_cube_statistic bc dims numberOfH (Z.of_nat p) g) (has_cells g n)
     (fun _ => (numberOfH, 1, 1))
     (fun _ w h => if 1 <=? h then structure_cube_value b dims p g n w h else 0%R))
    with (u := u) (ts := ts) (assign := assign) (M := M) (red := red) as (st & E & _ & _ & W); auto.
  - intros it [<-|[]]. apply additive_of; [cbn; lia|reflexivity|].
    intros w Hw. now apply checked_cube_adds.
  - cbn. repeat constructor. intros [].
  - exists st. split; [exact E|]. intros t Ht.
    destruct (W t _ Ht (or_introl eq_refl)) as (v & Lv & _ & Wv). exists v. split; [exact Lv|].
    intros h Hh. rewrite Wv by (cbn; lia). rewrite (proj2 (Z.leb_le 1 h)) by lia. reflexivity.
Qed.

Lemma for_first_ub {S} lo hi (body : Z -> S -> res S) s : lo < hi -> body lo s = UB -> for_ lo hi body s = UB.
Proof. intros H E. unfold for_. rewrite (zrange_cons lo hi H). cbn [fold_res]. rewrite E. reflexivity. Qed.

(** The statistic of a configuration whose cells are more than an int counts is
    undefined behaviour: the product of the cell numbers overflows. *)
Theorem C60_many_cells_refuted : exists bc n u out,
  n = 2 ^ 16 /\ has_cells (0, 0, 0) (n, n, 1) u /\ has_dims (2, 1, 1) out /\
  (forall side, bc side = Periodic) /\
  structure_cube_checked bc 2 2 1 (0, 0, 0) u out = UB.
Proof.
  remember (2 ^ 16) as n eqn:En.
  exists (fun _ => Periodic), n, (mkvol n n 1 (fun _ => 0%R)), (mkvol 2 1 1 (fun _ => 0%R)).
  split; [reflexivity|].
  assert (Hu : has_cells (0, 0, 0) (n, n, 1) (mkvol n n 1 (fun _ => 0%R))) by (cbn; lia).
  split; [exact Hu|]. split; [repeat split|]. split; [reflexivity|].
  assert (Hn : 1 < n) by lia.
  assert (Hd : grid_of_dimension 2 (n, n, 1)) by (cbn; lia).
  set (u := mkvol n n 1 (fun _ : Z => 0%R)) in *. set (out := mkvol 2 1 1 (fun _ : Z => 0%R)).
  unfold structure_cube_checked. change (forallb _ _) with true. cbv iota.
  unfold structure_cube_cpu. rewrite (has_cells_inner _ _ _ Hu). unfold for3.
  apply for_first_ub; [lia|]. apply for_first_ub; [lia|]. apply for_first_ub; [lia|]. apply for_first_ub; [lia|].
  unfold compute_structure_cube. rewrite vload_ok by (unfold inr; cbn; lia). cbn [bind].
  rewrite (has_cells_inner _ _ _ Hu). destruct (grid_dims 2 _ Hd) as (_ & -> & _).
  rewrite cube_for_each_list by auto. change (shell 2 0 0 0 1) with
    ((-1, 0, 0) :: tl (shell 2 0 0 0 1)). cbn [fold_res].
  rewrite (value_at_ok Periodic u (-1, 0, 0) (n, n, 1) (0, 0, 0)); [|discriminate|cbn; lia|cbn; lia|exact Hu].
  cbn [bind]. rewrite mload_ok by (change (vsize out) with 2; lia). cbn [bind].
  replace (int_cells (n, n, 1)) with (@UB Z) by (rewrite En; reflexivity). reflexivity.
Qed.

(** * C52 *)

(** structure_basic: the mean over samples and interior cells of
    |u(x) - u(x + h e)|^p, with the boundary type of side [direction].  Full
    statement: with the boundary type of the direction; refuted below for grids
    that have different types in different directions. *)
Theorem C52_structure_basic_partial : forall u ts assign M red bc numberOfH p d g n,
  0 < M -> distribution_of M assign -> NoDup ts ->
  (forall l, l <> [] -> reduction l (red l)) ->
  bc d <> OtherBC ->
  positive_cells n -> nonneg_cells g -> cells_of n < 2 ^ 31 -> 0 < numberOfH < 2 ^ 31 ->
  (forall m t, 0 <= m < M -> In t ts -> has_cells g n (u m t)) ->
  exists st,
    run_statistics (structure_basic bc numberOfH (Z.of_nat p) d g) red (IZR M)
      (map (calls_of u ts) assign) = Ok st /\
    forall t, In t ts -> exists v, lookup (t, 0) st = Some v /\
      forall h, 0 <= h < numberOfH ->
        vdat v h = sample_mean M (fun m => structure_value (bc d) p d g n (u m t) h).
Proof.
  intros u ts assign M red bc numberOfH p d g n HM Hd Nts Hred Hb Hn Hg Hc HH Hu.
  destruct (average_spec (structure_basic bc numberOfH (Z.of_nat p) d g) (has_cells g n)
     (fun _ => (numberOfH, 1, 1)) (fun _ w h => structure_value (bc d) p d g n w h))
    with (u := u) (ts := ts) (assign := assign) (M := M) (red := red) as (st & E & _ & _ & W); auto.
  - intros it [<-|[]]. apply additive_of; [cbn; lia|reflexivity|].
    intros w Hw. eapply adds_ext; [|reflexivity|apply (basic_adds (bc d) numberOfH p d g n w); auto].
    intros o _. unfold structure_basic_item. destruct (bc d); congruence.
  - cbn. repeat constructor. intros [].
  - exists st. split; [exact E|]. intros t Ht.
    destruct (W t _ Ht (or_introl eq_refl)) as (v & Lv & _ & Wv). exists v. split; [exact Lv|].
    intros h Hh. rewrite Wv by (cbn; lia). reflexivity.
Qed.

Lemma nodup1 : NoDup [0].
Proof. repeat constructor. intros []. Qed.
Lemma one_sample : distribution_of 1 [[0]].
Proof. split; [discriminate|]. split; [apply Permutation_refl|]. repeat constructor. discriminate. Qed.

(** One column of three cells 0, 0, 1 in a grid periodic in x and with Neumann
    boundaries in y; sides are numbered left, right, bottom, top.  Structure
    function in y at distance 1: 1/3 with Neumann boundaries, but 2/3 is
    computed. *)
Definition mixed_bc (side : Z) : btype := if side <? 2 then Periodic else Neumann.
Definition column_sample (m t : Z) : vol R := mkvol 1 3 1 (fun i => if i =? 2 then 1%R else 0%R).

Theorem C52_boundary_of_other_side_refuted : exists st v,
  mixed_bc (2 * 1) = Neumann /\ mixed_bc (2 * 1 + 1) = Neumann /\
  run_statistics (structure_basic mixed_bc 2 1 1 (0, 0, 0)) (suml (fun a => a)) 1
    (map (calls_of column_sample [0]) [[0]]) = Ok st /\
  lookup (0, 0) st = Some v /\
  sample_mean 1 (fun m => structure_value Neumann 1 1 (0, 0, 0) (1, 3, 1) (column_sample m 0) 1) = (1 / 3)%R /\
  vdat v 1 = (2 / 3)%R.
Proof.
  destruct (C52_structure_basic_partial column_sample [0] [[0]] 1 (suml (fun a => a)) mixed_bc 2 1 1 (0, 0, 0) (1, 3, 1))
    as (st & E & W); auto using one_sample, nodup1, sum_is_reduction; try (cbn; lia);
    try match goal with |- _ <> OtherBC => discriminate end.
  destruct (W 0 (or_introl eq_refl)) as (v & Lv & Wv). exists st, v.
  split; [reflexivity|]. split; [reflexivity|]. split; [exact E|]. split; [exact Lv|]. split.
  - unfold sample_mean, structure_value, interior_mean, sum3, sumz, column_sample.
    lazy -[Rplus Rmult Rdiv IZR Rinv Rabs Rminus].
    replace (0 - 0)%R with 0%R by ring. replace (1 - 1)%R with 0%R by ring. replace (0 - 1)%R with (Ropp 1) by ring.
    rewrite Rabs_Ropp, Rabs_R0, Rabs_R1. lra.
  - rewrite Wv by lia. unfold sample_mean, structure_value, interior_mean, sum3, sumz, column_sample.
    lazy -[Rplus Rmult Rdiv IZR Rinv Rabs Rminus].
    replace (0 - 0)%R with 0%R by ring. replace (1 - 0)%R with 1%R by ring. replace (0 - 1)%R with (Ropp 1) by ring.
    rewrite Rabs_Ropp, Rabs_R0, Rabs_R1. lra.
Qed.

(** structure_2pt: what is computed, for every number of ghost cells: the cells
    less the ghost cells once more, and the first direction twice. *)
Theorem C52_two_points_computed : forall u ts assign M red numberOfH d1 d2 g n,
  0 < M -> distribution_of M assign -> NoDup ts ->
  (forall l, l <> [] -> reduction l (red l)) ->
  positive_cells (shrink g n) -> nonneg_cells g -> cells_of (shrink g n) < 2 ^ 31 ->
  0 < numberOfH -> numberOfH * numberOfH < 2 ^ 31 ->
  (forall m t, 0 <= m < M -> In t ts -> has_cells g n (u m t)) ->
  exists st,
    run_statistics (structure_two_points numberOfH d1 d2 g) red (IZR M) (map (calls_of u ts) assign) = Ok st /\
    forall t, In t ts -> exists v, lookup (t, 0) st = Some v /\
      forall h1 h2, 0 <= h1 < numberOfH -> 0 <= h2 < numberOfH ->
        vget v (h1, h2, 0) = sample_mean M (fun m => two_point_value d1 d1 g (shrink g n) (u m t) h1 h2).
Proof.
  intros u ts assign M red numberOfH d1 d2 g n HM Hd Nts Hred Hn Hg Hc HH HH2 Hu.
  destruct (average_spec (structure_two_points numberOfH d1 d2 g) (has_cells g n)
     (fun _ => (numberOfH, numberOfH, 1))
     (fun _ w i => two_point_value d1 d1 g (shrink g n) w (i mod numberOfH) (i / numberOfH)))
    with (u := u) (ts := ts) (assign := assign) (M := M) (red := red) as (st & E & _ & _ & W); auto.
  - intros it [<-|[]]. apply additive_of; [cbn; nia|reflexivity|].
    intros w Hw. now apply two_points_adds.
  - cbn. repeat constructor. intros [].
  - exists st. split; [exact E|]. intros t Ht.
    destruct (W t _ Ht (or_introl eq_refl)) as (v & Lv & (Dx & Dy & Dz) & Wv). exists v. split; [exact Lv|].
    intros h1 h2 H1 H2. unfold vget, index. rewrite Dx, Dy.
    replace (0 * numberOfH * numberOfH + h2 * numberOfH + h1) with (h2 * numberOfH + h1) by lia.
    rewrite Wv by (cbn; nia).
    rewrite <- (Z.div_unique (h2 * numberOfH + h1) numberOfH h2 h1), <- (Z.mod_unique (h2 * numberOfH + h1) numberOfH h2 h1) by lia.
    reflexivity.
Qed.

(** So it is the two-point structure function when there are no ghost cells and
    both directions are the same.  Full statement: with ghost cells and any two
    directions; refuted below. *)
Theorem C52_two_points_partial : forall u ts assign M red numberOfH d n,
  0 < M -> distribution_of M assign -> NoDup ts ->
  (forall l, l <> [] -> reduction l (red l)) ->
  positive_cells n -> cells_of n < 2 ^ 31 -> 0 < numberOfH -> numberOfH * numberOfH < 2 ^ 31 ->
  (forall m t, 0 <= m < M -> In t ts -> has_cells (0, 0, 0) n (u m t)) ->
  exists st,
    run_statistics (structure_two_points numberOfH d d (0, 0, 0)) red (IZR M) (map (calls_of u ts) assign) = Ok st /\
    forall t, In t ts -> exists v, lookup (t, 0) st = Some v /\
      forall h1 h2, 0 <= h1 < numberOfH -> 0 <= h2 < numberOfH ->
        vget v (h1, h2, 0) = sample_mean M (fun m => two_point_value d d (0, 0, 0) n (u m t) h1 h2).
Proof.
  intros u ts assign M red numberOfH d n HM Hd Nts Hred Hn Hc HH HH2 Hu.
  assert (Es : shrink (0, 0, 0) n = n).
  { destruct n as [[nx ny] nz]. cbn. repeat apply f_equal2; lia. }
  destruct (C52_two_points_computed u ts assign M red numberOfH d d (0, 0, 0) n) as (st & E & W); auto;
    rewrite ?Es; auto; [cbn; lia|].
  exists st. split; [exact E|]. rewrite Es in W. exact W.
Qed.

(** Directions x and y on a grid that varies in y only, so the function with
    first direction x is 0 at (0, 1) and the one with both directions y is not;
    and directions y and x: 1/2 computed instead of 0. *)
Definition rows_sample (m t : Z) : vol R := mkvol 2 2 1 (fun i => if 2 <=? i then 1%R else 0%R).

Theorem C52_second_direction_refuted : exists st v,
  run_statistics (structure_two_points 2 1 0 (0, 0, 0)) (suml (fun a => a)) 1
    (map (calls_of rows_sample [0]) [[0]]) = Ok st /\
  lookup (0, 0) st = Some v /\
  sample_mean 1 (fun m => two_point_value 1 0 (0, 0, 0) (2, 2, 1) (rows_sample m 0) 1 1) = 0%R /\
  vget v (1, 1, 0) = (1 / 2)%R.
Proof.
  destruct (C52_two_points_computed rows_sample [0] [[0]] 1 (suml (fun a => a)) 2 1 0 (0, 0, 0) (2, 2, 1))
    as (st & E & W); auto using one_sample, nodup1, sum_is_reduction; try (cbn; lia).
  destruct (W 0 (or_introl eq_refl)) as (v & Lv & Wv). exists st, v.
  split; [exact E|]. split; [exact Lv|]. split.
  - unfold sample_mean, two_point_value, interior_mean, sum3, sumz, rows_sample.
    lazy -[Rplus Rmult Rdiv IZR Rinv Rabs Rminus]. field.
  - rewrite Wv by lia. unfold sample_mean, two_point_value, interior_mean, sum3, sumz, rows_sample.
    lazy -[Rplus Rmult Rdiv IZR Rinv Rabs Rminus]. field.
Qed.

(** Two cells 0, 1 with one ghost cell on either side: no cell is looked at. *)
Definition ghost_sample (m t : Z) : vol R := mkvol 4 1 1 (fun i => if 2 <=? i then 1%R else 0%R).

Theorem C52_ghost_cells_twice_refuted : exists st v,
  run_statistics (structure_two_points 2 0 0 (1, 0, 0)) (suml (fun a => a)) 1
    (map (calls_of ghost_sample [0]) [[0]]) = Ok st /\
  lookup (0, 0) st = Some v /\
  sample_mean 1 (fun m => two_point_value 0 0 (1, 0, 0) (2, 1, 1) (ghost_sample m 0) 1 1) = (1 / 2)%R /\
  vget v (1, 1, 0) = 0%R.
Proof.
  destruct (average_spec (structure_two_points 2 0 0 (1, 0, 0)) (has_cells (1, 0, 0) (2, 1, 1))
     (fun _ => (2, 2, 1)) (fun _ w i => 0%R))
    with (u := ghost_sample) (ts := [0]) (assign := [[0]]) (M := 1) (red := suml (fun a => a))
    as (st & E & _ & _ & W); auto using one_sample, nodup1, sum_is_reduction; try lia.
  - intros it [<-|[]]. apply additive_of; [cbn; lia|reflexivity|].
    intros w (Wx & Wy & Wz) o Ho. exists o. split; [|split; [exact Ho|intros; lra]].
    unfold structure_two_points_loop, twice_inner, inner. rewrite Wx, Wy, Wz. cbn. reflexivity.
  - intros. repeat split.
  - destruct (W 0 _ (or_introl eq_refl) (or_introl eq_refl)) as (v & Lv & (Dx & Dy & Dz) & Wv). exists st, v.
    split; [exact E|]. split; [exact Lv|]. split.
    + unfold sample_mean, two_point_value, interior_mean, sum3, sumz, ghost_sample.
      lazy -[Rplus Rmult Rdiv IZR Rinv Rabs Rminus]. field.
    + unfold vget, index. rewrite Dx, Dy. rewrite Wv by (cbn; lia).
      unfold sample_mean, sumz. lazy -[Rplus Rmult Rdiv IZR Rinv Rabs Rminus]. lra.
Qed.

Print Assumptions C31_each_offset_once.
Print Assumptions C60_structure_cube.
Print Assumptions C60_many_cells_refuted.
Print Assumptions C52_structure_basic_partial.
Print Assumptions C52_boundary_of_other_side_refuted.
Print Assumptions C52_two_points_computed.
Print Assumptions C52_two_points_partial.
Print Assumptions C52_second_direction_refuted.
Print Assumptions C52_ghost_cells_twice_refuted.

(** A line of three cells 0, 1, 3, periodic, without ghost cells: the structure
    function of order 1 at distance 1 is (1 + 3 + 1 + 2 + 2 + 3) / 3. *)
Example C60_example : structure_cube_value Periodic 1 1 (0, 0, 0) (3, 1, 1)
    (mkvol 3 1 1 (fun i => if i =? 0 then 0%R else if i =? 1 then 1%R else 3%R)) 1 = 4%R.
Proof.
  unfold structure_cube_value, interior_mean, shell_sum, sum3, sumz.
  lazy -[Rplus Rmult Rdiv IZR Rinv Rabs Rminus].
  rewrite (Rabs_left (0 - 3)), (Rabs_left (0 - 1)), (Rabs_right (1 - 0)), (Rabs_left (1 - 3)),
    (Rabs_right (3 - 1)), (Rabs_right (3 - 0)) by lra. lra.
Qed.
