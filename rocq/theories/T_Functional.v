(** Properties C61 (the contract of functionals) and C30 (functionals as
    statistics). *)
From Coq Require Import ZArith Reals List Bool Lia Lra Permutation.
From Verif Require Import M_Base L_Base L_Loops M_Sim L_Sim M_Memory S_Memory L_Memory S_Sum L_Sum
  L_Flux M_Stats S_Stats L_Stats L_StatsRun L_Adds M_Foreach L_Foreach M_Structure S_Structure L_Structure
  T_Memory T_Variation T_Stats T_Structure M_Functional S_Functional L_Functional.
Import ListNotations.
Open Scope Z_scope.

(** * C61: which functionals keep the contract *)

Theorem C61_identity : forall g n, positive_cells n -> nonneg_cells g ->
  adds_weighted n (has_cells g n) (identity_functional g) (fun u i => interior_value g u (nth_cell n i)).
Proof.
  intros g n Hn Hg out u w Ho Hu. revert out Ho.
  change (adds n (fun out => identity_functional g out u w) (fun i => w * interior_value g u (nth_cell n i))%R).
  pose proof (interior_load g n u) as L. unfold identity_functional. rewrite (has_cells_inner g n u Hu).
  destruct n as [[nx ny] nz], g as [[gx gy] gz]. cbn [positive_cells] in Hn.
  apply (adds_each nx ny nz _ (fun c => w * interior_value (gx, gy, gz) u c)%R); try lia.
  intros x y z Hx Hy Hz. eapply adds_ext; [|reflexivity|apply (adds_at nx ny nz x y z (w * interior_value (gx, gy, gz) u (x, y, z))%R); lia].
  intros o _. cbv beta zeta iota in L. rewrite L by (auto; cbn; lia). reflexivity.
Qed.

Theorem C61_moment : forall d p,
  adds_weighted d (has_dims d) (moment_functional (Z.of_nat p)) (fun u i => vdat u i ^ p)%R.
Proof.
  intros d p out u w Ho Hu. unfold moment_functional, mem_addpow.
  pose proof (has_dims_size _ _ Ho) as So. pose proof (has_dims_size _ _ Hu) as Su.
  rewrite same_size_true by congruence. cbn [negb].
  destruct (ew_all (vsize out) (fun i a => b <- mload u i;; Ok (a + w * cpow b (Z.of_nat p))%R)
    (fun i => vdat out i + w * vdat u i ^ p)%R out) as (o' & E & A & B & C & W); [reflexivity| |].
  - intros i Hi. rewrite mload_ok by lia. cbn [bind]. rewrite cpow_nat. reflexivity.
  - exists o'. split; [exact E|]. split.
    + destruct d as [[nx ny] nz]. destruct Ho as (? & ? & ?). repeat split; congruence.
    + intros i Hi. apply W. change (elements out) with (vsize out). lia.
Qed.

Theorem C61_bv_line : forall nx g p lz, (lz <= 1)%R -> 0 <= g -> nx < 2 ^ 31 ->
  adds_weighted (1, 1, 1) (has_dims (nx, 1, 1)) (bv_functional (Z.of_nat p) (g, 0, 0) lz)
    (fun u _ => pair_sum p 0 (comp (g, 0, 0)) (comp (nx - g, 1, 1)) (vget u)).
Proof.
  intros nx g p lz Hl Hg Hx out u w Ho (Ux & Uy & Uz). revert out Ho.
  eapply adds_ext; [|reflexivity|apply adds_first].
  intros o _. unfold bv_functional. destruct (Rlt_dec 1 lz); [lra|].
  unfold bv_stop. rewrite Ux, Uy, Uz, !Z.sub_0_r. rewrite C47_line_partial by lia. reflexivity.
Qed.

Theorem C61_bv_plane : forall nx ny g p lz, (lz <= 1)%R -> 0 <= g -> 1 < ny -> nx * ny < 2 ^ 31 ->
  adds_weighted (1, 1, 1) (has_dims (nx, ny, 1)) (bv_functional (Z.of_nat p) (g, g, 0) lz)
    (fun u _ => gradient_sum p (comp (g, g, 0)) (comp (nx - g, ny - g, 1)) (vget u)).
Proof.
  intros nx ny g p lz Hl Hg Hy Hx out u w Ho (Ux & Uy & Uz). revert out Ho.
  eapply adds_ext; [|reflexivity|apply adds_first].
  intros o _. unfold bv_functional. destruct (Rlt_dec 1 lz); [lra|].
  unfold bv_stop. rewrite Ux, Uy, Uz, !Z.sub_0_r.
  rewrite C47_plane_partial by (rewrite ?Ux, ?Uy; lia). reflexivity.
Qed.

Lemma legendre_accepts len : (len 2%Z <= 1)%R -> len 1%Z <> 1%R -> legendre_rejects len = false.
Proof.
  intros H2 H1. unfold legendre_rejects. destruct (Rlt_dec 1 (len 2)); [lra|].
  destruct (Req_EM_T (len 1) 1); [contradiction|reflexivity].
Qed.

Theorem C61_legendre_pointwise : forall P lo hi g n len,
  (len 2%Z <= 1)%R -> len 1%Z <> 1%R -> positive_cells n -> nonneg_cells g ->
  adds_weighted n (has_cells g n) (legendre_pointwise_functional P lo hi g len)
    (fun u i => P ((interior_value g u (nth_cell n i) - lo) / (hi - lo))%R).
Proof.
  intros P lo hi g n len H2 H1 Hn Hg out u w Ho Hu. revert out Ho.
  change (adds n (fun out => legendre_pointwise_functional P lo hi g len out u w)
    (fun i => w * P ((interior_value g u (nth_cell n i) - lo) / (hi - lo)))%R).
  pose proof (interior_load g n u) as L. unfold legendre_pointwise_functional. rewrite (has_cells_inner g n u Hu).
  rewrite legendre_accepts by assumption.
  destruct n as [[nx ny] nz], g as [[gx gy] gz]. cbn [positive_cells] in Hn.
  apply (adds_each nx ny nz _ (fun c => w * P ((interior_value (gx, gy, gz) u c - lo) / (hi - lo)))%R); try lia.
  intros x y z Hx Hy Hz. eapply adds_ext; [| |apply (adds_at nx ny nz x y z
     (P ((interior_value (gx, gy, gz) u (x, y, z) - lo) / (hi - lo)) * w)%R); lia].
  - intros o _. cbv beta zeta iota in L. rewrite L by (auto; cbn; lia). reflexivity.
  - intros i _. cbv beta. destruct (i =? index nx ny x y z); [ring|reflexivity].
Qed.

(** legendre: the integral over the domain of P_k(x) P_n(y) P_m(u), with x, y and
    u scaled to [-1, 1], [-1, 1] and [0, 1], by the midpoint rule. *)
Theorem C61_legendre : forall Pk Pn Pm lo hi g n origin top len,
  (len 2%Z <= 1)%R -> len 1%Z <> 1%R -> positive_cells n -> nonneg_cells g ->
  top 0%Z <> origin 0%Z -> top 1%Z <> origin 1%Z ->
  adds_weighted (1, 1, 1) (fun u => has_cells g n u /\ vsize u < two64)
    (legendre_functional Pk Pn Pm lo hi g origin top len)
    (fun u _ => midpoint_rule n len (fun c =>
       Pk (to_unit (origin 0%Z) (top 0%Z) (cell_centre origin len c 0)) *
       Pn (to_unit (origin 1%Z) (top 1%Z) (cell_centre origin len c 1)) *
       Pm ((interior_value g u c - lo) / (hi - lo)))%R).
Proof.
  intros Pk Pn Pm lo hi g n origin top len H2 H1 Hn Hg Hx Hy out u w Ho (Hu & Hs). revert out Ho.
  eapply adds_ext; [|reflexivity|apply adds_first].
  intros o _. unfold legendre_functional. rewrite legendre_accepts by assumption.
  set (dv := (len 0%Z * len 1%Z * len 2%Z)%R).
  set (f := fun c : cell => (Pk (to_unit (origin 0%Z) (top 0%Z) (cell_centre origin len c 0)) *
       Pn (to_unit (origin 1%Z) (top 1%Z) (cell_centre origin len c 1)) *
       Pm ((interior_value g u c - lo) / (hi - lo)))%R).
  rewrite (midpoint_sum g n u _ (fun c => dv * f c)%R) by (auto; intros x y z m s Bx By Bz;
    destruct n as [[nx ny] nz], g as [[gx gy] gz];
    cbn [positive_cells nonneg_cells has_cells comp nvec Z.eqb Pos.eqb] in *;
    rewrite mload_ok by (apply L_Structure.index_range; lia); cbn [bind]; do 2 f_equal; unfold f, dv;
    unfold to_unit, cell_centre, grid_midpoint; cbn [comp nvec Z.eqb Pos.eqb];
    match goal with |- (Pk ?a * Pn ?b * _ * _ = _ * (Pk ?a' * Pn ?b' * _))%R =>
      replace a' with a by (field; lra); replace b' with b by (field; lra) end;
    change (vdat u _) with (interior_value (gx, gy, gz) u (x, y, z)); ring).
  cbn [bind]. rewrite sum3_scal. unfold midpoint_rule. fold dv f.
  replace (dv * sum3 (fun _ => 0%Z) (comp n) f)%R with (sum3 (fun _ => 0%Z) (comp n) f * dv)%R by ring. reflexivity.
Qed.

Lemma momentum_sum g n ms x y z : nonneg_cells g -> Forall (has_cells g n) ms ->
  0 <= x < comp n 0 -> 0 <= y < comp n 1 -> 0 <= z < comp n 2 ->
  forall u, has_cells g n u ->
  (let '(gx, gy, gz) := g in momentum_squared ms (index (vnx u) (vny u) (x + gx) (y + gy) (z + gz)))
  = Ok (suml (fun m => interior_value g m (x, y, z) ^ 2)%R ms).
Proof.
  intros Hg Hm Bx By Bz u Hu.
  destruct n as [[nx ny] nz], g as [[gx gy] gz].
  cbn [nonneg_cells has_cells comp nvec Z.eqb Pos.eqb] in *.
  assert (G : forall ms acc, Forall (has_cells (gx, gy, gz) (nx, ny, nz)) ms ->
    fold_res (fun m acc => a <- mload m (index (vnx u) (vny u) (x + gx) (y + gy) (z + gz));; Ok (acc + a * a)%R) ms acc
    = Ok (acc + suml (fun m => interior_value (gx, gy, gz) m (x, y, z) ^ 2)%R ms)%R).
  { clear ms Hm. induction ms as [|m ms IH]; intros acc F; cbn [fold_res].
    - cbn. f_equal. lra.
    - inversion F as [|? ? Fm Fr]; subst. cbn [has_cells] in Fm. destruct Fm as (Mx & My & Mz).
      destruct Hu as (Ux & Uy & Uz).
      replace (index (vnx u) (vny u) (x + gx) (y + gy) (z + gz)) with (index (vnx m) (vny m) (x + gx) (y + gy) (z + gz))
        by (rewrite Mx, My, Ux, Uy; reflexivity).
      rewrite mload_ok by (apply L_Structure.index_range; lia). cbn [bind].
      replace (index (vnx m) (vny m) (x + gx) (y + gy) (z + gz)) with (index (vnx u) (vny u) (x + gx) (y + gy) (z + gz))
        by (rewrite Mx, My, Ux, Uy; reflexivity).
      rewrite IH by exact Fr. f_equal. cbn [suml fold_right]. fold (suml (fun m => interior_value (gx, gy, gz) m (x, y, z) ^ 2)%R ms).
      unfold interior_value at 2. cbn [plus]. unfold vget. rewrite Mx, My, Ux, Uy. ring. }
  unfold momentum_squared. rewrite G by exact Hm. f_equal. lra.
Qed.

(** log_entropy: the integral of the entropy by the midpoint rule. *)
Theorem C61_log_entropy : forall gamma g n len rho ms E out w,
  positive_cells n -> nonneg_cells g -> has_cells g n rho -> has_cells g n E -> Forall (has_cells g n) ms ->
  vsize rho < two64 -> has_dims (1, 1, 1) out ->
  (forall x y z, 0 <= x < comp n 0 -> 0 <= y < comp n 1 -> 0 <= z < comp n 2 ->
     let c := (x, y, z) in
     (0 < interior_value g rho c)%R /\
     (0 < pressure_of gamma (interior_value g rho c) (suml (fun m => interior_value g m c ^ 2) ms) (interior_value g E c))%R) ->
  exists out', log_entropy_functional gamma g len out rho ms E w = Ok out' /\ has_dims (1, 1, 1) out' /\
    vdat out' 0 = (vdat out 0 + w * midpoint_rule n len (fun c =>
      entropy_density gamma (interior_value g rho c) (suml (fun m => interior_value g m c ^ 2) ms) (interior_value g E c)))%R.
Proof.
  intros gamma g n len rho ms E out w Hn Hg Hr HE Hms Hs Ho Hpos.
  set (f := fun c => entropy_density gamma (interior_value g rho c) (suml (fun m => interior_value g m c ^ 2) ms)%R (interior_value g E c)).
  set (dv := (len 0%Z * len 1%Z * len 2%Z)%R).
  assert (A : adds (1, 1, 1) (fun out => log_entropy_functional gamma g len out rho ms E w)
     (fun _ => w * midpoint_rule n len f)%R).
  { eapply adds_ext; [|reflexivity|apply adds_first].
    intros o _. unfold log_entropy_functional. fold dv.
    rewrite (midpoint_sum g n rho _ (fun c => dv * f c)%R); auto.
    - cbn [bind]. rewrite sum3_scal. unfold midpoint_rule. fold dv.
      replace (dv * sum3 (fun _ => 0%Z) (comp n) f)%R with (sum3 (fun _ => 0%Z) (comp n) f * dv)%R by ring. reflexivity.
    - intros x y z m s Bx By Bz. destruct (Hpos x y z Bx By Bz) as (P1 & P2).
      pose proof (momentum_sum g n ms x y z Hg Hms Bx By Bz rho Hr) as MS.
      destruct n as [[nx ny] nz], g as [[gx gy] gz].
      cbn [positive_cells nonneg_cells has_cells comp nvec Z.eqb Pos.eqb] in *.
      destruct Hr as (Rx & Ry & Rz), HE as (Ex & Ey & Ez).
      assert (IE : index (vnx rho) (vny rho) (x + gx) (y + gy) (z + gz) = index (vnx E) (vny E) (x + gx) (y + gy) (z + gz))
        by (rewrite Rx, Ry, Ex, Ey; reflexivity).
      rewrite (mload_ok rho) by (apply L_Structure.index_range; lia). cbn [bind].
      rewrite (mload_ok E) by (rewrite IE; apply L_Structure.index_range; lia). cbn [bind].
      rewrite MS. cbn [bind]. do 2 f_equal.
      change (vdat rho _) with (interior_value (gx, gy, gz) rho (x, y, z)).
      rewrite IE. change (vdat E _) with (interior_value (gx, gy, gz) E (x, y, z)).
      unfold f, entropy_density.
      set (r := interior_value (gx, gy, gz) rho (x, y, z)) in *. set (e := interior_value (gx, gy, gz) E (x, y, z)) in *.
      set (m2 := suml (fun m => interior_value (gx, gy, gz) m (x, y, z) ^ 2)%R ms) in *.
      assert (EL : ln (pressure_of gamma r m2 e / Rpower r gamma) = (ln (pressure_of gamma r m2 e) - gamma * ln r)%R).
      { unfold Rdiv. assert (0 < Rpower r gamma)%R by (unfold Rpower; apply exp_pos).
        rewrite ln_mult; [|exact P2|now apply Rinv_0_lt_compat]. rewrite ln_Rinv by assumption.
        unfold Rpower. rewrite ln_exp. ring. }
      rewrite EL. unfold pressure_of. replace ((e - 1 / (2 * r) * m2))%R with (e - m2 / (2 * r))%R by (unfold Rdiv; ring).
      unfold Rdiv. ring. }
  destruct (A out Ho) as (o' & E' & D & W). exists o'. split; [exact E'|]. split; [exact D|]. apply W. cbn. lia.
Qed.

(** legendre and legendre_pointwise look at cell lengths where they mean numbers
    of cells: a plane grid of unit cells is refused. *)
Theorem C61_legendre_unit_cells_refuted : exists len n,
  len = (fun _ : Z => 1%R) /\ n = (4, 4, 1) /\
  forall P lo hi out u w, legendre_pointwise_functional P lo hi (0, 0, 0) len out u w = Throw /\
    legendre_functional P P P lo hi (0, 0, 0) (fun _ => 0%R) (fun d => IZR (comp n d)) len out u w = Throw.
Proof.
  exists (fun _ => 1%R), (4, 4, 1). split; [reflexivity|]. split; [reflexivity|].
  intros P lo hi out u w.
  assert (Rj : legendre_rejects (fun _ => 1%R) = true).
  { unfold legendre_rejects. destruct (Rlt_dec 1 1); [reflexivity|]. destruct (Req_EM_T 1 1); [reflexivity|lra]. }
  unfold legendre_pointwise_functional, legendre_functional. rewrite Rj. auto.
Qed.

(** structure_cube keeps neither the output nor the weight. *)
Theorem C61_structure_cube_computed : forall bc b dims numberOfH p g n out u w,
  (forall side, 0 <= side < 2 * dims -> bc side = b) -> b <> OtherBC ->
  positive_cells n -> nonneg_cells g -> cells_of n < 2 ^ 31 -> grid_of_dimension dims n ->
  0 < numberOfH < 2 ^ 31 -> has_cells g n u -> has_dims (numberOfH, 1, 1) out ->
  exists out', structure_cube_functional bc dims numberOfH (Z.of_nat p) g out u w = Ok out' /\
    has_dims (numberOfH, 1, 1) out' /\
    forall h, 1 <= h < numberOfH -> vdat out' h = structure_cube_value b dims p g n u h.
Proof.
  intros bc b dims numberOfH p g n out u w Hbc Hb Hn Hg Hc Hd HH Hu Ho.
  unfold structure_cube_functional, mem_zero. pose proof (has_dims_size _ _ Ho) as So. cbn in So.
  destruct (ew_all (int_bound out) (fun _ _ => Ok 0%R) (fun _ => 0%R) out) as (z & Ez & A & B & C & W).
  { apply int_bound_small. change (elements out) with (vsize out). lia. }
  { auto. }
  rewrite Ez. cbn [bind]. destruct Ho as (O1 & O2 & O3).
  destruct (checked_cube_adds bc b dims numberOfH p g n u Hbc Hb Hn Hg Hu Hc Hd z) as (o' & E & D & W').
  { repeat split; congruence. }
  exists o'. split; [exact E|]. split; [exact D|]. intros h Hh. rewrite W' by (cbn; lia).
  rewrite W by (change (elements out) with (vsize out); lia). rewrite (proj2 (Z.leb_le 1 h)) by lia. lra.
Qed.

Lemma line2_cube : structure_cube_value Periodic 1 1 (0, 0, 0) (2, 1, 1)
   (mkvol 2 1 1 (fun i => if i =? 0 then 0%R else 1%R)) 1 = 2%R.
Proof.
  unfold structure_cube_value, interior_mean, shell_sum, sum3, sumz.
  lazy -[Rplus Rmult Rdiv IZR Rinv Rabs Rminus].
  rewrite (Rabs_left (0 - 1)), (Rabs_right (1 - 0)) by lra. lra.
Qed.

Theorem C61_structure_cube_refuted : exists out u,
  has_dims (2, 1, 1) out /\ has_cells (0, 0, 0) (2, 1, 1) u /\
  ~ (exists f, adds_weighted (2, 1, 1) (has_cells (0, 0, 0) (2, 1, 1))
       (structure_cube_functional (fun _ => Periodic) 1 2 1 (0, 0, 0)) f) /\
  structure_cube_value Periodic 1 1 (0, 0, 0) (2, 1, 1) u 1 = 2%R /\
  vdat out 1 = 5%R /\
  exists out', structure_cube_functional (fun _ => Periodic) 1 2 1 (0, 0, 0) out u 3%R = Ok out' /\ vdat out' 1 = 2%R.
Proof.
  set (u := mkvol 2 1 1 (fun i => if i =? 0 then 0%R else 1%R)).
  exists (mkvol 2 1 1 (fun _ => 5%R)), u.
  assert (C : forall a w, exists out', structure_cube_functional (fun _ => Periodic) 1 2 1 (0, 0, 0)
    (mkvol 2 1 1 (fun _ => a)) u w = Ok out' /\ vdat out' 1 = 2%R).
  { intros a w. destruct (C61_structure_cube_computed (fun _ => Periodic) Periodic 1 2 1 (0, 0, 0) (2, 1, 1)
      (mkvol 2 1 1 (fun _ => a)) u w) as (o & E & _ & W); try (cbn; lia); auto.
    - discriminate.
    - exists o. split; [exact E|]. rewrite W by lia. apply line2_cube. }
  split; [repeat split|]. split; [repeat split|]. split; [|split; [apply line2_cube|split; [reflexivity|apply C]]].
  intros (f & H).
  destruct (H (mkvol 2 1 1 (fun _ => 0%R)) u 1%R) as (o1 & E1 & _ & W1); [repeat split|repeat split|].
  destruct (H (mkvol 2 1 1 (fun _ => 5%R)) u 1%R) as (o2 & E2 & _ & W2); [repeat split|repeat split|].
  destruct (C 0%R 1%R) as (o1' & E1' & V1). destruct (C 5%R 1%R) as (o2' & E2' & V2).
  rewrite E1 in E1'. rewrite E2 in E2'. injection E1' as <-. injection E2' as <-.
  rewrite W1 in V1 by (cbn; lia). rewrite W2 in V2 by (cbn; lia). cbn in V1, V2. lra.
Qed.

(** structure_base adds, but without the weight. *)
Theorem C61_structure_base_computed : forall numberOfH p d g n out u w,
  nonneg_cells g -> has_cells g n u -> positive_cells (shrink g n) -> cells_of (shrink g n) < 2 ^ 31 ->
  has_dims (numberOfH, 1, 1) out ->
  exists out', structure_base_functional numberOfH (Z.of_nat p) d g out u w = Ok out' /\
    has_dims (numberOfH, 1, 1) out' /\
    forall h, 0 <= h < numberOfH ->
      vdat out' h = (vdat out h + structure_value Periodic p d g (shrink g n) u h)%R.
Proof.
  intros numberOfH p d g n out u w Hg Hu Hn Hc Ho.
  destruct (base_adds numberOfH p d g n u w Hg Hu Hn Hc out Ho) as (o' & E & D & W).
  exists o'. split; [exact E|]. split; [exact D|]. intros h Hh. apply W. cbn. lia.
Qed.

Lemma line2_base : structure_value Periodic 1 0 (0, 0, 0) (2, 1, 1)
   (mkvol 2 1 1 (fun i => if i =? 0 then 0%R else 1%R)) 1 = 1%R.
Proof.
  unfold structure_value, interior_mean, sum3, sumz.
  lazy -[Rplus Rmult Rdiv IZR Rinv Rabs Rminus].
  rewrite (Rabs_left (0 - 1)), (Rabs_right (1 - 0)) by lra. lra.
Qed.

Theorem C61_structure_base_refuted : exists out u,
  has_dims (2, 1, 1) out /\ has_cells (0, 0, 0) (2, 1, 1) u /\
  ~ (exists f, adds_weighted (2, 1, 1) (has_cells (0, 0, 0) (2, 1, 1))
       (structure_base_functional 2 1 0 (0, 0, 0)) f) /\
  structure_value Periodic 1 0 (0, 0, 0) (2, 1, 1) u 1 = 1%R /\ vdat out 1 = 0%R /\
  exists out', structure_base_functional 2 1 0 (0, 0, 0) out u (1 / 2) = Ok out' /\ vdat out' 1 = 1%R.
Proof.
  set (u := mkvol 2 1 1 (fun i => if i =? 0 then 0%R else 1%R)).
  set (out := mkvol 2 1 1 (fun _ => 0%R)).
  exists out, u.
  assert (C : forall w, exists out', structure_base_functional 2 1 0 (0, 0, 0) out u w = Ok out' /\ vdat out' 1 = 1%R).
  { intros w. destruct (C61_structure_base_computed 2 1 0 (0, 0, 0) (2, 1, 1) out u w) as (o & E & _ & W);
      try (cbn; lia); try (repeat split; fail).
    exists o. split; [exact E|]. rewrite W by lia. change (shrink (0, 0, 0) (2, 1, 1)) with (2, 1, 1).
    unfold u. rewrite line2_base. cbn. lra. }
  split; [repeat split|]. split; [repeat split|]. split; [|split; [apply line2_base|split; [reflexivity|apply C]]].
  intros (f & H).
  destruct (H out u 0%R) as (o1 & E1 & _ & W1); [repeat split|repeat split|].
  destruct (C 0%R) as (o1' & E1' & V1).
  rewrite E1 in E1'. injection E1' as <-. rewrite W1 in V1 by (cbn; lia). cbn in V1. lra.
Qed.

Print Assumptions C61_identity.
Print Assumptions C61_moment.
Print Assumptions C61_bv_line.
Print Assumptions C61_bv_plane.
Print Assumptions C61_legendre_pointwise.
Print Assumptions C61_legendre.
Print Assumptions C61_log_entropy.
Print Assumptions C61_legendre_unit_cells_refuted.
Print Assumptions C61_structure_cube_computed.
Print Assumptions C61_structure_cube_refuted.
Print Assumptions C61_structure_base_computed.
Print Assumptions C61_structure_base_refuted.
