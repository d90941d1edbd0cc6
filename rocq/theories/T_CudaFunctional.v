(** Property C89: functionals and statistics on the GPU give what they give on
    the CPU. *)
From Coq Require Import ZArith Reals List Bool Lia Lra Permutation.
From Verif Require Import M_Base L_Base L_Loops M_Sim L_Sim M_Memory S_Memory L_Memory S_Sum L_Sum
  L_Flux M_Stats S_Stats L_Stats L_StatsRun L_Adds M_Structure S_Structure L_Structure
  M_Functional S_Functional L_Functional T_Functional M_Legendre S_Legendre T_Legendre
  M_Omp L_Omp L_OmpFlux M_Cuda L_Cuda M_CudaCell L_CudaCell
  M_Foreach M_CudaFunctional S_CudaFunctional L_CudaFunctional.
Import ListNotations.
Open Scope Z_scope.

(** Both add the same. *)
Lemma same_adds d (gpu : vol R -> res (vol R) -> Prop) (cpu : vol R -> res (vol R)) f f' out :
  gpu_adds d gpu f -> adds d cpu f' -> (forall i, 0 <= i < dsize d -> f i = f' i) -> has_dims d out ->
  as_on_cpu d (gpu out) (cpu out).
Proof.
  intros G C E Ho. destruct (C out Ho) as (o & Eo & Do & Vo). destruct (G out Ho) as (X & V).
  exists o. split; [exact Eo|]. split; [exact Do|]. split; [exact X|]. intros r Hr.
  destruct (V r Hr) as (o' & -> & D' & V'). exists o'. split; [reflexivity|]. split; [exact D'|].
  intros i Hi. rewrite V', Vo, E by exact Hi. reflexivity.
Qed.

(** ** identity *)
Theorem C89_identity : forall g n out u w,
  positive_cells n -> nonneg_cells g -> has_cells g n u -> has_dims n out ->
  as_on_cpu n (cuda_identity g out u w) (identity_functional g out u w).
Proof.
  intros g n out u w Hn Hg Hu Ho.
  apply (same_adds n (fun o => cuda_identity g o u w) (fun o => identity_functional g o u w)
    (fun i => w * interior_value g u (nth_cell n i))%R (fun i => w * interior_value g u (nth_cell n i))%R); auto.
  - intros o Do. exact (pointwise_always (fun a => a) g n o u w Hn Hg Hu Do).
  - intros o Do. exact (C61_identity g n Hn Hg o u w Do Hu).
Qed.

(** The parameter [variables] is read on the GPU only: with a volume of two
    variables and the parameter naming the first, the second is left alone on the
    GPU and added to on the CPU. *)
Theorem C89_identity_variables_refuted : exists u out,
  (forall k, has_cells (0, 0, 0) (1, 1, 1) (u k)) /\ (forall k, has_dims (1, 1, 1) (out k)) /\
  (exists r, over_variables (cuda_identity (0, 0, 0)) 2 u 1%R (chosen_variables [0] 2) out r) /\
  (forall r, over_variables (cuda_identity (0, 0, 0)) 2 u 1%R (chosen_variables [0] 2) out r ->
     exists out', r = Ok out' /\ vdat (out' 0) 0 = 3%R /\ vdat (out' 1) 0 = 0%R) /\
  exists out', identity_all (0, 0, 0) 2 u 1%R out = Ok out' /\ vdat (out' 0) 0 = 3%R /\ vdat (out' 1) 0 = 3%R.
Proof.
  set (v := mkvol 1 1 1 (fun _ => 3%R)). set (o := mkvol 1 1 1 (fun _ => 0%R)).
  assert (Hv : has_cells (0, 0, 0) (1, 1, 1) v) by (repeat split).
  assert (Ho : has_dims (1, 1, 1) o) by (repeat split).
  assert (P1 : positive_cells (1, 1, 1)) by (cbn; lia). assert (G0 : nonneg_cells (0, 0, 0)) by (cbn; lia).
  exists (fun _ => v), (fun _ => o). split; [intros _; exact Hv|]. split; [intros _; exact Ho|].
  destruct (C61_identity (0, 0, 0) (1, 1, 1) P1 G0 o v 1%R Ho Hv) as (o1 & E1 & D1 & V1).
  pose proof (pointwise_always (fun a => a) (0, 0, 0) (1, 1, 1) o v 1%R P1 G0 Hv Ho) as ((r0 & Hr0) & K).
  change (chosen_variables [0] 2) with [0]. split; [|split].
  - destruct (K r0 Hr0) as (o' & -> & _). eexists. apply (over_next _ _ _ _ 0 [] _ o'); [lia|exact Hr0|constructor].
  - intros r Hr. inversion Hr as [|? ? ? Hx|? ? ? ? Hx|? ? ? o' ? ? Hx Hy]; subst.
    + destruct Hx; discriminate.
    + destruct (K UB Hx) as (? & ? & _). discriminate.
    + destruct (K _ Hx) as (o'' & Eo & _ & V). injection Eo as ->. inversion Hy; subst. eexists. split; [reflexivity|].
      cbn. split; [|reflexivity]. rewrite V by (cbn; lia). unfold o, interior_value, vget, v. cbn. lra.
  - unfold identity_all, for_. change (zrange 0 2) with [0; 1]. cbn [fold_res]. rewrite E1. cbn [bind].
    change ((if 1 =? 0 then o1 else o)) with o. rewrite E1. cbn [bind]. eexists. split; [reflexivity|]. cbn.
    rewrite V1 by (cbn; lia). unfold o, interior_value, vget, v. cbn. lra.
Qed.

(** ** legendre_pointwise *)

(** The polynomials of degree 0 and 1 are right, and there the two agree (where the
    CPU accepts the cell lengths). *)
Theorem C89_legendre_partial : forall P degree lo hi g n len out u w, is_legendre P -> 0 <= degree <= 1 ->
  (len 2%Z <= 1)%R -> len 1%Z <> 1%R -> 
  positive_cells n -> nonneg_cells g -> has_cells g n u -> has_dims n out ->
  as_on_cpu n (cuda_legendre_pointwise degree lo hi g out u w)
              (legendre_pointwise_functional (P (Z.to_nat degree)) lo hi g len out u w).
Proof.
  intros P degree lo hi g n len out u w HP Hd L2 L1 Hn Hg Hu Ho.
  assert (EP : forall x, legendre (Z.to_nat degree) x = P (Z.to_nat degree) x).
  { intros x. destruct HP as (P0 & P1 & _). assert (degree = 0 \/ degree = 1) as [->| ->] by lia.
    - rewrite P0. reflexivity.
    - change (Z.to_nat 1) with 1%nat. rewrite P1. reflexivity. }
  unfold cuda_legendre_pointwise. rewrite (proj2 (Z.leb_le 0 degree)), (proj2 (Z.leb_le degree 11)) by lia. cbn [andb].
  set (f := fun a => legendre (Z.to_nat degree) ((a - lo) / (hi - lo))).
  apply (same_adds n (fun o => cuda_pointwise f g o u w)
    (fun o => legendre_pointwise_functional (P (Z.to_nat degree)) lo hi g len o u w)
    (fun i => w * f (interior_value g u (nth_cell n i)))%R
    (fun i => w * P (Z.to_nat degree) ((interior_value g u (nth_cell n i) - lo) / (hi - lo)))%R); auto.
  - intros o Do. exact (pointwise_always f g n o u w Hn Hg Hu Do).
  - intros o Do. exact (C61_legendre_pointwise (P (Z.to_nat degree)) lo hi g n len L2 L1 Hn Hg o u w Do Hu).
  - intros i _. unfold f. rewrite EP. reflexivity.
Qed.

(** From degree 2 on they differ: at the value 1 the CPU adds 1 and the GPU 0. *)
Definition one_cell : vol R := mkvol 1 1 1 (fun _ => 1%R).
Definition zero_cell : vol R := mkvol 1 1 1 (fun _ => 0%R).
Theorem C89_legendre_refuted : forall P, is_legendre P -> exists len out u,
  has_cells (0, 0, 0) (1, 1, 1) u /\ has_dims (1, 1, 1) out /\
  (exists o, legendre_pointwise_functional (P 2%nat) 0%R 1%R (0, 0, 0) len out u 1%R = Ok o /\ vdat o 0 = 1%R) /\
  always (cuda_legendre_pointwise 2 0%R 1%R (0, 0, 0) out u 1%R) (fun o => vdat o 0 = 0%R).
Proof.
  intros P HP. exists (fun _ => (1 / 2)%R), zero_cell, one_cell.
  assert (Hu : has_cells (0, 0, 0) (1, 1, 1) one_cell) by (repeat split).
  assert (Ho : has_dims (1, 1, 1) zero_cell) by (repeat split).
  assert (P1 : positive_cells (1, 1, 1)) by (cbn; lia). assert (G0 : nonneg_cells (0, 0, 0)) by (cbn; lia).
  split; [exact Hu|]. split; [exact Ho|].
  assert (V1 : forall i, 0 <= i < 1 -> interior_value (0, 0, 0) one_cell (nth_cell (1, 1, 1) i) = 1%R).
  { intros i Hi. assert (i = 0) by lia. subst i. reflexivity. }
  split.
  - destruct (C61_legendre_pointwise (P 2%nat) 0%R 1%R (0, 0, 0) (1, 1, 1) (fun _ => (1 / 2)%R) ltac:(lra) ltac:(lra) P1 G0
      zero_cell one_cell 1%R Ho Hu) as (o & E & _ & V).
    exists o. split; [exact E|]. rewrite V by (cbn; lia). rewrite V1 by lia.
    replace ((1 - 0) / (1 - 0))%R with 1%R by lra. rewrite (is_legendre_one P HP). cbn. lra.
  - unfold cuda_legendre_pointwise. cbn [Z.leb Z.compare andb Pos.compare Pos.compare_cont].
    pose proof (pointwise_always (fun a => legendre (Z.to_nat 2) ((a - 0) / (1 - 0))) (0, 0, 0) (1, 1, 1) zero_cell one_cell 1%R
      P1 G0 Hu Ho) as (X & K).
    split; [exact X|]. intros r Hr. destruct (K r Hr) as (o & -> & _ & V). exists o. split; [reflexivity|].
    rewrite V by (cbn; lia). rewrite V1 by lia. replace ((1 - 0) / (1 - 0))%R with 1%R by lra.
    change (Z.to_nat 2) with 2%nat. assert (Z2 : legendre 2 1%R = 0%R) by (cbn; lra). rewrite Z2. cbn [zero_cell vdat]. lra.
Qed.

(** Cells of length 1 are refused by the CPU only. *)
Theorem C89_legendre_unit_cells_refuted : exists len out u,
  has_cells (0, 0, 0) (1, 1, 1) u /\ has_dims (1, 1, 1) out /\
  (forall P, legendre_pointwise_functional P 0%R 1%R (0, 0, 0) len out u 1%R = Throw) /\
  always (cuda_legendre_pointwise 1 0%R 1%R (0, 0, 0) out u 1%R) (fun o => vdat o 0 = 1%R).
Proof.
  exists (fun _ => 1%R), zero_cell, one_cell.
  assert (Hu : has_cells (0, 0, 0) (1, 1, 1) one_cell) by (repeat split).
  assert (Ho : has_dims (1, 1, 1) zero_cell) by (repeat split).
  assert (P1 : positive_cells (1, 1, 1)) by (cbn; lia). assert (G0 : nonneg_cells (0, 0, 0)) by (cbn; lia).
  split; [exact Hu|]. split; [exact Ho|]. split.
  - intros P. unfold legendre_pointwise_functional, legendre_rejects.
    destruct (Rlt_dec 1 1); [lra|]. destruct (Req_EM_T 1 1); [reflexivity|lra].
  - pose proof (pointwise_always (fun a => legendre (Z.to_nat 1) ((a - 0) / (1 - 0))) (0, 0, 0) (1, 1, 1) zero_cell one_cell 1%R
      P1 G0 Hu Ho) as (X & K).
    split; [exact X|]. intros r Hr. destruct (K r Hr) as (o & -> & _ & V). exists o. split; [reflexivity|].
    rewrite V by (cbn; lia). change (interior_value (0, 0, 0) one_cell (nth_cell (1, 1, 1) 0)) with 1%R.
    change (legendre (Z.to_nat 1) ((1 - 0) / (1 - 0))) with ((1 - 0) / (1 - 0))%R. cbn [zero_cell vdat]. lra.
Qed.

(** ** log_entropy *)
Theorem C89_log_entropy : forall gamma g n len rho ms E out w,
  positive_cells n -> nonneg_cells g -> has_cells g n rho -> has_cells g n E -> Forall (has_cells g n) ms ->
  (1 <= length ms <= 3)%nat -> vsize rho < two64 -> has_dims (1, 1, 1) out ->
  (forall x y z, 0 <= x < comp n 0 -> 0 <= y < comp n 1 -> 0 <= z < comp n 2 ->
     let c := (x, y, z) in
     (0 < interior_value g rho c)%R /\
     (0 < pressure_of gamma (interior_value g rho c) (suml (fun m => interior_value g m c ^ 2) ms) (interior_value g E c))%R) ->
  as_on_cpu (1, 1, 1) (cuda_log_entropy gamma g len out rho ms E w) (log_entropy_functional gamma g len out rho ms E w).
Proof.
  intros gamma g n len rho ms E out w Hn Hg Hr HE Hms Hl Hs Ho Hpos.
  destruct (C61_log_entropy gamma g n len rho ms E out w Hn Hg Hr HE Hms Hs Ho Hpos) as (o & Eo & Do & Vo).
  exists o. split; [exact Eo|]. split; [exact Do|].
  set (dv := (len 0%Z * len 1%Z * len 2%Z)%R) in *.
  set (xs := map (fun i => kernel_entropy gamma dv g rho E ms (nth_cell n i)) (zrange 0 (dsize n))).
  set (f := fun c => entropy_density gamma (interior_value g rho c) (suml (fun m => interior_value g m c ^ 2) ms)%R (interior_value g E c)) in *.
  assert (Ex : fold_right Rplus 0%R (0%R :: xs) = midpoint_rule n len f).
  { cbn [fold_right]. rewrite Rplus_0_l. unfold xs, midpoint_rule. fold dv.
    rewrite Rmult_comm, <- sum3_scal, <- (sum_linear n (fun c => dv * f c)%R Hn).
    assert (G : forall l, (forall i, In i l -> 0 <= i < dsize n) ->
      fold_right Rplus 0%R (map (fun i => kernel_entropy gamma dv g rho E ms (nth_cell n i)) l) = suml (fun i => dv * f (nth_cell n i))%R l).
    { induction l as [|i l IH]; intros Hin; [reflexivity|]. cbn [map fold_right suml]. rewrite IH by (intros; apply Hin; now right).
      unfold suml. f_equal. pose proof (nth_cell_in n i Hn (Hin i (or_introl eq_refl))) as B.
      destruct (nth_cell n i) as [[x y] z]. destruct (Hpos x y z (B 0 ltac:(lia)) (B 1 ltac:(lia)) (B 2 ltac:(lia))) as (P1 & P2).
      unfold kernel_entropy, f, entropy_density. cbv zeta.
      set (r := interior_value g rho (x, y, z)) in *. set (e := interior_value g E (x, y, z)) in *.
      set (m2 := suml (fun m => interior_value g m (x, y, z) ^ 2)%R ms) in *.
      assert (EL : ln (pressure_of gamma r m2 e / Rpower r gamma) = (ln (pressure_of gamma r m2 e) - gamma * ln r)%R).
      { unfold Rdiv. assert (0 < Rpower r gamma)%R by (unfold Rpower; apply exp_pos).
        rewrite ln_mult; [|exact P2|now apply Rinv_0_lt_compat]. rewrite ln_Rinv by assumption.
        unfold Rpower. rewrite ln_exp. ring. }
      rewrite EL. unfold pressure_of. replace (e - 1 / (2 * r) * m2)%R with (e - m2 / (2 * r))%R by (unfold Rdiv; ring).
      unfold Rdiv. ring. }
    apply G. intros i Hi. apply zrange_In in Hi. lia. }
  pose proof (entropy_outcomes gamma dv g n rho E ms Hn Hg Hr HE Hms) as O.
  assert (A : forall s, s = midpoint_rule n len f -> exists o',
     (old <- mload out 0;; mstore out 0 (old + s * w)%R) = Ok o' /\ has_dims (1, 1, 1) o' /\ vdat o' 0 = vdat o 0).
  { intros s ->. destruct (adds_first (midpoint_rule n len f * w) out Ho) as (o' & E' & D' & V'). exists o'.
    split; [exact E'|]. split; [exact D'|]. rewrite V' by (cbn; lia). rewrite Vo. ring. }
  unfold cuda_log_entropy. cbv zeta. fold dv. rewrite (has_cells_inner g n rho Hr).
  destruct n as [[nx ny] nz].
  rewrite (proj2 (Z.leb_le 1 (Z.of_nat (length ms)))), (proj2 (Z.leb_le (Z.of_nat (length ms)) 3)) by lia. cbn [andb negb].
  split.
  - destruct (reduced_exists Rplus xs 0%R) as (s & Hs'). destruct (A s) as (o' & E' & _).
    { rewrite (reduced_plus _ _ Hs'). exact Ex. }
    exists (Ok o'). eexists. split; [apply O; reflexivity|]. exists s. split; [exact Hs'|]. now symmetry.
  - intros r (q & Hq & Hrq). apply O in Hq. subst q. destruct Hrq as (s & Hs' & ->).
    destruct (A s) as (o' & E' & D' & V'). { rewrite (reduced_plus _ _ Hs'). exact Ex. }
    exists o'. split; [exact E'|]. split; [exact D'|]. intros i Hi. cbn in Hi. assert (i = 0) by lia. subst i. exact V'.
Qed.

(** ** structure_cube, as a statistic and as a functional *)
Theorem C89_structure_cube : forall bc b dims numberOfH p g n u out,
  (forall side, 0 <= side < 2 * dims -> bc side = b) -> b <> OtherBC ->
  positive_cells n -> nonneg_cells g -> has_cells g n u -> cells_of n < 2 ^ 31 -> grid_of_dimension dims n ->
  has_dims (numberOfH, 1, 1) out ->
  as_on_cpu (numberOfH, 1, 1) (cuda_cube_checked bc dims numberOfH (Z.of_nat p) g u out)
    (structure_cube_checked bc dims numberOfH (Z.of_nat p) g u out).
Proof.
  intros bc b dims numberOfH p g n u out Hbc Hb Hn Hg Hu Hc Hd Ho.
  apply (same_adds (numberOfH, 1, 1) (cuda_cube_checked bc dims numberOfH (Z.of_nat p) g u)
    (structure_cube_checked bc dims numberOfH (Z.of_nat p) g u)
    (fun h => if 1 <=? h then structure_cube_value b dims p g n u h else 0%R)
    (fun h => if 1 <=? h then structure_cube_value b dims p g n u h else 0%R)); auto.
  - destruct (grid_dims dims n Hd) as (D3 & _ & _).
    assert (E0 : bc 0 = b) by (apply Hbc; lia).
    assert (Hall : forallb (fun side => bt_eqb (bc side) (bc 0)) (zrange 0 (2 * dims)) = true).
    { apply forallb_forall. intros s Hs. apply zrange_In in Hs. rewrite E0, Hbc by lia. now destruct b. }
    intros o Do. unfold cuda_cube_checked. rewrite Hall, E0.
    pose proof (cube_always b dims numberOfH p g n u Hb Hn Hg Hu Hc Hd o Do) as A. destruct b; [exact A|exact A|congruence].
  - apply (checked_cube_adds bc b dims numberOfH p g n u); auto.
Qed.

Theorem C89_structure_cube_functional : forall bc b dims numberOfH p g n u out w,
  (forall side, 0 <= side < 2 * dims -> bc side = b) -> b <> OtherBC ->
  positive_cells n -> nonneg_cells g -> has_cells g n u -> cells_of n < 2 ^ 31 -> grid_of_dimension dims n ->
  0 < numberOfH < 2 ^ 31 -> has_dims (numberOfH, 1, 1) out ->
  as_on_cpu (numberOfH, 1, 1) (cuda_cube_functional bc dims numberOfH (Z.of_nat p) g out u w)
    (structure_cube_functional bc dims numberOfH (Z.of_nat p) g out u w).
Proof.
  intros bc b dims numberOfH p g n u out w Hbc Hb Hn Hg Hu Hc Hd HH Ho.
  pose proof (has_dims_size _ _ Ho) as So. cbn in So.
  assert (exists z, mem_zero out = Ok z /\ has_dims (numberOfH, 1, 1) z) as (z & Ez & Dz).
  { destruct (ew_all (int_bound out) (fun _ _ => Ok 0%R) (fun _ => 0%R) out) as (z & Ez & A & B & C & W).
    { apply int_bound_small. change (elements out) with (vsize out). lia. }
    { auto. }
    exists z. split; [exact Ez|]. destruct Ho as (O1 & O2 & O3). repeat split; congruence. }
  unfold structure_cube_functional. rewrite Ez. cbn [bind].
  destruct (C89_structure_cube bc b dims numberOfH p g n u z Hbc Hb Hn Hg Hu Hc Hd Dz) as (o & Eo & Do & (r0 & Hr0) & K).
  exists o. split; [exact Eo|]. split; [exact Do|]. split.
  - exists r0. exists z. auto.
  - intros r (z' & Ez' & Hr). rewrite Ez in Ez'. injection Ez' as <-. exact (K r Hr).
Qed.

(** ** structure_basic *)

(** What the GPU computes: the structure function of the first n - 2 g cells, as if
    they were all. *)
Theorem C89_structure_basic_computed : forall bc numberOfH p d g n u out,
  bc d <> OtherBC -> nonneg_cells g -> has_cells g n u -> positive_cells (shrink g n) -> cells_of (shrink g n) < 2 ^ 31 ->
  has_dims (numberOfH, 1, 1) out ->
  always (cuda_basic_item bc numberOfH (Z.of_nat p) d g out u) (fun out' => has_dims (numberOfH, 1, 1) out' /\
    forall h, 1 <= h < numberOfH -> vdat out' h = (vdat out h + structure_value (bc d) p d g (shrink g n) u h)%R).
Proof.
  intros bc numberOfH p d g n u out Hb Hg Hu Hn Hc Ho.
  assert (A : always (cuda_basic_item bc numberOfH (Z.of_nat p) d g out u) (fun out' => has_dims (numberOfH, 1, 1) out' /\
    forall i, 0 <= i < numberOfH * 1 * 1 ->
      vdat out' i = (vdat out i + (if (1 <=? i)%Z then structure_value (bc d) p d g (shrink g n) u i else 0))%R)).
  { pose proof (basic_always (bc d) numberOfH p d g n u Hb Hg Hu Hn Hc out Ho) as A. unfold cuda_basic_item.
    destruct (bc d); [exact A|exact A|congruence]. }
  destruct A as (X & K). split; [exact X|]. intros r Hr. destruct (K r Hr) as (o & -> & D & V). exists o.
  split; [reflexivity|]. split; [exact D|]. intros h Hh. rewrite V by lia. rewrite (proj2 (Z.leb_le 1 h)) by lia. reflexivity.
Qed.

(** Without ghost cells this is what the CPU computes (at distance 0 both add
    nothing, as the power is positive). *)
Theorem C89_structure_basic_partial : forall bc numberOfH p d n u out,
  bc d <> OtherBC -> (0 < p)%nat -> positive_cells n -> has_cells (0, 0, 0) n u -> cells_of n < 2 ^ 31 ->
  has_dims (numberOfH, 1, 1) out ->
  as_on_cpu (numberOfH, 1, 1) (cuda_basic_item bc numberOfH (Z.of_nat p) d (0, 0, 0) out u)
    (structure_basic_item bc numberOfH (Z.of_nat p) d (0, 0, 0) out u).
Proof.
  intros bc numberOfH p d n u out Hb Hp Hn Hu Hc Ho.
  assert (G0 : nonneg_cells (0, 0, 0)) by (cbn; lia).
  assert (Es : shrink (0, 0, 0) n = n) by (destruct n as [[nx ny] nz]; cbn; repeat apply f_equal2; lia).
  pose proof (basic_always (bc d) numberOfH p d (0, 0, 0) n u Hb G0 Hu) as G. rewrite Es in G. specialize (G Hn Hc).
  pose proof (basic_adds (bc d) numberOfH p d (0, 0, 0) n u Hb Hn G0 Hu Hc) as C.
  assert (S : as_on_cpu (numberOfH, 1, 1) (cuda_basic (bc d) numberOfH (Z.of_nat p) d (0, 0, 0) u out)
                (structure_basic_loop (bc d) numberOfH (Z.of_nat p) d (0, 0, 0) u out)).
  { apply (same_adds (numberOfH, 1, 1) _ _ _ _ out G C); [|exact Ho].
    intros i Hi. cbn in Hi. destruct (Z.leb_spec 1 i); [reflexivity|]. assert (i = 0) by lia. subst i.
    unfold structure_value, interior_mean.
    assert (E : sum3 (fun _ => 0) (comp n) (fun c => Rabs (interior_value (0, 0, 0)%Z u c -
       extended (bc d) (0, 0, 0)%Z n u (plus c (step d 0%Z))) ^ p)%R = sum3 (fun _ => 0) (comp n) (fun _ => 0%R)).
    { rewrite !sum3_box. apply suml_ext. intros [[x y] z] Hin. apply box_In in Hin.
      destruct n as [[nx ny] nz]. cbn in Hin.
      assert (Ex : extended (bc d) (0, 0, 0) (nx, ny, nz) u (plus (x, y, z) (step d 0)) = interior_value (0, 0, 0) u (x, y, z)).
      { unfold step, plus. rewrite !Z.mul_0_l, !Z.add_0_r. unfold extended. destruct (bc d); [| |congruence].
        - unfold wrap. rewrite !Z.mod_small by lia. reflexivity.
        - unfold nearest. destruct (Z.ltb_spec x 0), (Z.ltb_spec y 0), (Z.ltb_spec z 0), (Z.leb_spec nx x), (Z.leb_spec ny y), (Z.leb_spec nz z); try lia.
          reflexivity. }
      rewrite Ex, Rminus_diag_eq, Rabs_R0, pow_i by (auto; lia). reflexivity. }
    rewrite E. assert (Z0 : sum3 (fun _ => 0) (comp n) (fun _ => 0%R) = 0%R).
    { rewrite sum3_box. unfold suml. clear. induction (box _ _ _ _ _ _); cbn; [reflexivity|]. rewrite IHl. lra. }
    rewrite Z0. unfold Rdiv. ring. }
  unfold cuda_basic_item, structure_basic_item. destruct (bc d); [exact S|exact S|congruence].
Qed.

(** With one ghost cell: cells 0, 0, 1 of a periodic line.  The CPU finds 2/3; the
    GPU looks at the first cell only and finds 0. *)
Definition ghosted_line : vol R := mkvol 5 1 1 (fun i => if i =? 3 then 1%R else 0%R).
Theorem C89_structure_basic_refuted : exists bc u out,
  (forall s, bc s = Periodic) /\ has_cells (1, 0, 0) (3, 1, 1) u /\ has_dims (2, 1, 1) out /\
  (exists o, structure_basic_item bc 2 1 0 (1, 0, 0) out u = Ok o /\ vdat o 1 = (2 / 3)%R) /\
  always (cuda_basic_item bc 2 1 0 (1, 0, 0) out u) (fun o => vdat o 1 = 0%R).
Proof.
  exists (fun _ => Periodic), ghosted_line, (mkvol 2 1 1 (fun _ => 0%R)).
  assert (Hu : has_cells (1, 0, 0) (3, 1, 1) ghosted_line) by (repeat split).
  assert (Ho : has_dims (2, 1, 1) (mkvol 2 1 1 (fun _ => 0%R))) by (repeat split).
  assert (G0 : nonneg_cells (1, 0, 0)) by (cbn; lia).
  split; [reflexivity|]. split; [exact Hu|]. split; [exact Ho|]. split.
  - destruct (basic_adds Periodic 2 1 0 (1, 0, 0) (3, 1, 1) ghosted_line ltac:(discriminate) ltac:(cbn; lia) G0 Hu ltac:(cbn; lia)
      _ Ho) as (o & E & _ & V).
    exists o. split; [exact E|]. rewrite V by (cbn; lia).
    unfold structure_value, interior_mean, sum3, sumz. lazy -[Rplus Rmult Rdiv IZR Rinv Rabs Rminus].
    rewrite (Rminus_diag_eq 0 0 eq_refl), Rabs_R0, (Rabs_left (0 - 1)), (Rabs_right (1 - 0)) by lra. lra.
  - destruct (C89_structure_basic_computed (fun _ => Periodic) 2 1 0 (1, 0, 0) (3, 1, 1) ghosted_line _ ltac:(discriminate) G0 Hu
      ltac:(cbn; lia) ltac:(cbn; lia) Ho) as (X & K).
    split; [exact X|]. intros r Hr. destruct (K r Hr) as (o & -> & _ & V). exists o. split; [reflexivity|].
    rewrite V by lia. unfold structure_value, interior_mean, sum3, sumz. lazy -[Rplus Rmult Rdiv IZR Rinv Rabs Rminus].
    rewrite (Rminus_diag_eq 0 0 eq_refl), Rabs_R0. lra.
Qed.

(** ** Cases *)

(** identity: the interior of the line with ghost cells is added twice over. *)
Example C89_case_identity :
  always (cuda_identity (1, 0, 0) (mkvol 3 1 1 (fun _ => 5%R)) ghosted_line 2%R)
    (fun o => vdat o 0 = 5%R /\ vdat o 1 = 5%R /\ vdat o 2 = 7%R).
Proof.
  destruct (C89_identity (1, 0, 0) (3, 1, 1) (mkvol 3 1 1 (fun _ => 5%R)) ghosted_line 2%R) as (o & E & _ & X & K);
    try (cbn; lia); try (repeat split; fail).
  split; [exact X|]. intros r Hr. destruct (K r Hr) as (o' & -> & _ & V). exists o'. split; [reflexivity|].
  rewrite !V by (cbn; lia).
  destruct (C61_identity (1, 0, 0) (3, 1, 1) ltac:(cbn; lia) ltac:(cbn; lia) (mkvol 3 1 1 (fun _ => 5%R)) ghosted_line 2%R)
    as (o1 & E1 & _ & V1); try (repeat split; fail).
  rewrite E in E1. injection E1 as <-. rewrite !V1 by (cbn; lia).
  change (interior_value (1, 0, 0) ghosted_line (nth_cell (3, 1, 1) 0)) with 0%R.
  change (interior_value (1, 0, 0) ghosted_line (nth_cell (3, 1, 1) 1)) with 0%R.
  change (interior_value (1, 0, 0) ghosted_line (nth_cell (3, 1, 1) 2)) with 1%R. cbn [vdat]. lra.
Qed.

(** structure_cube: two cells 0 and 1, periodic, distance 1. *)
Example C89_case_cube :
  let u := mkvol 2 1 1 (fun i => if i =? 0 then 0%R else 1%R) in
  always (cuda_cube_functional (fun _ => Periodic) 1 2 1 (0, 0, 0) (mkvol 2 1 1 (fun _ => 5%R)) u 3%R) (fun o => vdat o 1 = 2%R).
Proof.
  intros u.
  destruct (C89_structure_cube_functional (fun _ => Periodic) Periodic 1 2 1 (0, 0, 0) (2, 1, 1) u (mkvol 2 1 1 (fun _ => 5%R)) 3%R)
    as (o & E & _ & X & K); try (cbn; lia); try (repeat split; fail); auto; [discriminate|].
  split; [exact X|]. intros r Hr. destruct (K r Hr) as (o' & -> & _ & V). exists o'. split; [reflexivity|].
  rewrite V by (cbn; lia).
  destruct (C61_structure_cube_computed (fun _ => Periodic) Periodic 1 2 1 (0, 0, 0) (2, 1, 1)
      (mkvol 2 1 1 (fun _ => 5%R)) u 3%R) as (o1 & E1 & _ & W); try (cbn; lia); try (repeat split; fail); auto; [discriminate|].
  rewrite E in E1. injection E1 as <-. rewrite W by lia. apply line2_cube.
Qed.

(** log_entropy: two cells of gas at rest with density 1 and pressure 1 or 2. *)
Example C89_case_entropy :
  let rho := mkvol 2 1 1 (fun _ => 1%R) in
  let m := mkvol 2 1 1 (fun _ => 0%R) in
  let E := mkvol 2 1 1 (fun i => if i =? 0 then 1%R else 2%R) in
  always (cuda_log_entropy 2 (0, 0, 0) (fun _ => 1%R) (mkvol 1 1 1 (fun _ => 5%R)) rho [m] E 3%R)
    (fun o => vdat o 0 = (5 - 3 * ln 2)%R).
Proof.
  intros rho m E.
  assert (Hpos : forall x y z, 0 <= x < comp (2, 1, 1) 0 -> 0 <= y < comp (2, 1, 1) 1 -> 0 <= z < comp (2, 1, 1) 2 ->
     let c := (x, y, z) in
     (0 < interior_value (0, 0, 0)%Z rho c)%R /\
     (0 < pressure_of 2 (interior_value (0, 0, 0)%Z rho c) (suml (fun m => interior_value (0, 0, 0)%Z m c ^ 2) [m]) (interior_value (0, 0, 0)%Z E c))%R).
  { intros x y z Hx Hy Hz. cbn in Hx, Hy, Hz. assert (x = 0 \/ x = 1) as Ex by lia.
    assert (y = 0) by lia. assert (z = 0) by lia. subst y z.
    cbv zeta. change (interior_value (0, 0, 0) rho (x, 0, 0)) with 1%R.
    change (suml _ [m]) with (0 ^ 2 + 0)%R.
    assert (VE : (1 <= interior_value (0, 0, 0)%Z E (x, 0%Z, 0%Z))%R).
    { destruct Ex; subst x; [change (1 <= 1)%R|change (1 <= 2)%R]; lra. }
    split; [lra|]. unfold pressure_of. replace ((0 ^ 2 + 0) / (2 * 1))%R with 0%R by field. lra. }
  destruct (C89_log_entropy 2 (0, 0, 0) (2, 1, 1) (fun _ => 1%R) rho [m] E (mkvol 1 1 1 (fun _ => 5%R)) 3%R)
    as (o & Eo & _ & X & K); try (cbn; lia); try (repeat split; fail); try (repeat constructor; fail); try exact Hpos.
  split; [exact X|]. intros r Hr. destruct (K r Hr) as (o' & -> & _ & V). exists o'. split; [reflexivity|].
  rewrite V by (cbn; lia).
  destruct (C61_log_entropy 2 (0, 0, 0) (2, 1, 1) (fun _ => 1%R) rho [m] E (mkvol 1 1 1 (fun _ => 5%R)) 3%R)
    as (o1 & E1 & _ & W); try (cbn; lia); try (repeat split; fail); try (repeat constructor; fail); try exact Hpos.
  rewrite Eo in E1. injection E1 as <-. rewrite W.
  unfold midpoint_rule, sum3, sumz. lazy -[Rplus Rmult Rdiv IZR Rinv Rminus Ropp ln Rpower pow entropy_density].
  unfold entropy_density, pressure_of. 
  replace ((2 - 1) * (1 - (0 ^ 2 + 0) / (2 * 1)))%R with 1%R by field. replace ((2 - 1) * (2 - (0 ^ 2 + 0) / (2 * 1)))%R with 2%R by field.
  assert (R1 : Rpower 1 2 = 1%R) by (unfold Rpower; rewrite ln_1, Rmult_0_r; apply exp_0). rewrite R1.
  replace (1 / 1)%R with 1%R by field. replace (2 / 1)%R with 2%R by field. rewrite ln_1. field.
Qed.

Print Assumptions C89_identity.
Print Assumptions C89_identity_variables_refuted.
Print Assumptions C89_legendre_partial.
Print Assumptions C89_legendre_refuted.
Print Assumptions C89_legendre_unit_cells_refuted.
Print Assumptions C89_log_entropy.
Print Assumptions C89_structure_cube.
Print Assumptions C89_structure_cube_functional.
Print Assumptions C89_structure_basic_computed.
Print Assumptions C89_structure_basic_partial.
Print Assumptions C89_structure_basic_refuted.
