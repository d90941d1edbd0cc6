(** Properties C48 (element-wise operations), C49 (copying the interior), C47
    (total variation) and C45 (coarsening). *)
From Coq Require Import ZArith Reals List Bool Lia Lra.
From Verif Require Import M_Base L_Base L_Loops M_Sim L_Sim M_Memory S_Boundary S_Sum L_Sum S_Memory L_Memory.
Import ListNotations.
Open Scope Z_scope.

(** * C48 *)

(** For areas with fewer than 2^31 elements the scalar operations act on every
    element.  Full statement: the same for every size; see the refutation
    below for why the bound is needed. *)
Theorem C48_scalar_ops_partial : forall v c,
  0 <= elements v < 2 ^ 31 ->
  acts_on_all v (mem_adds v c) (fun i => vdat v i + c)%R /\
  acts_on_all v (mem_muls v c) (fun i => vdat v i * c)%R /\
  acts_on_all v (mem_subs v c) (fun i => vdat v i - c)%R /\
  acts_on_all v (mem_divs v c) (fun i => vdat v i / c)%R /\
  acts_on_all v (mem_zero v) (fun _ => 0%R).
Proof.
  intros v c H. pose proof (int_bound_small v H) as E.
  split; [|split; [|split; [|split]]]; apply ew_all; auto.
Qed.

(** The same for the operations with a second area, when both have the same
    number of elements. *)
Theorem C48_memory_ops_partial : forall v w,
  0 <= elements v < 2 ^ 31 -> elements w = elements v ->
  acts_on_all v (mem_add v w) (fun i => vdat v i + vdat w i)%R /\
  acts_on_all v (mem_mul v w) (fun i => vdat v i * vdat w i)%R /\
  acts_on_all v (mem_sub v w) (fun i => vdat v i - vdat w i)%R /\
  acts_on_all v (mem_div v w) (fun i => vdat v i / vdat w i)%R.
Proof.
  intros v w H S. pose proof (int_bound_small v H) as E.
  change (vsize w = vsize v) in S.
  unfold mem_mul, mem_sub, mem_div. rewrite same_size_true by auto. cbn [negb].
  split; [|split; [|split]]; (apply ew_all; [exact E|]); intros i Hi;
    rewrite mload_ok by lia; reflexivity.
Qed.

(** The operations counting with size_t act on every element for every size. *)
Theorem C48_size_t_ops : forall v w p f,
  elements w = elements v ->
  acts_on_all v (mem_addpower v w (Z.of_nat p)) (fun i => vdat v i + vdat w i ^ p)%R /\
  acts_on_all v (mem_addpow v w (Z.of_nat p) f) (fun i => vdat v i + f * vdat w i ^ p)%R /\
  acts_on_all v (mem_subpower v w (Z.of_nat p)) (fun i => vdat v i - vdat w i ^ p)%R /\
  acts_on_all v (mem_copy v w) (vdat w).
Proof.
  intros v w p f S. change (vsize w = vsize v) in S.
  unfold mem_addpower, mem_addpow, mem_subpower, mem_copy. rewrite same_size_true by auto. cbn [negb].
  split; [|split; [|split]]; (apply ew_all; [reflexivity|]); intros i Hi;
    rewrite mload_ok by lia; cbn [bind]; rewrite ?cpow_nat; reflexivity.
Qed.

Theorem C48_linear_combination : forall v a1 a2 v2 a3 v3 a4 v4 a5 v5,
  elements v2 = elements v -> elements v3 = elements v ->
  elements v4 = elements v -> elements v5 = elements v ->
  acts_on_all v (mem_lincomb v a1 a2 v2 a3 v3 a4 v4 a5 v5) (fun i =>
    a1 * vdat v i + a2 * vdat v2 i + a3 * vdat v3 i + a4 * vdat v4 i + a5 * vdat v5 i)%R.
Proof.
  intros v a1 a2 v2 a3 v3 a4 v4 a5 v5 S2 S3 S4 S5.
  change (vsize v2 = vsize v) in S2. change (vsize v3 = vsize v) in S3.
  change (vsize v4 = vsize v) in S4. change (vsize v5 = vsize v) in S5.
  unfold mem_lincomb. rewrite !same_size_true by auto. cbn [negb andb].
  apply ew_all; [reflexivity|]. intros i Hi.
  rewrite !mload_ok by lia. reflexivity.
Qed.

(** Areas of different sizes are refused by all of them except +=. *)
Theorem C48_size_mismatch : forall v w a p,
  elements w <> elements v ->
  mem_mul v w = Throw /\ mem_sub v w = Throw /\ mem_div v w = Throw /\
  mem_addpower v w p = Throw /\ mem_addpow v w p a = Throw /\ mem_subpower v w p = Throw /\
  mem_copy v w = Throw.
Proof.
  intros v w a p N.
  assert (E : same_size v w = false)
    by (unfold same_size; apply Z.eqb_neq; intros X; apply N; symmetry; exact X).
  unfold mem_mul, mem_sub, mem_div, mem_addpower, mem_addpow, mem_subpower, mem_copy.
  rewrite E. cbn [negb]. auto 10.
Qed.

(** += with a shorter area reads behind its end. *)
Theorem C48_add_short_refuted : exists v w,
  0 <= elements v < 2 ^ 31 /\ elements w < elements v /\ mem_add v w = UB.
Proof.
  exists (mkvol 2 1 1 (fun _ => 0%R)), (mkvol 1 1 1 (fun _ => 0%R)).
  split; [vm_compute; intuition congruence|]. split; [reflexivity|].
  unfold mem_add, ew_loop, for_.
  change (int_bound {| vnx := 2; vny := 1; vnz := 1; vdat := fun _ : Z => 0%R |}) with 2.
  unfold zrange. cbn [Z.sub Z.add Z.opp Z.to_nat Pos.to_nat Pos.iter_op Nat.add seq map fold_res].
  reflexivity.
Qed.

(** For 2^31 elements and more the int loops leave elements out: nothing behind
    element 2^31 is ever changed, and below 2^32 elements nothing at all. *)
Theorem C48_large_areas : forall v c,
  2 ^ 31 <= elements v ->
  exists v', mem_muls v c = Ok v' /\
    (forall i, 2 ^ 31 <= i -> vdat v' i = vdat v i) /\
    (elements v < 2 ^ 32 -> forall i, vdat v' i = vdat v i).
Proof.
  intros v c H. change (2 ^ 31 <= vsize v) in H.
  pose proof (int32_lt _ H) as L. pose proof (int32_range (vsize v)) as B.
  destruct (ew_spec (int_bound v) (fun _ a => Ok (a * c)%R) (fun i => vdat v i * c)%R v)
    as (v' & E & _ & W); [unfold int_bound; lia|auto|].
  exists v'. split; [exact E|]. split.
  - intros i Hi. rewrite W. unfold int_bound.
    destruct (i <? int32 (vsize v)) eqn:X; [apply Z.ltb_lt in X; lia|]. now rewrite andb_false_r.
  - intros H2 i. rewrite W. unfold int_bound. change (vsize v < 2 ^ 32) in H2.
    rewrite int32_neg by lia. destruct (0 <=? i) eqn:X; [|reflexivity].
    destruct (i <? vsize v - 2 ^ 32) eqn:Y; [|reflexivity].
    apply Z.leb_le in X. apply Z.ltb_lt in Y. lia.
Qed.

Theorem C48_all_sizes_refuted : exists v c,
  0 <= elements v < 2 ^ 64 /\ ~ acts_on_all v (mem_muls v c) (fun i => vdat v i * c)%R.
Proof.
  pose (v := mkvol (2 ^ 31) 1 1 (fun _ => 1%R)).
  assert (S : elements v = 2 ^ 31) by reflexivity.
  exists v, 2%R. split; [rewrite S; lia|].
  intros (v' & E & _ & _ & _ & W).
  destruct (C48_large_areas v 2%R) as (v'' & E' & _ & U); [rewrite S; lia|].
  rewrite E in E'. injection E' as <-.
  specialize (W 0). rewrite U in W by (rewrite S; lia). cbn [vdat v] in W.
  assert (1 = 1 * 2)%R by (apply W; rewrite S; lia). lra.
Qed.

Print Assumptions C48_scalar_ops_partial.
Print Assumptions C48_memory_ops_partial.
Print Assumptions C48_size_t_ops.
Print Assumptions C48_linear_combination.
Print Assumptions C48_size_mismatch.
Print Assumptions C48_large_areas.
Print Assumptions C48_all_sizes_refuted.

(** Two times (3, 4, 5). *)
Example C48_example : exists v', mem_muls (mkvol 3 1 1 (fun i => IZR (i + 3))) 2 = Ok v' /\
  vdat v' 0 = 6%R /\ vdat v' 1 = 8%R /\ vdat v' 2 = 10%R.
Proof.
  destruct (C48_scalar_ops_partial (mkvol 3 1 1 (fun i => IZR (i + 3))) 2) as (_ & (v' & E & _ & _ & _ & W) & _).
  { vm_compute; intuition congruence. }
  exists v'. split; [exact E|]. split; [|split]; rewrite W by (vm_compute; intuition congruence);
    cbn [vdat]; rewrite <- mult_IZR; reflexivity.
Qed.

(** * C49 *)

Lemma lin_bound nx ny nz x y z :
  0 <= x < nx -> 0 <= y < ny -> 0 <= z < nz ->
  0 <= z * nx * ny + y * nx + x < nx * ny * nz.
Proof.
  intros Hx Hy Hz. replace (z * nx * ny + y * nx + x) with ((z * ny + y) * nx + x) by ring.
  assert (0 <= z * ny + y) by nia.
  assert (z * ny + y <= ny * nz - 1) by nia.
  split; [nia|]. replace (nx * ny * nz) with (nx * (ny * nz)) by ring. nia.
Qed.

Lemma kth_index x0 y0 z0 nx ny k :
  0 < nx -> 0 < ny ->
  let '(x, y, z) := kth_cell x0 y0 z0 nx ny k in
  (z - z0) * nx * ny + (y - y0) * nx + (x - x0) = k.
Proof.
  intros Hx Hy. unfold kth_cell.
  rewrite <- Z.div_div by lia.
  pose proof (Z.div_mod k nx ltac:(lia)) as A.
  pose proof (Z.div_mod (k / nx) ny ltac:(lia)) as B.
  replace (z0 + k / nx / ny - z0) with (k / nx / ny) by ring.
  replace (y0 + (k / nx) mod ny - y0) with ((k / nx) mod ny) by ring.
  replace (x0 + k mod nx - x0) with (k mod nx) by ring.
  replace (k / nx / ny * nx * ny + (k / nx) mod ny * nx + k mod nx)
    with (nx * (ny * (k / nx / ny) + (k / nx) mod ny) + k mod nx) by ring.
  rewrite <- B. auto.
Qed.

Lemma kth_in x0 y0 z0 nx ny nz k :
  0 < nx -> 0 < ny -> 0 <= k < nx * ny * nz ->
  let '(x, y, z) := kth_cell x0 y0 z0 nx ny k in
  x0 <= x < x0 + nx /\ y0 <= y < y0 + ny /\ z0 <= z < z0 + nz.
Proof.
  intros Hx Hy Hk. unfold kth_cell.
  pose proof (Z.mod_pos_bound k nx Hx). pose proof (Z.mod_pos_bound (k / nx) ny Hy).
  assert (0 <= k / (nx * ny)) by (apply Z.div_pos; nia).
  assert (k / (nx * ny) < nz) by (apply Z.div_lt_upper_bound; nia). lia.
Qed.

(** With a buffer that has room for the box, copyInternalCells writes the cells
    of the box in x-fastest order to the front of the buffer and nothing else. *)
Theorem C49_copies_box_partial : forall v x0 x1 y0 y1 z0 z1 out,
  0 <= x0 < x1 -> x1 <= vnx v -> 0 <= y0 < y1 -> y1 <= vny v -> 0 <= z0 < z1 -> z1 <= vnz v ->
  (x1 - x0) * (y1 - y0) * (z1 - z0) <= elements out ->
  exists out', copy_internal v x0 x1 y0 y1 z0 z1 out = Ok out' /\ elements out' = elements out /\
    (forall k, 0 <= k < (x1 - x0) * (y1 - y0) * (z1 - z0) ->
       vdat out' k = vget v (kth_cell x0 y0 z0 (x1 - x0) (y1 - y0) k)) /\
    (forall k, (x1 - x0) * (y1 - y0) * (z1 - z0) <= k -> vdat out' k = vdat out k).
Proof.
  intros v x0 x1 y0 y1 z0 z1 out Hx0 Hx1 Hy0 Hy1 Hz0 Hz1 Hs.
  set (nx := x1 - x0) in *. set (ny := y1 - y0) in *. set (nz := z1 - z0) in *.
  pose (idx := fun c : cell => let '(x, y, z) := c in (z - z0) * nx * ny + (y - y0) * nx + (x - x0)).
  unfold copy_internal. fold nx ny. rewrite for3_box.
  destruct (fold_res_inv (fun c : cell => let '(x, y, z) := c in fun o =>
      a <- mload v (z * vnx v * vny v + y * vnx v + x);;
      mstore o ((z - z0) * nx * ny + (y - y0) * nx + (x - x0)) a)
    (fun pre o => same_dims out o /\
       (forall c, In c pre -> vdat o (idx c) = vget v c) /\
       (forall k, nx * ny * nz <= k -> vdat o k = vdat out k))
    (box z0 z1 y0 y1 x0 x1) out) as (o & E & D & W & U).
  - split; [apply same_dims_refl|]. split; [intros c []|auto].
  - intros pre [[x y] z] post o Eb (D & W & U).
    assert (Hc : In (x, y, z) (box z0 z1 y0 y1 x0 x1)) by (rewrite Eb; apply in_or_app; right; now left).
    apply box_In in Hc. destruct Hc as (Hx & Hy & Hz).
    rewrite mload_ok.
    2:{ apply lin_bound; lia. }
    cbn [bind].
    assert (Hi : 0 <= idx (x, y, z) < nx * ny * nz).
    { apply lin_bound; unfold nx, ny, nz; lia. }
    destruct (mstore_ok o (idx (x, y, z)) (vdat v (z * vnx v * vny v + y * vnx v + x))) as (o' & E' & D' & W').
    { rewrite <- (vsize_same _ _ D). change (vsize out) with (elements out). lia. }
    exists o'. split; [exact E'|]. split; [eapply same_dims_trans; eauto|]. split.
    + intros c Hc. rewrite W'. apply in_app_or in Hc.
      destruct (Z.eqb_spec (idx c) (idx (x, y, z))) as [Ei|Ni].
      * assert (Hcb : In c (box z0 z1 y0 y1 x0 x1)).
        { rewrite Eb. apply in_or_app. destruct Hc as [Hc|[<-|[]]]; [now left|right; now left]. }
        destruct c as [[x' y'] z']. apply box_In in Hcb.
        unfold idx in Ei. change ((z' - z0) * nx * ny + (y' - y0) * nx + (x' - x0))
          with (index nx ny (x' - x0) (y' - y0) (z' - z0)) in Ei.
        change ((z - z0) * nx * ny + (y - y0) * nx + (x - x0))
          with (index nx ny (x - x0) (y - y0) (z - z0)) in Ei.
        apply index_inj in Ei; try (unfold nx, ny; lia).
        replace x' with x by lia. replace y' with y by lia. replace z' with z by lia. reflexivity.
      * destruct Hc as [Hc|[<-|[]]]; [now apply W|congruence].
    + intros k Hk. rewrite W'. destruct (Z.eqb_spec k (idx (x, y, z))); [lia|now apply U].
  - exists o. split; [exact E|]. split; [symmetry; apply (vsize_same _ _ D)|]. split; [|exact U].
    intros k Hk. pose proof (kth_index x0 y0 z0 nx ny k ltac:(unfold nx; lia) ltac:(unfold ny; lia)) as Ek.
    pose proof (kth_in x0 y0 z0 nx ny nz k ltac:(unfold nx; lia) ltac:(unfold ny; lia) Hk) as Ik.
    destruct (kth_cell x0 y0 z0 nx ny k) as [[x y] z] eqn:Ec.
    rewrite <- W.
    + f_equal. symmetry. exact Ek.
    + apply box_In. unfold nx, ny, nz in Ik. lia.
Qed.

(** Volume::copyInternalCells: the interior cells, for every number of ghost
    cells. *)
Theorem C49_copies_interior_partial : forall v dims g nx ny nz out,
  1 <= dims <= 3 -> 0 <= g -> 0 < nx -> 0 < ny -> 0 < nz ->
  has_extents v dims g nx ny nz -> nx * ny * nz <= elements out ->
  exists out',
    vol_copy_internal v g (if 1 <? dims then g else 0) (if 2 <? dims then g else 0) out = Ok out' /\
    elements out' = elements out /\
    (forall k, 0 <= k < nx * ny * nz -> vdat out' k = vget v (ipos dims g (kth_cell 0 0 0 nx ny k))).
Proof.
  intros v dims g nx ny nz out Hd Hg Hx Hy Hz (Ex & Ey & Ez) Hs.
  unfold vol_copy_internal. rewrite Ex, Ey, Ez.
  assert (E1 : nx + 2 * g - g = g + nx) by lia.
  assert (E2 : (if 1 <? dims then ny + 2 * g else ny) - (if 1 <? dims then g else 0) = (if 1 <? dims then g else 0) + ny)
    by (destruct (1 <? dims); lia).
  assert (E3 : (if 2 <? dims then nz + 2 * g else nz) - (if 2 <? dims then g else 0) = (if 2 <? dims then g else 0) + nz)
    by (destruct (2 <? dims); lia).
  rewrite E1, E2, E3.
  assert (F1 : g + nx - g = nx) by lia.
  assert (F2 : (if 1 <? dims then g else 0) + ny - (if 1 <? dims then g else 0) = ny) by lia.
  assert (F3 : (if 2 <? dims then g else 0) + nz - (if 2 <? dims then g else 0) = nz) by lia.
  destruct (C49_copies_box_partial v g (g + nx) (if 1 <? dims then g else 0) ((if 1 <? dims then g else 0) + ny)
    (if 2 <? dims then g else 0) ((if 2 <? dims then g else 0) + nz) out) as (o & E & Eo & W & _);
    try lia; try (rewrite Ey; destruct (1 <? dims); lia); try (rewrite Ez; destruct (2 <? dims); lia);
    try (destruct (1 <? dims); lia); try (destruct (2 <? dims); lia); try (rewrite F1, F2, F3; exact Hs).
  exists o. split; [exact E|]. split; [exact Eo|]. intros k Hk.
  rewrite F1, F2, F3 in W. rewrite W by exact Hk. f_equal.
  unfold kth_cell, ipos. destruct (1 <? dims), (2 <? dims); repeat apply f_equal2; lia.
Qed.

(** The stated buffer size is not checked: a buffer too small for the box is
    always overrun. *)
Theorem C49_small_buffer : forall v x0 x1 y0 y1 z0 z1 out,
  0 <= x0 < x1 -> x1 <= vnx v -> 0 <= y0 < y1 -> y1 <= vny v -> 0 <= z0 < z1 -> z1 <= vnz v ->
  0 <= elements out < (x1 - x0) * (y1 - y0) * (z1 - z0) ->
  copy_internal v x0 x1 y0 y1 z0 z1 out = UB.
Proof.
  intros v x0 x1 y0 y1 z0 z1 out Hx0 Hx1 Hy0 Hy1 Hz0 Hz1 Hs.
  unfold copy_internal. rewrite for3_box.
  set (nx := x1 - x0) in *. set (ny := y1 - y0) in *. set (nz := z1 - z0) in *.
  pose proof (kth_index x0 y0 z0 nx ny (elements out) ltac:(unfold nx; lia) ltac:(unfold ny; lia)) as Ek.
  pose proof (kth_in x0 y0 z0 nx ny nz (elements out) ltac:(unfold nx; lia) ltac:(unfold ny; lia) Hs) as Ik.
  destruct (kth_cell x0 y0 z0 nx ny (elements out)) as [[x y] z].
  assert (Hin : In (x, y, z) (box z0 z1 y0 y1 x0 x1)).
  { apply box_In. unfold nx, ny, nz in Ik. lia. }
  assert (Hl : forall c, In c (box z0 z1 y0 y1 x0 x1) -> In c (box z0 z1 y0 y1 x0 x1)) by auto.
  assert (K : forall l o, vsize o = elements out -> In (x, y, z) l ->
    (forall c, In c l -> In c (box z0 z1 y0 y1 x0 x1)) ->
    fold_res (fun c : cell => let '(x, y, z) := c in fun o =>
      a <- mload v (z * vnx v * vny v + y * vnx v + x);;
      mstore o ((z - z0) * nx * ny + (y - y0) * nx + (x - x0)) a) l o = UB).
  { induction l as [|[[x' y'] z'] l IH]; intros o So Hi Hb; [destruct Hi|]. cbn [fold_res].
    assert (Hb' : In (x', y', z') (box z0 z1 y0 y1 x0 x1)) by (apply Hb; now left). apply box_In in Hb'.
    rewrite mload_ok.
    2:{ apply lin_bound; lia. }
    cbn [bind].
    destruct (mstore o ((z' - z0) * nx * ny + (y' - y0) * nx + (x' - x0)) (vdat v (z' * vnx v * vny v + y' * vnx v + x')))
      as [o'| |] eqn:Eo; [|reflexivity|].
    - cbn [bind]. destruct Hi as [Hi|Hi].
      + injection Hi as -> -> ->. rewrite mstore_ub in Eo by lia. discriminate.
      + apply IH; auto; [|intros; apply Hb; now right].
        unfold mstore in Eo. destruct (_ && _); [|discriminate]. injection Eo as <-.
        unfold vsize in *. cbn [vnx vny vnz]. exact So.
    - unfold mstore in Eo. destruct (_ && _); discriminate. }
  apply K; auto.
Qed.

Theorem C49_buffer_overrun_refuted : exists v out,
  0 <= elements out /\ copy_internal v 0 (vnx v) 0 (vny v) 0 (vnz v) out = UB.
Proof.
  exists (mkvol 2 1 1 (fun i => IZR i)), (mkvol 1 1 1 (fun _ => 0%R)).
  split; [vm_compute; congruence|].
  apply C49_small_buffer; cbn [vnx vny vnz]; try lia. vm_compute; intuition congruence.
Qed.

Print Assumptions C49_copies_box_partial.
Print Assumptions C49_copies_interior_partial.
Print Assumptions C49_small_buffer.
Print Assumptions C49_buffer_overrun_refuted.

(** The interior of a 4 x 4 area with one ghost cell: cells 5, 6, 9, 10. *)
Example C49_example : exists o,
  vol_copy_internal (mkvol 4 4 1 (fun i => IZR i)) 1 1 0 (mkvol 4 1 1 (fun _ => 0%R)) = Ok o /\
  map (vdat o) [0; 1; 2; 3] = map IZR [5; 6; 9; 10].
Proof.
  destruct (C49_copies_interior_partial (mkvol 4 4 1 (fun i => IZR i)) 2 1 2 2 1 (mkvol 4 1 1 (fun _ => 0%R)))
    as (o & E & _ & W); try lia.
  { repeat split. }
  { vm_compute; congruence. }
  exists o. split; [exact E|]. cbn [map]. rewrite !W by lia. reflexivity.
Qed.
