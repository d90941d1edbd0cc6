(** Property C45: setting a volume from one with twice the resolution. *)
From Coq Require Import ZArith Reals List Bool Lia Lra FunctionalExtensionality.
From Verif Require Import M_Base L_Base L_Loops M_Sim L_Sim M_Memory S_Boundary S_Sum L_Sum S_Memory L_Memory.
Import ListNotations.
Open Scope Z_scope.

Lemma vstore_twice {A} (v v' : vol A) x y z a b :
  vstore v x y z a = Ok v' -> vstore v' x y z b = vstore v x y z b.
Proof.
  unfold vstore. destruct (inb v x y z) eqn:E; [|discriminate]. intros H. injection H as <-.
  unfold inb in *. cbn [vnx vny vnz vdat]. rewrite E. f_equal. f_equal. extensionality q.
  destruct (q =? _); reflexivity.
Qed.

Lemma inr_stored {A} (v v' : vol A) x y z a : vstore v x y z a = Ok v' -> inr v' (x, y, z).
Proof. intros H. apply vstore_inv in H. destruct H as (H & D & _). eapply inr_same; eauto. Qed.

(** The sum of the fine cells that [coarsen_cell] uses, in memory positions. *)
Definition block (dim : Z) (inp : vol R) (x y z : Z) : R :=
  if dim =? 1 then vget inp ((2 * x)%Z, y, z) + vget inp ((2 * x + 1)%Z, y, z)
  else if dim =? 2 then
    vget inp ((2 * x)%Z, (2 * y)%Z, z) + vget inp ((2 * x + 1)%Z, (2 * y)%Z, z)
    + vget inp ((2 * x)%Z, (2 * y + 1)%Z, z) + vget inp ((2 * x + 1)%Z, (2 * y + 1)%Z, z)
  else
    vget inp ((2 * x)%Z, (2 * y)%Z, (2 * z)%Z) + vget inp ((2 * x + 1)%Z, (2 * y)%Z, (2 * z)%Z)
    + vget inp ((2 * x)%Z, (2 * y + 1)%Z, (2 * z)%Z) + vget inp ((2 * x + 1)%Z, (2 * y + 1)%Z, (2 * z)%Z)
    + vget inp ((2 * x)%Z, (2 * y)%Z, (2 * z + 1)%Z) + vget inp ((2 * x + 1)%Z, (2 * y)%Z, (2 * z + 1)%Z)
    + vget inp ((2 * x)%Z, (2 * y + 1)%Z, (2 * z + 1)%Z) + vget inp ((2 * x + 1)%Z, (2 * y + 1)%Z, (2 * z + 1)%Z).
Definition factor (dim : Z) : R := if dim =? 1 then 2 else if dim =? 2 then 4 else 16.

Lemma coarsen_cell_ok dim inp x y z (o : vol R) :
  dim = 1 \/ dim = 2 \/ dim = 3 -> inr o (x, y, z) ->
  0 <= x -> 2 * x + 1 < vnx inp ->
  0 <= y -> (if 1 <? dim then 2 * y + 1 else y) < vny inp ->
  0 <= z -> (if 2 <? dim then 2 * z + 1 else z) < vnz inp ->
  coarsen_cell dim inp x y z o = vstore o x y z (block dim inp x y z / factor dim)%R.
Proof.
  intros Hd Ho Hx Hx' Hy Hy' Hz Hz'. unfold coarsen_cell, block, factor.
  destruct Hd as [->|[->| ->]]; cbn [Z.eqb Pos.eqb Z.ltb Z.compare Pos.compare Pos.compare_cont] in *.
  - rewrite !vload_ok by (unfold inr; lia). reflexivity.
  - rewrite !vload_ok by (unfold inr; lia). reflexivity.
  - destruct (vstore_ok o x y z 0%R Ho) as (o1 & E1 & D1 & V1 & _). rewrite E1. cbn [bind].
    assert (St : forall k j i a o', 0 <= k < 2 -> 0 <= j < 2 -> 0 <= i < 2 -> vstore o x y z a = Ok o' ->
      exists o'', (a0 <- vload o' x y z;; b <- vload inp (2 * x + k) (2 * y + j) (2 * z + i);;
            vstore o' x y z (a0 + b)%R) = Ok o'' /\
        vstore o x y z (a + vget inp ((2 * x + k)%Z, (2 * y + j)%Z, (2 * z + i)%Z))%R = Ok o'').
    { intros k j i a o' Hk Hj Hi Eo. pose proof (inr_stored _ _ _ _ _ _ Eo) as In.
      rewrite (vload_ok o') by exact In. cbn [bind]. rewrite vload_ok by (unfold inr; lia). cbn [bind].
      rewrite (vstore_twice _ _ _ _ _ _ _ Eo).
      apply vstore_inv in Eo. destruct Eo as (_ & _ & -> & _).
      destruct (vstore_ok o x y z (a + vget inp ((2 * x + k)%Z, (2 * y + j)%Z, (2 * z + i)%Z))%R Ho) as (o'' & E'' & _).
      exists o''. auto. }
    unfold for_. change (zrange 0 2) with [0; 1]. cbn [fold_res].
    destruct (St 0 0 0 _ _ ltac:(lia) ltac:(lia) ltac:(lia) E1) as (p1 & -> & F1). cbn [bind].
    destruct (St 1 0 0 _ _ ltac:(lia) ltac:(lia) ltac:(lia) F1) as (p2 & -> & F2). cbn [bind].
    destruct (St 0 1 0 _ _ ltac:(lia) ltac:(lia) ltac:(lia) F2) as (p3 & -> & F3). cbn [bind].
    destruct (St 1 1 0 _ _ ltac:(lia) ltac:(lia) ltac:(lia) F3) as (p4 & -> & F4). cbn [bind].
    destruct (St 0 0 1 _ _ ltac:(lia) ltac:(lia) ltac:(lia) F4) as (p5 & -> & F5). cbn [bind].
    destruct (St 1 0 1 _ _ ltac:(lia) ltac:(lia) ltac:(lia) F5) as (p6 & -> & F6). cbn [bind].
    destruct (St 0 1 1 _ _ ltac:(lia) ltac:(lia) ltac:(lia) F6) as (p7 & -> & F7). cbn [bind].
    destruct (St 1 1 1 _ _ ltac:(lia) ltac:(lia) ltac:(lia) F7) as (p8 & -> & F8). cbn [bind].
    rewrite vload_ok by (eapply inr_stored; eauto). cbn [bind].
    rewrite (vstore_twice _ _ _ _ _ _ _ F8).
    apply vstore_inv in F8. destruct F8 as (_ & _ & -> & _).
    f_equal. rewrite !Z.add_0_r. f_equal. ring.
Qed.

(** What setVolume computes, with any number [g] of ghost cells in both volumes:
    the mean of cells [g] further to the right than those covered, and half of
    it in three dimensions. *)
Theorem C45_what_is_computed : forall dims g nx ny nz fine out,
  1 <= dims <= 3 -> 0 <= g -> 0 < nx -> 0 < ny -> 0 < nz ->
  (dims = 1 <-> ny = 1) -> (dims <= 2 <-> nz = 1) ->
  has_extents out dims g nx ny nz ->
  has_extents fine dims g (fine_n dims (nvec nx ny nz) 0) (fine_n dims (nvec nx ny nz) 1)
    (fine_n dims (nvec nx ny nz) 2) ->
  exists out',
    set_volume g nx ny nz out (fine_n dims (nvec nx ny nz) 0) (fine_n dims (nvec nx ny nz) 1)
      (fine_n dims (nvec nx ny nz) 2) fine = Ok out' /\
    same_dims out out' /\
    forall x y z, 0 <= x < nx -> 0 <= y < ny -> 0 <= z < nz ->
      vget out' (ipos dims g (x, y, z))
      = ((if dims =? 3 then / 2 else 1) * fine_mean dims (2 * g) fine (x, y, z))%R.
Proof.
  intros dims g nx ny nz fine out Hd Hg Hx Hy Hz H1 H2 (Ox & Oy & Oz) (Fx & Fy & Fz).
  assert (Hdd : dims = 1 \/ dims = 2 \/ dims = 3) by lia.
  assert (Nx : fine_n dims (nvec nx ny nz) 0 = 2 * nx).
  { unfold fine_n. rewrite (proj2 (Z.ltb_lt 0 dims)) by lia. reflexivity. }
  rewrite Nx in *.
  unfold set_volume.
  rewrite (proj2 (Z.eqb_neq (2 * nx) nx)) by lia. cbn [andb].
  assert (E : (if ny =? 1 then coarsen 1 g nx (2 * nx) fine out
    else if nz =? 1 then coarsen 2 g nx (2 * nx) fine out else coarsen 3 g nx (2 * nx) fine out)
    = coarsen dims g nx (2 * nx) fine out).
  { destruct Hdd as [->|[->| ->]].
    - rewrite (proj2 (Z.eqb_eq ny 1)) by lia. reflexivity.
    - rewrite (proj2 (Z.eqb_neq ny 1)) by lia. rewrite (proj2 (Z.eqb_eq nz 1)) by lia. reflexivity.
    - rewrite (proj2 (Z.eqb_neq ny 1)) by lia. rewrite (proj2 (Z.eqb_neq nz 1)) by lia. reflexivity. }
  rewrite E. clear E. unfold coarsen.
  replace (2 * nx / 2) with nx by (rewrite Z.mul_comm, Z.div_mul; lia). rewrite Z.eqb_refl. cbn [negb].
  set (hz := if 2 <? dims then g else 0). set (hy := if 1 <? dims then g else 0).
  assert (Bounds : forall x y z, inbox hz (vnz out - hz) hy (vny out - hy) g (vnx out - g) (x, y, z) = true ->
     inr out (x, y, z) /\ 0 <= x /\ 2 * x + 1 < vnx fine /\
     0 <= y /\ (if 1 <? dims then 2 * y + 1 else y) < vny fine /\
     0 <= z /\ (if 2 <? dims then 2 * z + 1 else z) < vnz fine).
  { intros x y z Hb. apply inbox_iff in Hb. unfold inr. unfold hz, hy in Hb.
    rewrite Ox, Oy, Oz, Fx, Fy, Fz in *. unfold fine_n, nvec.
    destruct Hdd as [->|[->| ->]]; cbn in Hb |- *; cbn in Hb; lia. }
  destruct (for3_write hz (vnz out - hz) hy (vny out - hy) g (vnx out - g) (0, 0, 0)
    (fun x y z o => coarsen_cell dims fine x y z o)
    (fun c => let '(x, y, z) := c in (block dims fine x y z / factor dims)%R) out) as (out' & Eo & Do & Wo).
  - intros [[x y] z] Hb. apply Bounds in Hb. cbn [cadd]. rewrite !Z.add_0_r. tauto.
  - intros x y z o Hb D _. apply Bounds in Hb. destruct Hb as (Hi & A & B & C & D' & F & G).
    unfold vstorec. cbn [cadd]. rewrite !Z.add_0_r. apply coarsen_cell_ok; auto. eapply inr_same; eauto.
  - exists out'. split; [exact Eo|]. split; [exact Do|]. intros x y z Rx Ry Rz.
    assert (Hb : inbox hz (vnz out - hz) hy (vny out - hy) g (vnx out - g) (ipos dims g (x, y, z)) = true).
    { unfold ipos. apply inbox_iff. unfold hz, hy. rewrite Ox, Oy, Oz.
      destruct Hdd as [->|[->| ->]]; cbn; cbn; lia. }
    rewrite Wo.
    2:{ destruct (ipos dims g (x, y, z)) as [[a b] c] eqn:Ei. apply Bounds in Hb. tauto. }
    assert (C0 : csub (ipos dims g (x, y, z)) (0, 0, 0) = ipos dims g (x, y, z)).
    { unfold ipos, csub. rewrite !Z.sub_0_r. reflexivity. }
    rewrite C0, Hb.
    assert (S2 : forall a f, sumz (2 * a) (2 * a + 2) f = (f (2 * a)%Z + f (2 * a + 1)%Z)%R).
    { intros a f. unfold sumz. rewrite zrange_cons by lia. rewrite (zrange_cons (2 * a + 1)) by lia.
      rewrite (zrange_empty (2 * a + 1 + 1)) by lia. cbn. ring. }
    destruct Hdd as [->|[->| ->]]; unfold fine_mean, ipos, sum3, block, factor, comp, nvec;
      cbn [Z.eqb Z.ltb Z.compare Pos.eqb Pos.compare Pos.compare_cont Z.to_nat Pos.to_nat Pos.iter_op Nat.add];
      rewrite ?sumz_one, ?S2;
      repeat match goal with |- context [(2 * (g + ?a))%Z] => replace (2 * (g + a)) with (2 * g + 2 * a) by ring end;
      repeat match goal with |- context [(2 * g + 2 * ?a + 1)%Z] => replace (2 * g + 2 * a + 1) with (2 * g + (2 * a + 1)) by ring end.
    + change (Pos.to_nat 1) with 1%nat. cbn [pow]. lra.
    + change (Pos.to_nat 2) with 2%nat. cbn [pow]. lra.
    + change (Pos.to_nat 3) with 3%nat. cbn [pow]. lra.
Qed.

(** Without ghost cells, in one and two dimensions, each cell becomes the mean of
    the fine cells it covers.  Full statement: also with ghost cells and in three
    dimensions; both are refuted below. *)
Theorem C45_means_partial : forall dims nx ny nz fine out,
  1 <= dims <= 2 -> 0 < nx -> 0 < ny -> 0 < nz ->
  (dims = 1 <-> ny = 1) -> nz = 1 ->
  has_extents out dims 0 nx ny nz ->
  has_extents fine dims 0 (fine_n dims (nvec nx ny nz) 0) (fine_n dims (nvec nx ny nz) 1)
    (fine_n dims (nvec nx ny nz) 2) ->
  exists out',
    set_volume 0 nx ny nz out (fine_n dims (nvec nx ny nz) 0) (fine_n dims (nvec nx ny nz) 1)
      (fine_n dims (nvec nx ny nz) 2) fine = Ok out' /\
    forall x y z, 0 <= x < nx -> 0 <= y < ny -> 0 <= z < nz ->
      vget out' (ipos dims 0 (x, y, z)) = fine_mean dims 0 fine (x, y, z).
Proof.
  intros dims nx ny nz fine out Hd Hx Hy Hz H1 H2 Ho Hf.
  destruct (C45_what_is_computed dims 0 nx ny nz fine out) as (o & E & _ & W); auto; try lia.
  exists o. split; [exact E|]. intros x y z Rx Ry Rz. rewrite W by auto.
  rewrite (proj2 (Z.eqb_neq dims 3)) by lia. change (2 * 0) with 0. apply Rmult_1_l.
Qed.

(** Constants are reproduced in one and two dimensions, when the ghost cells of
    the fine volume have the value as well. *)
Theorem C45_constants_partial : forall dims g nx ny nz fine out k,
  1 <= dims <= 2 -> 0 <= g -> 0 < nx -> 0 < ny -> 0 < nz ->
  (dims = 1 <-> ny = 1) -> nz = 1 ->
  has_extents out dims g nx ny nz ->
  has_extents fine dims g (fine_n dims (nvec nx ny nz) 0) (fine_n dims (nvec nx ny nz) 1)
    (fine_n dims (nvec nx ny nz) 2) ->
  (forall i, vdat fine i = k) ->
  exists out',
    set_volume g nx ny nz out (fine_n dims (nvec nx ny nz) 0) (fine_n dims (nvec nx ny nz) 1)
      (fine_n dims (nvec nx ny nz) 2) fine = Ok out' /\
    forall x y z, 0 <= x < nx -> 0 <= y < ny -> 0 <= z < nz ->
      vget out' (ipos dims g (x, y, z)) = k.
Proof.
  intros dims g nx ny nz fine out k Hd Hg Hx Hy Hz H1 H2 Ho Hf Hk.
  destruct (C45_what_is_computed dims g nx ny nz fine out) as (o & E & _ & W); auto; try lia.
  exists o. split; [exact E|]. intros x y z Rx Ry Rz. rewrite W by auto.
  rewrite (proj2 (Z.eqb_neq dims 3)) by lia. rewrite Rmult_1_l.
  assert (S2 : forall a f, sumz (2 * a) (2 * a + 2) f = (f (2 * a)%Z + f (2 * a + 1)%Z)%R).
  { intros a f. unfold sumz. rewrite zrange_cons by lia. rewrite (zrange_cons (2 * a + 1)) by lia.
    rewrite (zrange_empty (2 * a + 1 + 1)) by lia. cbn. ring. }
  assert (Hdd : dims = 1 \/ dims = 2) by lia.
  destruct Hdd as [->| ->]; unfold fine_mean, ipos, sum3, comp, nvec, vget;
    cbn [Z.eqb Z.ltb Z.compare Pos.eqb Pos.compare Pos.compare_cont Z.to_nat Pos.to_nat Pos.iter_op Nat.add];
    rewrite ?sumz_one, ?S2, !Hk;
    change (Pos.to_nat 1) with 1%nat; change (Pos.to_nat 2) with 2%nat; cbn [pow]; lra.
Qed.

(** Volumes of equal sizes are copied completely. *)
Theorem C45_equal_sizes : forall g nx ny nz inp out,
  elements out = elements inp ->
  acts_on_all out (set_volume g nx ny nz out nx ny nz inp) (vdat inp).
Proof.
  intros g nx ny nz inp out H. unfold set_volume. rewrite !Z.eqb_refl. cbn [andb].
  change (vsize out = vsize inp) in H.
  apply ew_all; [lia|]. intros i Hi. apply mload_ok. lia.
Qed.

(** With a ghost cell the cells averaged are shifted: fine interior cells 0, 1, 2, 3
    with values 1, 0, 0, 0, and ghost cells 0, become 0, 0 instead of 1/2, 0. *)
Theorem C45_ghost_cells_refuted : exists fine out out',
  has_extents out 1 1 2 1 1 /\ has_extents fine 1 1 4 1 1 /\
  set_volume 1 2 1 1 out 4 1 1 fine = Ok out' /\
  fine_mean 1 1 fine (0, 0, 0) = (/ 2)%R /\ vget out' (ipos 1 1 (0, 0, 0)) = 0%R.
Proof.
  pose (fine := mkvol 6 1 1 (fun i => if i =? 1 then 1%R else 0%R)).
  pose (out := mkvol 4 1 1 (fun _ => 0%R)).
  destruct (C45_what_is_computed 1 1 2 1 1 fine out) as (o & E & _ & W); try lia.
  { repeat split. }
  { repeat split. }
  exists fine, out, o. split; [repeat split|]. split; [repeat split|]. split; [exact E|].
  split.
  - unfold fine_mean, sum3, sumz. lazy -[Rplus Rmult Rdiv IZR Rinv]. lra.
  - rewrite W by lia. unfold fine_mean, sum3, sumz. lazy -[Rplus Rmult Rdiv IZR Rinv]. lra.
Qed.

(** In three dimensions constants are halved. *)
Theorem C45_three_dimensions_refuted : exists fine out out',
  has_extents out 3 0 2 2 2 /\ has_extents fine 3 0 4 4 4 /\
  (forall i, vdat fine i = 1%R) /\
  set_volume 0 2 2 2 out 4 4 4 fine = Ok out' /\
  fine_mean 3 0 fine (0, 0, 0) = 1%R /\ vget out' (ipos 3 0 (0, 0, 0)) = (/ 2)%R.
Proof.
  pose (fine := mkvol 4 4 4 (fun _ : Z => 1%R)).
  pose (out := mkvol 2 2 2 (fun _ : Z => 0%R)).
  destruct (C45_what_is_computed 3 0 2 2 2 fine out) as (o & E & _ & W); try lia.
  { repeat split. }
  { repeat split. }
  exists fine, out, o. split; [repeat split|]. split; [repeat split|]. split; [reflexivity|]. split; [exact E|].
  assert (F : fine_mean 3 0 fine (0, 0, 0) = 1%R).
  { unfold fine_mean, sum3, sumz. lazy -[Rplus Rmult Rdiv IZR Rinv]. lra. }
  split; [exact F|]. rewrite W by lia. change (2 * 0) with 0. rewrite F. cbn [Z.eqb Pos.eqb]. lra.
Qed.

Print Assumptions C45_what_is_computed.
Print Assumptions C45_means_partial.
Print Assumptions C45_constants_partial.
Print Assumptions C45_equal_sizes.
Print Assumptions C45_ghost_cells_refuted.
Print Assumptions C45_three_dimensions_refuted.

(** (1, 3, 5, 9) becomes (2, 7). *)
Example C45_example : exists o,
  set_volume 0 2 1 1 (mkvol 2 1 1 (fun _ => 0%R)) 4 1 1
    (mkvol 4 1 1 (fun i => if i =? 0 then 1%R else if i =? 1 then 3%R else if i =? 2 then 5%R else 9%R)) = Ok o /\
  vdat o 0 = 2%R /\ vdat o 1 = 7%R.
Proof.
  destruct (C45_means_partial 1 2 1 1
    (mkvol 4 1 1 (fun i => if i =? 0 then 1%R else if i =? 1 then 3%R else if i =? 2 then 5%R else 9%R))
    (mkvol 2 1 1 (fun _ => 0%R))) as (o & E & W); try lia.
  { repeat split. }
  { repeat split. }
  exists o. split; [exact E|].
  pose proof (W 0 0 0 ltac:(lia) ltac:(lia) ltac:(lia)) as W0.
  pose proof (W 1 0 0 ltac:(lia) ltac:(lia) ltac:(lia)) as W1.
  assert (Ey : vny o = 1 /\ vnx o = 2).
  { destruct (C45_what_is_computed 1 0 2 1 1
      (mkvol 4 1 1 (fun i => if i =? 0 then 1%R else if i =? 1 then 3%R else if i =? 2 then 5%R else 9%R))
      (mkvol 2 1 1 (fun _ => 0%R))) as (o' & E' & D & _); try lia; try (repeat split).
    - change (fine_n 1 (nvec 2 1 1) 0) with 4 in *. change (fine_n 1 (nvec 2 1 1) 1) with 1 in *.
      change (fine_n 1 (nvec 2 1 1) 2) with 1 in *. rewrite E in E'. injection E' as <-.
      destruct D as (_ & D & _). exact (eq_sym D).
    - change (fine_n 1 (nvec 2 1 1) 0) with 4 in *. change (fine_n 1 (nvec 2 1 1) 1) with 1 in *.
      change (fine_n 1 (nvec 2 1 1) 2) with 1 in *. rewrite E in E'. injection E' as <-.
      destruct D as (D & _ & _). exact (eq_sym D). }
  destruct Ey as (Ey & Ex).
  unfold vget, ipos, index in W0, W1. rewrite Ey, Ex in W0, W1.
  split.
  - transitivity (fine_mean 1 0
      (mkvol 4 1 1 (fun i => if i =? 0 then 1%R else if i =? 1 then 3%R else if i =? 2 then 5%R else 9%R)) (0, 0, 0)); [exact W0|].
    unfold fine_mean, sum3, sumz. lazy -[Rplus Rmult Rdiv IZR Rinv]. lra.
  - transitivity (fine_mean 1 0
      (mkvol 4 1 1 (fun i => if i =? 0 then 1%R else if i =? 1 then 3%R else if i =? 2 then 5%R else 9%R)) (1, 0, 0)); [exact W1|].
    unfold fine_mean, sum3, sumz. lazy -[Rplus Rmult Rdiv IZR Rinv]. lra.
Qed.
